(** * ConvProofs.v -- integer <-> float channel conversions *)
From Coq Require Import ZArith Reals Lia Lra Bool ZifyBool.
From Flocq Require Import Core.Core IEEE754.BinarySingleNaN.
From Verif Require Import Rust Float Math Chan SpecChan IntProofs FloatProofs FloorProofs.
Open Scope R_scope.

Section G.
Context (prec emax : Z).
Context {Hp : FLX.Prec_gt_0 prec} {He : Prec_lt_emax prec emax}.
Context (Hprec : (24 <= prec)%Z) (Hemax : (128 <= emax)%Z).
Notation fl := (binary_float prec emax).
Notation rnd := (round_to prec emax).
Notation emin := (3 - emax - prec)%Z.
Notation fexp := (FLT_exp emin prec).
Notation fmt := (generic_format radix2 fexp).

(** Integer code to float, with M = 2^bits - 1. *)
Definition tof (M c : Z) : fl := fadd (fdiv (fofZ c) (flit M (-1))) (fdiv (flit 1 0) (flit M 0)).
(** Float to integer code. *)
Definition fromf (M lo hi : Z) (eps x : fl) : Z := floorg prec emax lo hi eps (fmul x (flit M (-1))).

Lemma pow_prec : (2 ^ 24 <= 2 ^ prec)%Z.
Proof. apply Z.pow_le_mono_r; lia. Qed.

Lemma half_correct M : (0 < M <= 65535)%Z ->
  B2R (flit M (-1) : fl) = IZR M / 2 /\ is_finite (flit M (-1) : fl) = true.
Proof.
  intros HM. pose proof pow_prec. pose proof (prec_emax prec emax).
  replace (IZR M / 2) with (F2R (Float radix2 M (-1))) by (unfold F2R; simpl; lra).
  apply flit_correct.
  - apply fmt_F2R; lia.
  - apply Rle_lt_trans with (bpow radix2 16); [|apply bpow_lt; lia].
    unfold F2R; cbn [Fnum Fexp]. rewrite Rabs_mult, <- abs_IZR. rewrite (Rabs_pos_eq (bpow _ _)) by apply bpow_ge_0.
    simpl (bpow radix2 16). simpl (bpow radix2 (-1)).
    assert (IZR (Z.abs M) <= 65535) by (apply IZR_le; lia).
    assert (0 <= IZR (Z.abs M)) by (apply IZR_le; lia). lra.
Qed.

Lemma bpow_prec_small : 0 < bpow radix2 (- prec) <= / 16777216.
Proof.
  split; [apply bpow_gt_0|].
  change (/ 16777216) with (bpow radix2 (-24)). apply bpow_le. lia.
Qed.

Lemma rnd_err0 x e : Rabs x <= bpow radix2 e -> (-64 <= e)%Z ->
  Rabs (rnd x - x) <= bpow radix2 (e - 1) * bpow radix2 (- prec).
Proof.
  intros Hx Hle. rewrite <- bpow_plus. replace (e - 1 + - prec)%Z with (e - prec - 1)%Z by ring.
  apply (rnd_error prec emax); auto. pose proof (prec_emax prec emax). lia.
Qed.

Lemma tof_correct M c : (3 <= M <= 65535)%Z -> (- (M + 1) <= 2 * c <= M - 1)%Z ->
  is_finite (tof M c) = true /\
  Rabs (B2R (tof M c) - IZR (2 * c + 1) / IZR M) <= 3 * bpow radix2 (- prec).
Proof.
  intros HM Hc. pose proof pow_prec. pose proof (prec_emax prec emax) as Hpe.
  pose proof bpow_prec_small as Hu. set (u := bpow radix2 (- prec)) in *.
  destruct (half_correct M ltac:(lia)) as [H1 H2].
  destruct (fofZ_exact prec emax c ltac:(lia)) as [C1 C2].
  destruct (one_correct prec emax) as [O1 O2].
  destruct (flit_Z prec emax M ltac:(lia)) as [M1 M2].
  assert (HMr : 3 <= IZR M <= 65535) by (split; apply IZR_le; lia).
  assert (Hcr : - (IZR M + 1) <= 2 * IZR c <= IZR M - 1).
  { rewrite <- plus_IZR, <- minus_IZR, <- mult_IZR, <- opp_IZR. split; apply IZR_le; lia. }
  assert (Hinv : 0 < / IZR M <= / 3).
  { split; [apply Rinv_0_lt_compat; lra|]. apply Rinv_le; lra. }
  set (q := 2 * IZR c * / IZR M).
  assert (Hq1 : IZR c / (IZR M / 2) = q) by (unfold q; field; lra).
  assert (Hq : - (1 + / IZR M) <= q <= 1 - / IZR M).
  { unfold q. split.
    - apply Rmult_le_reg_r with (IZR M); [lra|]. rewrite Rmult_assoc, Rinv_l by lra.
      replace (- (1 + / IZR M) * IZR M) with (- (IZR M + 1)) by (field; lra). lra.
    - apply Rmult_le_reg_r with (IZR M); [lra|]. rewrite Rmult_assoc, Rinv_l by lra.
      replace ((1 - / IZR M) * IZR M) with (IZR M - 1) by (field; lra). lra. }
  assert (B2 : bpow radix2 1 = 2) by reflexivity. assert (B1 : bpow radix2 0 = 1) by reflexivity.
  assert (Habs : Rabs q <= bpow radix2 1) by (rewrite B2; apply Rabs_le; lra).
  destruct (fdiv_correct prec emax (fofZ c) (flit M (-1))) as [D1 D2]; auto.
  { rewrite H1. lra. }
  { rewrite C1, H1, Hq1. apply (rnd_small_lt prec emax). eapply Rle_trans; [exact Habs|]. apply bpow_le. lia. }
  rewrite C1, H1, Hq1 in D1.
  destruct (fdiv_correct prec emax (flit 1 0) (flit M 0)) as [E1 E2]; auto.
  { rewrite M1. lra. }
  { rewrite O1, M1. apply (rnd_small_lt prec emax). unfold Rdiv. rewrite Rmult_1_l, Rabs_pos_eq by lra.
    apply Rle_trans with (bpow radix2 0); [rewrite B1; lra|]. apply bpow_le. lia. }
  rewrite O1, M1 in E1. unfold Rdiv in E1. rewrite Rmult_1_l in E1.
  pose proof (rnd_err0 q 1 Habs ltac:(lia)) as R1. change (bpow radix2 (1 - 1)) with 1 in R1. fold u in R1.
  assert (R2 : Rabs (rnd (/ IZR M) - / IZR M) <= / 2 * u).
  { apply (rnd_err0 (/ IZR M) 0); [|lia]. rewrite B1, Rabs_pos_eq; lra. }
  apply Rabs_le_inv in R1. apply Rabs_le_inv in R2.
  set (d1 := rnd q) in *. set (d2 := rnd (/ IZR M)) in *.
  assert (Hs : Rabs (d1 + d2) <= bpow radix2 1) by (rewrite B2; apply Rabs_le; lra).
  destruct (fadd_correct prec emax _ _ D2 E2) as [A1 A2].
  { rewrite D1, E1. apply (rnd_small_lt prec emax). eapply Rle_trans; [exact Hs|]. apply bpow_le. lia. }
  rewrite D1, E1 in A1. split; [exact A2|].
  unfold tof. rewrite A1.
  pose proof (rnd_err0 (d1 + d2) 1 Hs ltac:(lia)) as R3. change (bpow radix2 (1 - 1)) with 1 in R3. fold u in R3.
  apply Rabs_le_inv in R3. apply Rabs_le.
  replace (IZR (2 * c + 1) / IZR M) with (q + / IZR M).
  2:{ rewrite plus_IZR, mult_IZR. unfold q. field. lra. }
  lra.
Qed.

Lemma tof_mono M c d : (3 <= M <= 65535)%Z -> (- (M + 1) <= 2 * c)%Z -> (c < d)%Z -> (2 * d <= M - 1)%Z ->
  B2R (tof M c) < B2R (tof M d).
Proof.
  intros HM Hc Hcd Hd. pose proof bpow_prec_small as Hu.
  destruct (tof_correct M c HM ltac:(lia)) as [_ Tc]. destruct (tof_correct M d HM ltac:(lia)) as [_ Td].
  apply Rabs_le_inv in Tc. apply Rabs_le_inv in Td.
  assert (HMr : 3 <= IZR M <= 65535) by (split; apply IZR_le; lia).
  assert (IZR (2 * c + 1) / IZR M + 2 / 65535 <= IZR (2 * d + 1) / IZR M).
  { assert (Hi : / 65535 <= / IZR M) by (apply Rinv_le; lra).
    assert (IZR (2 * d + 1) >= IZR (2 * c + 1) + 2).
    { rewrite <- plus_IZR. apply Rle_ge, IZR_le. lia. }
    unfold Rdiv. nra. }
  lra.
Qed.

(** Codes strictly inside give values strictly inside. *)
Lemma tof_inside M c : (3 <= M <= 65535)%Z -> (- (M + 1) < 2 * c)%Z -> (2 * c + 1 < M)%Z ->
  -1 < B2R (tof M c) < 1.
Proof.
  intros HM Hc Hd. pose proof bpow_prec_small as Hu.
  destruct (tof_correct M c HM ltac:(lia)) as [_ Tc]. apply Rabs_le_inv in Tc.
  assert (HMr : 3 <= IZR M <= 65535) by (split; apply IZR_le; lia).
  assert (Hi : / 65535 <= / IZR M) by (apply Rinv_le; lra).
  assert (Hv : -1 + / IZR M <= IZR (2 * c + 1) / IZR M <= 1 - / IZR M).
  { assert (H1 : - IZR M + 1 <= IZR (2 * c + 1) <= IZR M - 1).
    { rewrite <- opp_IZR, <- plus_IZR, <- minus_IZR. split; apply IZR_le; lia. }
    unfold Rdiv. split; apply Rmult_le_reg_r with (IZR M); try lra.
    - rewrite Rmult_plus_distr_r, Rmult_assoc, !Rinv_l by lra. lra.
    - rewrite Rmult_minus_distr_r, Rmult_assoc, !Rinv_l by lra. lra. }
  lra.
Qed.

(** The scaled value x * (M/2), for |x| <= 1. *)
Lemma scale_correct M (x : fl) : (3 <= M <= 65535)%Z -> in_range x ->
  is_finite (fmul x (flit M (-1))) = true /\
  B2R (fmul x (flit M (-1))) = rnd (B2R x * (IZR M / 2)) /\
  Rabs (B2R (fmul x (flit M (-1)))) <= IZR M / 2 /\
  Rabs (B2R (fmul x (flit M (-1))) - B2R x * (IZR M / 2)) <= 16384 * bpow radix2 (- prec).
Proof.
  intros HM [Fx Hx]. pose proof pow_prec. pose proof (prec_emax prec emax) as Hpe.
  destruct (half_correct M ltac:(lia)) as [H1 H2].
  assert (HMr : 3 <= IZR M <= 65535) by (split; apply IZR_le; lia).
  assert (Habs : Rabs (B2R x * (IZR M / 2)) <= IZR M / 2).
  { rewrite Rabs_mult. rewrite (Rabs_pos_eq (IZR M / 2)) by lra.
    assert (Rabs (B2R x) <= 1) by (apply Rabs_le; lra). nra. }
  assert (Hb : Rabs (B2R x * (IZR M / 2)) <= bpow radix2 15).
  { eapply Rle_trans; [exact Habs|]. simpl. lra. }
  destruct (fmul_correct prec emax x (flit M (-1)) Fx H2) as [M1 M2].
  { rewrite H1. apply (rnd_small_lt prec emax). eapply Rle_trans; [exact Hb|]. apply bpow_le. lia. }
  rewrite H1 in M1. split; [exact M2|]. split; [exact M1|]. rewrite M1. split.
  - apply (rnd_abs_le prec emax); [|exact Habs]. rewrite <- H1. apply fmt_B2R.
  - apply (rnd_err0 _ 15); [exact Hb|lia].
Qed.

Lemma fromf_correct M lo hi (eps x : fl) : (3 <= M <= 65535)%Z -> (lo <= 0 <= hi)%Z ->
  is_finite eps = true -> in_range x ->
  fromf M lo hi eps x = Z.max lo (Z.min hi (floor_eps (B2R eps) (rnd (B2R x * (IZR M / 2))))).
Proof.
  intros HM Hlh Fe Hx. destruct (scale_correct M x HM Hx) as (S1 & S2 & S3 & _).
  unfold fromf. rewrite floorg_correct; auto. { now rewrite S2. }
  apply Rle_trans with (IZR (2 ^ 23)).
  - eapply Rle_trans; [exact S3|]. assert (IZR M <= 65535) by (apply IZR_le; lia).
    change (2 ^ 23)%Z with 8388608%Z. lra.
  - apply IZR_le, Z.pow_le_mono_r; lia.
Qed.

(** Round trip through the float format. *)
Lemma fromf_tof M c lo hi (eps : fl) : (3 <= M <= 65535)%Z -> (- (M + 1) <= 2 * c <= M - 1)%Z ->
  (lo <= 0 <= hi)%Z -> (lo <= c <= hi)%Z ->
  is_finite eps = true -> 0 <= B2R eps <= / 4 -> in_range (tof M c) ->
  fromf M lo hi eps (tof M c) = c.
Proof.
  intros HM Hc Hlh Hlc Fe Hes Hr. rewrite fromf_correct; auto.
  destruct (tof_correct M c HM Hc) as [_ T]. destruct (scale_correct M _ HM Hr) as (S1 & S2 & S3 & S4).
  rewrite S2 in S4. pose proof bpow_prec_small as Hu. set (u := bpow radix2 (- prec)) in *.
  apply Rabs_le_inv in T. apply Rabs_le_inv in S4.
  assert (HMr : 3 <= IZR M <= 65535) by (split; apply IZR_le; lia).
  set (t := B2R (tof M c)) in *. set (y := rnd (t * (IZR M / 2))) in *.
  assert (Hv : IZR (2 * c + 1) / IZR M * (IZR M / 2) = IZR c + / 2).
  { rewrite plus_IZR, mult_IZR. field. lra. }
  set (v := IZR (2 * c + 1) / IZR M) in *.
  assert (Ht : Rabs ((t - v) * (IZR M / 2)) <= 3 * u * 32768).
  { rewrite Rabs_mult. apply Rmult_le_compat; try apply Rabs_pos.
    - apply Rabs_le. lra.
    - rewrite Rabs_pos_eq; lra. }
  apply Rabs_le_inv in Ht.
  rewrite (floor_eps_unique _ _ c).
  - lia.
  - lra.
  - replace (t * (IZR M / 2)) with ((t - v) * (IZR M / 2) + (IZR c + / 2)) in S4 by (rewrite <- Hv; ring).
    lra.
Qed.

(** Monotone. *)
Lemma fromf_mono M lo hi (eps x y : fl) : (3 <= M <= 65535)%Z -> (lo <= 0 <= hi)%Z ->
  is_finite eps = true -> in_range x -> in_range y -> B2R x <= B2R y ->
  (fromf M lo hi eps x <= fromf M lo hi eps y)%Z.
Proof.
  intros HM Hlh Fe Hx Hy Hxy. rewrite !fromf_correct by auto.
  assert (floor_eps (B2R eps) (rnd (B2R x * (IZR M / 2))) <= floor_eps (B2R eps) (rnd (B2R y * (IZR M / 2))))%Z.
  { apply floor_eps_mono. apply (rnd_mono prec emax). apply Rmult_le_compat_r; [|exact Hxy].
    assert (3 <= IZR M) by (apply IZR_le; lia). lra. }
  lia.
Qed.

(** Quantisation error.  The saturating cast matters at the top end only: x = 1
    gives M/2 whose floor is hi. *)
Lemma fromf_error M lo hi (eps x : fl) : (3 <= M <= 65535)%Z ->
  (2 * lo = - (M + 1))%Z -> (2 * hi = M - 1)%Z ->
  is_finite eps = true -> 0 <= B2R eps <= / 4 -> in_range x ->
  Rabs (IZR (2 * fromf M lo hi eps x + 1) / IZR M - B2R x) <=
    / IZR M + (2 * B2R eps + 32768 * bpow radix2 (- prec)) / IZR M.
Proof.
  intros HM Hlo Hhi Fe Hes Hr. rewrite fromf_correct by (auto; lia).
  destruct (scale_correct M _ HM Hr) as (S1 & S2 & S3 & S4). rewrite S2 in S3, S4.
  set (y := rnd (B2R x * (IZR M / 2))) in *.
  pose proof (floor_eps_bounds (B2R eps) y ltac:(lra)) as Hf.
  set (n := floor_eps (B2R eps) y) in *.
  pose proof bpow_prec_small as Hu. set (u := bpow radix2 (- prec)) in *.
  assert (HMr : 3 <= IZR M <= 65535) by (split; apply IZR_le; lia).
  apply Rabs_le_inv in S3. apply Rabs_le_inv in S4.
  assert (Hn : (lo <= n <= hi)%Z).
  { split.
    - assert (lo - 1 < n)%Z; [|lia]. apply lt_IZR. rewrite minus_IZR.
      assert (2 * IZR lo = - (IZR M + 1)) by (rewrite <- mult_IZR, Hlo, opp_IZR, plus_IZR; reflexivity). lra.
    - assert (n < hi + 1)%Z; [|lia]. apply lt_IZR. rewrite plus_IZR.
      assert (2 * IZR hi = IZR M - 1) by (rewrite <- mult_IZR, Hhi, minus_IZR; reflexivity). lra. }
  replace (Z.max lo (Z.min hi n)) with n by lia.
  replace (IZR (2 * n + 1) / IZR M - B2R x) with ((2 * IZR n + 1 - B2R x * IZR M) / IZR M)
    by (rewrite plus_IZR, mult_IZR; field; lra).
  replace (/ IZR M + (2 * B2R eps + 32768 * u) / IZR M) with ((1 + 2 * B2R eps + 32768 * u) / IZR M) by (field; lra).
  unfold Rdiv. rewrite Rabs_mult, (Rabs_pos_eq (/ IZR M)) by (apply Rlt_le, Rinv_0_lt_compat; lra).
  apply Rmult_le_compat_r; [apply Rlt_le, Rinv_0_lt_compat; lra|].
  apply Rabs_le. lra.
Qed.

End G.
