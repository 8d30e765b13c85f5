(** * LevelProofs.v -- one weighted frame, and sums of them, by level (C64) *)
From Coq Require Import ZArith NArith Reals List Lia Lra Psatz.
From Flocq Require Import Core.Core IEEE754.BinarySingleNaN.
From Verif Require Import Rust Float Chan Frame Ops Stream Audio FloatProofs SpecChan SpecFrame SpecStream SpecSink SpecAudio SpecMore
  IntProofs ChanProofs FChanProofs FrameProofs FArithProofs FloorProofs PlaceProofs ResampleProofs CopyProofs OpsProofs
  WholeProofs SinkProofs SinkMore SinkTerm StreamProofs AudioProofs MoreProofs GainProofs.
Import ListNotations.
Open Scope R_scope.

Lemma finite_zero (w : f64) : is_finite w = true -> B2R w = 0 -> exists s, w = B754_zero s.
Proof.
  destruct w as [s|s| |s m e H]; try discriminate; intros _ E; [eauto|]. cbn [B2R] in E. apply eq_0_F2R in E. destruct s; discriminate.
Qed.
Lemma weight_code8 (w : f64) : is_finite w = true -> 0 <= B2R w <= 1 ->
  (0 <= sv (from_f64 K8 w) <= 127)%Z /\ Rabs (IZR (sv (from_f64 K8 w)) / 127 - B2R w) <= (1 + bpow radix2 (-36)) / 127 /\
  (B2R w = 0 -> sv (from_f64 K8 w) = 0%Z).
Proof.
  intros F H. destruct (zero_correct 53 1024) as [Z0 Z1]. destruct (one_correct 53 1024) as [O0 O1].
  assert (N : (0 <= sv (from_f64 K8 w))%Z).
  { assert (L : c_leb (from_f64 K8 (flit 0 0)) (from_f64 K8 w) = true).
    { apply from_f64_mono; [now left|]. apply (fle_correct 53 1024); auto. rewrite Z0. lra. }
    cbn [c_leb] in L. apply Z.leb_le in L. change (sv (from_f64 K8 (flit 0 0))) with 0%Z in L. exact L. }
  split; [split; [exact N|apply i8_range]|]. split.
  - assert (I : in_range w) by (split; [exact F|lra]). pose proof (proj1 quantisation_error w I) as Q. unfold code_value in Q.
    change (IZR (2 ^ 8 - 1)) with 255 in Q. rewrite plus_IZR, mult_IZR in Q. set (c := IZR (sv (from_f64 K8 w))) in *.
    assert (B : bpow radix2 (-36) = 2 * bpow radix2 (-37)) by (change 2 with (bpow radix2 1); rewrite <- bpow_plus; reflexivity).
    assert (P : 0 < bpow radix2 (-37)) by apply bpow_gt_0. apply Rabs_le_inv in Q. apply Rabs_le. lra.
  - intros E. destruct (finite_zero w F E) as ([] & ->); vm_compute; reflexivity.
Qed.
Lemma weight_code16 (w : f64) : is_finite w = true -> 0 <= B2R w <= 1 ->
  (0 <= sv (from_f64 K16 w) <= 32767)%Z /\ Rabs (IZR (sv (from_f64 K16 w)) / 32767 - B2R w) <= (1 + bpow radix2 (-36)) / 32767 /\
  (B2R w = 0 -> sv (from_f64 K16 w) = 0%Z).
Proof.
  intros F H. destruct (zero_correct 53 1024) as [Z0 Z1]. destruct (one_correct 53 1024) as [O0 O1].
  assert (N : (0 <= sv (from_f64 K16 w))%Z).
  { assert (L : c_leb (from_f64 K16 (flit 0 0)) (from_f64 K16 w) = true).
    { apply from_f64_mono; [now right|]. apply (fle_correct 53 1024); auto. rewrite Z0. lra. }
    cbn [c_leb] in L. apply Z.leb_le in L. change (sv (from_f64 K16 (flit 0 0))) with 0%Z in L. exact L. }
  split; [split; [exact N|apply i16_range]|]. split.
  - assert (I : in_range w) by (split; [exact F|lra]). pose proof (proj2 quantisation_error w I) as Q. unfold code_value in Q.
    change (IZR (2 ^ 16 - 1)) with 65535 in Q. rewrite plus_IZR, mult_IZR in Q. set (c := IZR (sv (from_f64 K16 w))) in *.
    assert (B : bpow radix2 (-36) = 2 * bpow radix2 (-37)) by (change 2 with (bpow radix2 1); rewrite <- bpow_plus; reflexivity).
    assert (P : 0 < bpow radix2 (-37)) by apply bpow_gt_0. apply Rabs_le_inv in Q. apply Rabs_le. lra.
  - intros E. destruct (finite_zero w F E) as ([] & ->); vm_compute; reflexivity.
Qed.
(** Integer multiplication by a weight code. *)
Lemma quot_err (M a W : Z) : (0 < M)%Z -> (- M - 1 <= a <= M)%Z -> (0 <= W <= M)%Z ->
  (- M - 1 <= Z.quot (a * W) M <= M)%Z /\ Rabs (IZR (Z.quot (a * W) M) - IZR (a * W) / IZR M) <= 1.
Proof.
  intros HM Ha HW. pose proof (Z.quot_rem' (a * W) M) as E.
  assert (Rb : (- M < Z.rem (a * W) M < M)%Z).
  { pose proof (Z.rem_bound_abs (a * W) M ltac:(lia)) as X. lia. }
  set (q := Z.quot (a * W) M) in *. set (t := Z.rem (a * W) M) in *.
  split; [nia|].
  assert (P : 0 < IZR M) by (apply IZR_lt; exact HM).
  assert (X : IZR (a * W) / IZR M = IZR q + IZR t / IZR M). { rewrite E, plus_IZR, mult_IZR. field. lra. }
  rewrite X. assert (T : - IZR M <= IZR t <= IZR M) by (rewrite <- opp_IZR; split; apply IZR_le; lia).
  assert (I : 0 < / IZR M) by now apply Rinv_0_lt_compat. assert (I1 : IZR M * / IZR M = 1) by (apply Rinv_r; lra).
  apply Rabs_le. unfold Rdiv. split; nra.
Qed.

Definition err (k : ck) (w : f64) : R := if Req_EM_T (B2R w) 0 then 0 else step k.
Lemma clampZ_same lo hi z : (lo <= z <= hi)%Z -> clampZ lo hi z = z.
Proof. intros H. unfold clampZ. destruct (Z.ltb_spec z lo); [lia|]. destruct (Z.ltb_spec hi z); lia. Qed.
Lemma clampZ_level (M z : Z) : (0 < M)%Z ->
  IZR (clampZ (- M - 1) M z) / IZR M = Rmax (IZR (- M - 1) / IZR M) (Rmin 1 (IZR z / IZR M)).
Proof.
  intros HM. assert (P : 0 < IZR M) by (apply IZR_lt; exact HM). assert (I : 0 < / IZR M) by now apply Rinv_0_lt_compat.
  assert (O : 1 = IZR M / IZR M) by (symmetry; apply Rinv_r; lra).
  assert (Mo : forall a b, (a <= b)%Z -> IZR a / IZR M <= IZR b / IZR M).
  { intros a b L. apply Rmult_le_compat_r; [lra|]. now apply IZR_le. }
  unfold clampZ. destruct (Z.ltb_spec z (- M - 1)); [|destruct (Z.ltb_spec M z)].
  - rewrite Rmin_right; [rewrite Rmax_left; [reflexivity|]|rewrite O]; apply Mo; lia.
  - rewrite Rmin_left; [rewrite Rmax_right; [now symmetry|]|]; rewrite O; apply Mo; lia.
  - rewrite Rmin_right; [rewrite Rmax_right; [reflexivity|]|rewrite O]; apply Mo; lia.
Qed.
Lemma clampR_minmax x : clampR x = Rmax (-1) (Rmin 1 x).
Proof. unfold clampR, Rmax, Rmin. repeat (destruct Rle_dec || destruct Rlt_dec); lra. Qed.
Lemma int_step (M a W acc : Z) (w D : R) : (127 <= M)%Z -> (- M - 1 <= a <= M)%Z -> (0 <= W <= M)%Z ->
  Rabs (IZR W / IZR M - w) <= (1 + bpow radix2 (-36)) / IZR M ->
  Rabs (IZR (acc + Z.quot (a * W) M) / IZR M - (IZR acc / IZR M + IZR a / IZR M * w)) <= 5 / 2 / IZR M.
Proof.
  intros HM Ha HW Q. destruct (quot_err M a W ltac:(lia) Ha HW) as [_ E]. set (q := Z.quot (a * W) M) in *.
  assert (P : 127 <= IZR M) by (apply IZR_le; exact HM). assert (I : 0 < / IZR M) by (apply Rinv_0_lt_compat; lra).
  assert (I1 : IZR M * / IZR M = 1) by (apply Rinv_r; lra). rewrite plus_IZR. rewrite mult_IZR in E.
  assert (A : Rabs (IZR a / IZR M) <= 128 / 127).
  { assert (- IZR M - 1 <= IZR a <= IZR M). { split; [|apply IZR_le; lia]. replace (- IZR M - 1) with (IZR (- M - 1)) by (rewrite minus_IZR, opp_IZR; ring). apply IZR_le. lia. }
    apply Rabs_le. unfold Rdiv. assert (/ IZR M <= / 127) by (apply Rinv_le; lra). split; nra. }
  replace ((IZR acc + IZR q) / IZR M - (IZR acc / IZR M + IZR a / IZR M * w)) with
    ((IZR q - IZR a * IZR W / IZR M) / IZR M + IZR a / IZR M * (IZR W / IZR M - w)) by (field; lra).
  apply Rle_trans with (1 := Rabs_triang _ _). rewrite Rabs_mult. unfold Rdiv at 1. rewrite Rabs_mult, (Rabs_pos_eq (/ IZR M)) by lra.
  assert (B : bpow radix2 (-36) <= / 100) by (change (bpow radix2 (-36)) with (/ 68719476736); lra).
  assert (B0 : 0 < bpow radix2 (-36)) by apply bpow_gt_0.
  assert (X : Rabs (IZR a / IZR M) * Rabs (IZR W / IZR M - w) <= 128 / 127 * ((1 + bpow radix2 (-36)) / IZR M)).
  { apply Rmult_le_compat; try apply Rabs_pos; assumption. }
  assert (Y : Rabs (IZR q - IZR a * IZR W / IZR M) * / IZR M <= 1 * / IZR M) by (apply Rmult_le_compat_r; lra).
  unfold Rdiv in *. nra.
Qed.

Lemma step_level k (acc x : chan k) (w : f64) : valid acc -> valid x -> is_finite w = true -> 0 <= B2R w <= 1 ->
  exists p, c_mul x (from_f64 k w) = Ok p /\
    exists z, Rabs (z - (level acc + level x * B2R w)) <= err k w /\ level (c_add acc p) = Rmax (bottom k) (Rmin 1 z).
Proof.
  intros Va Vx F H. unfold err. destruct k; cbn [level step bottom].
  - destruct (weight_code8 w F H) as (C & Q & Z). destruct (mul8_spec x (from_f64 K8 w)) as (p & Hp & Ep).
    exists p. split; [exact Hp|]. pose proof (i8_range x) as Rx.
    destruct (quot_err 127 (sv x) (sv (from_f64 K8 w)) ltac:(lia) ltac:(lia) C) as [Qb _].
    rewrite clampZ_same in Ep by lia. exists (IZR (sv acc + sv p) / 127). split.
    + rewrite Ep. destruct (Req_EM_T (B2R w) 0) as [E|E].
      * rewrite (Z E), E, Z.mul_0_r. cbn [Z.quot Z.quotrem fst]. rewrite Z.add_0_r. rewrite Rmult_0_r, Rplus_0_r, Rminus_eq_0, Rabs_R0. lra.
      * exact (int_step 127 (sv x) _ (sv acc) (B2R w) 0 ltac:(lia) ltac:(lia) C Q).
    + rewrite add8_spec. exact (clampZ_level 127 _ eq_refl).
  - destruct (weight_code16 w F H) as (C & Q & Z). destruct (mul16_spec x (from_f64 K16 w)) as (p & Hp & Ep).
    exists p. split; [exact Hp|]. pose proof (i16_range x) as Rx.
    destruct (quot_err 32767 (sv x) (sv (from_f64 K16 w)) ltac:(lia) ltac:(lia) C) as [Qb _].
    rewrite clampZ_same in Ep by lia. exists (IZR (sv acc + sv p) / 32767). split.
    + rewrite Ep. destruct (Req_EM_T (B2R w) 0) as [E|E].
      * rewrite (Z E), E, Z.mul_0_r. cbn [Z.quot Z.quotrem fst]. rewrite Z.add_0_r. rewrite Rmult_0_r, Rplus_0_r, Rminus_eq_0, Rabs_R0. lra.
      * exact (int_step 32767 (sv x) _ (sv acc) (B2R w) 0 ltac:(lia) ltac:(lia) C Q).
    + rewrite add16_spec. exact (clampZ_level 32767 _ eq_refl).
  - destruct Va as [Fa Ra], Vx as [Fx Rx].
    assert (Wv : is_finite (from_f64 K32 w : f32) = true /\ B2R (from_f64 K32 w : f32) = round32 (B2R w)).
    { apply from_f64_raw; [exact F|]. apply (rnd_small_lt 24 128). rewrite Rabs_pos_eq by lra. apply Rle_trans with (bpow radix2 0); [cbn; lra|apply bpow_le; lia]. }
    destruct Wv as [Fw Ew].
    assert (Wr : 0 <= round32 (B2R w) <= 1).
    { split; [apply (rnd_nonneg 24 128); lra|]. apply (rnd_le_fmt 24 128); [apply (fmt_Z 24 128 1); lia|lra]. }
    assert (Vw : valid (from_f64 K32 w)) by (split; [exact Fw|rewrite Ew; lra]).
    destruct (float_mul_valid K32 (or_introl eq_refl) x (from_f64 K32 w) (conj Fx Rx) Vw) as (p & Hp & [Fp Rp] & Ep).
    exists p. split; [exact Hp|]. cbn [rval round_k] in Ep. rewrite Ew in Ep.
    destruct (float_ops_value K32 (or_introl eq_refl) acc p Fa Fp) as (Es & _). cbn [rval round_k] in Es.
    exists (round32 (B2R (acc : f32) + B2R (p : f32))). split; [|rewrite Es; apply clampR_minmax].
    assert (E1 : Rabs (round32 (B2R w) - B2R w) <= bpow radix2 (0 - 24 - 1)).
    { apply (rnd_error 24 128); [|lia]. rewrite Rabs_pos_eq by lra. cbn; lra. }
    assert (E2 : Rabs (B2R (p : f32) - B2R (x : f32) * round32 (B2R w)) <= bpow radix2 (0 - 24 - 1)).
    { rewrite Ep. apply (rnd_error 24 128); [|lia]. rewrite Rabs_mult, (Rabs_pos_eq (round32 (B2R w))) by lra.
      assert (Rabs (B2R (x : f32)) <= 1) by now apply Rabs_le. pose proof (Rabs_pos (B2R (x : f32))). cbn. nra. }
    assert (E3 : Rabs (round32 (B2R (acc : f32) + B2R (p : f32)) - (B2R (acc : f32) + B2R (p : f32))) <= bpow radix2 (1 - 24 - 1)).
    { apply (rnd_error 24 128); [|lia]. apply Rabs_le. cbn. lra. }
    change (bpow radix2 (0 - 24 - 1)) with (/ 33554432) in *. change (bpow radix2 (1 - 24 - 1)) with (/ 16777216) in *.
    destruct (Req_EM_T (B2R w) 0) as [E|E].
    + assert (P0 : B2R (p : f32) = 0). { rewrite Ep, E. unfold round32. rewrite (rnd_0 24 128), Rmult_0_r. apply (rnd_0 24 128). }
      rewrite P0, E, Rmult_0_r, Rplus_0_r. unfold round32. rewrite (rnd_fmt 24 128) by apply (fmt_B2R 24 128).
      rewrite Rminus_eq_0, Rabs_R0. lra.
    + change (bpow radix2 (-23)) with (/ 8388608).
      assert (E4 : Rabs (B2R (x : f32) * (round32 (B2R w) - B2R w)) <= 1 * / 33554432).
      { rewrite Rabs_mult. apply Rmult_le_compat; try apply Rabs_pos; [now apply Rabs_le|exact E1]. }
      apply Rabs_le_inv in E2. apply Rabs_le_inv in E3. apply Rabs_le_inv in E4. apply Rabs_le. rewrite Rmult_minus_distr_l in E4. lra.
  - destruct Va as [Fa Ra], Vx as [Fx Rx].
    assert (Ew : from_f64 K64 w = w) by apply from_f64_raw.
    assert (Vw : valid (from_f64 K64 w)) by (rewrite Ew; split; [exact F|lra]).
    destruct (float_mul_valid K64 (or_intror eq_refl) x (from_f64 K64 w) (conj Fx Rx) Vw) as (p & Hp & [Fp Rp] & Ep).
    exists p. split; [exact Hp|]. cbn [rval round_k] in Ep. rewrite Ew in Ep.
    destruct (float_ops_value K64 (or_intror eq_refl) acc p Fa Fp) as (Es & _). cbn [rval round_k] in Es.
    exists (round64 (B2R (acc : f64) + B2R (p : f64))). split; [|rewrite Es; apply clampR_minmax].
    assert (E2 : Rabs (B2R (p : f64) - B2R (x : f64) * B2R w) <= bpow radix2 (0 - 53 - 1)).
    { rewrite Ep. apply (rnd_error 53 1024); [|lia]. rewrite Rabs_mult, (Rabs_pos_eq (B2R w)) by lra.
      assert (Rabs (B2R (x : f64)) <= 1) by now apply Rabs_le. pose proof (Rabs_pos (B2R (x : f64))). cbn. nra. }
    assert (E3 : Rabs (round64 (B2R (acc : f64) + B2R (p : f64)) - (B2R (acc : f64) + B2R (p : f64))) <= bpow radix2 (1 - 53 - 1)).
    { apply (rnd_error 53 1024); [|lia]. apply Rabs_le. cbn. lra. }
    change (bpow radix2 (0 - 53 - 1)) with (/ 18014398509481984) in *. change (bpow radix2 (1 - 53 - 1)) with (/ 9007199254740992) in *.
    destruct (Req_EM_T (B2R w) 0) as [E|E].
    + assert (P0 : B2R (p : f64) = 0). { rewrite Ep, E, Rmult_0_r. apply (rnd_0 53 1024). }
      rewrite P0, E, Rmult_0_r, Rplus_0_r. unfold round64. rewrite (rnd_fmt 53 1024) by apply (fmt_B2R 53 1024).
      rewrite Rminus_eq_0, Rabs_R0. lra.
    + change (bpow radix2 (-52)) with (/ 4503599627370496).
      apply Rabs_le_inv in E2. apply Rabs_le_inv in E3. apply Rabs_le. lra.
Qed.

Lemma level_range k (c : chan k) : valid c -> bottom k <= level c <= 1.
Proof.
  destruct k; cbn [valid bottom level]; intros V.
  - pose proof (i8_range c) as [A B]. apply IZR_le in A, B. lra.
  - pose proof (i16_range c) as [A B]. apply IZR_le in A, B. lra.
  - apply V.
  - apply V.
Qed.
Lemma bottom_range k : - (2) <= bottom k <= -1.
Proof. destruct k; cbn [bottom]; lra. Qed.
Lemma step_pos k : 0 < step k.
Proof. destruct k; cbn [step]; try lra; apply bpow_gt_0. Qed.
Lemma level_default k : level (chan_default k) = 0.
Proof. destruct k; cbn; unfold Rdiv; try rewrite Rmult_0_l; reflexivity. Qed.

(** ** Sums *)
Definition wtot {A} (cs : list (A * f64)) : R := fold_right (fun c t => B2R (snd c) + t) 0 cs.
Definition wnum {A} (cs : list (A * f64)) : R := fold_right (fun c t => (if Req_EM_T (B2R (snd c)) 0 then 0 else 1) + t) 0 cs.
Lemma wtot_nonneg {A} (cs : list (A * f64)) : (forall c, In c cs -> 0 <= B2R (snd c)) -> 0 <= wtot cs.
Proof.
  induction cs as [|c cs IH]; intros H; [apply Rle_refl|]. pose proof (H c (or_introl eq_refl)) as X. pose proof (IH (fun d D => H d (or_intror D))) as Y.
  change (wtot (c :: cs)) with (B2R (snd c) + wtot cs). lra.
Qed.
Lemma ws_level l k i (acc out : frame l k) cs lo hi d S N a y : weighted_sum acc cs out ->
  frame_valid acc -> bottom k <= lo <= 1 -> bottom k <= hi <= 1 -> 0 <= d -> 0 <= S -> 0 <= N -> S + wtot cs <= 1 + d ->
  (forall c, In c cs -> is_finite (snd c) = true /\ 0 <= B2R (snd c) <= 1 /\
     forall x, nth_error (channels (fst c)) i = Some x -> valid x /\ lo <= level x <= hi) ->
  nth_error (channels acc) i = Some a -> nth_error (channels out) i = Some y ->
  lo * S - N * step k - 2 * d <= level a <= hi * S + N * step k + 2 * d ->
  lo * (S + wtot cs) - (N + wnum cs) * step k - 2 * d <= level y <= hi * (S + wtot cs) + (N + wnum cs) * step k + 2 * d.
Proof.
  intros W. revert S N a. induction W as [acc|acc f w p r out Hp W IH]; intros S N a Va Lo Hi D S0 N0 St Hc Ha Hy L.
  - assert (a = y) by congruence. subst a. change (wtot []) with 0. change (wnum []) with 0. rewrite !Rplus_0_r. exact L.
  - destruct (Hc (f, w) (or_introl eq_refl)) as (Fw & Bw & Lx). cbn [fst snd] in Fw, Bw, Lx.
    change (wtot ((f, w) :: r)) with (B2R w + wtot r) in *.
    change (wnum ((f, w) :: r)) with ((if Req_EM_T (B2R w) 0 then 0 else 1) + wnum r) in *.
    pose proof (nth_some _ _ _ _ _ Ha) as Hn. destruct (nth_ex l k f i Hn) as (x & Hx).
    destruct (Lx x Hx) as [Vx Rx].
    destruct (step_level k a x w) as (q & Hq & z & Ez & Lz); try assumption.
    { eapply frame_valid_nth; eauto. }
    destruct (nth_ex l k (frame_from_f64 l k w) i Hn) as (wc & Hwc).
    destruct (proj1 (proj2 (frame_ops_channelwise l k f (frame_from_f64 l k w)))) as (zz & Hz & Z).
    rewrite Hp in Hz. injection Hz as <-. destruct (Z i x wc Hx Hwc) as (q' & Hmul & Hq').
    rewrite frame_from_f64_all in Hwc. apply repeat_nth in Hwc as ->. rewrite Hq in Hmul. injection Hmul as <-.
    pose proof (proj1 (proj1 (frame_ops_channelwise l k acc p) i a q Ha Hq')) as Hs.
    assert (Wr : 0 <= wtot r). { apply wtot_nonneg. intros c I. apply (Hc c (or_intror I)). }
    replace (S + (B2R w + wtot r)) with ((S + B2R w) + wtot r) by ring.
    set (g := if Req_EM_T (B2R w) 0 then 0 else 1) in *.
    assert (Ge : err k w = g * step k). { unfold err, g. destruct (Req_EM_T (B2R w) 0); ring. }
    assert (G0 : 0 <= g) by (unfold g; destruct (Req_EM_T (B2R w) 0); lra).
    replace (N + (g + wnum r)) with ((N + g) + wnum r) by ring.
    pose proof (step_pos k) as Sp. pose proof (bottom_range k) as Bb.
    apply (IH (S + B2R w) (N + g) (c_add a q)); try assumption; try lra.
    + apply frame_add_valid.
    + intros c I. apply Hc. now right.
    + rewrite Lz, Ge in *. apply Rabs_le_inv in Ez.
      assert (X1 : lo * B2R w <= level x * B2R w) by (apply Rmult_le_compat_r; lra).
      assert (X2 : level x * B2R w <= hi * B2R w) by (apply Rmult_le_compat_r; lra).
      assert (Nn : 0 <= (N + g) * step k) by (apply Rmult_le_pos; lra).
      assert (Z1 : lo * (S + B2R w) - (N + g) * step k - 2 * d <= z) by lra.
      assert (Z2 : z <= hi * (S + B2R w) + (N + g) * step k + 2 * d) by lra.
      assert (T0 : 0 <= S + B2R w <= 1 + d) by lra.
      assert (C1 : lo * (S + B2R w) <= 1 + d) by nra.
      assert (C2 : bottom k - 2 * d <= hi * (S + B2R w)).
      { assert (bottom k * (S + B2R w) <= hi * (S + B2R w)) by (apply Rmult_le_compat_r; lra). nra. }
      split.
      * apply Rle_trans with (2 := Rmax_r _ _). apply Rmin_glb; lra.
      * apply Rmax_lub; [lra|]. apply Rle_trans with (1 := Rmin_r _ _). exact Z2.
Qed.

(** ** The contributions to a frame *)
Lemma contributions_at_position {l k} q ratio off (fs : list (frame l k)) : forall i f w, In (f, w) (contributions q ratio off i fs) ->
  exists a, nth_error fs a = Some f /\
    (floor_index (place ratio off (i + a)) = q /\ w = lower_weight ratio (place ratio off (i + a)) \/
     ceil_index (place ratio off (i + a)) = q /\ w = upper_weight ratio (place ratio off (i + a))).
Proof.
  induction fs as [|g fs IH]; intros i f w H; [contradiction|]. cbn [contributions] in H.
  apply in_app_iff in H as [H|H]; [|apply in_app_iff in H as [H|H]].
  - destruct (Z.eqb_spec (floor_index (place ratio off i)) q) as [E|]; [|contradiction]. destruct H as [H|[]]. injection H as <- <-.
    exists 0%nat. rewrite Nat.add_0_r. auto.
  - destruct (Z.eqb_spec (ceil_index (place ratio off i)) q) as [E|]; [|contradiction]. destruct H as [H|[]]. injection H as <- <-.
    exists 0%nat. rewrite Nat.add_0_r. auto.
  - destruct (IH _ _ _ H) as (a & Ha & X). exists (S a). replace (i + S a)%nat with (S i + a)%nat by lia. auto.
Qed.
Lemma wtot_app {A} (a b : list (A * f64)) : wtot (a ++ b) = wtot a + wtot b.
Proof. induction a as [|x a IH]; [change (wtot []) with 0; cbn [app]; ring|]. change (wtot ((x :: a) ++ b)) with (B2R (snd x) + wtot (a ++ b)). rewrite IH. change (wtot (x :: a)) with (B2R (snd x) + wtot a). ring. Qed.
Lemma wnum_app {A} (a b : list (A * f64)) : wnum (a ++ b) = wnum a + wnum b.
Proof. induction a as [|x a IH]; [change (wnum []) with 0; cbn [app]; ring|]. change (wnum ((x :: a) ++ b)) with (nz (snd x) + wnum (a ++ b)). rewrite IH. change (wnum (x :: a)) with (nz (snd x) + wnum a). ring. Qed.
Lemma contributions_total {l k} q ratio (fs : list (frame l k)) : forall i,
  sumf (cw ratio q) i + wtot (contributions q ratio (flit 0 0) i fs) = sumf (cw ratio q) (i + length fs) /\
  sumf (cn ratio q) i + wnum (contributions q ratio (flit 0 0) i fs) = sumf (cn ratio q) (i + length fs).
Proof.
  induction fs as [|f fs IH]; intros i; cbn [contributions length].
  - rewrite Nat.add_0_r. change (wtot []) with 0. change (wnum []) with 0. split; ring.
  - replace (i + S (length fs))%nat with (S i + length fs)%nat by lia. destruct (IH (S i)) as [A B]. rewrite <- A, <- B.
    rewrite !wtot_app, !wnum_app. cbn [sumf]. unfold cw at 3, cn at 3.
    split.
    + destruct (_ =? q)%Z, (_ =? q)%Z; change (wtot []) with 0; repeat (change (wtot [(f, ?w)]) with (B2R w + 0)); try ring; cbn; ring.
    + destruct (_ =? q)%Z, (_ =? q)%Z; change (wnum []) with 0; cbn [wnum fold_right snd]; unfold nz; ring.
Qed.

Section Lower.
Context (rate src : f64) (R S : Z).
Hypothesis HR : whole_rate rate R.
Hypothesis HS : whole_rate src S.
Hypothesis S50 : (S <= 2 ^ 50)%Z.
Hypothesis RS : (R <= S)%Z.
Notation ratio := (fdiv rate src).
Notation r := (B2R ratio).
Let S51 : (S <= 2 ^ 51)%Z. Proof. lia. Qed.

Lemma lower_ratio : is_finite ratio = true /\ 0 < r /\ r <= 1 /\ Rabs (r - IZR R / IZR S) <= u53 /\
  (1 - u53) * (IZR R / IZR S) <= r /\ / r <= IZR S / IZR R + 1 /\ 0 < IZR R / IZR S <= 1.
Proof.
  destruct (ratio_val rate src R S HR HS S51) as [E F]. destruct (ratio_err rate src R S HR HS S51) as [Er _].
  pose proof (Rpos rate R HR) as P. pose proof (Spos src S HS S51) as Q. apply IZR_le in RS as RSr.
  assert (S5 : IZR S <= bpow radix2 50) by (apply IZR_le in S50; exact S50).
  assert (IS : 0 < / IZR S) by (apply Rinv_0_lt_compat; lra). assert (I1 : IZR S * / IZR S = 1) by (apply Rinv_r; lra).
  assert (D1 : 0 < IZR R / IZR S <= 1). { unfold Rdiv. split; nra. }
  assert (D2 : bpow radix2 (-50) <= IZR R / IZR S).
  { change (bpow radix2 (-50)) with (/ bpow radix2 50). apply Rle_trans with (/ IZR S); [apply Rinv_le; lra|]. unfold Rdiv. nra. }
  assert (U : u53 = / 9007199254740992) by apply u53_val. change (bpow radix2 (-50)) with (/ 1125899906842624) in D2.
  assert (Er' := Er). apply Rabs_le_inv in Er. set (x := IZR R / IZR S) in *.
  assert (r0 : 0 < r) by nra.
  split; [exact F|]. split; [exact r0|]. split.
  { rewrite E. apply (rnd_le_fmt 53 1024); [apply (fmt_Z 53 1024 1); lia|]. exact (proj2 D1). }
  split; [apply Rle_trans with (1 := Er'); nra|]. split; [lra|]. split; [|exact D1].
  assert (Ix : IZR S / IZR R = / x). { unfold x. field. lra. }
  rewrite Ix. apply Rmult_le_reg_l with r; [exact r0|]. rewrite Rinv_r by lra.
  assert (Xx : x * / x = 1) by (apply Rinv_r; lra). assert (0 < / x) by (apply Rinv_0_lt_compat; lra). nra.
Qed.
Lemma lower_precise p n : ((Z.of_nat p + 1) * S < R * Z.of_N n)%Z -> (R * Z.of_N n <= 2 ^ 51)%Z -> precise ratio (Z.of_nat p).
Proof.
  intros Hp Hn. destruct lower_ratio as (_ & _ & _ & _ & L & _ & D). split; [lia|].
  pose proof (Spos src S HS S51) as Q. pose proof (Rpos rate R HR) as P.
  assert (I1 : IZR S * / IZR S = 1) by (apply Rinv_r; lra).  assert (IS : 0 < / IZR S) by (apply Rinv_0_lt_compat; lra).
  assert (X : ((Z.of_nat p + 3) * S <= 2 ^ 52 - 1)%Z) by nia. apply IZR_le in X. rewrite mult_IZR, plus_IZR, minus_IZR in X.
  change (IZR (2 ^ 52)) with 4503599627370496 in X. change (bpow radix2 52) with 4503599627370496.
  rewrite u53_val in L. set (q := IZR (Z.of_nat p) + 3) in *.
  assert (Y : q <= 4503599627370495 * / IZR S).
  { apply Rmult_le_reg_r with (IZR S); [lra|]. rewrite Rmult_assoc, (Rmult_comm (/ IZR S)), I1. lra. }
  assert (Z : / IZR S <= IZR R / IZR S) by (unfold Rdiv; nra). lra.
Qed.

Lemma extend_level l k ls ks (a a' : audio l k) (s it : stream ls ks) n all (fs : list (frame l k)) p c lo hi b y :
  s_rate a = rate -> sample_rate s = Some src -> honest s -> slen s = Some n -> yields s all -> converted all fs ->
  (R * Z.of_N n <= 2 ^ 51)%Z -> extend (Datatypes.S (N.to_nat n)) a s = (a', Ok it) ->
  ((Z.of_nat p + 1) * S < R * Z.of_N n)%Z ->
  (forall i f x, nth_error fs i = Some f -> (Z.abs (R * Z.of_nat i - S * Z.of_nat p) <= S)%Z ->
     nth_error (channels f) c = Some x -> valid x /\ lo <= level x <= hi) ->
  audio_get a' (audio_len a + p) = Some b -> nth_error (channels b) c = Some y ->
  let g := if Nat.eqb p 0 then IZR R / IZR S else 1 in
  let E := (IZR S / IZR R + 6) * step k + (INR p + 6) * bpow radix2 (-49) in
  lo * g - E <= level y <= hi * g + E.
Proof.
  intros Ea Er Ho Hl Ya Cv Hn He Hp Lv Hb Hy g E.
  pose proof (proj2 (proj2 HR)) as BR. pose proof (proj2 (proj2 HS)) as BS.
  destruct lower_ratio as (Fr & r0 & r1 & Rr & _ & Ri & D). pose proof (lower_precise p n Hp Hn) as Pr.
  assert (Sk : sinkable s) by (left; rewrite Er; discriminate).
  destruct (extend_values l k ls ks a a' s it n all fs Sk Ho Hl Ya Cv He) as (m & Hm & [_ Lf] & _ & V).
  specialize (V p b Hb). destruct V as [V _].
  rewrite Er, Ea in Lf, V. cbn [ratio_for] in Lf, V. rewrite (frames_for_exact rate src R S HR HS S51 n Hn) in Lf, V.
  pose proof (covered_nearly rate src R S HR HS S51 n Hn) as Cn.
  set (d := ((R * Z.of_N n + S - 1) / S)%Z) in *.
  assert (Dd : (Z.of_nat p + 2 <= d)%Z). { apply Z.div_le_lower_bound; lia. }
  set (e := Z.min _ d) in *. assert (Pe : (Z.of_nat p < e)%Z) by (unfold e; lia). specialize (V Pe).
  assert (Hm2 : (Z.of_nat m <= 2 ^ 51)%Z) by nia.
  pose proof (yields_count _ _ _ _ _ Ho Hl Ya) as La.
  assert (Lfs : length fs = N.to_nat n) by (rewrite (converted_length _ _ _ _ _ _ Cv); exact La).
  assert (Lm : length (firstn m fs) = m) by (rewrite firstn_length; lia).
  (* a source frame near p *)
  assert (Ex : exists x : chan k, valid x /\ lo <= level x <= hi).
  { set (i := Z.to_nat (S * Z.of_nat p / R)). pose proof (Z.div_mod (S * Z.of_nat p) R ltac:(lia)) as DM.
    pose proof (Z.mod_pos_bound (S * Z.of_nat p) R ltac:(lia)) as MB.
    assert (Zi : Z.of_nat i = (S * Z.of_nat p / R)%Z) by (unfold i; rewrite Z2Nat.id; [reflexivity|apply Z.div_pos; lia]).
    destruct (nth_lt_some fs i) as (f & Hf). { rewrite Lfs. nia. }
    destruct (nth_ex l k f c (nth_some _ _ _ _ _ Hy)) as (x & Hx). exists x. apply (Lv i f x Hf); [|exact Hx]. lia. }
  destruct Ex as (x0 & Vx & Lx). pose proof (level_range k x0 Vx) as Rx. pose proof (bottom_range k) as Bb. pose proof (step_pos k) as Sp.
  set (lo' := Rmax lo (bottom k)). set (hi' := Rmin hi 1).
  assert (Hlo : lo <= lo' /\ bottom k <= lo' <= 1). { unfold lo'. split; [apply Rmax_l|]. split; [apply Rmax_r|]. apply Rmax_lub; lra. }
  assert (Hhi : hi' <= hi /\ bottom k <= hi' <= 1). { unfold hi'. split; [apply Rmin_l|]. split; [|apply Rmin_r]. apply Rmin_glb; lra. }
  pose proof (total_weight ratio Fr r0 r1 (Z.of_nat p) m Pr ltac:(lia) ltac:(lia)) as Tw.
  pose proof (total_count ratio Fr r0 r1 (Z.of_nat p) m Pr ltac:(lia)) as Tn.
  destruct (contributions_total (Z.of_nat p) ratio (firstn m fs) 0) as [W1 W2]. rewrite Lm in W1, W2. cbn [Nat.add sumf] in W1, W2. rewrite Rplus_0_l in W1, W2.
  rewrite <- W1 in Tw. rewrite <- W2 in Tn. clear W1 W2.
  set (cs := contributions (Z.of_nat p) ratio (flit 0 0) 0 (firstn m fs)) in *.
  set (delta := 4 * slack (Z.of_nat p)) in *.
  set (g0 := if (Z.of_nat p =? 0)%Z then r else 1) in *.
  assert (G0 : 0 <= g0 <= 1 /\ Rabs (g0 - g) <= u53).
  { unfold g0, g. destruct p as [|p]; cbn [Nat.eqb].
    - change (Z.of_nat 0 =? 0)%Z with true. cbn iota. split; [lra|exact Rr].
    - replace (Z.of_nat (Datatypes.S p) =? 0)%Z with false by lia. rewrite Rminus_eq_0, Rabs_R0. split; [lra|]. apply bpow_ge_0. }
  destruct G0 as [G0 Gg]. assert (Ppos : 0 <= INR p) by apply pos_INR.
  assert (Dv : delta = (INR p + 5) * bpow radix2 (-51)).
  { unfold delta, slack. rewrite <- INR_IZR_INZ. rewrite u53_val. change (bpow radix2 (-52)) with (/ 4503599627370496). change (bpow radix2 (-51)) with (/ 2251799813685248). lra. }
  assert (D0 : 0 <= delta). { rewrite Dv. apply Rmult_le_pos; [lra|apply bpow_ge_0]. }
  apply Rabs_le_inv in Tw. apply Rabs_le_inv in Gg.
  assert (Dy : nth_error (channels (frame_default l k)) c = Some (chan_default k)).
  { destruct (nth_ex l k (frame_default l k) c (nth_some _ _ _ _ _ Hy)) as (z & Hz). rewrite Hz. f_equal. now apply nth_default in Hz. }
  assert (K : forall lo2 hi2, lo2 = lo' -> hi2 = hi' ->
    lo2 * (0 + wtot cs) - (0 + wnum cs) * step k - 2 * delta <= level y <= hi2 * (0 + wtot cs) + (0 + wnum cs) * step k + 2 * delta).
  { intros lo2 hi2 -> ->. apply (ws_level l k c (frame_default l k) b cs lo' hi' delta 0 0 (chan_default k) y V); try lra; try assumption; try tauto.
    - apply frame_default_valid.
    - intros [f w] I. cbn [fst snd]. destruct (contributions_at_position _ _ _ _ _ _ _ I) as (i & Hf & Hw). cbn [Nat.add] in Hw.
      assert (Hi : (i < m)%nat) by (rewrite <- Lm; apply nth_error_Some; congruence).
      destruct (pos_val ratio Fr r0 r1 i ltac:(lia)) as [Ev Fj].
      assert (J0 : 0 <= B2R (place ratio (flit 0 0) i)). { rewrite Ev. apply (rnd_nonneg 53 1024). pose proof (pos_INR i). nra. }
      destruct (weights_at ratio Fr r0 r1 (place ratio (flit 0 0) i) Fj J0) as (_ & _ & _ & LB & UB & F1 & F2).
      assert (Nr : (Z.abs (R * Z.of_nat i - S * Z.of_nat p) <= S)%Z).
      { apply (near rate src R S HR HS S51 (Z.of_nat p) i); [nia|]. tauto. }
      rewrite firstn_nth in Hf by exact Hi.
      assert (Lc : forall x, nth_error (channels f) c = Some x -> valid x /\ lo' <= level x <= hi').
      { intros x Hx. destruct (Lv i f x Hf Nr Hx) as [Vx' Lx']. split; [exact Vx'|]. pose proof (level_range k x Vx').
        unfold lo', hi'. split; [apply Rmax_lub; lra|apply Rmin_glb; lra]. }
      destruct Hw as [[_ ->]|[_ ->]]; (split; [assumption|split; [lra|exact Lc]]).
    - rewrite level_default. rewrite !Rmult_0_r, !Rmult_0_l. lra. }
  specialize (K lo' hi' eq_refl eq_refl). rewrite !Rplus_0_l in K.
  assert (Nn : wnum cs * step k <= (IZR S / IZR R + 6) * step k) by (apply Rmult_le_compat_r; lra).
  assert (Ed : 4 * delta + 2 * u53 <= (INR p + 6) * bpow radix2 (-49)).
  { rewrite Dv, u53_val. change (bpow radix2 (-51)) with (/ 2251799813685248). change (bpow radix2 (-49)) with (/ 562949953421312). lra. }
  assert (Gp : 0 <= g). { unfold g. destruct (Nat.eqb p 0); lra. }
  assert (U : 0 < u53) by apply bpow_gt_0.
  assert (A1 : lo * g <= lo' * g) by (apply Rmult_le_compat_r; [exact Gp|tauto]).
  assert (A2 : hi' * g <= hi * g) by (apply Rmult_le_compat_r; [exact Gp|tauto]).
  assert (A3 : forall v, bottom k <= v <= 1 -> v * g - 2 * (delta + u53) <= v * wtot cs <= v * g + 2 * (delta + u53)).
  { intros v Hv. assert (X : - (delta + u53) <= wtot cs - g <= delta + u53) by lra.
    assert (Y : v * wtot cs = v * g + v * (wtot cs - g)) by ring. rewrite Y. clear Y. split; nra. }
  pose proof (A3 lo' (proj2 Hlo)) as B1. pose proof (A3 hi' (proj2 Hhi)) as B2. unfold E. lra.
Qed.
End Lower.

(** 48 kHz to 24 kHz: the first of two frames is half as loud. *)
Lemma first_frame_quiet :
  ~ (forall l k ls ks (a a' : audio l k) (s it : stream ls ks) n x,
       whole_rate (s_rate a) 24000 -> sample_rate s = Some (flit (1000 * 48) 0) -> slen s = Some n -> (4 <= n)%N ->
       yields s (repeat x (N.to_nat n)) -> extend (Datatypes.S (N.to_nat n)) a s = (a', Ok it) ->
       exists f, convert l k x = Ok f /\ audio_get a' (audio_len a) = Some f).
Proof.
  intros H. pose (x := (as_sint W8 100, tt) : frame Mono K8).
  pose (s := SAudio (flit (1000 * 48) 0) (repeat x 4) : stream Mono K8). pose (a := mkAudio (flit (1000 * 24) 0) [] : audio Mono K8).
  assert (E : exists a' it, extend 5 a s = (a', Ok it) /\ match audio_get a' 0 with Some f => map sv (channels f) | None => [] end <> [100%Z]).
  { destruct (extend 5 a s) as [a' [it| |]] eqn:X.
    - exists a', it. split; [reflexivity|]. 
      assert (Y : match audio_get (fst (extend 5 a s)) 0 with Some f => map sv (channels f) | None => [] end <> [100%Z]) by (vm_compute; discriminate).
      rewrite X in Y. exact Y.
    - assert (Y : match snd (extend 5 a s) with Ok _ => True | _ => False end) by (vm_compute; exact I). rewrite X in Y. contradiction.
    - assert (Y : match snd (extend 5 a s) with Ok _ => True | _ => False end) by (vm_compute; exact I). rewrite X in Y. contradiction. }
  destruct E as (a' & it & E & N).
  destruct (H Mono K8 Mono K8 a a' s it 4%N x) as (f & Hf & Hg); try reflexivity.
  - destruct (flit_Z 53 1024 24000 ltac:(lia)). repeat split; try assumption; lia.
  - apply audio_yields.
  - exact E.
  - cbn [audio_len a frames length] in Hg. apply N. change (length (frames a)) with 0%nat in Hg. rewrite Hg.
    assert (Y : match convert Mono K8 x with Ok f => map sv (channels f) | _ => [] end = [100%Z]) by (vm_compute; reflexivity).
    rewrite Hf in Y. exact Y.
Qed.
