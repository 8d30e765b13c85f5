(** * GainProofs.v -- the weights a destination frame receives add up to 1 when
    the rate is lowered (C64) *)
From Coq Require Import ZArith NArith Reals List Lia Bool Lra.
From Flocq Require Import Core.Core Relative IEEE754.BinarySingleNaN.
From Verif Require Import Rust Float Math Chan Frame Ops Stream Audio Heap SpecChan SpecFrame SpecStream SpecSink SpecAudio SpecMore.
From Verif Require Import FloatProofs FloorProofs FArithProofs SinkProofs PlaceProofs WeightProofs SinkMore AudioProofs ResampleProofs WholeProofs.
Import ListNotations.
Open Scope R_scope.

(** ** Finite sums *)
Fixpoint sumf (f : nat -> R) (m : nat) : R := match m with O => 0 | S m => sumf f m + f m end.
Lemma sumf_le f g m : (forall i, (i < m)%nat -> f i <= g i) -> sumf f m <= sumf g m.
Proof.
  induction m as [|m IH]; intros H; cbn [sumf]; [lra|]. pose proof (H m (Nat.lt_succ_diag_r m)).
  assert (sumf f m <= sumf g m) by (apply IH; intros i L; apply H; lia). lra.
Qed.
Lemma sumf_ext f g m : (forall i, (i < m)%nat -> f i = g i) -> sumf f m = sumf g m.
Proof. intros H. apply Rle_antisym; apply sumf_le; intros i L; rewrite (H i L); lra. Qed.
Lemma sumf_plus f g m : sumf (fun i => f i + g i) m = sumf f m + sumf g m.
Proof. induction m as [|m IH]; cbn [sumf]; [lra|]. rewrite IH. lra. Qed.
Lemma sumf_scal c f m : sumf (fun i => c * f i) m = c * sumf f m.
Proof. induction m as [|m IH]; cbn [sumf]; [lra|]. rewrite IH. lra. Qed.
Lemma sumf_zero f m M : (m <= M)%nat -> (forall i, (m <= i < M)%nat -> f i = 0) -> sumf f M = sumf f m.
Proof.
  intros H Z. induction M as [|M IH]; [replace m with O by lia; reflexivity|].
  destruct (Nat.eq_dec m (S M)) as [->|N]; [reflexivity|]. cbn [sumf]. rewrite IH by (try lia; intros i L; apply Z; lia).
  rewrite Z by lia. lra.
Qed.
Lemma sumf_abs f g m : (forall i, (i < m)%nat -> Rabs (f i) <= g i) -> Rabs (sumf f m) <= sumf g m.
Proof.
  intros H. induction m as [|m IH]; cbn [sumf]; [rewrite Rabs_R0; lra|].
  apply Rle_trans with (1 := Rabs_triang _ _). apply Rplus_le_compat; [apply IH; intros; apply H; lia|apply H; lia].
Qed.
(** Indicator of [i0] and the number after it. *)
Definition ind (i0 i : nat) : R := if Nat.eqb i i0 then 1 else if Nat.eqb i (S i0) then 1 else 0.
Lemma sumf_ind i0 m : 0 <= sumf (ind i0) m <= 2 /\ ((m <= i0)%nat -> sumf (ind i0) m = 0) /\ ((m <= S i0)%nat -> sumf (ind i0) m <= 1).
Proof.
  induction m as [|m (A & B & C)]; cbn [sumf]; [split; [lra|]; split; intros; lra|].
  assert (H : (m = i0 /\ ind i0 m = 1) \/ (m = S i0 /\ ind i0 m = 1) \/ (m <> i0 /\ m <> S i0 /\ ind i0 m = 0)).
  { unfold ind. destruct (Nat.eqb_spec m i0); [tauto|]. destruct (Nat.eqb_spec m (S i0)); tauto. }
  destruct H as [(-> & ->)|[(-> & ->)|(N1 & N2 & ->)]].
  - rewrite (B (le_n _)). split; [lra|]. split; intros; [lia|lra].
  - specialize (C (le_n _)). split; [lra|]. split; intros; lia.
  - rewrite Rplus_0_r. split; [exact A|]. split; intros; [apply B; lia|apply C; lia].
Qed.
Lemma ind_nonneg i0 i : 0 <= ind i0 i.
Proof. unfold ind. destruct (Nat.eqb i i0); [lra|]. destruct (Nat.eqb i (S i0)); lra. Qed.

(** ** Ramps *)
Definition up (r a x : R) : R := Rmax 0 (Rmin r (x - a)).
Ltac mm := unfold up, Rmax, Rmin in *; repeat destruct Rle_dec; try lra.
Lemma up_0 r a x : 0 <= r -> x <= a -> up r a x = 0. Proof. intros. mm. Qed.
Lemma up_r r a x : 0 <= r -> a + r <= x -> up r a x = r. Proof. intros. mm. Qed.
Lemma up_mid r a x : a <= x <= a + r -> up r a x = x - a. Proof. intros. mm. Qed.
Lemma up_lip r a x y : Rabs (up r a x - up r a y) <= Rabs (x - y).
Proof. unfold Rabs. mm; repeat destruct Rcase_abs; lra. Qed.
Lemma up_sum r a m : 0 <= r -> 0 <= a -> sumf (fun i => up r a (r * INR i)) (S m) = Rmax 0 (r * INR m - a).
Proof.
  intros Hr Ha. induction m as [|m IH].
  - cbn [sumf INR]. mm.
  - cbn [sumf] in *. rewrite IH. rewrite S_INR. clear IH. generalize (INR m). intros x. mm.
Qed.

(** The first frame behind [a]. *)
Lemma first_past (r : R) (a : Z) : 0 < r -> (0 <= a)%Z -> exists i0 : nat, (forall i, (i < i0)%nat -> r * INR i <= IZR a) /\ IZR a < r * INR i0.
Proof.
  intros Hr Ha. set (z := Zfloor (IZR a / r)).
  assert (Hq : 0 <= IZR a / r) by (apply Rle_mult_inv_pos; [apply IZR_le; lia|exact Hr]).
  assert (Hz : (0 <= z)%Z) by (apply Zfloor_lub; exact Hq).
  assert (E : r * (IZR a / r) = IZR a) by (field; lra).
  exists (Z.to_nat (z + 1)). split.
  - intros i Hi. assert (X : INR i <= IZR a / r).
    { apply Rle_trans with (IZR z); [rewrite INR_IZR_INZ; apply IZR_le; lia|apply Zfloor_lb]. } nra.
  - pose proof (Zfloor_ub (IZR a / r)) as U. fold z in U.
    replace (INR (Z.to_nat (z + 1))) with (IZR z + 1); [nra|]. rewrite INR_IZR_INZ, Z2Nat.id by lia. now rewrite plus_IZR.
Qed.

(** ** The weights of one destination frame *)
Section Cells.
Context (ratio : f64).
Hypothesis Fr : is_finite ratio = true.
Notation r := (B2R ratio).
Hypothesis r0 : 0 < r.
Hypothesis r1 : r <= 1.
Notation J := (place ratio (flit 0 0)).
Notation eps := (bpow radix2 (-52)).

Lemma eps_val : eps = / 4503599627370496. Proof. reflexivity. Qed.

Lemma pos_val i : (Z.of_nat i <= 2 ^ 53)%Z -> B2R (J i) = round64 (r * INR i) /\ is_finite (J i) = true.
Proof.
  intros Hi. destruct (fofZ53 (Z.of_nat i)) as [EI FI]; [lia|]. rewrite INR_IZR_INZ.
  assert (HI : 0 <= IZR (Z.of_nat i) <= bpow radix2 53) by (split; [apply IZR_le; lia|apply IZR_le in Hi; exact Hi]).
  destruct (fmul_correct 53 1024 ratio (fofZ (Z.of_nat i)) Fr FI) as [A B].
  { rewrite EI. apply small_fin with 53%Z; [lia|]. rewrite Rabs_pos_eq by (apply Rmult_le_pos; lra).
    apply Rle_trans with (1 * IZR (Z.of_nat i)); [|lra]. apply Rmult_le_compat_r; lra. }
  rewrite EI in A. destruct (zero_correct 53 1024) as [Z0 Z1].
  destruct (fadd_zero 53 1024 (fmul ratio (fofZ (Z.of_nat i))) (flit 0 0) B Z1 Z0) as [C D].
  unfold place. rewrite D, A. split; [reflexivity|assumption].
Qed.
Lemma pos_err i : (Z.of_nat i <= 2 ^ 53)%Z -> bpow radix2 (-1022) <= r -> Rabs (B2R (J i) - r * INR i) <= u53 * (r * INR i).
Proof.
  intros Hi Hs. destruct (pos_val i Hi) as [-> _]. pose proof (pos_INR i) as P.
  destruct i as [|i].
  { cbn [INR]. rewrite !Rmult_0_r. unfold round64. rewrite (rnd_0 53 1024), Rminus_0_r, Rabs_R0. lra. }
  assert (Q : 1 <= INR (S i)) by (rewrite S_INR; pose proof (pos_INR i); lra).
  assert (0 <= r * INR (S i)) by nra.
  rewrite <- (Rabs_pos_eq (r * INR (S i))) at 3 by assumption. apply rnd_rel. rewrite Rabs_pos_eq by assumption. nra.
Qed.

(** The weight source frame [i] gives destination frame [q]. *)
Definition cw (q : Z) (i : nat) : R :=
  (if Z.eqb (floor_index (J i)) q then B2R (lower_weight ratio (J i)) else 0) +
  (if Z.eqb (ceil_index (J i)) q then B2R (upper_weight ratio (J i)) else 0).

(** [q] is small enough for the positions around it to be precise. *)
Definition precise (q : Z) : Prop := (0 <= q)%Z /\ IZR q + 3 <= r * bpow radix2 52.

Lemma precise_r q : precise q -> 3 * eps <= r /\ IZR q + 3 <= bpow radix2 52.
Proof.
  intros [Q H]. assert (0 <= IZR q) by (apply IZR_le; exact Q). rewrite eps_val.
  change (bpow radix2 52) with 4503599627370496 in *. split; lra.
Qed.

Lemma weights_at j : is_finite j = true -> 0 <= B2R j ->
  B2R (upper_weight ratio j) = Rmin (frac j) r /\
  Rabs (B2R (lower_weight ratio j) - (r - Rmin (frac j) r)) <= u53 /\
  (frac j = 0 \/ r <= frac j -> B2R (lower_weight ratio j) = r - Rmin (frac j) r) /\
  0 <= B2R (lower_weight ratio j) <= r /\ 0 <= B2R (upper_weight ratio j) <= r /\
  is_finite (lower_weight ratio j) = true /\ is_finite (upper_weight ratio j) = true.
Proof.
  intros Fj Hj. destruct (weights_real ratio j Fr Fj ltac:(lra) Hj) as ((U1 & U2) & (L1 & L2) & Ub & Lb & _).
  pose proof (frac_bounds j Hj) as Fb. rewrite L2 in *. rewrite U2 in *. split; [reflexivity|].
  split; [|split; [|tauto]].
  - apply Rle_trans with (bpow radix2 (0 - 53 - 1)); [|apply bpow_le; lia].
    apply (rnd_error 53 1024); [|lia]. cbn [bpow]. rewrite Rabs_pos_eq; lra.
  - intros [Z0|G].
    + rewrite Z0. rewrite Rmin_left by lra. rewrite Rminus_0_r. apply (rnd_fmt 53 1024), (fmt_B2R 53 1024).
    + rewrite Rmin_right by exact G. rewrite Rminus_eq_0. apply (rnd_0 53 1024).
Qed.

Lemma cw_up q i x : x = B2R (J i) -> (Z.of_nat i <= 2 ^ 53)%Z -> precise q ->
  Rabs (cw q i - (up r (IZR q - 1) x - up r (IZR q) x)) <= eps + u53 /\
  (x <= IZR q - 1 \/ IZR q - 1 + r <= x <= IZR q \/ IZR q + r <= x ->
     cw q i = up r (IZR q - 1) x - up r (IZR q) x).
Proof.
  intros Ex Hi Hq. destruct (precise_r q Hq) as [Re Qs]. destruct Hq as [Q0 _].
  destruct (pos_val i Hi) as [Ev F].
  assert (x0 : 0 <= x). { rewrite Ex, Ev. apply (rnd_nonneg 53 1024). pose proof (pos_INR i). nra. }
  assert (xb : x <= bpow radix2 53).
  { rewrite Ex, Ev. apply (rnd_le_fmt 53 1024); [apply fmt_bpow; [reflexivity|lia]|].
    apply IZR_le in Hi. rewrite <- INR_IZR_INZ in Hi. change (IZR (2 ^ 53)) with (bpow radix2 53) in Hi. pose proof (pos_INR i). nra. }
  set (z := Zfloor x). pose proof (Zfloor_lb x) as Lb. pose proof (Zfloor_ub x) as Ub. fold z in Lb, Ub.
  assert (Z0 : (0 <= z)%Z) by (apply Zfloor_lub; exact x0).
  assert (Zb : (z < 2 ^ 64)%Z).
  { apply lt_IZR. apply Rle_lt_trans with (1 := Lb). apply Rle_lt_trans with (1 := xb). change (IZR (2 ^ 64)) with (bpow radix2 64). apply bpow_lt. lia. }
  destruct (floor_index_nonneg (J i) z F) as [Fi Fc]; [lia|rewrite plus_IZR, <- Ex; lra|]. rewrite <- Ex in Fc.
  destruct (weights_at (J i) F ltac:(lra)) as (Uw & Lw & Lx & Lr & Ur & _). rewrite Fc in Uw, Lw, Lx.
  unfold cw, ceil_index. rewrite Fi, Fc, Uw.
  assert (U : 0 < u53) by apply bpow_gt_0. assert (E0 : 0 < eps) by apply bpow_gt_0.
  set (t := x - IZR z) in *. assert (Tb : 0 <= t < 1) by (unfold t; lra).
  assert (Xt : x = IZR z + t) by (unfold t; lra).
  destruct (Z.eqb_spec z q) as [Eq|Nq].
  - (* floor index q *)
    subst z. rewrite Eq in *. rewrite (up_r r (IZR q - 1)) by lra.
    assert (Hu : up r (IZR q) x = Rmin t r). { rewrite Xt. mm. }
    rewrite Hu. destruct (Rlt_dec eps t) as [Gt|Le].
    + destruct (Z.eqb_spec (q + 1) q) as [|_]; [lia|]. rewrite Rplus_0_r. split.
      * apply Rle_trans with (1 := Lw). lra.
      * intros H. apply Lx. lra.
    + rewrite Z.eqb_refl. split.
      * replace (B2R (lower_weight ratio (J i)) + Rmin t r - (r - Rmin t r)) with ((B2R (lower_weight ratio (J i)) - (r - Rmin t r)) + Rmin t r) by ring.
        apply Rle_trans with (1 := Rabs_triang _ _). rewrite Rplus_comm. apply Rplus_le_compat; [|exact Lw].
        rewrite Rabs_pos_eq by (apply Rmin_glb; lra). apply Rle_trans with (1 := Rmin_l _ _). lra.
      * intros H. assert (T0 : t = 0) by lra. rewrite Lx by lra. rewrite T0, Rmin_left by lra. lra.
  - destruct (Z.eq_dec z (q - 1)) as [Eq|Nq2].
    + subst z. rewrite Eq in *. rewrite minus_IZR in *. rewrite (up_0 r (IZR q)) by lra.
      assert (Hu : up r (IZR q - 1) x = Rmin t r). { rewrite Xt. mm. }
      rewrite Hu, Rplus_0_l, Rminus_0_r. destruct (Rlt_dec eps t) as [Gt|Le].
      * replace (q - 1 + 1 =? q)%Z with true by lia. rewrite Rminus_eq_0, Rabs_R0. split; [lra|reflexivity].
      * replace (q - 1 =? q)%Z with false by lia. split.
        -- rewrite Rminus_0_l, Rabs_Ropp, Rabs_pos_eq by (apply Rmin_glb; lra). apply Rle_trans with (1 := Rmin_l _ _). lra.
        -- intros H. assert (t = 0) by lra. rewrite Rmin_left; lra.
    + assert (Cq : (if Z.eqb (if Rlt_dec eps t then z + 1 else z) q then Rmin t r else 0) = 0).
      { destruct (Rlt_dec eps t); [replace (z + 1 =? q)%Z with false by lia|replace (z =? q)%Z with false by lia]; reflexivity. }
      rewrite Cq. assert (E : up r (IZR q - 1) x - up r (IZR q) x = 0).
      { destruct (Z.lt_ge_cases z q) as [L|L].
        - assert (X : x < IZR q - 1). { rewrite <- minus_IZR. apply Rlt_le_trans with (1 := Ub). rewrite <- plus_IZR. apply IZR_le. lia. }
          rewrite !up_0; lra.
        - assert (X : IZR q + 1 <= x). { rewrite <- plus_IZR. apply Rle_trans with (2 := Lb). apply IZR_le. lia. }
          rewrite !up_r; lra. }
      rewrite E, Rplus_0_l, Rminus_0_r, Rabs_R0. split; [lra|reflexivity].
Qed.

Lemma tiny_r q : precise q -> bpow radix2 (-1022) <= r.
Proof.
  intros Hq. destruct (precise_r q Hq) as [Re _]. apply Rle_trans with eps; [apply bpow_le; lia|]. pose proof (bpow_gt_0 radix2 (-52)). lra.
Qed.
(** Where source frame [i] lies relative to [a], by its number. *)
Lemma pos_side a i0 i : precise a -> (Z.of_nat i <= 2 ^ 53)%Z ->
  (forall i, (i < i0)%nat -> r * INR i <= IZR a) -> IZR a < r * INR i0 ->
  ((i < i0)%nat -> B2R (J i) <= IZR a) /\
  ((S i0 < i)%nat -> IZR a + r <= B2R (J i) /\ IZR a + r <= r * INR i) /\
  (i = i0 \/ i = S i0 -> IZR a < r * INR i <= IZR a + 2 * r /\ Rabs (B2R (J i) - r * INR i) <= u53 * (IZR a + 2)).
Proof.
  intros Ha Hi B A. pose proof (tiny_r a Ha) as Tr. pose proof (pos_err i Hi Tr) as E. destruct (precise_r a Ha) as [Re Qs].
  destruct Ha as [A0 A1]. assert (IZR a >= 0) by (apply Rle_ge, IZR_le; exact A0). assert (U : 0 < u53) by apply bpow_gt_0.
  assert (Uv : u53 * bpow radix2 52 = / 2). { change (bpow radix2 52) with 4503599627370496. rewrite u53_val. lra. }
  assert (Ua : u53 * (IZR a + 3) <= r / 2).
  { apply Rle_trans with (u53 * (r * bpow radix2 52)); [apply Rmult_le_compat_l; lra|]. rewrite Rmult_comm, Rmult_assoc, (Rmult_comm (bpow radix2 52)), Uv. lra. }
  assert (u53 <= / 4) by (rewrite u53_val; lra).
  split; [|split].
  - intros L. destruct (pos_val i Hi) as [-> _]. apply (rnd_le_fmt 53 1024); [|exact (B i L)].
    apply (fmt_Z 53 1024). apply le_IZR. rewrite Z.abs_eq by exact A0. change (IZR (2 ^ 53)) with (2 * bpow radix2 52).
    pose proof (bpow_gt_0 radix2 52). lra.
  - intros L. assert (Li : IZR a + 2 * r <= r * INR i).
    { assert (X : INR i0 + 2 <= INR i). { replace 2 with (INR 2) by reflexivity. rewrite <- plus_INR. apply le_INR. lia. } nra. }
    split; [|lra]. apply Rabs_le_inv in E. assert (X : (1 - u53) * (IZR a + 2 * r) <= (1 - u53) * (r * INR i)) by (apply Rmult_le_compat_l; lra). nra.
  - intros Hc. assert (IZR a < r * INR i <= IZR a + 2 * r) as X.
    { assert (I0 : INR i0 <= INR i <= INR i0 + 1). { rewrite <- S_INR. split; apply le_INR; lia. }
      assert (P0 : (i0 > 0)%nat). { destruct i0; [cbn [INR] in A; lra|lia]. }
      assert (Q : r * INR (i0 - 1) <= IZR a) by (apply B; lia).
      assert (INR (i0 - 1) = INR i0 - 1) by (rewrite minus_INR by lia; reflexivity). nra. }
    split; [exact X|]. apply Rle_trans with (1 := E). apply Rmult_le_compat_l; lra.
Qed.
(** The ramp at the rounded position, and at the exact one. *)
Lemma up_exact a i0 i : precise a -> (Z.of_nat i <= 2 ^ 53)%Z ->
  (forall i, (i < i0)%nat -> r * INR i <= IZR a) -> IZR a < r * INR i0 ->
  Rabs (up r (IZR a) (B2R (J i)) - up r (IZR a) (r * INR i)) <= u53 * (IZR a + 2) * ind i0 i.
Proof.
  intros Ha Hi B A. destruct (pos_side a i0 i Ha Hi B A) as (L & G & M). unfold ind.
  destruct (Nat.eqb_spec i i0) as [E|N]; [|destruct (Nat.eqb_spec i (S i0)) as [E|N2]].
  - rewrite Rmult_1_r. apply Rle_trans with (1 := up_lip _ _ _ _). apply M. tauto.
  - rewrite Rmult_1_r. apply Rle_trans with (1 := up_lip _ _ _ _). apply M. tauto.
  - rewrite Rmult_0_r. destruct (Nat.lt_ge_cases i i0) as [X|X].
    + rewrite (up_0 r (IZR a) (r * INR i)) by (try lra; apply B; exact X). rewrite up_0 by (try lra; now apply L).
      rewrite Rminus_0_r, Rabs_R0. lra.
    + destruct G as [G1 G2]; [lia|]. rewrite !up_r by lra. rewrite Rminus_eq_0, Rabs_R0. lra.
Qed.

(** One source frame: nearly the difference of two ramps. *)
Definition slack (q : Z) : R := u53 * (IZR q + 2) + (eps + u53).
Lemma cw_exact q i0 i1 i : (1 <= q)%Z -> precise q -> (Z.of_nat i <= 2 ^ 53)%Z ->
  (forall i, (i < i0)%nat -> r * INR i <= IZR (q - 1)) -> IZR (q - 1) < r * INR i0 ->
  (forall i, (i < i1)%nat -> r * INR i <= IZR q) -> IZR q < r * INR i1 ->
  Rabs (cw q i - (up r (IZR (q - 1)) (r * INR i) - up r (IZR q) (r * INR i))) <= slack q * (ind i0 i + ind i1 i).
Proof.
  intros Q1 Hq Hi B0 A0 B1 A1.
  assert (Hp : precise (q - 1)). { destruct Hq as [X Y]. split; [lia|]. rewrite minus_IZR. lra. }
  pose proof (up_exact (q - 1) i0 i Hp Hi B0 A0) as E0. pose proof (up_exact q i1 i Hq Hi B1 A1) as E1.
  destruct (pos_side (q - 1) i0 i Hp Hi B0 A0) as (L0 & G0 & M0). destruct (pos_side q i1 i Hq Hi B1 A1) as (L1 & G1 & M1).
  destruct (cw_up q i _ eq_refl Hi Hq) as [C1 C2]. rewrite minus_IZR in *.
  set (x := B2R (J i)) in *. set (y := r * INR i) in *.
  assert (U : 0 < u53) by apply bpow_gt_0. assert (E : 0 < eps) by apply bpow_gt_0.
  assert (Q0 : 1 <= IZR q) by (apply IZR_le; exact Q1).
  assert (D : Rabs (cw q i - (up r (IZR q - 1) x - up r (IZR q) x)) <= (eps + u53) * (ind i0 i + ind i1 i)).
  { pose proof (ind_nonneg i0 i) as P0. pose proof (ind_nonneg i1 i) as P1.
    assert (H : x <= IZR q - 1 \/ IZR q - 1 + r <= x <= IZR q \/ IZR q + r <= x \/ 1 <= ind i0 i + ind i1 i).
    { unfold ind in *. destruct (Nat.eqb_spec i i0) as [e0|N0]; [right; right; right; lra|].
      destruct (Nat.eqb_spec i (S i0)) as [e0|N0']; [right; right; right; lra|].
      destruct (Nat.eqb_spec i i1) as [e1|N1]; [right; right; right; lra|].
      destruct (Nat.eqb_spec i (S i1)) as [e1|N1']; [right; right; right; lra|].
      destruct (Nat.lt_ge_cases i i0) as [X|X]; [left; now apply L0|]. assert (X0 : (S i0 < i)%nat) by lia.
      destruct (Nat.lt_ge_cases i i1) as [Y|Y]; [right; left; split; [now apply G0|now apply L1]|].
      right; right; left. apply G1. lia. }
    destruct H as [H|[H|[H|H]]].
    - rewrite C2 by tauto. rewrite Rminus_eq_0, Rabs_R0. apply Rmult_le_pos; lra.
    - rewrite C2 by tauto. rewrite Rminus_eq_0, Rabs_R0. apply Rmult_le_pos; lra.
    - rewrite C2 by tauto. rewrite Rminus_eq_0, Rabs_R0. apply Rmult_le_pos; lra.
    - apply Rle_trans with (1 := C1). rewrite <- (Rmult_1_r (eps + u53)) at 1. apply Rmult_le_compat_l; lra. }
  unfold slack. pose proof (ind_nonneg i0 i) as P0. pose proof (ind_nonneg i1 i) as P1.
  replace (cw q i - (up r (IZR q - 1) y - up r (IZR q) y)) with
    ((cw q i - (up r (IZR q - 1) x - up r (IZR q) x)) + ((up r (IZR q - 1) x - up r (IZR q - 1) y) - (up r (IZR q) x - up r (IZR q) y))) by ring.
  apply Rabs_le_inv in D. apply Rabs_le_inv in E0. apply Rabs_le_inv in E1.
  assert (X : u53 * (IZR q - 1 + 2) * ind i0 i <= u53 * (IZR q + 2) * ind i0 i) by (apply Rmult_le_compat_r; [exact P0|]; apply Rmult_le_compat_l; lra).
  apply Rabs_le. rewrite Rmult_plus_distr_r, !(Rmult_plus_distr_l (u53 * (IZR q + 2))). lra.
Qed.
(** The first destination frame. *)
Lemma cw_exact0 i1 i : precise 0 -> (Z.of_nat i <= 2 ^ 53)%Z ->
  (forall i, (i < i1)%nat -> r * INR i <= IZR 0) -> IZR 0 < r * INR i1 ->
  Rabs (cw 0 i - (r - up r (IZR 0) (r * INR i))) <= slack 0 * ind i1 i.
Proof.
  intros Hq Hi B1 A1. pose proof (up_exact 0 i1 i Hq Hi B1 A1) as E1. destruct (pos_side 0 i1 i Hq Hi B1 A1) as (L1 & G1 & M1).
  destruct (cw_up 0 i _ eq_refl Hi Hq) as [C1 C2]. set (x := B2R (J i)) in *. set (y := r * INR i) in *.
  assert (x0 : 0 <= x). { unfold x. destruct (pos_val i Hi) as [-> _]. apply (rnd_nonneg 53 1024). pose proof (pos_INR i). nra. }
  rewrite (up_r r (0 - 1) x) in C1, C2 by lra. pose proof (ind_nonneg i1 i) as P1.
  assert (U : 0 < u53) by apply bpow_gt_0. assert (E : 0 < eps) by apply bpow_gt_0.
  assert (D : Rabs (cw 0 i - (r - up r 0 x)) <= (eps + u53) * ind i1 i).
  { assert (H : x <= 0 \/ r <= x \/ 1 <= ind i1 i).
    { unfold ind in *. destruct (Nat.eqb_spec i i1) as [e1|N1]; [right; right; lra|].
      destruct (Nat.eqb_spec i (S i1)) as [e1|N1']; [right; right; lra|].
      destruct (Nat.lt_ge_cases i i1) as [Y|Y]; [left; now apply L1|]. right; left. assert (Z : 0 + r <= x) by (apply G1; lia). lra. }
    destruct H as [H|[H|H]].
    - rewrite C2 by lra. rewrite Rminus_eq_0, Rabs_R0. apply Rmult_le_pos; lra.
    - rewrite C2 by lra. rewrite Rminus_eq_0, Rabs_R0. apply Rmult_le_pos; lra.
    - apply Rle_trans with (1 := C1). rewrite <- (Rmult_1_r (eps + u53)) at 1. apply Rmult_le_compat_l; lra. }
  unfold slack. replace (cw 0 i - (r - up r 0 y)) with ((cw 0 i - (r - up r 0 x)) - (up r 0 x - up r 0 y)) by ring.
  apply Rabs_le_inv in D. apply Rabs_le_inv in E1. apply Rabs_le. rewrite Rmult_plus_distr_r. lra.
Qed.

(** Sources behind the frame give it nothing. *)
Lemma cw_far q i : (Z.of_nat i <= 2 ^ 53)%Z -> (q < floor_index (J i))%Z -> cw q i = 0.
Proof.
  intros Hi H. unfold cw. pose proof (ceil_index_bounds (J i)) as [C _].
  replace (floor_index (J i) =? q)%Z with false by lia. replace (ceil_index (J i) =? q)%Z with false by lia. lra.
Qed.
Lemma pos_far q m i : (m <= i)%nat -> (Z.of_nat i <= 2 ^ 53)%Z -> (q < floor_index (J m))%Z -> (q < floor_index (J i))%Z.
Proof.
  intros L Hi H. destruct (pos_val i Hi) as [Ei Fi]. destruct (pos_val m) as [Em Fm]; [lia|].
  assert (Le : B2R (J m) <= B2R (J i)). { rewrite Ei, Em. apply (rnd_mono 53 1024). apply Rmult_le_compat_l; [lra|]. apply le_INR. exact L. }
  rewrite floor_index_finite in * by assumption. apply Z.lt_le_trans with (1 := H).
  apply (Ztrunc_le (B2R (J m))) in Le. rewrite !clampZ_maxmin by lia. lia.
Qed.

(** The total weight of destination frame [q], over [m] source frames that reach past it. *)
Lemma total_weight q m : precise q -> (Z.of_nat m <= 2 ^ 52)%Z -> (q < floor_index (J m))%Z ->
  Rabs (sumf (cw q) m - (if Z.eqb q 0 then r else 1)) <= 4 * slack q.
Proof.
  intros Hq Hm Hf. pose proof Hq as [Q0 Qp]. assert (R0 : 0 <= IZR q) by (apply IZR_le; exact Q0).
  destruct (first_past r q r0 Q0) as (i1 & B1 & A1).
  assert (I1 : (Z.of_nat i1 <= 2 ^ 52)%Z).
  { destruct i1 as [|i1]; [lia|]. pose proof (B1 i1 ltac:(lia)) as X. apply le_IZR. rewrite <- INR_IZR_INZ, S_INR.
    change (IZR (2 ^ 52)) with (bpow radix2 52). apply Rmult_le_reg_l with r; lra. }
  set (M := S (Nat.max m i1)).
  assert (MM : (Z.of_nat M <= 2 ^ 53)%Z) by (unfold M; lia).
  rewrite <- (sumf_zero (cw q) m M); [|unfold M; lia|].
  2:{ intros i Hi. apply cw_far; [lia|]. apply pos_far with m; [lia|lia|exact Hf]. }
  assert (U : 0 < u53) by apply bpow_gt_0. assert (E : 0 < eps) by apply bpow_gt_0.
  assert (Sl : 0 <= slack q). { unfold slack. assert (0 <= u53 * (IZR q + 2)) by (apply Rmult_le_pos; lra). lra. }
  assert (Top : IZR q <= r * INR (Nat.max m i1)). { apply Rle_trans with (r * INR i1); [lra|]. apply Rmult_le_compat_l; [lra|]. apply le_INR. lia. }
  destruct (Z.eqb_spec q 0) as [->|N].
  - pose proof (sumf_abs (fun i => cw 0 i - (r - up r (IZR 0) (r * INR i))) (fun i => slack 0 * ind i1 i) M) as S1. cbv beta in S1.
    specialize (S1 ltac:(intros i Hi; apply cw_exact0; auto; lia)). rewrite sumf_scal in S1.
    destruct (sumf_ind i1 M) as [[Z1 Z2] _].
    assert (Es : sumf (fun i => cw 0 i - (r - up r (IZR 0) (r * INR i))) M = sumf (cw 0) M - r).
    { rewrite (sumf_ext _ (fun i => (cw 0 i + (-1) * r) + up r (IZR 0) (r * INR i))) by (intros; ring).
      rewrite !sumf_plus. unfold M at 3. rewrite up_sum by lra. rewrite Rmax_right by lra.
      assert (Ec : forall n, sumf (fun _ => -1 * r) n = - (r * INR n)). { induction n as [|n IH]; cbn [sumf]; [cbn; ring|]. rewrite IH, S_INR. ring. }
      rewrite Ec. unfold M. rewrite S_INR. ring. }
    rewrite Es in S1. apply Rle_trans with (1 := S1). nra.
  - destruct (first_past r (q - 1) r0 ltac:(lia)) as (i0 & B0 & A0).
    pose proof (sumf_abs (fun i => cw q i - (up r (IZR (q - 1)) (r * INR i) - up r (IZR q) (r * INR i))) (fun i => slack q * (ind i0 i + ind i1 i)) M) as S1. cbv beta in S1.
    specialize (S1 ltac:(intros i Hi; apply cw_exact; auto; lia)). rewrite sumf_scal, sumf_plus in S1.
    destruct (sumf_ind i1 M) as [[Z1 Z2] _]. destruct (sumf_ind i0 M) as [[Z3 Z4] _].
    assert (Es : sumf (fun i => cw q i - (up r (IZR (q - 1)) (r * INR i) - up r (IZR q) (r * INR i))) M = sumf (cw q) M - 1).
    { rewrite (sumf_ext _ (fun i => (cw q i + up r (IZR q) (r * INR i)) + (-1) * up r (IZR (q - 1)) (r * INR i))) by (intros; ring).
      rewrite !sumf_plus, sumf_scal. unfold M at 2 3. rewrite !up_sum; [|lra|rewrite minus_IZR; assert (1 <= IZR q) by (apply IZR_le; lia); lra|lra|lra].
      rewrite minus_IZR. rewrite !Rmax_right by lra. ring. }
    rewrite Es in S1. apply Rle_trans with (1 := S1). nra.
Qed.

(** The number of weights that are not zero. *)
Definition nz (w : f64) : R := if Req_EM_T (B2R w) 0 then 0 else 1.
Lemma nz_range w : 0 <= nz w <= 1. Proof. unfold nz. destruct Req_EM_T; lra. Qed.
Definition cn (q : Z) (i : nat) : R :=
  (if Z.eqb (floor_index (J i)) q then nz (lower_weight ratio (J i)) else 0) +
  (if Z.eqb (ceil_index (J i)) q then nz (upper_weight ratio (J i)) else 0).
Definition within (a b i : nat) : R := if Nat.leb a i && Nat.leb i b then 1 else 0.
Lemma sumf_within a b m : sumf (within a b) m <= INR (Nat.min m (S b) - a).
Proof.
  induction m as [|m IH]; cbn [sumf]; [apply pos_INR|]. unfold within at 2.
  destruct (Nat.leb_spec a m) as [A|A]; [destruct (Nat.leb_spec m b) as [B|B]|]; cbn [andb].
  - replace (Nat.min (S m) (S b) - a)%nat with (S (Nat.min m (S b) - a)) by lia. rewrite S_INR. lra.
  - rewrite Rplus_0_r. apply Rle_trans with (1 := IH). apply le_INR. lia.
  - rewrite Rplus_0_r. apply Rle_trans with (1 := IH). apply le_INR. lia.
Qed.
Lemma cn_bound q i0 i1 i : precise q -> (Z.of_nat i <= 2 ^ 53)%Z ->
  ((i < i0)%nat -> B2R (J i) <= IZR q - 1) ->
  (forall i, (i < i1)%nat -> r * INR i <= IZR q) -> IZR q < r * INR i1 ->
  cn q i <= within i0 (S i1) i + ind i1 i.
Proof.
  intros Hq Hi L0 B1 A1. destruct (pos_side q i1 i Hq Hi B1 A1) as (L1 & G1 & _).
  destruct (precise_r q Hq) as [Re Qs]. destruct Hq as [Q0 _]. destruct (pos_val i Hi) as [Ev F]. set (x := B2R (J i)) in *.
  assert (x0 : 0 <= x). { rewrite Ev. apply (rnd_nonneg 53 1024). pose proof (pos_INR i). nra. }
  assert (xb : x <= bpow radix2 53).
  { rewrite Ev. apply (rnd_le_fmt 53 1024); [apply fmt_bpow; [reflexivity|lia]|].
    apply IZR_le in Hi. rewrite <- INR_IZR_INZ in Hi. change (IZR (2 ^ 53)) with (bpow radix2 53) in Hi. pose proof (pos_INR i). nra. }
  set (z := Zfloor x). pose proof (Zfloor_lb x) as Lb. pose proof (Zfloor_ub x) as Ub. fold z in Lb, Ub.
  assert (Z0 : (0 <= z)%Z) by (apply Zfloor_lub; exact x0).
  assert (Zb : (z < 2 ^ 64)%Z).
  { apply lt_IZR. apply Rle_lt_trans with (1 := Lb). apply Rle_lt_trans with (1 := xb). change (IZR (2 ^ 64)) with (bpow radix2 64). apply bpow_lt. lia. }
  destruct (floor_index_nonneg (J i) z F) as [Fi Fc]; [lia|rewrite plus_IZR; fold x; lra|]. fold x in Fc.
  destruct (weights_at (J i) F x0) as (Uw & _ & Lx & _). rewrite Fc in Uw, Lx.
  assert (E0 : 0 < eps) by apply bpow_gt_0.
  pose proof (nz_range (lower_weight ratio (J i))) as N1. pose proof (nz_range (upper_weight ratio (J i))) as N2.
  pose proof (ind_nonneg i1 i) as I1. assert (W0 : 0 <= within i0 (S i1) i) by (unfold within; destruct andb; lra).
  assert (Win : IZR q - 1 < x -> x < IZR q + r -> within i0 (S i1) i = 1).
  { intros X1 X2. unfold within. destruct (Nat.leb_spec i0 i) as [_|X]; [|specialize (L0 X); lra].
    destruct (Nat.leb_spec i (S i1)) as [_|X]; [reflexivity|]. specialize (G1 X). lra. }
  unfold cn, ceil_index. rewrite Fi, Fc. destruct (Z.eqb_spec z q) as [Eq|Nq].
  - rewrite Eq in *. destruct (Rlt_le_dec (x - IZR q) r) as [T|T].
    + rewrite Win by lra. destruct (Rlt_dec eps (x - IZR q)) as [Gt|Le].
      * replace (q + 1 =? q)%Z with false by lia. lra.
      * rewrite Z.eqb_refl. destruct (Rle_lt_dec x (IZR q)) as [Zr|Zr].
        -- assert (U0 : nz (upper_weight ratio (J i)) = 0).
           { unfold nz. rewrite Uw. replace (x - IZR q) with 0 by lra. rewrite Rmin_left by lra. destruct Req_EM_T; lra. }
           lra.
        -- assert (In1 : 1 <= ind i1 i).
           { unfold ind. destruct (Nat.eqb_spec i i1); [lra|]. destruct (Nat.eqb_spec i (S i1)); [lra|].
             destruct (Nat.lt_ge_cases i i1) as [X|X]; [specialize (L1 X); lra|]. destruct G1 as [X1 _]; [lia|]. lra. }
           lra.
    + assert (Z1 : nz (lower_weight ratio (J i)) = 0).
      { unfold nz. rewrite Lx by (now right). rewrite Rmin_right by lra. destruct Req_EM_T; lra. }
      rewrite Z1. destruct (Rlt_dec eps (x - IZR q)) as [Gt|Le]; [|lra]. replace (q + 1 =? q)%Z with false by lia. lra.
  - destruct (Z.eq_dec z (q - 1)) as [Eq|Nq2].
    + rewrite Eq in *. rewrite minus_IZR in *. destruct (Rlt_dec eps (x - (IZR q - 1))) as [Gt|Le].
      * replace (q - 1 + 1 =? q)%Z with true by lia. rewrite Win by lra. lra.
      * replace (q - 1 =? q)%Z with false by lia. lra.
    + destruct (Rlt_dec eps (x - IZR z)); [replace (z + 1 =? q)%Z with false by lia|replace (z =? q)%Z with false by lia]; lra.
Qed.
Lemma total_count q m : precise q -> (Z.of_nat m <= 2 ^ 53)%Z -> sumf (cn q) m <= / r + 5.
Proof.
  intros Hq Hm. pose proof Hq as [Q0 Qp]. destruct (first_past r q r0 Q0) as (i1 & B1 & A1).
  assert (Ir : 0 < / r) by now apply Rinv_0_lt_compat. assert (I1 : r * / r = 1) by (apply Rinv_r; lra).
  assert (R0 : 0 <= IZR q) by (apply IZR_le; exact Q0).
  assert (P1 : (0 < i1)%nat). { destruct i1; [cbn [INR] in A1; lra|lia]. }
  assert (T1 : r * (INR i1 - 1) <= IZR q).
  { replace (INR i1 - 1) with (INR (i1 - 1)) by (rewrite minus_INR by lia; reflexivity). apply B1. lia. }
  assert (H : exists i0, (forall i, (Z.of_nat i <= 2 ^ 53)%Z -> (i < i0)%nat -> B2R (J i) <= IZR q - 1) /\ IZR q - 1 < r * INR i0 /\ (i0 <= S (S i1))%nat).
  { destruct (Z.eq_dec q 0) as [->|N].
    - exists 0%nat. split; [intros; lia|]. split; [cbn [INR]; lra|lia].
    - destruct (first_past r (q - 1) r0 ltac:(lia)) as (i0 & B0 & A0). exists i0.
      assert (Hp : precise (q - 1)). { split; [lia|]. rewrite minus_IZR. lra. }
      rewrite <- minus_IZR. split; [|split; [exact A0|]].
      + intros i Hi L. destruct (pos_side (q - 1) i0 i Hp Hi B0 A0) as (X & _). exact (X L).
      + destruct (Nat.le_gt_cases i0 i1) as [X|X]; [lia|]. specialize (B0 i1 X). rewrite minus_IZR in B0. lra. }
  destruct H as (i0 & L0 & A0 & Le).
  apply Rle_trans with (sumf (fun i => within i0 (S i1) i + ind i1 i) m).
  { apply sumf_le. intros i Hi. apply cn_bound; auto; [lia|]. apply L0. lia. }
  rewrite sumf_plus. destruct (sumf_ind i1 m) as [[_ X] _]. pose proof (sumf_within i0 (S i1) m) as Y.
  assert (Z : INR (Nat.min m (S (S i1)) - i0) <= INR (S (S i1) - i0)) by (apply le_INR; lia).
  rewrite (minus_INR (S (S i1)) i0) in Z by exact Le. rewrite !S_INR in Z.
  assert (V : INR i1 - 1 - INR i0 <= / r). { apply Rmult_le_reg_l with r; [exact r0|]. rewrite I1. lra. }
  lra.
Qed.
End Cells.
