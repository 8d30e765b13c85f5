(** * PitchProofs.v -- proofs for C100 *)
From Coq Require Import ZArith NArith Reals Bool List Lia Lra.
From Flocq Require Import Core.Core IEEE754.BinarySingleNaN.
From Verif Require Import Rust Float Chan Frame Ops Stream Audio SpecChan SpecFrame SpecStream SpecSink SpecAudio SpecMore SpecRaise SpecLower SpecNearby SpecPitch.
From Verif Require Import FloatProofs IntProofs WholeProofs AudioProofs SinkProofs ResampleProofs RaiseProofs GainProofs LowerProofs SumProofs NearbyProofs.
Import ListNotations.
Open Scope R_scope.

Lemma total_split a b f : total (a + b) f = total a f + total b (fun i => f (a + i)%nat).
Proof.
  induction b as [|b IH]; cbn [total].
  - rewrite Nat.add_0_r. ring.
  - rewrite Nat.add_succ_r. cbn [total]. rewrite IH. ring.
Qed.
Lemma total_nothing n f : (forall i, (i < n)%nat -> f i = 0) -> total n f = 0.
Proof. intros H. rewrite (total_ext n f (fun _ => 0)) by exact H. apply total_zero. Qed.

Section Shift.
Context (rate src : f64) (R S : Z) (m q : nat).
Hypothesis HR : whole_rate rate R.
Hypothesis HS : whole_rate src S.
Hypothesis Q : (R * Z.of_nat m = S * Z.of_nat q)%Z.
Lemma shift_real : IZR R * INR m = IZR S * INR q.
Proof. rewrite !INR_IZR_INZ, <- !mult_IZR. f_equal. exact Q. Qed.
Lemma one_S : (1 <= S)%Z. Proof. pose proof (proj2 (proj2 HS)); lia. Qed.
Lemma one_R : (1 <= R)%Z. Proof. pose proof (proj2 (proj2 HR)); lia. Qed.
Lemma share_shift p i : share R S (p + q) (m + i) = share R S p i.
Proof.
  pose proof shift_real as E. pose proof one_S. assert (Sp : 0 < IZR S) by (apply IZR_lt; lia). unfold share. rewrite !plus_INR.
  replace ((IZR R * (INR m + INR i) + IZR S) / IZR S) with ((IZR R * INR i + IZR S) / IZR S + INR q).
  2:{ replace (IZR R * (INR m + INR i)) with (IZR S * INR q + IZR R * INR i) by lra. field. lra. }
  replace ((IZR R * (INR m + INR i) - IZR R + IZR S) / IZR S) with ((IZR R * INR i - IZR R + IZR S) / IZR S + INR q).
  2:{ replace (IZR R * (INR m + INR i)) with (IZR S * INR q + IZR R * INR i) by lra. field. lra. }
  replace (INR p + INR q + 1) with (INR p + 1 + INR q) by ring.
  generalize ((IZR R * INR i + IZR S) / IZR S) ((IZR R * INR i - IZR R + IZR S) / IZR S) (INR p) (INR q). intros x y z w. mm.
Qed.
Lemma share_early p i : (R * Z.of_nat i + S <= S * Z.of_nat p)%Z -> share R S p i = 0.
Proof.
  intros H. pose proof one_S. assert (Sp : 0 < IZR S) by (apply IZR_lt; lia). unfold share.
  assert (L : (IZR R * INR i + IZR S) / IZR S <= INR p).
  { apply IZR_le in H. rewrite plus_IZR, !mult_IZR, <- !INR_IZR_INZ in H. apply Rmult_le_reg_r with (IZR S); [lra|].
    replace ((IZR R * INR i + IZR S) / IZR S * IZR S) with (IZR R * INR i + IZR S) by (field; lra). lra. }
  revert L. generalize ((IZR R * INR i + IZR S) / IZR S) ((IZR R * INR i - IZR R + IZR S) / IZR S) (INR p). intros x y z L. mm.
Qed.
Lemma share_late p i : (S * (Z.of_nat p + 1) <= R * Z.of_nat i - R + S)%Z -> share R S p i = 0.
Proof.
  intros H. pose proof one_S. assert (Sp : 0 < IZR S) by (apply IZR_lt; lia). unfold share.
  assert (L : INR p + 1 <= (IZR R * INR i - IZR R + IZR S) / IZR S).
  { apply IZR_le in H. rewrite plus_IZR, minus_IZR, !mult_IZR, plus_IZR, <- !INR_IZR_INZ in H. apply Rmult_le_reg_r with (IZR S); [lra|].
    replace ((IZR R * INR i - IZR R + IZR S) / IZR S * IZR S) with (IZR R * INR i - IZR R + IZR S) by (field; lra). lra. }
  revert L. generalize ((IZR R * INR i + IZR S) / IZR S) ((IZR R * INR i - IZR R + IZR S) / IZR S) (INR p). intros x y z L. mm.
Qed.
Lemma weighed_repeat n p e v : (R <= S)%Z -> (1 <= p)%nat -> ((Z.of_nat (p + q) + 1) * S <= R * Z.of_nat n)%Z -> 0 <= e -> repeats n m e v ->
  Rabs (total n (fun i => share R S (p + q) i * v i) - total n (fun i => share R S p i * v i)) <= e.
Proof.
  intros RS P1 Hp E Rp. pose proof one_S. pose proof one_R. assert (Mn : (m <= n)%nat) by nia.
  replace n with (m + (n - m))%nat at 1 by lia. replace n with ((n - m) + m)%nat at 2 by lia. rewrite !total_split.
  rewrite (total_nothing m) by (intros i Hi; rewrite share_early by nia; ring).
  rewrite (total_nothing m (fun i => share R S p (n - m + i) * v (n - m + i)%nat)) by (intros i Hi; rewrite share_late by nia; ring).
  rewrite Rplus_0_l, Rplus_0_r.
  set (v1 := fun i => if Nat.ltb i (n - m) then v (m + i)%nat else 0). set (v2 := fun i => if Nat.ltb i (n - m) then v i else 0).
  rewrite (total_ext (n - m) _ (fun i => share R S p i * v1 i)).
  2:{ intros i Hi. rewrite share_shift. unfold v1. destruct (Nat.ltb_spec i (n - m)); [reflexivity|lia]. }
  rewrite (total_ext (n - m) (fun i => share R S p i * v i) (fun i => share R S p i * v2 i)).
  2:{ intros i Hi. unfold v2. destruct (Nat.ltb_spec i (n - m)); [reflexivity|lia]. }
  apply (weighed_near rate src R S HR HS RS); [exact E|]. intros i. unfold v1, v2. destruct (Nat.ltb_spec i (n - m)) as [L|L].
  - rewrite Nat.add_comm. apply Rp. lia.
  - rewrite Rminus_diag_eq, Rabs_R0 by reflexivity. exact E.
Qed.
Lemma level_of l k (fs : list (frame l k)) n c v : waveform fs n c v -> forall i, (i < n)%nat -> level_at fs i c (v i).
Proof. intros W i Hi f x Hf Hx. destruct (W i Hi) as (f' & x' & A & B & C & D). split; congruence. Qed.
Lemma later_lower k p d : 0 <= d -> (IZR S / IZR R + 7) * (step k + (INR p + 6) * d) <= (IZR S / IZR R + 7) * (step k + (INR (p + q) + 6) * d).
Proof.
  intros D. pose proof one_S as S1. pose proof one_R as R1. apply IZR_le in S1, R1. pose proof (pos_INR q). rewrite plus_INR.
  apply Rmult_le_compat_l; [apply Rplus_le_le_0_compat; [apply Rle_mult_inv_pos; lra|lra]|]. apply Rplus_le_compat_l, Rmult_le_compat_r; lra.
Qed.
Lemma repeat_lower l k ls ks (a a' : audio l k) (s : stream ls ks) n fs c v e p y z :
  (S <= 2 ^ 50)%Z -> (R <= S)%Z -> s_rate a = rate -> extends src n fs a a' s -> waveform fs (N.to_nat n) c v -> repeats (N.to_nat n) m e v -> 0 <= e ->
  (R * Z.of_N n <= 2 ^ 51)%Z -> (1 <= p)%nat -> ((Z.of_nat (p + q) + 1) * S < R * Z.of_N n)%Z ->
  added a a' p c y -> added a a' (p + q) c z ->
  Rabs (level z - level y) <= e + 2 * ((IZR S / IZR R + 7) * (step k + (INR (p + q) + 6) * bpow radix2 (-49))).
Proof.
  intros S50 Down Ra [X1 X2 X3 (all & X4 & X5) (it & X6)] W Rp E Hn P1 Hp (u & U1 & U2) (w & W1 & W2).
  pose proof one_S as S1. pose proof (level_of _ _ _ _ _ _ W) as V. assert (H1 : ((Z.of_nat p + 1) * S < R * Z.of_N n)%Z) by (rewrite Nat2Z.inj_add in Hp; nia).
  pose proof (lower_frame rate src R S HR HS S50 Down l k ls ks a a' s it n all fs p c _ u y Ra X1 X2 X3 X4 X5 Hn X6 (or_introl H1) V U1 U2) as K1.
  pose proof (lower_frame rate src R S HR HS S50 Down l k ls ks a a' s it n all fs (p + q) c _ w z Ra X1 X2 X3 X4 X5 Hn X6 (or_introl Hp) V W1 W2) as K2.
  apply Rle_trans with (2 := later_lower k p _ (bpow_ge_0 radix2 (-49))) in K1.
  apply (apart3 _ _ _ _ _ _ K2 K1). apply weighed_repeat; try assumption. rewrite N_nat_Z. lia.
Qed.
Lemma first_shift p i : first_at R S p i -> first_at R S (p + q) (i + m).
Proof. unfold first_at. rewrite !Nat2Z.inj_add. nia. Qed.
Lemma position_shift p i : IZR R * INR (i + m) / IZR S - INR (p + q) = IZR R * INR i / IZR S - INR p.
Proof.
  pose proof shift_real as E. pose proof one_S as S1. apply IZR_le in S1. rewrite !plus_INR.
  replace (IZR R * (INR i + INR m)) with (IZR R * INR i + IZR S * INR q) by lra. field. lra.
Qed.
Lemma repeat_raise l k ls ks (a a' : audio l k) (s : stream ls ks) n fs c v e p y z :
  (S <= 2 ^ 51)%Z -> (S < R)%Z -> s_rate a = rate -> extends src n fs a a' s -> waveform fs (N.to_nat n) c v -> repeats (N.to_nat n) m e v -> 0 <= e ->
  (R * Z.of_N n <= 2 ^ 51)%Z -> aligned rate src R S n -> (1 <= p)%nat -> ((Z.of_nat (p + q) + 1) * S <= R * Z.of_N n)%Z ->
  added a a' p c y -> added a a' (p + q) c z ->
  Rabs (level z - level y) <= applied k (IZR R / IZR S) * e
    + 2 * (6 * applied k (IZR R / IZR S) * step k + (IZR R / IZR S + INR (p + q) + 6) * bpow radix2 (-49)).
Proof.
  intros S51 Up Ra [X1 X2 X3 (all & X4 & X5) (it & X6)] W Rp E Hn Al P1 Hp (u & U1 & U2) (w & W1 & W2).
  pose proof (yields_count _ _ _ _ _ X2 X3 X4) as La.
  assert (Lf : length fs = N.to_nat n) by (rewrite (converted_length _ _ _ _ _ _ X5); exact La).
  pose proof one_S as S1. pose proof one_R as R1. assert (H1 : ((Z.of_nat p + 1) * S <= R * Z.of_N n)%Z) by (rewrite Nat2Z.inj_add in Hp; nia).
  assert (V : forall i, level_at fs i c (v i)).
  { intros i. destruct (le_lt_dec (N.to_nat n) i) as [H|H]; [|apply (level_of _ _ _ _ _ _ W i H)].
    intros f x Hf. rewrite (proj2 (nth_error_None fs i)) in Hf by lia. discriminate. }
  destruct (first_exists rate src R S HR HS S51 Up p) as (i & F). pose proof (first_shift p i F) as F2.
  pose proof (raise_frame rate src R S HR HS S51 Up l k ls ks a a' s it n all fs p i c _ _ u y Ra X1 X2 X3 X4 X5 Hn Al X6 H1 F (V i) (V (i - 1)%nat) U1 U2) as K1.
  pose proof (raise_frame rate src R S HR HS S51 Up l k ls ks a a' s it n all fs (p + q) (i + m) c _ _ w z Ra X1 X2 X3 X4 X5 Hn Al X6 Hp F2 (V (i + m)%nat) (V (i + m - 1)%nat) W1 W2) as K2.
  assert (K3 : 6 * applied k (IZR R / IZR S) * step k + (IZR R / IZR S + INR p + 6) * bpow radix2 (-49)
    <= 6 * applied k (IZR R / IZR S) * step k + (IZR R / IZR S + INR (p + q) + 6) * bpow radix2 (-49)).
  { apply Rplus_le_compat_l, Rmult_le_compat_r; [apply bpow_ge_0|]. rewrite plus_INR. pose proof (pos_INR q). lra. }
  apply Rle_trans with (2 := K3) in K1. apply (apart3 _ _ _ _ _ _ K2 K1). apply Rle_trans with (1 := limited_lip _ _ _).
  destruct (gains_sum rate src R S HR HS S51 Up k p i F) as (G1 & G2 & G3 & _).
  assert (I1 : (1 <= i)%nat) by (destruct F as [F _]; nia).
  assert (EB : gain_before R S (p + q) (i + m) = gain_before R S p i) by (unfold gain_before; rewrite position_shift; reflexivity).
  assert (EA : gain_after k R S (p + q) (i + m) = gain_after k R S p i) by (unfold gain_after; rewrite position_shift; reflexivity).
  rewrite EA, EB. replace (i + m - 1)%nat with (i - 1 + m)%nat by lia.
  assert (IM : (i + m <= N.to_nat n)%nat) by (destruct F2 as [_ F2]; rewrite Nat2Z.inj_add in F2; nia).
  assert (D2 : Rabs (v (i - 1 + m)%nat - v (i - 1)%nat) <= e) by (apply Rp; lia).
  assert (D1 : gain_after k R S p i * Rabs (v (i + m)%nat - v i) <= gain_after k R S p i * e).
  { destruct (le_lt_dec (N.to_nat n) (i + m)) as [H|H]; [|apply Rmult_le_compat_l; [assumption|apply Rp; lia]].
    replace (gain_after k R S p i) with 0; [lra|]. rewrite <- EA. unfold gain_after. destruct (Rlt_dec _ 1) as [L|L]; [exfalso|reflexivity].
    replace (i + m)%nat with (N.to_nat n) in L by lia. apply IZR_le in Hp, S1. rewrite !mult_IZR, plus_IZR, <- INR_IZR_INZ in Hp.
    rewrite (INR_IZR_INZ (N.to_nat n)), N_nat_Z in L. apply Rmult_lt_compat_r with (r := IZR S) in L; [|lra].
    replace ((IZR R * IZR (Z.of_N n) / IZR S - INR (p + q)) * IZR S) with (IZR R * IZR (Z.of_N n) - INR (p + q) * IZR S) in L by (field; lra). lra. }
  set (gb := gain_before R S p i) in *. set (ga := gain_after k R S p i) in *.
  replace (gb * v (i - 1 + m)%nat + ga * v (i + m)%nat - (gb * v (i - 1)%nat + ga * v i))
    with (gb * (v (i - 1 + m)%nat - v (i - 1)%nat) + ga * (v (i + m)%nat - v i)) by ring.
  apply Rle_trans with (1 := Rabs_triang _ _). rewrite !Rabs_mult, (Rabs_pos_eq gb), (Rabs_pos_eq ga) by assumption.
  apply Rle_trans with (gb * e + ga * e); [apply Rplus_le_compat; [apply Rmult_le_compat_l; assumption|exact D1]|].
  rewrite <- Rmult_plus_distr_r. apply Rmult_le_compat_r; assumption.
Qed.
End Shift.
