(** * SpreadProofs.v -- proofs for C98 *)
From Coq Require Import ZArith NArith Reals Bool List Lia Lra.
From Flocq Require Import Core.Core IEEE754.BinarySingleNaN.
From Verif Require Import Rust Float Chan Frame Ops Stream Audio SpecChan SpecFrame SpecStream SpecSink SpecAudio SpecMore SpecRaise SpecLower SpecNearby SpecSpread.
From Verif Require Import FloatProofs IntProofs WholeProofs AudioProofs SinkProofs ResampleProofs RaiseProofs SumProofs NearbyProofs.
Import ListNotations.
Open Scope R_scope.

Lemma total_one n j (w : R) (v : nat -> R) : (j < n)%nat -> total n (fun i => (if Nat.eqb i j then w else 0) * v i) = w * v j.
Proof.
  induction n as [|n IH]; intros H; [lia|]. cbn [total]. destruct (Nat.eqb_spec n j) as [->|N].
  - rewrite (total_ext j _ (fun _ => 0)), total_zero; [ring|]. intros i Hi. destruct (Nat.eqb_spec i j); [lia|ring].
  - rewrite IH by lia. ring.
Qed.
Lemma total_none n j (w : R) (v : nat -> R) : (n <= j)%nat -> total n (fun i => (if Nat.eqb i j then w else 0) * v i) = 0.
Proof.
  intros H. rewrite (total_ext n _ (fun _ => 0)), total_zero; [reflexivity|]. intros i Hi. destruct (Nat.eqb_spec i j); [lia|ring].
Qed.

Section Spread.
Context (R S : Z).
Hypothesis S1 : (1 <= S)%Z.
Hypothesis Up : (S < R)%Z.
Notation place i := (R * Z.of_nat i / S)%Z.
Notation part i := (IZR ((R * Z.of_nat i) mod S) / IZR S).
Definition weigh (k : ck) (p i : nat) : Rdefinitions.R :=
  (if Nat.eqb p (Z.to_nat (place i)) then applied k (IZR R / IZR S - part i) else 0) + (if Nat.eqb p (Datatypes.S (Z.to_nat (place i))) then part i else 0).
Lemma part_exact i : part i = IZR R * INR i / IZR S - IZR (place i).
Proof.
  pose proof (Z.div_mod (R * Z.of_nat i) S ltac:(lia)) as D. assert (0 < IZR S) by (apply IZR_lt; lia).
  assert (E : ((R * Z.of_nat i) mod S = R * Z.of_nat i - S * place i)%Z) by lia. rewrite E, minus_IZR, !mult_IZR, <- INR_IZR_INZ. field. lra.
Qed.
Lemma place_pos i : (0 <= place i)%Z.
Proof. apply Z.div_pos; nia. Qed.
Lemma place_is p i : Nat.eqb p (Z.to_nat (place i)) = true <-> (S * Z.of_nat p <= R * Z.of_nat i < S * (Z.of_nat p + 1))%Z.
Proof.
  rewrite Nat.eqb_eq. pose proof (place_pos i). pose proof (Z.div_mod (R * Z.of_nat i) S ltac:(lia)). pose proof (Z.mod_pos_bound (R * Z.of_nat i) S ltac:(lia)).
  split; intros; [assert (Z.of_nat p = place i) by lia; nia|]. apply Nat2Z.inj. rewrite Z2Nat.id by lia. nia.
Qed.
Lemma place_next p i : Nat.eqb p (Datatypes.S (Z.to_nat (place i))) = true <-> (S * (Z.of_nat p - 1) <= R * Z.of_nat i < S * Z.of_nat p)%Z.
Proof.
  rewrite Nat.eqb_eq. pose proof (place_pos i). pose proof (Z.div_mod (R * Z.of_nat i) S ltac:(lia)). pose proof (Z.mod_pos_bound (R * Z.of_nat i) S ltac:(lia)).
  split; intros; [assert (Z.of_nat p - 1 = place i)%Z by lia; nia|]. apply Nat2Z.inj. rewrite Nat2Z.inj_succ, Z2Nat.id by lia. nia.
Qed.
Lemma weigh_gains k p i j : first_at R S p j ->
  weigh k p i = (if Nat.eqb i j then gain_after k R S p j else 0) + (if Nat.eqb i (j - 1) then (if Nat.eqb j 0 then 0 else gain_before R S p j) else 0).
Proof.
  intros [F1 F2]. assert (Sp : 0 < IZR S) by (apply IZR_lt; lia). unfold weigh. f_equal.
  - destruct (Nat.eqb_spec i j) as [->|N].
    + unfold gain_after. cbv zeta. destruct (Nat.eqb p (Z.to_nat (place j))) eqn:E.
      * pose proof (proj1 (place_is p j) E) as K. apply Nat.eqb_eq in E. rewrite part_exact.
        assert (Ep : IZR (place j) = INR p). { rewrite INR_IZR_INZ. f_equal. pose proof (place_pos j). lia. }
        rewrite Ep. destruct (Rlt_dec _ 1) as [L|L]; [reflexivity|]. exfalso. apply L.
        destruct K as [_ K]. apply IZR_lt in K. rewrite !mult_IZR, plus_IZR, <- !INR_IZR_INZ in K.
        apply Rmult_lt_reg_r with (IZR S); [lra|]. replace ((IZR R * INR j / IZR S - INR p) * IZR S) with (IZR R * INR j - INR p * IZR S) by (field; lra). lra.
      * destruct (Rlt_dec _ 1) as [L|L]; [|reflexivity]. exfalso.
        assert (K : Nat.eqb p (Z.to_nat (place j)) = true); [|congruence]. apply place_is. split; [exact F1|]. apply lt_IZR.
        rewrite !mult_IZR, plus_IZR, <- !INR_IZR_INZ. apply Rmult_lt_compat_r with (r := IZR S) in L; [|lra].
        replace ((IZR R * INR j / IZR S - INR p) * IZR S) with (IZR R * INR j - INR p * IZR S) in L by (field; lra). lra.
    + destruct (Nat.eqb p (Z.to_nat (place i))) eqn:E; [|reflexivity]. apply place_is in E. exfalso.
      assert (i < j \/ j < i)%nat as [L|L] by lia; nia.
  - destruct (Nat.eqb_spec j 0) as [->|J0].
    + assert (P0 : p = O) by nia. subst p. cbn [Nat.eqb Nat.sub]. destruct (Nat.eqb i 0); reflexivity.
    + destruct (Nat.eqb_spec i (j - 1)) as [->|N].
      * assert (Ei : INR (j - 1) = INR j - 1) by (rewrite minus_INR by lia; cbn [INR]; ring).
        unfold gain_before. cbv zeta. destruct (Nat.eqb p (Datatypes.S (Z.to_nat (place (j - 1)%nat)))) eqn:E.
        -- pose proof (proj1 (place_next _ _) E) as K. apply Nat.eqb_eq in E. rewrite part_exact.
           assert (Ep : IZR (place (j - 1)%nat) = INR p - 1). { rewrite INR_IZR_INZ, <- minus_IZR. f_equal. pose proof (place_pos (j - 1)). lia. }
           destruct K as [K _]. apply IZR_le in K. rewrite !mult_IZR, minus_IZR, <- !INR_IZR_INZ, Ei in K.
           rewrite Ep, Ei. replace (IZR R * (INR j - 1) / IZR S - (INR p - 1)) with (1 + (IZR R * INR j / IZR S - INR p) - IZR R / IZR S) by (field; lra).
           rewrite Rmax_right; [reflexivity|]. apply Rmult_le_reg_r with (IZR S); [lra|].
           replace ((1 + (IZR R * INR j / IZR S - INR p) - IZR R / IZR S) * IZR S) with (IZR S + IZR R * INR j - INR p * IZR S - IZR R) by (field; lra). lra.
        -- rewrite Rmax_left; [reflexivity|]. assert (K : ~ (S * (Z.of_nat p - 1) <= R * Z.of_nat (j - 1) < S * Z.of_nat p)%Z) by (rewrite <- place_next, E; discriminate).
           assert (K2 : (R * Z.of_nat (j - 1) < S * (Z.of_nat p - 1))%Z) by nia.
           apply IZR_lt in K2. rewrite !mult_IZR, minus_IZR, <- !INR_IZR_INZ, Ei in K2. apply Rmult_le_reg_r with (IZR S); [lra|].
           replace ((1 + (IZR R * INR j / IZR S - INR p) - IZR R / IZR S) * IZR S) with (IZR S + IZR R * INR j - INR p * IZR S - IZR R) by (field; lra). lra.
      * destruct (Nat.eqb p (Datatypes.S (Z.to_nat (place i)))) eqn:E; [|reflexivity]. apply place_next in E. exfalso.
        assert (i < j - 1 \/ j - 1 < i)%nat as [L|L] by lia; nia.
Qed.
Lemma weigh_total k d n i : (R * Z.of_nat n <= Z.of_nat d * S)%Z -> (i < n)%nat -> total d (fun p => weigh k p i) = spread k R S i.
Proof.
  intros Hd Hi. unfold weigh, spread. cbv zeta.
  assert (L : (Datatypes.S (Z.to_nat (place i)) < d)%nat).
  { pose proof (place_pos i). pose proof (Z.div_mod (R * Z.of_nat i) S ltac:(lia)). pose proof (Z.mod_pos_bound (R * Z.of_nat i) S ltac:(lia)).
    apply Nat2Z.inj_lt. rewrite Nat2Z.inj_succ, Z2Nat.id by lia. nia. }
  rewrite total_plus.
  rewrite (total_ext d _ (fun p => (if Nat.eqb p (Z.to_nat (place i)) then applied k (IZR R / IZR S - part i) else 0) * 1)) by (intros; ring).
  rewrite (total_one d _ _ (fun _ => 1)) by lia.
  rewrite (total_ext d (fun p => if Nat.eqb p (Datatypes.S (Z.to_nat (place i))) then part i else 0) (fun p => (if Nat.eqb p (Datatypes.S (Z.to_nat (place i))) then part i else 0) * 1)) by (intros; ring).
  rewrite (total_one d _ _ (fun _ => 1)) by lia. ring.
Qed.
(** What destination frame [p] is made of. *)
Lemma weigh_frame k p j n (v : nat -> Rdefinitions.R) : first_at R S p j -> (j <= n)%nat -> v n = 0 ->
  total n (fun i => weigh k p i * v i) = gain_before R S p j * v (j - 1)%nat + gain_after k R S p j * v j.
Proof.
  intros F Hj V. rewrite (total_ext n _ (fun i => (if Nat.eqb i j then gain_after k R S p j else 0) * v i + (if Nat.eqb i (j - 1) then (if Nat.eqb j 0 then 0 else gain_before R S p j) else 0) * v i)).
  2:{ intros i _. rewrite (weigh_gains k p i j F). ring. }
  rewrite total_plus.
  assert (E1 : total n (fun i => (if Nat.eqb i j then gain_after k R S p j else 0) * v i) = gain_after k R S p j * v j).
  { destruct (Nat.eq_dec j n) as [->|N]; [rewrite total_none by lia; rewrite V; ring|apply total_one; lia]. }
  rewrite E1. destruct (Nat.eqb_spec j 0) as [->|J0].
  - assert (P0 : p = O) by (destruct F; nia). subst p.
    assert (G0 : gain_before R S 0 0 = 0). { unfold gain_before. cbn [INR]. rewrite Rmax_left; [reflexivity|].
      assert (0 < IZR S) by (apply IZR_lt; lia). apply IZR_lt in Up. assert (1 < IZR R / IZR S) by (apply Rmult_lt_reg_r with (IZR S); [lra|]; replace (IZR R / IZR S * IZR S) with (IZR R) by (field; lra); lra).
      replace (IZR R * 0 / IZR S) with 0 by (field; lra). lra. }
    rewrite G0. cbn [Nat.sub]. rewrite (total_ext n _ (fun _ => 0)), total_zero; [ring|]. intros i _. destruct (Nat.eqb i 0); ring.
  - rewrite total_one by lia. ring.
Qed.
End Spread.

Section SumUp.
Context (rate src : f64) (R S : Z).
Hypothesis HR : whole_rate rate R.
Hypothesis HS : whole_rate src S.
Hypothesis S51 : (S <= 2 ^ 51)%Z.
Hypothesis Up : (S < R)%Z.
Lemma within k p j u w : first_at R S p j -> bottom k <= applied k (IZR R / IZR S) * u <= 1 -> bottom k <= applied k (IZR R / IZR S) * w <= 1 ->
  bottom k <= gain_before R S p j * u + gain_after k R S p j * w <= 1.
Proof.
  intros F U W. destruct (gains_sum rate src R S HR HS S51 Up k p j F) as (G1 & G2 & G3 & _).
  assert (B0 : bottom k <= 0) by (destruct k; cbn [bottom]; lra).
  assert (A1 : 0 < applied k (IZR R / IZR S)). { destruct (gains rate src R S HR HS S51 Up p j F) as [_ X]. cbv zeta in X. destruct k; cbn [applied]; try lra; rewrite Rmin_left; lra. }
  set (A := applied k (IZR R / IZR S)) in *. set (gb := gain_before R S p j) in *. set (ga := gain_after k R S p j) in *.
  split; apply Rmult_le_reg_l with A; try exact A1.
  - replace (A * (gb * u + ga * w)) with (gb * (A * u) + ga * (A * w)) by ring.
    apply Rle_trans with (gb * bottom k + ga * bottom k); [|apply Rplus_le_compat; apply Rmult_le_compat_l; lra]. nra.
  - replace (A * (gb * u + ga * w)) with (gb * (A * u) + ga * (A * w)) by ring.
    apply Rle_trans with (gb * 1 + ga * 1); [apply Rplus_le_compat; apply Rmult_le_compat_l; lra|]. lra.
Qed.
Lemma raise_sum l k ls ks (a a' : audio l k) (s : stream ls ks) n fs d c (v : nat -> Rdefinitions.R) (y : nat -> chan k) :
  s_rate a = rate -> extends src n fs a a' s -> (R * Z.of_N n <= 2 ^ 51)%Z -> aligned rate src R S n -> (Z.of_nat d * S = R * Z.of_N n)%Z ->
  (forall i, (i < N.to_nat n)%nat -> level_at fs i c (v i) /\ bottom k <= applied k (IZR R / IZR S) * v i <= 1) ->
  (forall p, (p < d)%nat -> added a a' p c (y p)) ->
  Rabs (total d (fun p => level (y p)) - total (N.to_nat n) (fun i => spread k R S i * v i))
    <= INR d * (6 * applied k (IZR R / IZR S) * step k + (IZR R / IZR S + INR d + 6) * bpow radix2 (-49)).
Proof.
  intros Ra [X1 X2 X3 (all & X4 & X5) (it & X6)] Hn Al Hd Lv Hy.
  pose proof (proj2 (proj2 HR)) as BR. pose proof (proj2 (proj2 HS)) as BS.
  pose proof (yields_count _ _ _ _ _ X2 X3 X4) as La.
  assert (Lf : length fs = N.to_nat n) by (rewrite (converted_length _ _ _ _ _ _ X5); exact La).
  set (v' := fun i => if Nat.ltb i (N.to_nat n) then v i else 0).
  assert (V' : forall i, level_at fs i c (v' i) /\ bottom k <= applied k (IZR R / IZR S) * v' i <= 1).
  { intros i. unfold v'. destruct (Nat.ltb_spec i (N.to_nat n)) as [L|G]; [exact (Lv i L)|]. split.
    - intros f x Hf. assert (nth_error fs i = None) by (apply nth_error_None; lia). congruence.
    - rewrite Rmult_0_r. destruct k; cbn [bottom]; lra. }
  rewrite (total_ext (N.to_nat n) _ (fun i => total d (fun p => weigh R S k p i * v' i))).
  2:{ intros i Hi. rewrite <- (weigh_total R S ltac:(lia) Up k d (N.to_nat n) i) by lia. unfold v'. destruct (Nat.ltb_spec i (N.to_nat n)); [|lia].
      rewrite Rmult_comm, <- total_scale. apply total_ext. intros. ring. }
  rewrite <- (total_swap d (N.to_nat n) (fun p i => weigh R S k p i * v' i)).
  apply total_near. intros p Hp. destruct (Hy p Hp) as (b & Hb & Hc).
  destruct (first_exists rate src R S HR HS S51 Up p) as (j & F).
  assert (Pd : ((Z.of_nat p + 1) * S <= R * Z.of_N n)%Z) by nia.
  assert (Jn : (j <= N.to_nat n)%nat). { destruct F. nia. }
  rewrite (weigh_frame R S ltac:(lia) Up k p j (N.to_nat n) v' F Jn) by (unfold v'; rewrite Nat.ltb_irrefl; reflexivity).
  pose proof (raise_frame rate src R S HR HS S51 Up l k ls ks a a' s it n all fs p j c _ _ b (y p) Ra X1 X2 X3 X4 X5 Hn Al X6 Pd F (proj1 (V' j)) (proj1 (V' (j - 1)%nat)) Hb Hc) as K.
  rewrite limited_in in K by (apply within; [exact F|apply V'|apply V']).
  apply Rle_trans with (1 := K). apply Rplus_le_compat_l. apply Rmult_le_compat_r; [apply bpow_ge_0|]. pose proof (lt_INR p d Hp). lra.
Qed.
(** The same when the new length is not a whole number of frames. *)
Lemma raise_sum_part l k ls ks (a a' : audio l k) (s : stream ls ks) n fs d c (v : nat -> Rdefinitions.R) (y : nat -> chan k) : (S < 2 ^ 50)%Z ->
  s_rate a = rate -> extends src n fs a a' s -> (R * Z.of_N n <= 2 ^ 51)%Z -> aligned rate src R S n ->
  (S * Z.of_nat d < R * Z.of_N n < S * (Z.of_nat d + 1))%Z ->
  (forall i, (i < N.to_nat n)%nat -> level_at fs i c (v i) /\ bottom k <= applied k (IZR R / IZR S) * v i <= 1) ->
  (forall p, (p < Datatypes.S d)%nat -> added a a' p c (y p)) ->
  Rabs (total (Datatypes.S d) (fun p => level (y p)) - total (N.to_nat n) (fun i => spread k R S i * v i))
    <= INR (Datatypes.S d) * (6 * applied k (IZR R / IZR S) * step k + (IZR R / IZR S + INR (Datatypes.S d) + 6) * bpow radix2 (-49)).
Proof.
  intros S50 Ra [X1 X2 X3 (all & X4 & X5) (it & X6)] Hn Al Hd Lv Hy.
  pose proof (proj2 (proj2 HR)) as BR. pose proof (proj2 (proj2 HS)) as BS.
  pose proof (yields_count _ _ _ _ _ X2 X3 X4) as La.
  assert (Lf : length fs = N.to_nat n) by (rewrite (converted_length _ _ _ _ _ _ X5); exact La).
  set (v' := fun i => if Nat.ltb i (N.to_nat n) then v i else 0).
  assert (V' : forall i, level_at fs i c (v' i) /\ bottom k <= applied k (IZR R / IZR S) * v' i <= 1).
  { intros i. unfold v'. destruct (Nat.ltb_spec i (N.to_nat n)) as [L|G]; [exact (Lv i L)|]. split.
    - intros f x Hf. assert (nth_error fs i = None) by (apply nth_error_None; lia). congruence.
    - rewrite Rmult_0_r. destruct k; cbn [bottom]; lra. }
  rewrite (total_ext (N.to_nat n) _ (fun i => total (Datatypes.S d) (fun p => weigh R S k p i * v' i))).
  2:{ intros i Hi. rewrite <- (weigh_total R S ltac:(lia) Up k (Datatypes.S d) (N.to_nat n) i) by lia. unfold v'. destruct (Nat.ltb_spec i (N.to_nat n)); [|lia].
      rewrite Rmult_comm, <- total_scale. apply total_ext. intros. ring. }
  rewrite <- (total_swap (Datatypes.S d) (N.to_nat n) (fun p i => weigh R S k p i * v' i)).
  assert (A1 : 1 <= applied k (IZR R / IZR S)).
  { destruct (first_exists rate src R S HR HS S51 Up 0) as (j & F). destruct (gains rate src R S HR HS S51 Up 0%nat j F) as [_ X]. cbv zeta in X. destruct k; cbn [applied]; try lra; rewrite Rmin_left; lra. }
  assert (T0 : 0 <= step k) by (destruct k; cbn [step]; try lra; apply bpow_ge_0).
  assert (Q0 : 0 <= IZR R / IZR S) by (apply Rmult_le_pos; [apply IZR_le; lia|left; apply Rinv_0_lt_compat, IZR_lt; lia]).
  apply total_near. intros p Hp. destruct (Hy p Hp) as (b & Hb & Hc).
  destruct (Nat.eq_dec p d) as [->|Np].
  - assert (F : first_at R S d (N.to_nat n)) by (unfold first_at; lia).
    rewrite (weigh_frame R S ltac:(lia) Up k d (N.to_nat n) (N.to_nat n) v' F (Nat.le_refl _)) by (unfold v'; rewrite Nat.ltb_irrefl; reflexivity).
    assert (Vn : v' (N.to_nat n) = 0) by (unfold v'; rewrite Nat.ltb_irrefl; reflexivity). rewrite Vn, Rmult_0_r, Rplus_0_r.
    pose proof (raise_last rate src R S HR HS S51 Up l k ls ks a a' s it n all fs d c _ b (y d) S50 Ra X1 X2 X3 X4 X5 Hn Al X6 Hd (proj1 (V' (N.to_nat n - 1)%nat)) Hb Hc) as K.
    apply Rle_trans with (1 := K). apply Rplus_le_compat; [nra|]. apply Rmult_le_compat_r; [apply bpow_ge_0|]. rewrite S_INR. lra.
  - destruct (first_exists rate src R S HR HS S51 Up p) as (j & F).
    assert (Pd : ((Z.of_nat p + 1) * S <= R * Z.of_N n)%Z) by nia.
    assert (Jn : (j <= N.to_nat n)%nat). { destruct F. nia. }
    rewrite (weigh_frame R S ltac:(lia) Up k p j (N.to_nat n) v' F Jn) by (unfold v'; rewrite Nat.ltb_irrefl; reflexivity).
    pose proof (raise_frame rate src R S HR HS S51 Up l k ls ks a a' s it n all fs p j c _ _ b (y p) Ra X1 X2 X3 X4 X5 Hn Al X6 Pd F (proj1 (V' j)) (proj1 (V' (j - 1)%nat)) Hb Hc) as K.
    rewrite limited_in in K by (apply within; [exact F|apply V'|apply V']).
    apply Rle_trans with (1 := K). apply Rplus_le_compat_l. apply Rmult_le_compat_r; [apply bpow_ge_0|]. pose proof (lt_INR p (Datatypes.S d) Hp). lra.
Qed.
Lemma spread_float k i : (k = K32 \/ k = K64) -> spread k R S i = IZR R / IZR S.
Proof. unfold spread. intros [-> | ->]; cbn [applied]; ring. Qed.
Lemma raise_mean l k ls ks (a a' : audio l k) (s : stream ls ks) n fs d c (v : nat -> Rdefinitions.R) (y : nat -> chan k) :
  (k = K32 \/ k = K64) -> (0 < d)%nat ->
  s_rate a = rate -> extends src n fs a a' s -> (R * Z.of_N n <= 2 ^ 51)%Z -> aligned rate src R S n -> (Z.of_nat d * S = R * Z.of_N n)%Z ->
  (forall i, (i < N.to_nat n)%nat -> level_at fs i c (v i) /\ Rabs (v i) <= IZR S / IZR R) ->
  (forall p, (p < d)%nat -> added a a' p c (y p)) ->
  Rabs (total d (fun p => level (y p)) / INR d - total (N.to_nat n) v / INR (N.to_nat n))
    <= 6 * (IZR R / IZR S) * step k + (IZR R / IZR S + INR d + 6) * bpow radix2 (-49).
Proof.
  intros Fk D0 Ra X Hn Al Hd Lv Hy. pose proof (proj2 (proj2 HR)) as BR. pose proof (proj2 (proj2 HS)) as BS.
  assert (Sp : 0 < IZR S) by (apply IZR_lt; lia). assert (Rp : 0 < IZR R) by (apply IZR_lt; lia).
  assert (Ap : applied k (IZR R / IZR S) = IZR R / IZR S) by (destruct Fk as [-> | ->]; reflexivity).
  assert (Bk : bottom k = -1) by (destruct Fk as [-> | ->]; reflexivity).
  pose proof (raise_sum l k ls ks a a' s n fs d c v y Ra X Hn Al Hd) as K. rewrite Ap, Bk in K. specialize (K ltac:(
    intros i Hi; destruct (Lv i Hi) as [L B]; split; [exact L|]; apply Rabs_le_inv in B;
    assert (Q : 0 < IZR R / IZR S) by (apply Rdiv_lt_0_compat; lra);
    assert (Q1 : IZR R / IZR S * (IZR S / IZR R) = 1) by (field; lra); nra) Hy).
  rewrite (total_ext (N.to_nat n) _ (fun i => IZR R / IZR S * v i)) in K by (intros i _; now rewrite spread_float).
  rewrite total_scale in K.
  assert (Dp : 0 < INR d) by (apply lt_0_INR; exact D0).
  assert (En : INR d * IZR S = IZR R * INR (N.to_nat n)).
  { rewrite !INR_IZR_INZ, <- !mult_IZR, N_nat_Z. f_equal. exact Hd. }
  assert (Np : 0 < INR (N.to_nat n)) by nra.
  apply Rmult_le_reg_l with (INR d); [exact Dp|]. rewrite <- (Rabs_pos_eq (INR d)) at 1 by lra. rewrite <- Rabs_mult.
  replace (INR d * (total d (fun p => level (y p)) / INR d - total (N.to_nat n) v / INR (N.to_nat n)))
    with (total d (fun p => level (y p)) - IZR R / IZR S * total (N.to_nat n) v); [exact K|].
  assert (Eq : INR d = IZR R / IZR S * INR (N.to_nat n)). { apply Rmult_eq_reg_r with (IZR S); [|lra]. rewrite En. field. lra. }
  rewrite Rmult_minus_distr_l. f_equal; [field; lra|]. rewrite Eq at 1. field. lra.
Qed.
End SumUp.
Lemma spread_facts k R S i : (1 <= S < R)%Z ->
  ((k = K32 \/ k = K64) -> spread k R S i = IZR R / IZR S) /\
  (is_int k -> 1 <= spread k R S i <= 2 /\ spread k R S i <= IZR R / IZR S) /\
  (is_int k -> ((R * Z.of_nat i) mod S = 0)%Z -> spread k R S i = 1).
Proof.
  intros H. assert (Sp : 0 < IZR S) by (apply IZR_lt; lia). assert (Q : 1 < IZR R / IZR S).
  { apply Rmult_lt_reg_r with (IZR S); [lra|]. replace (IZR R / IZR S * IZR S) with (IZR R) by (field; lra). rewrite Rmult_1_l. apply IZR_lt. lia. }
  pose proof (Z.mod_pos_bound (R * Z.of_nat i) S ltac:(lia)) as M.
  assert (T : 0 <= IZR ((R * Z.of_nat i) mod S) / IZR S < 1).
  { destruct M as [M1 M2]. apply IZR_le in M1. apply IZR_lt in M2. split.
    - apply Rmult_le_pos; [lra|left; apply Rinv_0_lt_compat; lra].
    - apply Rmult_lt_reg_r with (IZR S); [lra|]. replace (IZR ((R * Z.of_nat i) mod S) / IZR S * IZR S) with (IZR ((R * Z.of_nat i) mod S)) by (field; lra). lra. }
  split; [apply spread_float|]. unfold spread. cbv zeta. split.
  - intros [-> | ->]; cbn [applied]; unfold Rmin; destruct (Rle_dec _ _); lra.
  - intros I E. rewrite E. replace (0 / IZR S) with 0 by (field; lra). destruct I as [-> | ->]; cbn [applied]; rewrite Rmin_left by lra; lra.
Qed.
