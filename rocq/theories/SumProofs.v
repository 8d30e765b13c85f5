(** * SumProofs.v -- proofs for C96 *)
From Coq Require Import ZArith NArith Reals Bool List Lia Lra.
From Flocq Require Import Core.Core IEEE754.BinarySingleNaN.
From Verif Require Import Rust Float Chan Frame Ops Stream Audio SpecChan SpecFrame SpecStream SpecSink SpecAudio SpecMore SpecRaise SpecLower SpecSum.
From Verif Require Import FloatProofs IntProofs WholeProofs AudioProofs GainProofs LowerProofs.
Import ListNotations.
Open Scope R_scope.

Lemma total_ext n f g : (forall i, (i < n)%nat -> f i = g i) -> total n f = total n g.
Proof. induction n as [|n IH]; intros H; cbn [total]; [reflexivity|]. rewrite IH, (H n) by (intros; try apply H; lia). reflexivity. Qed.
Lemma total_plus n f g : total n (fun i => f i + g i) = total n f + total n g.
Proof. induction n as [|n IH]; cbn [total]; [ring|]. rewrite IH. ring. Qed.
Lemma total_scale n c f : total n (fun i => c * f i) = c * total n f.
Proof. induction n as [|n IH]; cbn [total]; [ring|]. rewrite IH. ring. Qed.
Lemma total_zero n : total n (fun _ => 0) = 0.
Proof. induction n as [|n IH]; cbn [total]; [reflexivity|]. rewrite IH. ring. Qed.
Lemma total_swap d n (f : nat -> nat -> R) : total d (fun p => total n (f p)) = total n (fun i => total d (fun p => f p i)).
Proof. induction d as [|d IH]; cbn [total]; [now rewrite total_zero|]. rewrite IH, <- total_plus. reflexivity. Qed.
Lemma total_near d f g e : (forall p, (p < d)%nat -> Rabs (f p - g p) <= e) -> Rabs (total d f - total d g) <= INR d * e.
Proof.
  induction d as [|d IH]; intros H.
  - cbn [total INR]. rewrite Rminus_diag_eq, Rabs_R0 by reflexivity. lra.
  - cbn [total]. rewrite S_INR. replace (total d f + f d - (total d g + g d)) with ((total d f - total d g) + (f d - g d)) by ring.
    apply Rle_trans with (1 := Rabs_triang _ _). pose proof (IH ltac:(intros; apply H; lia)). pose proof (H d ltac:(lia)). lra.
Qed.

Section Counted.
Context (R S : Z).
Hypothesis R1 : (1 <= R)%Z.
Hypothesis RS : (R <= S)%Z.
Notation q := (IZR R / IZR S).
Lemma share_counted d i : total d (fun p => share R S p i) = counted R S d i.
Proof.
  destruct (q_range R S R1 RS) as [Q [A B]]. unfold counted.
  replace ((IZR R * INR i + IZR S) / IZR S) with (q * INR i + 1) by (field; lra).
  replace ((IZR R * INR i - IZR R + IZR S) / IZR S) with (q * INR i + 1 - q) by (field; lra).
  pose proof (pos_INR i) as I0. assert (X0 : 0 <= q * INR i) by nra. induction d as [|m IH].
  - cbn [total INR]. rewrite !Rmin_left by lra. ring.
  - cbn [total]. rewrite IH, (share_clamp R S R1 RS), S_INR. pose proof (pos_INR m) as M0. revert X0 M0. generalize (q * INR i) (INR m). intros x y X0 M0.
    set (z := q) in *. clearbody z. mm.
Qed.
Lemma counted_whole d i : (R * Z.of_nat i + S <= S * Z.of_nat d)%Z -> counted R S d i = q.
Proof. intros H. rewrite <- share_counted. exact (share_spread R S R1 RS i d H). Qed.
Lemma counted_none d i : (S * Z.of_nat d <= R * (Z.of_nat i - 1) + S)%Z -> counted R S d i = 0.
Proof.
  intros H. destruct (q_range R S R1 RS) as [Q [A B]]. unfold counted.
  replace ((IZR R * INR i + IZR S) / IZR S) with (q * INR i + 1) by (field; lra).
  replace ((IZR R * INR i - IZR R + IZR S) / IZR S) with (q * INR i + 1 - q) by (field; lra).
  assert (L : INR d <= q * INR i + 1 - q).
  { apply IZR_le in H. rewrite plus_IZR, !mult_IZR, minus_IZR, <- !INR_IZR_INZ in H. apply Rmult_le_reg_r with (IZR S); [lra|].
    replace ((q * INR i + 1 - q) * IZR S) with (IZR R * (INR i - 1) + IZR S) by (field; lra). lra. }
  rewrite !Rmin_left by lra. ring.
Qed.
Lemma counted_range d i : 0 <= counted R S d i <= q.
Proof.
  destruct (q_range R S R1 RS) as [Q [A B]]. unfold counted.
  replace ((IZR R * INR i + IZR S) / IZR S) with (q * INR i + 1) by (field; lra).
  replace ((IZR R * INR i - IZR R + IZR S) / IZR S) with (q * INR i + 1 - q) by (field; lra).
  generalize (q * INR i) (INR d). intros x y. set (z := q) in *. clearbody z. split; mm.
Qed.
End Counted.
Lemma counted_facts R S : (1 <= R <= S)%Z ->
  (forall d i, 0 <= counted R S d i <= IZR R / IZR S) /\
  (forall d i, (R * Z.of_nat i + S <= S * Z.of_nat d)%Z -> counted R S d i = IZR R / IZR S) /\
  (forall d i, (S * Z.of_nat d <= R * (Z.of_nat i - 1) + S)%Z -> counted R S d i = 0).
Proof.
  intros [A B]. split; [exact (counted_range R S A B)|]. split; [exact (counted_whole R S A B)|exact (counted_none R S A B)].
Qed.

Section Sum.
Context (rate src : f64) (R S : Z).
Hypothesis HR : whole_rate rate R.
Hypothesis HS : whole_rate src S.
Hypothesis S50 : (S <= 2 ^ 50)%Z.
Hypothesis RS : (R <= S)%Z.
Lemma lower_sum l k ls ks (a a' : audio l k) (s it : stream ls ks) n all (fs : list (frame l k)) d c (v : nat -> Rdefinitions.R) (y : nat -> chan k) :
  s_rate a = rate -> sample_rate s = Some src -> honest s -> slen s = Some n -> yields s all -> converted all fs ->
  (R * Z.of_N n <= 2 ^ 51)%Z -> extend (Datatypes.S (N.to_nat n)) a s = (a', Ok it) ->
  (Z.of_nat d * S < R * Z.of_N n \/ Z.of_nat d * S = R * Z.of_N n /\ (S <= 2 ^ 49)%Z /\ aligned rate src R S n)%Z ->
  (forall i, (i < N.to_nat n)%nat -> level_at fs i c (v i)) ->
  (forall p, (p < d)%nat -> exists b, audio_get a' (audio_len a + p) = Some b /\ nth_error (channels b) c = Some (y p)) ->
  Rabs (total d (fun p => level (y p)) - total (N.to_nat n) (fun i => counted R S d i * v i))
    <= INR d * ((IZR S / IZR R + 7) * (step k + (INR d + 6) * bpow radix2 (-49))).
Proof.
  intros Ea Er Ho Hl Ya Cv Hn He Hd Lv Hy. pose proof (proj2 (proj2 HR)) as BR. pose proof (proj2 (proj2 HS)) as BS.
  rewrite (total_ext (N.to_nat n) _ (fun i => total d (fun p => share R S p i * v i))).
  2:{ intros i _. rewrite <- (share_counted R S ltac:(lia) RS d i), Rmult_comm, <- total_scale. apply total_ext. intros. ring. }
  rewrite <- (total_swap d (N.to_nat n) (fun p i => share R S p i * v i)).
  apply total_near. intros p Hp. destruct (Hy p Hp) as (b & Hb & Hc).
  apply Rle_trans with ((IZR S / IZR R + 7) * (step k + (INR p + 6) * bpow radix2 (-49))).
  - eapply (lower_frame rate src R S HR HS); try eassumption.
    assert ((Z.of_nat p + 1 < Z.of_nat d)%Z \/ (Z.of_nat p + 1 = Z.of_nat d)%Z) as [L|E] by lia; [left; nia|]. rewrite E. exact Hd.
  - destruct (q_range R S ltac:(lia) RS) as [_ [A B]]. assert (0 <= IZR S / IZR R) by (apply Rmult_le_pos; [lra|left; apply Rinv_0_lt_compat; lra]).
    apply Rmult_le_compat_l; [lra|]. apply Rplus_le_compat_l. apply Rmult_le_compat_r; [apply bpow_ge_0|].
    pose proof (lt_INR p d Hp). lra.
Qed.
Lemma lower_mean l k ls ks (a a' : audio l k) (s it : stream ls ks) n all (fs : list (frame l k)) d c (v : nat -> Rdefinitions.R) (y : nat -> chan k) :
  s_rate a = rate -> sample_rate s = Some src -> honest s -> slen s = Some n -> yields s all -> converted all fs ->
  (R * Z.of_N n <= 2 ^ 51)%Z -> extend (Datatypes.S (N.to_nat n)) a s = (a', Ok it) ->
  (0 < d)%nat -> (Z.of_nat d * S = R * Z.of_N n)%Z -> (S <= 2 ^ 49)%Z -> aligned rate src R S n ->
  (forall i, (i < N.to_nat n)%nat -> level_at fs i c (v i)) ->
  (forall i, (i < N.to_nat n)%nat -> (S * Z.of_nat d < R * Z.of_nat i + S)%Z -> v i = 0) ->
  (forall p, (p < d)%nat -> exists b, audio_get a' (audio_len a + p) = Some b /\ nth_error (channels b) c = Some (y p)) ->
  Rabs (total d (fun p => level (y p)) / INR d - total (N.to_nat n) v / INR (N.to_nat n))
    <= (IZR S / IZR R + 7) * (step k + (INR d + 6) * bpow radix2 (-49)).
Proof.
  intros Ea Er Ho Hl Ya Cv Hn He D0 Hd S49 Al Lv Si Hy. pose proof (proj2 (proj2 HR)) as BR. pose proof (proj2 (proj2 HS)) as BS.
  pose proof (lower_sum l k ls ks a a' s it n all fs d c v y Ea Er Ho Hl Ya Cv Hn He ltac:(right; auto) Lv Hy) as K.
  destruct (q_range R S ltac:(lia) RS) as [Q [A B]].
  rewrite (total_ext (N.to_nat n) _ (fun i => IZR R / IZR S * v i)) in K.
  2:{ intros i Hi. destruct (Z_le_gt_dec (R * Z.of_nat i + S) (S * Z.of_nat d)) as [L|G].
      - rewrite (counted_whole R S ltac:(lia) RS d i L). reflexivity.
      - rewrite (Si i Hi ltac:(lia)). ring. }
  rewrite total_scale in K.
  assert (Dp : 0 < INR d) by (apply lt_0_INR; exact D0).
  assert (En : INR d * IZR S = IZR R * INR (N.to_nat n)).
  { rewrite !INR_IZR_INZ, <- !mult_IZR, N_nat_Z. f_equal. exact Hd. }
  assert (Np : 0 < INR (N.to_nat n)) by nra.
  apply Rmult_le_reg_l with (INR d); [exact Dp|]. rewrite <- (Rabs_pos_eq (INR d)) at 1 by lra. rewrite <- Rabs_mult.
  replace (INR d * (total d (fun p => level (y p)) / INR d - total (N.to_nat n) v / INR (N.to_nat n)))
    with (total d (fun p => level (y p)) - IZR R / IZR S * total (N.to_nat n) v); [exact K|].
  assert (Eq : INR d = IZR R / IZR S * INR (N.to_nat n)). { apply Rmult_eq_reg_r with (IZR S); [|lra]. rewrite En. field. lra. }
  rewrite Rmult_minus_distr_l. f_equal; [field; lra|]. rewrite Eq at 1. field. lra.
Qed.
End Sum.
