(** * NearbyProofs.v -- proofs for C97 *)
From Coq Require Import ZArith NArith Reals Bool List Lia Lra.
From Flocq Require Import Core.Core IEEE754.BinarySingleNaN.
From Verif Require Import Rust Float Chan Frame Ops Stream Audio SpecChan SpecFrame SpecStream SpecSink SpecAudio SpecMore SpecRaise SpecLower SpecNearby.
From Verif Require Import FloatProofs IntProofs FrameProofs WholeProofs AudioProofs StreamProofs MixProofs ResampleProofs SinkProofs  GainProofs RaiseProofs LowerProofs SumProofs.
Import ListNotations.
Open Scope R_scope.

(** The levels of channel [c], 0 where there is none. *)
Definition levels {l k} (fs : list (frame l k)) (c i : nat) : R :=
  match nth_error fs i with
  | Some f => match nth_error (channels f) c with Some x => level x | None => 0 end
  | None => 0
  end.
Lemma nearby_levels {l k} n c e (fs gs : list (frame l k)) : nearby n c e fs gs -> length fs = n -> length gs = n -> 0 <= e ->
  (forall i, level_at fs i c (levels fs c i)) /\ (forall i, level_at gs i c (levels gs c i)) /\
  forall i, Rabs (levels fs c i - levels gs c i) <= e.
Proof.
  intros N Lf Lg E.
  assert (B : forall i f, nth_error fs i = Some f -> (i < n)%nat) by (intros i f H; rewrite <- Lf; apply nth_error_Some; congruence).
  assert (B2 : forall i f, nth_error gs i = Some f -> (i < n)%nat) by (intros i f H; rewrite <- Lg; apply nth_error_Some; congruence).
  split; [|split].
  - intros i f x Hf Hx. destruct (N i (B i f Hf)) as (f' & g & x' & y & H1 & H2 & H3 & H4 & V & _).
    unfold levels. rewrite Hf, Hx. split; [|reflexivity]. congruence.
  - intros i f x Hf Hx. destruct (N i (B2 i f Hf)) as (f' & g & x' & y & H1 & H2 & H3 & H4 & _ & V & _).
    unfold levels. rewrite Hf, Hx. split; [|reflexivity]. congruence.
  - intros i. destruct (le_lt_dec n i) as [H|H].
    + unfold levels. rewrite (proj2 (nth_error_None fs i)), (proj2 (nth_error_None gs i)) by lia. rewrite Rminus_diag_eq, Rabs_R0 by reflexivity. exact E.
    + destruct (N i H) as (f' & g & x' & y & H1 & H2 & H3 & H4 & _ & _ & D). unfold levels. rewrite H1, H2, H3, H4. exact D.
Qed.

Lemma apart3 a b x y e d : Rabs (a - x) <= d -> Rabs (b - y) <= d -> Rabs (x - y) <= e -> Rabs (a - b) <= e + 2 * d.
Proof. intros A B C. apply Rabs_le. apply Rabs_le_inv in A, B, C. lra. Qed.

Section Raise.
Context (rate src : f64) (R S : Z).
Hypothesis HR : whole_rate rate R.
Hypothesis HS : whole_rate src S.
Hypothesis S51 : (S <= 2 ^ 51)%Z.
Hypothesis Up : (S < R)%Z.
Lemma first_exists p : exists i, first_at R S p i.
Proof.
  pose proof (proj2 (proj2 HR)) as BR. pose proof (proj2 (proj2 HS)) as BS.
  exists (Z.to_nat ((S * Z.of_nat p + R - 1) / R)). unfold first_at.
  assert (D := Z.div_mod (S * Z.of_nat p + R - 1) R ltac:(lia)). assert (M := Z.mod_pos_bound (S * Z.of_nat p + R - 1) R ltac:(lia)).
  assert (0 <= (S * Z.of_nat p + R - 1) / R)%Z by (apply Z.div_pos; nia).
  rewrite Z2Nat.id by lia. nia.
Qed.
Lemma nearby_raise l k ls ks ls2 ks2 (a a' b b' : audio l k) (s : stream ls ks) (t : stream ls2 ks2) n fs gs c e p y z :
  s_rate a = rate -> s_rate b = rate -> extends src n fs a a' s -> extends src n gs b b' t -> nearby (N.to_nat n) c e fs gs -> 0 <= e ->
  (R * Z.of_N n <= 2 ^ 51)%Z -> aligned rate src R S n -> ((Z.of_nat p + 1) * S <= R * Z.of_N n)%Z ->
  added a a' p c y -> added b b' p c z ->
  Rabs (level y - level z) <= applied k (IZR R / IZR S) * e
    + 2 * (6 * applied k (IZR R / IZR S) * step k + (IZR R / IZR S + INR p + 6) * bpow radix2 (-49)).
Proof.
  intros Ra Rb [X1 X2 X3 (all & X4 & X5) (it & X6)] [Y1 Y2 Y3 (all2 & Y4 & Y5) (it2 & Y6)] Nb E Hn Al Hp (u & U1 & U2) (w & W1 & W2).
  pose proof (yields_count _ _ _ _ _ X2 X3 X4) as La. pose proof (yields_count _ _ _ _ _ Y2 Y3 Y4) as Lb.
  assert (Lf : length fs = N.to_nat n) by (rewrite (converted_length _ _ _ _ _ _ X5); exact La).
  assert (Lg : length gs = N.to_nat n) by (rewrite (converted_length _ _ _ _ _ _ Y5); exact Lb).
  destruct (nearby_levels _ _ _ _ _ Nb Lf Lg E) as (V & W & D).
  destruct (first_exists p) as (i & F).
  pose proof (raise_frame rate src R S HR HS S51 Up l k ls ks a a' s it n all fs p i c _ _ u y Ra X1 X2 X3 X4 X5 Hn Al X6 Hp F (V i) (V (i - 1)%nat) U1 U2) as K1.
  pose proof (raise_frame rate src R S HR HS S51 Up l k ls2 ks2 b b' t it2 n all2 gs p i c _ _ w z Rb Y1 Y2 Y3 Y4 Y5 Hn Al Y6 Hp F (W i) (W (i - 1)%nat) W1 W2) as K2.
  apply (apart3 _ _ _ _ _ _ K1 K2). apply Rle_trans with (1 := limited_lip _ _ _).
  destruct (gains_sum rate src R S HR HS S51 Up k p i F) as (G1 & G2 & G3 & _).
  pose proof (D i) as D1. pose proof (D (i - 1)%nat) as D2.
  set (gb := gain_before R S p i) in *. set (ga := gain_after k R S p i) in *.
  replace (gb * levels fs c (i - 1) + ga * levels fs c i - (gb * levels gs c (i - 1) + ga * levels gs c i))
    with (gb * (levels fs c (i - 1) - levels gs c (i - 1)) + ga * (levels fs c i - levels gs c i)) by ring.
  apply Rle_trans with (1 := Rabs_triang _ _). rewrite !Rabs_mult, (Rabs_pos_eq gb), (Rabs_pos_eq ga) by assumption.
  apply Rle_trans with (gb * e + ga * e); [apply Rplus_le_compat; apply Rmult_le_compat_l; assumption|].
  rewrite <- Rmult_plus_distr_r. apply Rmult_le_compat_r; assumption.
Qed.
Lemma nearby_raise_last l k ls ks ls2 ks2 (a a' b b' : audio l k) (s : stream ls ks) (t : stream ls2 ks2) n fs gs c e p y z :
  (S < 2 ^ 50)%Z ->
  s_rate a = rate -> s_rate b = rate -> extends src n fs a a' s -> extends src n gs b b' t -> nearby (N.to_nat n) c e fs gs -> 0 <= e ->
  (R * Z.of_N n <= 2 ^ 51)%Z -> aligned rate src R S n -> (S * Z.of_nat p < R * Z.of_N n < S * (Z.of_nat p + 1))%Z ->
  added a a' p c y -> added b b' p c z ->
  Rabs (level y - level z) <= e + 2 * (5 * step k + (INR p + 6) * bpow radix2 (-49)).
Proof.
  intros S50 Ra Rb [X1 X2 X3 (all & X4 & X5) (it & X6)] [Y1 Y2 Y3 (all2 & Y4 & Y5) (it2 & Y6)] Nb E Hn Al Hp (u & U1 & U2) (w & W1 & W2).
  pose proof (yields_count _ _ _ _ _ X2 X3 X4) as La. pose proof (yields_count _ _ _ _ _ Y2 Y3 Y4) as Lb.
  assert (Lf : length fs = N.to_nat n) by (rewrite (converted_length _ _ _ _ _ _ X5); exact La).
  assert (Lg : length gs = N.to_nat n) by (rewrite (converted_length _ _ _ _ _ _ Y5); exact Lb).
  destruct (nearby_levels _ _ _ _ _ Nb Lf Lg E) as (V & W & D).
  pose proof (raise_last rate src R S HR HS S51 Up l k ls ks a a' s it n all fs p c _ u y S50 Ra X1 X2 X3 X4 X5 Hn Al X6 Hp (V (N.to_nat n - 1)%nat) U1 U2) as K1.
  pose proof (raise_last rate src R S HR HS S51 Up l k ls2 ks2 b b' t it2 n all2 gs p c _ w z S50 Rb Y1 Y2 Y3 Y4 Y5 Hn Al Y6 Hp (W (N.to_nat n - 1)%nat) W1 W2) as K2.
  apply (apart3 _ _ _ _ _ _ K1 K2).
  assert (G : 0 <= gain_before R S p (N.to_nat n) <= 1).
  { pose proof (proj2 (proj2 HR)) as BR. pose proof (proj2 (proj2 HS)) as BS. unfold gain_before. split; [apply Rmax_l|]. apply Rmax_lub; [lra|].
    assert (S0 : 1 <= IZR S) by (apply IZR_le; lia). assert (S2 : IZR S <= IZR R) by (apply IZR_le; lia).
    destruct Hp as [_ Hp]. apply IZR_lt in Hp. rewrite !mult_IZR, plus_IZR in Hp. rewrite INR_IZR_INZ, N_nat_Z, INR_IZR_INZ.
    apply Rmult_le_reg_r with (IZR S); [lra|]. unfold Rdiv. rewrite !Rmult_minus_distr_r, !Rmult_plus_distr_r.
    replace (IZR R * / IZR S * IZR S) with (IZR R) by (field; lra). replace ((IZR R * IZR (Z.of_N n) * / IZR S - IZR (Z.of_nat p)) * IZR S) with (IZR R * IZR (Z.of_N n) - IZR S * IZR (Z.of_nat p)) by (field; lra).
    lra. }
  rewrite <- Rmult_minus_distr_l, Rabs_mult, (Rabs_pos_eq (gain_before _ _ _ _)) by apply G.
  pose proof (D (N.to_nat n - 1)%nat) as D1. pose proof (Rabs_pos (levels fs c (N.to_nat n - 1) - levels gs c (N.to_nat n - 1))).
  apply Rle_trans with (1 * e); [apply Rmult_le_compat; lra|lra].
Qed.
End Raise.

Section Lower.
Context (rate src : f64) (R S : Z).
Hypothesis HR : whole_rate rate R.
Hypothesis HS : whole_rate src S.
Hypothesis S50 : (S <= 2 ^ 50)%Z.
Hypothesis Down : (R <= S)%Z.
Lemma share_sum_le p n : total n (share R S p) <= 1.
Proof.
  pose proof (proj2 (proj2 HR)) as BR. pose proof (proj2 (proj2 HS)) as BS. assert (R1 : (1 <= R)%Z) by lia.
  destruct (q_range R S R1 Down) as [Q [A B]].
  assert (T : forall m, total m (share R S p) = Rmax (INR p) (Rmin (INR p + 1) (IZR R / IZR S * INR m + 1 - IZR R / IZR S)) - Rmax (INR p) (Rmin (INR p + 1) (1 - IZR R / IZR S))).
  { induction m as [|m IH].
    - cbn [total INR]. rewrite Rmult_0_r, Rplus_0_l. ring.
    - cbn [total]. rewrite IH, (share_clamp R S R1 Down), S_INR. replace (IZR R / IZR S * (INR m + 1) + 1 - IZR R / IZR S) with (IZR R / IZR S * INR m + 1) by ring. ring. }
  rewrite T. generalize (INR p) (IZR R / IZR S * INR n + 1 - IZR R / IZR S) (1 - IZR R / IZR S). intros x y z. mm.
Qed.
Lemma weighed_near p n e (v w : nat -> Rdefinitions.R) : 0 <= e -> (forall i, Rabs (v i - w i) <= e) ->
  Rabs (total n (fun i => share R S p i * v i) - total n (fun i => share R S p i * w i)) <= e.
Proof.
  intros E D. pose proof (proj2 (proj2 HR)) as BR. assert (R1 : (1 <= R)%Z) by lia.
  apply Rle_trans with (total n (fun i => share R S p i) * e).
  - induction n as [|n IH]; cbn [total]; [rewrite Rminus_diag_eq, Rabs_R0 by reflexivity; lra|].
    replace (total n (fun i => share R S p i * v i) + share R S p n * v n - (total n (fun i => share R S p i * w i) + share R S p n * w n))
      with ((total n (fun i => share R S p i * v i) - total n (fun i => share R S p i * w i)) + share R S p n * (v n - w n)) by ring.
    apply Rle_trans with (1 := Rabs_triang _ _). rewrite Rmult_plus_distr_r. apply Rplus_le_compat; [exact IH|].
    destruct (share_range R S R1 Down p n) as [G _]. rewrite Rabs_mult, (Rabs_pos_eq _ G). apply Rmult_le_compat_l; auto.
  - pose proof (share_sum_le p n). rewrite <- (Rmult_1_l e) at 2. apply Rmult_le_compat_r; assumption.
Qed.
Lemma nearby_lower l k ls ks ls2 ks2 (a a' b b' : audio l k) (s : stream ls ks) (t : stream ls2 ks2) n fs gs c e p y z :
  s_rate a = rate -> s_rate b = rate -> extends src n fs a a' s -> extends src n gs b b' t -> nearby (N.to_nat n) c e fs gs -> 0 <= e ->
  (R * Z.of_N n <= 2 ^ 51)%Z ->
  ((Z.of_nat p + 1) * S < R * Z.of_N n \/ (Z.of_nat p + 1) * S = R * Z.of_N n /\ (S <= 2 ^ 49)%Z /\ aligned rate src R S n)%Z ->
  added a a' p c y -> added b b' p c z ->
  Rabs (level y - level z) <= e + 2 * ((IZR S / IZR R + 7) * (step k + (INR p + 6) * bpow radix2 (-49))).
Proof.
  intros Ra Rb [X1 X2 X3 (all & X4 & X5) (it & X6)] [Y1 Y2 Y3 (all2 & Y4 & Y5) (it2 & Y6)] Nb E Hn Hp (u & U1 & U2) (w & W1 & W2).
  pose proof (yields_count _ _ _ _ _ X2 X3 X4) as La. pose proof (yields_count _ _ _ _ _ Y2 Y3 Y4) as Lb.
  assert (Lf : length fs = N.to_nat n) by (rewrite (converted_length _ _ _ _ _ _ X5); exact La).
  assert (Lg : length gs = N.to_nat n) by (rewrite (converted_length _ _ _ _ _ _ Y5); exact Lb).
  destruct (nearby_levels _ _ _ _ _ Nb Lf Lg E) as (V & W & D).
  pose proof (lower_frame rate src R S HR HS S50 Down l k ls ks a a' s it n all fs p c _ u y Ra X1 X2 X3 X4 X5 Hn X6 Hp (fun i _ => V i) U1 U2) as K1.
  pose proof (lower_frame rate src R S HR HS S50 Down l k ls2 ks2 b b' t it2 n all2 gs p c _ w z Rb Y1 Y2 Y3 Y4 Y5 Hn Y6 Hp (fun i _ => W i) W1 W2) as K2.
  apply (apart3 _ _ _ _ _ _ K1 K2). apply weighed_near; assumption.
Qed.
Lemma nearby_lower_last l k ls ks ls2 ks2 (a a' b b' : audio l k) (s : stream ls ks) (t : stream ls2 ks2) n fs gs c e p m y z :
  (S <= 2 ^ 49)%Z ->
  s_rate a = rate -> s_rate b = rate -> extends src n fs a a' s -> extends src n gs b b' t -> nearby (N.to_nat n) c e fs gs -> 0 <= e ->
  (R * Z.of_N n <= 2 ^ 51)%Z -> aligned rate src R S n -> (S * Z.of_nat p < R * Z.of_N n < S * (Z.of_nat p + 1))%Z ->
  (R * (Z.of_nat m - 1) < S * Z.of_nat p < R * Z.of_nat m)%Z ->
  added a a' p c y -> added b b' p c z ->
  Rabs (level y - level z) <= e + 2 * ((IZR S / IZR R + 7) * (step k + (INR p + 6) * bpow radix2 (-49))).
Proof.
  intros S49 Ra Rb [X1 X2 X3 (all & X4 & X5) (it & X6)] [Y1 Y2 Y3 (all2 & Y4 & Y5) (it2 & Y6)] Nb E Hn Al Hp Hm (u & U1 & U2) (w & W1 & W2).
  pose proof (yields_count _ _ _ _ _ X2 X3 X4) as La. pose proof (yields_count _ _ _ _ _ Y2 Y3 Y4) as Lb.
  assert (Lf : length fs = N.to_nat n) by (rewrite (converted_length _ _ _ _ _ _ X5); exact La).
  assert (Lg : length gs = N.to_nat n) by (rewrite (converted_length _ _ _ _ _ _ Y5); exact Lb).
  destruct (nearby_levels _ _ _ _ _ Nb Lf Lg E) as (V & W & D).
  assert (Hm2 : (R * (Z.of_nat m - 1) < S * Z.of_nat p <= R * Z.of_nat m)%Z) by lia.
  destruct (lower_last_frame rate src R S HR HS S50 Down l k ls ks a a' s it n all fs p m c _ u y S49 Ra X1 X2 X3 X4 X5 Hn Al X6 Hp Hm2 (fun i _ => V i) U1 U2) as [K1 _].
  destruct (lower_last_frame rate src R S HR HS S50 Down l k ls2 ks2 b b' t it2 n all2 gs p m c _ w z S49 Rb Y1 Y2 Y3 Y4 Y5 Hn Al Y6 Hp Hm2 (fun i _ => W i) W1 W2) as [K2 _].
  apply (apart3 _ _ _ _ _ _ (K1 ltac:(lia)) (K2 ltac:(lia))). apply weighed_near; assumption.
Qed.
End Lower.

(** A buffer as the stream, no conversion. *)
Lemma audio_extends {l k} (src : f64) (fs : list (frame l k)) (a : audio l k) :
  match snd (extend (Datatypes.S (length fs)) a (SAudio src fs)) with Ok _ => True | _ => False end ->
  extends src (N.of_nat (length fs)) fs a (fst (extend (Datatypes.S (length fs)) a (SAudio src fs))) (SAudio src fs).
Proof.
  intros H. constructor.
  - reflexivity.
  - apply audio_honest.
  - reflexivity.
  - exists fs. split; [apply audio_yields|]. unfold converted. clear H. induction fs as [|f fs IH]; constructor; [apply convert_self|exact IH].
  - rewrite Nat2N.id. destruct (extend _ _ _) as [b [it|p|]]; cbn [fst snd] in *; try contradiction. exists it. reflexivity.
Qed.
