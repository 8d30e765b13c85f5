(** * DelayProofs.v -- lemmas for C92 *)
From Coq Require Import ZArith NArith Reals Bool List Lia Lra.
From Flocq Require Import Core.Core IEEE754.BinarySingleNaN.
From Verif Require Import Rust Float Chan Frame Ops Stream Audio SpecChan SpecFrame SpecStream SpecSink SpecAudio SpecMore SpecRaise SpecLower.
From Verif Require Import FloatProofs WholeProofs AudioProofs RaiseProofs LowerProofs.
Import ListNotations.
Open Scope R_scope.

Lemma minmax_shift a b c d q : Rmax 0 (Rmin (a + q) (b + q) - Rmax (c + q) (d + q)) = Rmax 0 (Rmin a b - Rmax c d).
Proof. f_equal. unfold Rmin, Rmax. repeat destruct Rle_dec; lra. Qed.
Lemma share_shift R S m q p i : (0 < S)%Z -> (R * Z.of_nat m = S * Z.of_nat q)%Z -> share R S (p + q) (i + m) = share R S p i.
Proof.
  intros HS E. apply (f_equal IZR) in E. rewrite !mult_IZR, <- !INR_IZR_INZ in E. apply IZR_lt in HS. unfold share. rewrite !plus_INR.
  assert (Q : forall z, (IZR R * (INR i + INR m) + z) / IZR S = (IZR R * INR i + z) / IZR S + INR q).
  { intros z. apply Rmult_eq_reg_r with (IZR S); [|lra]. transitivity (IZR R * INR i + IZR R * INR m + z); [field; lra|]. rewrite E. field. lra. }
  assert (Q2 := Q (- IZR R + IZR S)). rewrite <- !Rplus_assoc in Q2. fold (Rminus (IZR R * (INR i + INR m)) (IZR R)) (Rminus (IZR R * INR i) (IZR R)) in Q2.
  rewrite Q, Q2. replace (INR p + INR q + 1) with (INR p + 1 + INR q) by ring. apply minmax_shift.
Qed.
Lemma share_late R S p i : (0 < S)%Z -> (S * Z.of_nat p + R <= R * Z.of_nat i)%Z -> share R S p i = 0.
Proof.
  intros HS H. apply IZR_le in H. rewrite plus_IZR, !mult_IZR, <- !INR_IZR_INZ in H. apply IZR_lt in HS. unfold share.
  assert (Q : INR p + 1 <= (IZR R * INR i - IZR R + IZR S) / IZR S). { apply Rmult_le_reg_r with (IZR S); [lra|]. unfold Rdiv. rewrite Rmult_assoc, Rinv_l by lra. lra. }
  apply Rmax_left. pose proof (Rmin_l (INR p + 1) ((IZR R * INR i + IZR S) / IZR S)). pose proof (Rmax_r (INR p) ((IZR R * INR i - IZR R + IZR S) / IZR S)). lra.
Qed.
Lemma total_ext n f g : (forall i, (i < n)%nat -> f i = g i) -> total n f = total n g.
Proof. induction n as [|n IH]; intros H; cbn [total]; [reflexivity|]. rewrite IH, H by (intros; try apply H; lia). reflexivity. Qed.
Lemma total_zero n f : (forall i, (i < n)%nat -> f i = 0) -> total n f = 0.
Proof. induction n as [|n IH]; intros H; cbn [total]; [reflexivity|]. rewrite IH, H by (intros; try apply H; lia). lra. Qed.
Lemma total_add n m f : total (n + m) f = total n f + total m (fun i => f (n + i)%nat).
Proof. induction m as [|m IH]; [rewrite Nat.add_0_r; cbn; lra|]. rewrite Nat.add_succ_r. cbn [total]. rewrite IH. lra. Qed.
Lemma total_stop n n' f : (forall i, (n <= i)%nat -> f i = 0) -> (n <= n')%nat -> total n' f = total n f.
Proof. intros H L. replace n' with (n + (n' - n))%nat by lia. rewrite total_add. rewrite (total_zero (n' - n)) by (intros i _; apply H; lia). lra. Qed.
Lemma total_delay n1 n2 m f1 f2 : (m <= n2)%nat -> (forall i, (i < m)%nat -> f2 i = 0) -> (forall i, (m <= i < n2)%nat -> f2 i = f1 (i - m)%nat) ->
  (forall i, (n1 <= i)%nat -> f1 i = 0) -> (forall i, (n2 - m <= i)%nat -> f1 i = 0) -> total n2 f2 = total n1 f1.
Proof.
  intros Lm H0 H1 Z1 Z2. replace n2 with (m + (n2 - m))%nat at 1 by lia. rewrite total_add. rewrite (total_zero m) by exact H0.
  rewrite (total_ext (n2 - m) _ f1) by (intros i Hi; rewrite H1 by lia; f_equal; lia).
  destruct (Nat.le_ge_cases n1 (n2 - m)) as [L|L]; [rewrite (total_stop n1 (n2 - m) f1 Z1 L)|rewrite (total_stop (n2 - m) n1 f1 Z2 L)]; lra.
Qed.

Lemma lower_delay : forall rate src R S, whole_rate rate R -> whole_rate src S -> (S <= 2 ^ 50)%Z -> (R <= S)%Z ->
  forall l k l1 k1 l2 k2 (a1 a1' a2 a2' : audio l k) (s1 it1 : stream l1 k1) (s2 it2 : stream l2 k2) n1 n2 all1 all2 (f1 f2 : list (frame l k)) m q p c (v1 v2 : nat -> Rdefinitions.R) b1 b2 y1 y2,
  s_rate a1 = rate -> sample_rate s1 = Some src -> honest s1 -> slen s1 = Some n1 -> yields s1 all1 -> converted all1 f1 ->
  s_rate a2 = rate -> sample_rate s2 = Some src -> honest s2 -> slen s2 = Some n2 -> yields s2 all2 -> converted all2 f2 ->
  (R * Z.of_N n1 <= 2 ^ 51)%Z -> (R * Z.of_N n2 <= 2 ^ 51)%Z -> (R * Z.of_nat m = S * Z.of_nat q)%Z ->
  extend (Datatypes.S (N.to_nat n1)) a1 s1 = (a1', Ok it1) -> extend (Datatypes.S (N.to_nat n2)) a2 s2 = (a2', Ok it2) ->
  ((Z.of_nat p + 1) * S < R * Z.of_N n1 \/ (Z.of_nat p + 1) * S = R * Z.of_N n1 /\ (S <= 2 ^ 49)%Z /\ aligned rate src R S n1)%Z -> ((Z.of_nat (p + q) + 1) * S < R * Z.of_N n2 \/ (Z.of_nat (p + q) + 1) * S = R * Z.of_N n2 /\ (S <= 2 ^ 49)%Z /\ aligned rate src R S n2)%Z ->
  (forall i, (i < N.to_nat n1)%nat -> level_at f1 i c (v1 i)) -> (forall i, (i < N.to_nat n2)%nat -> level_at f2 i c (v2 i)) ->
  (forall i, (i < N.to_nat n2)%nat -> share R S (p + q) i <> 0 -> v2 i = if Nat.ltb i m then 0 else v1 (i - m)%nat) ->
  audio_get a1' (audio_len a1 + p) = Some b1 -> nth_error (channels b1) c = Some y1 ->
  audio_get a2' (audio_len a2 + (p + q)) = Some b2 -> nth_error (channels b2) c = Some y2 ->
  Rabs (level y2 - level y1) <= (IZR S / IZR R + 7) * (2 * step k + (2 * INR p + INR q + 12) * bpow radix2 (-49)).
Proof.
  intros rate src R S WR WS B L l k l1 k1 l2 k2 a1 a1' a2 a2' s1 it1 s2 it2 n1 n2 all1 all2 f1 f2 m q p c v1 v2 b1 b2 y1 y2
    Ra1 Rs1 H1 N1 Y1 C1 Ra2 Rs2 H2 N2 Y2 C2 B1 B2 E E1 E2 P1 P2 V1 V2 Vv G1 Ch1 G2 Ch2.
  assert (HS : (0 < S)%Z) by (destruct WS as (_ & _ & X); lia). assert (HR : (0 < R)%Z) by (destruct WR as (_ & _ & X); lia).
  pose proof (lower_frame rate src R S WR WS B L l k l1 k1 a1 a1' s1 it1 n1 all1 f1 p c v1 b1 y1 Ra1 Rs1 H1 N1 Y1 C1 B1 E1 P1 V1 G1 Ch1) as A1.
  pose proof (lower_frame rate src R S WR WS B L l k l2 k2 a2 a2' s2 it2 n2 all2 f2 (p + q) c v2 b2 y2 Ra2 Rs2 H2 N2 Y2 C2 B2 E2 P2 V2 G2 Ch2) as A2.
  assert (T : total (N.to_nat n2) (fun i => share R S (p + q) i * v2 i) = total (N.to_nat n1) (fun i => share R S p i * v1 i)).
  { assert (Q1 : ((Z.of_nat p + 1) * S <= R * Z.of_N n1)%Z) by (destruct P1 as [X|[X _]]; lia).
    assert (Q2 : ((Z.of_nat (p + q) + 1) * S <= R * Z.of_N n2)%Z) by (destruct P2 as [X|[X _]]; lia).
    assert (Lm : (m <= N.to_nat n2)%nat) by nia.
    apply (total_delay (N.to_nat n1) (N.to_nat n2) m); [exact Lm| | | |].
    - intros i Hi. destruct (Req_dec (share R S (p + q) i) 0) as [X|X]; [rewrite X; lra|]. rewrite (Vv i ltac:(lia) X). destruct (Nat.ltb_spec i m); [lra|lia].
    - intros i Hi. destruct (Req_dec (share R S (p + q) i) 0) as [X|X].
      + rewrite <- (share_shift R S m q p (i - m) HS E). replace (i - m + m)%nat with i by lia. rewrite X. lra.
      + rewrite (Vv i ltac:(lia) X). destruct (Nat.ltb_spec i m); [lia|]. rewrite <- (share_shift R S m q p (i - m) HS E). replace (i - m + m)%nat with i by lia. reflexivity.
    - intros i Hi. rewrite share_late; [lra|exact HS|]. nia.
    - intros i Hi. rewrite share_late; [lra|exact HS|]. nia. }
  rewrite T in A2. rewrite plus_INR in A2. set (t := total (N.to_nat n1) _) in *.
  replace (level y2 - level y1) with ((level y2 - t) - (level y1 - t)) by ring. eapply Rle_trans; [apply Rabs_triang|]. rewrite Rabs_Ropp.
  eapply Rle_trans; [apply Rplus_le_compat; [exact A2|exact A1]|]. apply Req_le. ring.
Qed.
Lemma lower_before : forall rate src R S, whole_rate rate R -> whole_rate src S -> (S <= 2 ^ 50)%Z -> (R <= S)%Z ->
  forall l k ls ks (a a' : audio l k) (s it : stream ls ks) n all (fs : list (frame l k)) m p c (v : nat -> Rdefinitions.R) b y,
  s_rate a = rate -> sample_rate s = Some src -> honest s -> slen s = Some n -> yields s all -> converted all fs ->
  (R * Z.of_N n <= 2 ^ 51)%Z -> extend (Datatypes.S (N.to_nat n)) a s = (a', Ok it) -> ((Z.of_nat p + 1) * S < R * Z.of_N n \/ (Z.of_nat p + 1) * S = R * Z.of_N n /\ (S <= 2 ^ 49)%Z /\ aligned rate src R S n)%Z ->
  (forall i, (i < N.to_nat n)%nat -> level_at fs i c (v i)) -> (forall i, (i < m)%nat -> v i = 0) -> (S * (Z.of_nat p + 1) <= R * Z.of_nat m)%Z ->
  audio_get a' (audio_len a + p) = Some b -> nth_error (channels b) c = Some y ->
  Rabs (level y) <= (IZR S / IZR R + 7) * (step k + (INR p + 6) * bpow radix2 (-49)).
Proof.
  intros rate src R S WR WS B L l k ls ks a a' s it n all fs m p c v b y Ra Rs H N Y C B1 E P V Z Pm G Ch. assert (HS : (0 < S)%Z) by (destruct WS as (_ & _ & X); lia).
  assert (HR : (0 < R)%Z) by (destruct WR as (_ & _ & X); lia).
  pose proof (lower_frame rate src R S WR WS B L l k ls ks a a' s it n all fs p c v b y Ra Rs H N Y C B1 E P V G Ch) as A.
  rewrite total_zero in A; [rewrite Rminus_0_r in A; exact A|]. intros i _. destruct (Nat.lt_ge_cases i m) as [X|X]; [rewrite Z by exact X; lra|].
  rewrite share_late; [lra|exact HS|]. nia.
Qed.

Lemma gains_shift k R S m q p i : (0 < S)%Z -> (R * Z.of_nat m = S * Z.of_nat q)%Z ->
  gain_after k R S (p + q) (i + m) = gain_after k R S p i /\ gain_before R S (p + q) (i + m) = gain_before R S p i.
Proof.
  intros HS E. apply (f_equal IZR) in E. rewrite !mult_IZR, <- !INR_IZR_INZ in E. apply IZR_lt in HS.
  assert (T : IZR R * INR (i + m) / IZR S - INR (p + q) = IZR R * INR i / IZR S - INR p). { rewrite !plus_INR, Rmult_plus_distr_l, E. field. lra. }
  unfold gain_after, gain_before. rewrite T. auto.
Qed.
Lemma gain_before_first R S p : (0 < S)%Z -> (S < R)%Z -> gain_before R S p 0 = 0.
Proof.
  intros HS H. apply IZR_lt in HS, H. unfold gain_before. change (INR 0) with 0. rewrite Rmult_0_r. unfold Rdiv. rewrite Rmult_0_l. apply Rmax_left. pose proof (pos_INR p).
  assert (1 < IZR R * / IZR S). { apply Rmult_lt_reg_r with (IZR S); [lra|]. rewrite Rmult_assoc, Rinv_l by lra. lra. } lra.
Qed.
Lemma limited_ext k x y : x = y -> limited k x = limited k y.
Proof. congruence. Qed.
Lemma raise_delay : forall rate src R S, whole_rate rate R -> whole_rate src S -> (S <= 2 ^ 51)%Z -> (S < R)%Z ->
  forall l k l1 k1 l2 k2 (a1 a1' a2 a2' : audio l k) (s1 it1 : stream l1 k1) (s2 it2 : stream l2 k2) n1 n2 all1 all2 (f1 f2 : list (frame l k)) m q p i c v v' w' b1 b2 y1 y2,
  s_rate a1 = rate -> sample_rate s1 = Some src -> honest s1 -> slen s1 = Some n1 -> yields s1 all1 -> converted all1 f1 ->
  s_rate a2 = rate -> sample_rate s2 = Some src -> honest s2 -> slen s2 = Some n2 -> yields s2 all2 -> converted all2 f2 ->
  (R * Z.of_N n1 <= 2 ^ 51)%Z -> (R * Z.of_N n2 <= 2 ^ 51)%Z -> aligned rate src R S n1 -> aligned rate src R S n2 -> (R * Z.of_nat m = S * Z.of_nat q)%Z ->
  extend (Datatypes.S (N.to_nat n1)) a1 s1 = (a1', Ok it1) -> extend (Datatypes.S (N.to_nat n2)) a2 s2 = (a2', Ok it2) ->
  ((Z.of_nat p + 1) * S <= R * Z.of_N n1)%Z -> ((Z.of_nat (p + q) + 1) * S <= R * Z.of_N n2)%Z -> first_at R S p i ->
  level_at f1 i c v -> level_at f2 (i + m) c v -> level_at f1 (i - 1) c v' -> level_at f2 (i + m - 1) c w' -> ((0 < i)%nat -> w' = v') ->
  audio_get a1' (audio_len a1 + p) = Some b1 -> nth_error (channels b1) c = Some y1 ->
  audio_get a2' (audio_len a2 + (p + q)) = Some b2 -> nth_error (channels b2) c = Some y2 ->
  Rabs (level y2 - level y1) <= 12 * applied k (IZR R / IZR S) * step k + (2 * (IZR R / IZR S) + 2 * INR p + INR q + 12) * bpow radix2 (-49).
Proof.
  intros rate src R S WR WS B L l k l1 k1 l2 k2 a1 a1' a2 a2' s1 it1 s2 it2 n1 n2 all1 all2 f1 f2 m q p i c v v' w' b1 b2 y1 y2
    Ra1 Rs1 H1 N1 Y1 C1 Ra2 Rs2 H2 N2 Y2 C2 B1 B2 Al1 Al2 E E1 E2 P1 P2 Fi V1 V2 W1 W2 Vw G1 Ch1 G2 Ch2.
  assert (HS : (0 < S)%Z) by (destruct WS as (_ & _ & X); lia).
  assert (F2 : first_at R S (p + q) (i + m)) by (unfold first_at in *; nia).
  destruct (gains_shift k R S m q p i HS E) as [Ga Gb].
  assert (Ww : gain_before R S p i * v' = gain_before R S p i * w').
  { destruct i as [|i]; [rewrite (gain_before_first R S p HS L); ring|]. rewrite Vw by lia. reflexivity. }
  pose proof (raise_frame rate src R S WR WS B L l k l1 k1 a1 a1' s1 it1 n1 all1 f1 p i c v v' b1 y1 Ra1 Rs1 H1 N1 Y1 C1 B1 Al1 E1 P1 Fi V1 W1 G1 Ch1) as A1.
  pose proof (raise_frame rate src R S WR WS B L l k l2 k2 a2 a2' s2 it2 n2 all2 f2 (p + q) (i + m) c v w' b2 y2 Ra2 Rs2 H2 N2 Y2 C2 B2 Al2 E2 P2 F2 V2 W2 G2 Ch2) as A2.
  rewrite Ga, Gb, <- Ww, plus_INR in A2. set (t := limited k _) in *.
  replace (level y2 - level y1) with ((level y2 - t) - (level y1 - t)) by ring. eapply Rle_trans; [apply Rabs_triang|]. rewrite Rabs_Ropp.
  eapply Rle_trans; [apply Rplus_le_compat; [exact A2|exact A1]|]. apply Req_le. ring.
Qed.
Lemma raise_before : forall rate src R S, whole_rate rate R -> whole_rate src S -> (S <= 2 ^ 51)%Z -> (S < R)%Z ->
  forall l k ls ks (a a' : audio l k) (s it : stream ls ks) n all (fs : list (frame l k)) m p i c w b y,
  s_rate a = rate -> sample_rate s = Some src -> honest s -> slen s = Some n -> yields s all -> converted all fs ->
  (R * Z.of_N n <= 2 ^ 51)%Z -> aligned rate src R S n -> extend (Datatypes.S (N.to_nat n)) a s = (a', Ok it) ->
  ((Z.of_nat p + 1) * S <= R * Z.of_N n)%Z -> first_at R S p i -> (S * (Z.of_nat p + 1) <= R * Z.of_nat m)%Z ->
  (forall j, (j < m)%nat -> level_at fs j c 0) -> level_at fs m c w ->
  audio_get a' (audio_len a + p) = Some b -> nth_error (channels b) c = Some y ->
  Rabs (level y) <= 6 * applied k (IZR R / IZR S) * step k + (IZR R / IZR S + INR p + 6) * bpow radix2 (-49).
Proof.
  intros rate src R S WR WS B L l k ls ks a a' s it n all fs m p i c w b y Ra Rs H N Y C B1 Al E P Fi Pm Z Vm G Ch.
  assert (HS : (0 < S)%Z) by (destruct WS as (_ & _ & X); lia). assert (Lk : limited k 0 = 0).
  { unfold limited. destruct k; unfold Rmin, Rmax, bottom; cbn; repeat destruct Rle_dec; lra. }
  assert (Im : (i <= m)%nat) by (unfold first_at in Fi; nia). assert (M1 : (0 < m)%nat) by nia.
  destruct (Nat.eq_dec i m) as [->|Ne].
  - pose proof (raise_frame rate src R S WR WS B L l k ls ks a a' s it n all fs p m c w 0 b y Ra Rs H N Y C B1 Al E P Fi Vm (Z (m - 1)%nat ltac:(lia)) G Ch) as A.
    replace (gain_after k R S p m) with 0 in A; [rewrite Rmult_0_r, Rmult_0_l, Rplus_0_r, Lk, Rminus_0_r in A; exact A|].
    unfold gain_after. destruct Rlt_dec as [X|X]; [exfalso|reflexivity]. apply IZR_le in Pm. rewrite !mult_IZR, plus_IZR, <- !INR_IZR_INZ in Pm. apply IZR_lt in HS.
    assert (INR p + 1 <= IZR R * INR m / IZR S). { apply Rmult_le_reg_r with (IZR S); [lra|]. unfold Rdiv. rewrite (Rmult_assoc (_ * _)), Rinv_l by lra. lra. } lra.
  - pose proof (raise_frame rate src R S WR WS B L l k ls ks a a' s it n all fs p i c 0 0 b y Ra Rs H N Y C B1 Al E P Fi (Z i ltac:(lia)) (Z (i - 1)%nat ltac:(lia)) G Ch) as A.
    rewrite !Rmult_0_r, Rplus_0_r, Lk, Rminus_0_r in A. exact A.
Qed.
