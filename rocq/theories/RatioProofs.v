(** * RatioProofs.v -- only the ratio of the rates matters (C66); later frames do
    not change earlier ones (C67) *)
From Coq Require Import ZArith NArith Reals List Lia Lra.
From Flocq Require Import Core.Core IEEE754.BinarySingleNaN.
From Verif Require Import Rust Float Math Chan Frame Ops Stream Audio Heap SpecChan SpecFrame SpecStream SpecSink SpecAudio SpecMore SpecLaw.
From Verif Require Import FloatProofs FloorProofs FArithProofs StreamProofs SinkProofs PlaceProofs SinkMore SinkTerm AudioProofs DrainProofs ResampleProofs WholeProofs MoreProofs.
Import ListNotations.
Open Scope Z_scope.

Lemma appended_unique {l k} ratio e m (fs : list (frame l k)) p b b' : appended ratio e m fs p b -> appended ratio e m fs p b' -> b = b'.
Proof.
  intros (A1 & A2 & A3) (B1 & B2 & B3). set (index := place ratio (flit 0 0) m) in *.
  destruct (Z.lt_ge_cases (Z.of_nat p) e) as [L|L]; [exact (ws_unique _ _ _ _ _ _ (A1 L) (B1 L))|].
  destruct (Z.eq_dec (Z.of_nat p) (floor_index index)) as [Pi|Pi].
  - destruct (Rle_or_lt (Rabs (frac index)) (bpow radix2 (-52))) as [Sm|Bg].
    + now rewrite (A3 L (or_intror Sm)), (B3 L (or_intror Sm)).
    + exact (ws_unique _ _ _ _ _ _ (A2 L Pi Bg) (B2 L Pi Bg)).
  - now rewrite (A3 L (or_introl Pi)), (B3 L (or_introl Pi)).
Qed.

(** Two calls with the same ratio, the same number of new frames and the same
    source frames do the same. *)
Lemma extend_same l k l1 k1 l2 k2 (a1 a2 : audio l k) (s1 : stream l1 k1) (s2 : stream l2 k2) n all1 all2 (fs : list (frame l k)) d ratio :
  sinkable s1 -> sinkable s2 -> slen s1 = Some n -> slen s2 = Some n -> honest s1 -> honest s2 ->
  yields s1 all1 -> yields s2 all2 -> converted all1 fs -> converted all2 fs ->
  frames_for (s_rate a1) (sample_rate s1) n = d -> frames_for (s_rate a2) (sample_rate s2) n = d ->
  ratio_for (s_rate a1) (sample_rate s1) = ratio -> ratio_for (s_rate a2) (sample_rate s2) = ratio ->
  allocatable l k (Z.of_nat (length (frames a1)) + d) -> allocatable l k (Z.of_nat (length (frames a2)) + d) ->
  (snd (extend (S (N.to_nat n)) a1 s1) = Panic IndexOutOfBounds /\ snd (extend (S (N.to_nat n)) a2 s2) = Panic IndexOutOfBounds) \/
  (exists added it1 it2, extend (S (N.to_nat n)) a1 s1 = (mkAudio (s_rate a1) (frames a1 ++ added), Ok it1) /\
     extend (S (N.to_nat n)) a2 s2 = (mkAudio (s_rate a2) (frames a2 ++ added), Ok it2)).
Proof.
  intros K1 K2 L1 L2 H1 H2 Y1 Y2 C1 C2 D1 D2 R1 R2 A1 A2.
  destruct (extend_outcome l k _ _ a1 s1 n K1 H1 L1) as [_ O1]. destruct (extend_outcome l k _ _ a2 s2 n K2 H2 L2) as [_ O2].
  rewrite D1, R1 in O1. rewrite D2, R2 in O2. destruct (O1 A1) as (m & _ & Lv & P1 & Q1). destruct (O2 A2) as (m2 & _ & Lv2 & P2 & Q2).
  pose proof (leaves_unique _ _ _ _ Lv Lv2) as <-. cbv zeta in *.
  assert (G : ((bpow radix2 (-52) < Rabs (frac (place ratio (flit 0 0) m)))%R /\ d <= floor_index (place ratio (flit 0 0) m)) \/
    ~ ((bpow radix2 (-52) < Rabs (frac (place ratio (flit 0 0) m)))%R /\ d <= floor_index (place ratio (flit 0 0) m))).
  { destruct (Rle_or_lt (Rabs (frac (place ratio (flit 0 0) m))) (bpow radix2 (-52))); [right; intros [? _]; lra|].
    destruct (Z.lt_ge_cases (floor_index (place ratio (flit 0 0) m)) d); [right; intros [_ ?]; lia|left; split; [assumption|lia]]. }
  destruct G as [G|G]; [left; split; auto|right]. destruct (Q1 G) as (it1 & E1), (Q2 G) as (it2 & E2).
  destruct (extend (S (N.to_nat n)) a1 s1) as [b1 o1] eqn:X1. cbn [snd] in E1. subst o1.
  destruct (extend (S (N.to_nat n)) a2 s2) as [b2 o2] eqn:X2. cbn [snd] in E2. subst o2.
  destruct (extend_values l k _ _ a1 b1 s1 it1 n all1 fs K1 H1 L1 Y1 C1 X1) as (m1 & _ & V1 & _ & W1).
  destruct (extend_values l k _ _ a2 b2 s2 it2 n all2 fs K2 H2 L2 Y2 C2 X2) as (m2 & _ & V2 & _ & W2).
  rewrite D1, R1 in V1, W1. rewrite D2, R2 in V2, W2. 
  pose proof (leaves_unique _ _ _ _ V1 V2) as <-.
  destruct (extend_appends _ _ _ _ _ _ _ _ _ X1) as (n1 & f1 & N1 & F1 & S1 & T1).
  destruct (extend_appends _ _ _ _ _ _ _ _ _ X2) as (n2 & f2 & N2 & F2 & S2 & T2).
  assert (n1 = n) by congruence. assert (n2 = n) by congruence. subst n1 n2. rewrite D1 in T1. rewrite D2 in T2.
  assert (Ef : f1 = f2).
  { apply nth_ext_eq; [lia|]. intros p x y Hx Hy. apply (appended_unique _ _ _ _ _ _ _ (W1 p x ltac:(rewrite F1, nth_error_app2 by lia; rewrite Nat.add_comm, Nat.add_sub; exact Hx))).
    apply W2. rewrite F2, nth_error_app2 by lia. rewrite Nat.add_comm, Nat.add_sub. exact Hy. }
  subst f2. exists f1, it1, it2. destruct b1 as [g1 h1], b2 as [g2 h2]. cbn [s_rate frames] in *. subst. auto.
Qed.

Lemma fdiv_cross r1 s1 r2 s2 R1 S1 R2 S2 : whole_rate r1 R1 -> whole_rate s1 S1 -> whole_rate r2 R2 -> whole_rate s2 S2 ->
  S1 <= 2 ^ 51 -> S2 <= 2 ^ 51 -> R1 * S2 = R2 * S1 -> fdiv r1 s1 = fdiv r2 s2.
Proof.
  intros W1 V1 W2 V2 B1 B2 E.
  destruct (ratio_val r1 s1 R1 S1 W1 V1 B1) as [X1 F1], (ratio_val r2 s2 R2 S2 W2 V2 B2) as [X2 F2].
  assert (Eq : (IZR R1 / IZR S1 = IZR R2 / IZR S2)%R).
  { destruct V1 as (_ & _ & P1), V2 as (_ & _ & P2).
    assert (IZR S1 <> 0)%R by (apply not_0_IZR; lia). assert (IZR S2 <> 0)%R by (apply not_0_IZR; lia).
    apply (f_equal IZR) in E. rewrite !mult_IZR in E. 
    apply Rmult_eq_reg_r with (IZR S1 * IZR S2)%R; [|now apply Rmult_integral_contrapositive_currified]. field_simplify; try assumption. lra. }
  assert (Hne : (0 < B2R (fdiv r1 s1))%R).
  { destruct (ratio_err r1 s1 R1 S1 W1 V1 B1) as [Er _]. apply Rabs_le_inv in Er.
    pose proof (quot_pos _ _ (proj1 (Rpos r1 R1 W1)) (Spos s1 S1 V1 B1)) as L. pose proof (bpow_gt_0 radix2 (-51)).
    rewrite u53_val in Er. lra. }
  apply (finite_eq 53 1024); auto; [rewrite X1, X2; now rewrite Eq|]. intros Z. lra.
Qed.
Lemma ceil_cross R1 S1 R2 S2 n : 0 < S1 -> 0 < S2 -> R1 * S2 = R2 * S1 -> (R1 * n + S1 - 1) / S1 = (R2 * n + S2 - 1) / S2.
Proof.
  intros P1 P2 E. pose proof (Z.div_mod (R1 * n + S1 - 1) S1 ltac:(lia)) as D. pose proof (Z.mod_pos_bound (R1 * n + S1 - 1) S1 ltac:(lia)) as M.
  set (q := (R1 * n + S1 - 1) / S1) in *. set (r := (R1 * n + S1 - 1) mod S1) in *.
  (* R1 n = S1 q - t with 0 <= t < S1; R2 n S1 = R1 n S2 *)
  apply Z.div_unique with (S2 - 1 - (q * S2 - R2 * n)); [|lia]. left.
  assert (H : S1 * (q * S2 - R2 * n) = (S1 * q - R1 * n) * S2) by (rewrite Z.mul_sub_distr_l; replace (S1 * (R2 * n)) with (R2 * S1 * n) by ring; rewrite <- E; ring).
  assert (0 <= S1 * q - R1 * n < S1) by lia. split; nia.
Qed.

Theorem extend_ratio l k l1 k1 l2 k2 (a1 a2 : audio l k) (s1 : stream l1 k1) (s2 : stream l2 k2) src1 src2 R1 S1 R2 S2 n all1 all2 (fs : list (frame l k)) :
  whole_rate (s_rate a1) R1 -> sample_rate s1 = Some src1 -> whole_rate src1 S1 -> S1 <= 2 ^ 51 -> R1 * Z.of_N n <= 2 ^ 51 ->
  whole_rate (s_rate a2) R2 -> sample_rate s2 = Some src2 -> whole_rate src2 S2 -> S2 <= 2 ^ 51 -> R2 * Z.of_N n <= 2 ^ 51 ->
  R1 * S2 = R2 * S1 ->
  slen s1 = Some n -> slen s2 = Some n -> honest s1 -> honest s2 ->
  yields s1 all1 -> yields s2 all2 -> converted all1 fs -> converted all2 fs ->
  let d := (R1 * Z.of_N n + S1 - 1) / S1 in
  allocatable l k (Z.of_nat (audio_len a1) + d) -> allocatable l k (Z.of_nat (audio_len a2) + d) ->
  (snd (extend (S (N.to_nat n)) a1 s1) = Panic IndexOutOfBounds /\ snd (extend (S (N.to_nat n)) a2 s2) = Panic IndexOutOfBounds) \/
  (exists added it1 it2, extend (S (N.to_nat n)) a1 s1 = (mkAudio (s_rate a1) (frames a1 ++ added), Ok it1) /\
     extend (S (N.to_nat n)) a2 s2 = (mkAudio (s_rate a2) (frames a2 ++ added), Ok it2)).
Proof.
  intros W1 E1 V1 B1 N1 W2 E2 V2 B2 N2 X L1 L2 H1 H2 Y1 Y2 C1 C2 d A1 A2.
  assert (0 < S1) by apply V1. assert (0 < S2) by apply V2.
  apply (extend_same l k _ _ _ _ a1 a2 s1 s2 n all1 all2 fs d (fdiv (s_rate a1) src1)); try assumption.
  - left. rewrite E1. discriminate.
  - left. rewrite E2. discriminate.
  - rewrite E1. now apply frames_for_exact.
  - rewrite E2. rewrite (frames_for_exact _ _ R2 S2) by assumption. symmetry. now apply ceil_cross.
  - rewrite E1. reflexivity.
  - rewrite E2. cbn [ratio_for]. symmetry. now apply (fdiv_cross _ _ _ _ R1 S1 R2 S2).
Qed.

(** ** Prefixes *)
Lemma contributions_app {l k} p ratio off : forall (fs gs : list (frame l k)) i,
  contributions p ratio off i (fs ++ gs) = contributions p ratio off i fs ++ contributions p ratio off (i + length fs) gs.
Proof.
  induction fs as [|f fs IH]; intros gs i; cbn [app contributions length]; [now rewrite Nat.add_0_r|].
  rewrite IH. replace (S i + length fs)%nat with (i + S (length fs))%nat by lia.
  cbv zeta. now rewrite !app_assoc.
Qed.
Lemma contributions_beyond {l k} p ratio off : forall (fs : list (frame l k)) i,
  (forall j, (i <= j < i + length fs)%nat -> p < floor_index (place ratio off j)) -> contributions p ratio off i fs = [].
Proof.
  induction fs as [|f fs IH]; intros i H; [reflexivity|]. cbn [contributions length] in *. cbv zeta.
  rewrite IH by (intros j Hj; apply H; lia). specialize (H i ltac:(lia)).
  destruct (ceil_index_bounds (place ratio off i)) as [Cb _].
  destruct (Z.eqb_spec (floor_index (place ratio off i)) p); [lia|]. destruct (Z.eqb_spec (ceil_index (place ratio off i)) p); [lia|]. reflexivity.
Qed.
Lemma floor_index_mono (x y : f64) : is_finite x = true -> is_finite y = true -> (0 <= B2R x <= B2R y)%R -> floor_index x <= floor_index y.
Proof.
  intros Fx Fy H. rewrite !floor_index_finite by assumption.
  assert (Ztrunc (B2R x) <= Ztrunc (B2R y)) by (apply Ztrunc_le; lra).
  unfold clampZ. repeat match goal with |- context [Z.ltb ?u ?v] => destruct (Z.ltb_spec u v) end; lia.
Qed.

Theorem extend_prefix l k ls ks (a a1 a2 : audio l k) (s1 s2 it1 it2 : stream ls ks) src R S n1 n2 xs ys p :
  whole_rate (s_rate a) R -> sample_rate s1 = Some src -> sample_rate s2 = Some src -> whole_rate src S -> S <= 2 ^ 51 ->
  honest s1 -> honest s2 -> slen s1 = Some n1 -> slen s2 = Some n2 -> R * Z.of_N n2 <= 2 ^ 51 ->
  yields s1 xs -> yields s2 (xs ++ ys) ->
  extend (Datatypes.S (N.to_nat n1)) a s1 = (a1, Ok it1) -> extend (Datatypes.S (N.to_nat n2)) a s2 = (a2, Ok it2) ->
  (Z.of_nat p + 1) * S < R * Z.of_N n1 ->
  exists b, audio_get a1 (audio_len a + p) = Some b /\ audio_get a2 (audio_len a + p) = Some b.
Proof.
  intros HR Er1 Er2 HS S51 Ho1 Ho2 Hl1 Hl2 Hn2 Y1 Y2 H1 H2 Hp.
  destruct (converted_ex l k ls ks xs) as (fs & C1). destruct (converted_ex l k ls ks ys) as (gs & Cy).
  assert (C2 : converted (xs ++ ys) (fs ++ gs)) by now apply Forall2_app.
  assert (Sk1 : sinkable s1) by (left; rewrite Er1; discriminate). assert (Sk2 : sinkable s2) by (left; rewrite Er2; discriminate).
  pose proof (yields_count _ _ _ _ _ Ho1 Hl1 Y1) as Ln1. pose proof (yields_count _ _ _ _ _ Ho2 Hl2 Y2) as Ln2. rewrite app_length in Ln2.
  assert (0 < R) by apply HR. assert (0 < S) by apply HS.
  assert (Hn1 : R * Z.of_N n1 <= 2 ^ 51) by nia.
  destruct (extend_values l k ls ks a a1 s1 it1 n1 xs fs Sk1 Ho1 Hl1 Y1 C1 H1) as (m1 & Hm1 & Lv1 & _ & V1).
  destruct (extend_values l k ls ks a a2 s2 it2 n2 _ _ Sk2 Ho2 Hl2 Y2 C2 H2) as (m2 & Hm2 & Lv2 & _ & V2).
  rewrite Er1 in Lv1, V1. rewrite Er2 in Lv2, V2. cbn [ratio_for] in *.
  rewrite (frames_for_exact _ _ R S HR HS S51 n1 Hn1) in Lv1, V1. rewrite (frames_for_exact _ _ R S HR HS S51 n2 Hn2) in Lv2, V2.
  set (ratio := fdiv (s_rate a) src) in *. 
  pose proof (covered_nearly _ _ R S HR HS S51 n1 Hn1) as Cn1. fold ratio in Cn1.
  pose proof (covered_nearly _ _ R S HR HS S51 n2 Hn2) as Cn2. fold ratio in Cn2.
  assert (D1 : Z.of_nat p + 2 <= (R * Z.of_N n1 + S - 1) / S) by (apply Z.div_le_lower_bound; nia).
  assert (D2 : (R * Z.of_N n1 + S - 1) / S <= (R * Z.of_N n2 + S - 1) / S) by (apply Z.div_le_mono; nia).
  destruct (extend_appends _ _ _ _ _ _ _ _ _ H1) as (n1' & add1 & En1 & F1 & _ & L1).
  destruct (extend_appends _ _ _ _ _ _ _ _ _ H2) as (n2' & add2 & En2 & F2 & _ & L2).
  assert (n1' = n1) by congruence. assert (n2' = n2) by congruence. subst n1' n2'.
  rewrite Er1, (frames_for_exact _ _ R S HR HS S51 n1 Hn1) in L1. rewrite Er2, (frames_for_exact _ _ R S HR HS S51 n2 Hn2) in L2.
  unfold audio_get, audio_len.
  destruct (nth_lt_some (frames a1) (length (frames a) + p)) as (x & Ex); [rewrite F1, app_length; lia|].
  destruct (nth_lt_some (frames a2) (length (frames a) + p)) as (y & Ey); [rewrite F2, app_length; lia|].
  exists x. split; [exact Ex|]. rewrite Ey. f_equal.
  destruct (V1 p x Ex) as (A1 & _ & _), (V2 p y Ey) as (B1 & _ & _).
  specialize (A1 ltac:(lia)). specialize (B1 ltac:(lia)).
  set (e1 := Z.min (floor_index (fmul ratio (fofZ (Z.of_N n1)))) ((R * Z.of_N n1 + S - 1) / S)) in *.
  set (e2 := Z.min (floor_index (fmul ratio (fofZ (Z.of_N n2)))) ((R * Z.of_N n2 + S - 1) / S)) in *.
  assert (He1 : Z.of_nat p < e1) by (unfold e1; lia).
  assert (Fm : forall i j, (i <= j <= N.to_nat n2)%nat -> floor_index (place ratio (flit 0 0) i) <= floor_index (place ratio (flit 0 0) j)).
  { intros i j Hij. assert (Z.of_N n2 <= 2 ^ 51) by nia. apply floor_index_mono.
    - apply (place_val _ _ R S HR HS S51 i). lia.
    - apply (place_val _ _ R S HR HS S51 j). lia.
    - apply (place_mono _ _ R S HR HS S51); lia. }
  assert (Fv : forall n : N, (n <= n2)%N -> floor_index (fmul ratio (fofZ (Z.of_N n))) = floor_index (place ratio (flit 0 0) (N.to_nat n))).
  { intros n Hn. unfold place. rewrite floor_add_0. f_equal. f_equal. f_equal. lia. }
  assert (Hnn : (n1 <= n2)%N) by lia.
  rewrite Fv in Cn1, Cn2 by lia.
  assert (He12 : e1 <= e2).
  { unfold e1, e2. rewrite !Fv by lia. pose proof (Fm (N.to_nat n1) (N.to_nat n2) ltac:(lia)). lia. }
  assert (Hmm : (m1 <= m2)%nat).
  { destruct (Nat.le_gt_cases m1 m2) as [|G]; [assumption|]. destruct Lv1 as [Q _], Lv2 as [_ Q2]. specialize (Q m2 G). lia. }
  pose proof (converted_length _ _ _ _ _ _ C1) as Lf.
  rewrite firstn_app in B1.
  assert (Tail : exists t, firstn m2 fs ++ firstn (m2 - length fs) gs = firstn m1 fs ++ t).
  { exists (skipn m1 (firstn m2 fs) ++ firstn (m2 - length fs) gs). rewrite app_assoc. f_equal.
    rewrite <- (firstn_skipn m1 (firstn m2 fs)) at 1. f_equal. rewrite firstn_firstn. f_equal. lia. }
  destruct Tail as (t & Et).
  assert (Lt : (length (firstn m1 fs) + length t <= m2)%nat).
  { rewrite <- app_length, <- Et, app_length, !firstn_length. lia. }
  rewrite Et, contributions_app in B1. rewrite (contributions_beyond _ _ _ t) in B1.
  - rewrite app_nil_r in B1. exact (ws_unique _ _ _ _ _ _ B1 A1).
  - intros j Hj. cbn [Nat.add] in Hj. rewrite firstn_length, Nat.min_l in Hj by lia. rewrite firstn_length, Nat.min_l in Lt by lia.
    pose proof (proj2 Lv1) as Q. pose proof (Fm m1 j ltac:(lia)). lia.
Qed.
