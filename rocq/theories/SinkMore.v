(** * SinkMore.v -- further lemmas about [Sink], in the form of the property
    theorems (C33, C35 - C37, C39 - C42, C55) *)
From Coq Require Import ZArith NArith Reals List Bool Lia Lra.
From Flocq Require Import Core.Core IEEE754.BinarySingleNaN.
From Verif Require Import Rust Float Math Chan Frame Ops Stream SpecChan SpecFrame SpecStream SpecSink
  IntProofs FloatProofs FloorProofs FArithProofs ChanProofs FChanProofs FrameProofs OpsProofs StreamProofs SinkProofs PlaceProofs CopyProofs
  EqualProofs WeightProofs.
Import ListNotations.
Open Scope Z_scope.

(** ** C33 *)
Lemma sinkable_negotiated l k ls ks (sk : sink l k) (s : stream ls ks) : sinkable s ->
  exists s', negotiated sk s (ratio_for (sk_rate sk) (sample_rate s)) s' /\ slen s' = slen s /\
    (forall fs, yields s fs -> yields s' fs) /\ (forall fs, starts s fs -> starts s' fs).
Proof.
  intros H. unfold negotiated, ratio_for. destruct (sample_rate s) as [r|] eqn:E.
  - exists s. split; [left; eauto|auto].
  - destruct H as [H|C]; [congruence|]. destruct (proj1 (proj1 (set_rate_iff _ _ s (sk_rate sk))) C) as (s' & Hs).
    exists s'. split; [right; auto|]. split; [exact (set_rate_len _ _ _ _ _ Hs)|].
    split; intros fs; [exact (set_rate_yields _ _ _ _ _ _ Hs)|exact (set_rate_starts _ _ _ _ _ _ Hs)].
Qed.
Lemma negotiated_ratio l k ls ks (sk : sink l k) (s s' : stream ls ks) ratio : negotiated sk s ratio s' ->
  ratio = ratio_for (sk_rate sk) (sample_rate s) /\ slen s' = slen s /\ sinkable s.
Proof.
  intros [(r & E & -> & ->)|(E & -> & Hs)]; unfold ratio_for, sinkable; rewrite E.
  - split; [reflexivity|]. split; [reflexivity|]. left. discriminate.
  - split; [reflexivity|]. split; [exact (set_rate_len _ _ _ _ _ Hs)|]. right.
    apply (proj1 (set_rate_iff _ _ s (sk_rate sk))). eauto.
Qed.
Lemma unsinkable l k ls ks fuel (sk : sink l k) (s : stream ls ks) : ~ sinkable s -> sink_stream fuel sk s = Panic ExplicitPanic.
Proof.
  intros H. unfold sinkable in H. unfold sink_stream, stream_ratio. destruct (sample_rate s) as [r|] eqn:E.
  - elim H. left. discriminate.
  - destruct (set_rate_iff _ _ s (sk_rate sk)) as [I1 I2]. destruct (I2 _ eq_refl) as [(s' & Hs)|Hs]; rewrite Hs; [|reflexivity].
    elim H. right. apply I1. eauto.
Qed.
Lemma finite_stream l k ls ks (sk : sink l k) (s : stream ls ks) n : sinkable s -> honest s -> slen s = Some n ->
  let e := covered (ratio_for (sk_rate sk) (sample_rate s)) (Some n) (length (sk_buf sk)) in
  exists sk' it s' srcs t, sink_stream (S (N.to_nat n)) sk s = Ok (sk', it) /\
    length (sk_buf sk') = length (sk_buf sk) /\
    (forall p, e <= Z.of_nat p -> p <> 0%nat -> nth_error (sk_buf sk') p = nth_error (sk_buf sk) p) /\
    negotiated sk s (ratio_for (sk_rate sk) (sample_rate s)) s' /\
    pulls s' srcs t /\ (it = t \/ next t = Ok (None, it)) /\ (length srcs <= N.to_nat n)%nat.
Proof.
  intros Hs Hh Hl e. destruct (sinkable_negotiated _ _ _ _ sk s Hs) as (s' & Ng & Ls & Y & _).
  destruct (honest_some _ _ _ _ Hh Hl) as (all & Ya & La). rewrite Hl in Ls.
  destruct (stream_finite _ _ _ _ sk s s' _ all n Ng (Y _ Ya) Ls) as (sk' & srcs & fs & m & it & H & R & (rest & Er) & Cv & St).
  replace (length all) with (N.to_nat n) in H by lia.
  assert (T : exists t, pulls s' srcs t /\ (it = t \/ next t = Ok (None, it))).
  { destruct R as (_ & [(P & _)|(t & P & Hn & _)]); eauto. }
  destruct T as (t & P & T). exists sk', it, s', srcs, t. split; [exact H|]. split; [exact (st_length _ _ _ _ _ _ St)|].
  split; [intros p; rewrite Ls in St; exact (st_rest _ _ _ _ _ _ St p)|]. split; [exact Ng|]. split; [exact P|]. split; [exact T|].
  rewrite Er, app_length in La. lia.
Qed.

(** ** C37 *)
Lemma stream_valid l k ls ks fuel (sk sk' : sink l k) (s it : stream ls ks) : sink_stream fuel sk s = Ok (sk', it) ->
  forall p b, nth_error (sk_buf sk') p = Some b -> frame_valid b \/ nth_error (sk_buf sk) p = Some b.
Proof.
  intros H p b Eb. destruct (stream_backward _ _ _ _ _ _ _ _ _ H) as (ratio & s' & srcs & fs & n & Ng & R & Cv & St & _).
  set (e := covered ratio (slen s') (length (sk_buf sk))) in *.
  pose proof (covered_bounds ratio (slen s') (length (sk_buf sk))) as Be. fold e in Be.
  destruct (Z.ltb_spec (Z.of_nat p) e) as [L|L].
  - left. eapply ws_valid; [exact (st_covered _ _ _ _ _ _ St p b L Eb)|apply frame_default_valid].
  - destruct (Nat.eq_dec p 0) as [->|N].
    + left. assert (Eb0 : exists b0, nth_error (sk_buf sk) 0 = Some b0).
      { destruct (nth_error (sk_buf sk) 0) eqn:E; [eauto|]. apply nth_error_None in E.
        pose proof (proj1 (nth_error_Some (sk_buf sk') 0) ltac:(congruence)) as X. rewrite (st_length _ _ _ _ _ _ St) in X. lia. }
      destruct Eb0 as (b0 & Eb0). rewrite (st_first _ _ _ _ _ _ St ltac:(lia) b0 Eb0) in Eb. injection Eb as <-. apply frame_add_valid.
    + right. now rewrite (st_rest _ _ _ _ _ _ St p L N) in Eb.
Qed.

(** ** C39 *)
Lemma stream_silence l k ls ks fuel (sk sk' : sink l k) (s it : stream ls ks) : sink_stream fuel sk s = Ok (sk', it) ->
  is_float ks \/ ks = k \/ (ks = K16 /\ k = K8) ->
  (forall src fs t, pulls s fs t -> In src fs -> src = frame_default ls ks) ->
  let ratio := ratio_for (sk_rate sk) (sample_rate s) in
  (forall i, let j := place ratio (resampler_index (sk_res sk)) i in
     fin (from_f64 k (lower_weight ratio j)) = true /\ fin (from_f64 k (upper_weight ratio j)) = true) ->
  forall p b, Z.of_nat p < covered ratio (slen s) (length (sk_buf sk)) -> nth_error (sk_buf sk') p = Some b ->
    b = frame_default l k.
Proof.
  intros H Hk Hsil ratio Hw p b Hp Eb. destruct (stream_backward _ _ _ _ _ _ _ _ _ H) as (ratio' & s' & srcs & fs & n & Ng & R & Cv & St & _).
  destruct (negotiated_ratio _ _ _ _ _ _ _ _ Ng) as (Er & Ls & _). subst ratio'. fold ratio in St. rewrite Ls in St.
  pose proof (st_covered _ _ _ _ _ _ St p b Hp Eb) as W.
  assert (Sil : forall f, In f fs -> f = frame_default l k).
  { assert (Ssrc : forall x, In x srcs -> x = frame_default ls ks).
    { assert (P : exists t, pulls s' srcs t) by (destruct R as (_ & [(P & _)|(t & P & _)]); eauto). destruct P as (t & P).
      destruct Ng as [(r & _ & _ & ->)|(_ & _ & Hs)]; [eauto|].
      destruct (set_rate_pulls_inv _ _ _ _ _ _ _ Hs P) as (t0 & P0 & _). eauto. }
    clear -Cv Ssrc Hk. induction Cv as [|x y xs ys Hc Cv IH]; intros f Hf; [destruct Hf|].
    destruct Hf as [<-|Hf]; [|apply IH; [intros; apply Ssrc; now right|exact Hf]].
    rewrite (Ssrc x (or_introl eq_refl)), (convert_silence ls ks l k Hk) in Hc. now injection Hc as <-. }
  eapply ws_silence; [|exact W]. intros f w Hi. apply contributions_in in Hi as (Hf & a & Hwa). split; [auto|].
  destruct Hwa as [-> | ->]; apply (Hw a).
Qed.
Lemma stream_silence_ratio l k ls ks fuel (sk sk' : sink l k) (s it : stream ls ks) : sink_stream fuel sk s = Ok (sk', it) ->
  is_float ks \/ ks = k \/ (ks = K16 /\ k = K8) ->
  (forall src fs t, pulls s fs t -> In src fs -> src = frame_default ls ks) ->
  let ratio := ratio_for (sk_rate sk) (sample_rate s) in
  is_finite ratio = true -> (Rabs (B2R ratio) <= bpow radix2 126)%R ->
  forall p b, Z.of_nat p < covered ratio (slen s) (length (sk_buf sk)) -> nth_error (sk_buf sk') p = Some b ->
    b = frame_default l k.
Proof.
  intros H Hk Hsil ratio Fr Br. apply (stream_silence _ _ _ _ _ _ _ _ _ H Hk Hsil). intros i j.
  destruct (weights_finite ratio j Fr Br) as (W1 & W2 & W3 & W4). split; apply from_f64_finite; assumption.
Qed.

(** ** C41 *)
Lemma partial_irrelevant l k ls ks fuel (sk1 sk2 sk1' : sink l k) (s it : stream ls ks) :
  sk_rate sk2 = sk_rate sk1 -> sk_buf sk2 = sk_buf sk1 -> resampler_index (sk_res sk2) = resampler_index (sk_res sk1) ->
  1 <= covered (ratio_for (sk_rate sk1) (sample_rate s)) (slen s) (length (sk_buf sk1)) ->
  sink_stream fuel sk1 s = Ok (sk1', it) ->
  exists sk2', sink_stream fuel sk2 s = Ok (sk2', it) /\
    sk_buf sk2' = sk_buf sk1' /\ resampler_index (sk_res sk2') = resampler_index (sk_res sk1').
Proof.
  intros Er Eb Eo He H. destruct (stream_backward _ _ _ _ _ _ _ _ _ H) as (ratio & s' & srcs & fs & n & Ng & R & Cv & St & Lf).
  destruct (negotiated_ratio _ _ _ _ _ _ _ _ Ng) as (Ert & Ls & _). rewrite <- Ert, <- Ls in He.
  set (e := covered ratio (slen s') (length (sk_buf sk1))) in *.
  assert (Ng2 : negotiated sk2 s ratio s') by (unfold negotiated in *; rewrite Er; exact Ng).
  rewrite <- Eo in R. unfold e in R. rewrite <- Eb in R.
  destruct (stream_forward _ _ _ _ _ _ _ _ _ _ _ _ Ng2 R Cv) as (sk2' & St2 & Run). rewrite Eb in St2. fold e in St2.
  exists sk2'. split; [exact (Run fuel Lf)|]. split.
  - apply list_nth_ext. intros p. pose proof (st_length _ _ _ _ _ _ St) as L1. pose proof (st_length _ _ _ _ _ _ St2) as L2.
    destruct (Z.ltb_spec (Z.of_nat p) e) as [L|L].
    + destruct (nth_error (sk_buf sk2') p) as [b2|] eqn:E2, (nth_error (sk_buf sk1') p) as [b1|] eqn:E1.
      * pose proof (st_covered _ _ _ _ _ _ St p b1 L E1) as W1. pose proof (st_covered _ _ _ _ _ _ St2 p b2 L E2) as W2.
        rewrite Eo in W2. apply ws_fun in W1, W2. congruence.
      * apply nth_error_None in E1. pose proof (proj1 (nth_error_Some (sk_buf sk2') p) ltac:(congruence)). rewrite Eb in L2. lia.
      * apply nth_error_None in E2. pose proof (proj1 (nth_error_Some (sk_buf sk1') p) ltac:(congruence)). rewrite Eb in L2. lia.
      * reflexivity.
    + rewrite (st_rest _ _ _ _ _ _ St p L ltac:(lia)), (st_rest _ _ _ _ _ _ St2 p L ltac:(lia)), Eb. reflexivity.
  - rewrite (st_index _ _ _ _ _ _ St), (st_index _ _ _ _ _ _ St2), Eo. reflexivity.
Qed.

(** ** C42 *)
Lemma flt_neg_eps (j : f64) : flt (frem1 j) (fneg eps64) = true <-> (frac j < - bpow radix2 (-52))%R.
Proof.
  destruct eps64_correct as [E1 E2].
  assert (N1 : B2R (fneg eps64) = (- bpow radix2 (-52))%R) by (rewrite (B2R_fneg 53 1024), E1; reflexivity).
  assert (N2 : is_finite (fneg eps64) = true) by (rewrite (finite_fneg 53 1024); exact E2).
  destruct (is_finite j) eqn:F.
  - destruct (frem1_correct 53 1024 j F) as [R1 R2]. rewrite (flt_correct 53 1024 _ _ R2 N2), N1, R1. reflexivity.
  - assert (is_nan (frem1 j) = true) as E by (destruct j; try discriminate; reflexivity).
    unfold frac. assert (B2R j = 0%R) as -> by (destruct j; try discriminate; reflexivity).
    rewrite (Ztrunc_IZR 0). pose proof (bpow_gt_0 radix2 (-52)).
    destruct (frem1 j); try discriminate. split; [discriminate|lra].
Qed.
Lemma update_at_set {A} i (x : A) l : (i < length l)%nat -> exists l', update_at i (fun _ => x) l = Ok l' /\
  length l' = length l /\ forall p, nth_error l' p = if Nat.eqb p i then Some x else nth_error l p.
Proof.
  revert l; induction i as [|i IH]; intros [|a l] H; cbn in H; try lia; cbn [update_at].
  - exists (x :: l). split; [reflexivity|]. split; [reflexivity|]. intros [|p]; reflexivity.
  - destruct (IH l ltac:(lia)) as (l' & E & L & N). rewrite E. cbn [bind]. exists (a :: l'). split; [reflexivity|].
    split; [cbn; now rewrite L|]. intros [|p]; cbn; [reflexivity|apply N].
Qed.
Lemma flush_spec l k (sk : sink l k) : let j := resampler_index (sk_res sk) in
  ((Rabs (frac j) <= bpow radix2 (-52))%R -> flush sk = Ok sk) /\
  ((bpow radix2 (-52) < Rabs (frac j))%R -> floor_index j < Z.of_nat (length (sk_buf sk)) ->
     exists sk', flush sk = Ok sk' /\ sk_rate sk' = sk_rate sk /\ sk_res sk' = sk_res sk /\
       length (sk_buf sk') = length (sk_buf sk) /\
       nth_error (sk_buf sk') (Z.to_nat (floor_index j)) = Some (resampler_frame (sk_res sk)) /\
       forall p, Z.of_nat p <> floor_index j -> nth_error (sk_buf sk') p = nth_error (sk_buf sk) p) /\
  ((bpow radix2 (-52) < Rabs (frac j))%R -> Z.of_nat (length (sk_buf sk)) <= floor_index j ->
     flush sk = Panic IndexOutOfBounds).
Proof.
  intros j. unfold flush. change (offseti (sk_res sk)) with j.
  pose proof (floor_index_bounds j) as Bj. pose proof (bpow_gt_0 radix2 (-52)) as Pe.
  assert (C : flt eps64 (frem1 j) || flt (frem1 j) (fneg eps64) = true <-> (bpow radix2 (-52) < Rabs (frac j))%R).
  { rewrite orb_true_iff, flt_eps_frac, flt_neg_eps. split.
    - intros [H|H]; [apply Rlt_le_trans with (1 := H), Rle_abs|]. rewrite Rabs_left by lra. lra.
    - intros H. unfold Rabs in H. destruct (Rcase_abs (frac j)); [right|left]; lra. }
  split; [|split].
  - intros H. destruct (flt eps64 (frem1 j) || flt (frem1 j) (fneg eps64))%bool; [|reflexivity]. pose proof (proj1 C eq_refl). lra.
  - intros H L. rewrite (proj2 C H). cbv zeta. rewrite floor_index_correct.
    destruct (Z.ltb_spec (floor_index j) (Z.of_nat (length (sk_buf sk)))); [|lia].
    destruct (update_at_set (Z.to_nat (floor_index j)) (partial (sk_res sk)) (sk_buf sk) ltac:(lia)) as (l' & E & Ll & Nl).
    rewrite E. cbn [bind]. eexists. split; [reflexivity|]. cbn. split; [reflexivity|]. split; [reflexivity|]. split; [exact Ll|]. split.
    + rewrite Nl, Nat.eqb_refl. reflexivity.
    + intros p Hp. rewrite Nl. destruct (Nat.eqb_spec p (Z.to_nat (floor_index j))); [lia|reflexivity].
  - intros H L. rewrite (proj2 C H). cbv zeta. rewrite floor_index_correct.
    destruct (Z.ltb_spec (floor_index j) (Z.of_nat (length (sk_buf sk)))); [lia|reflexivity].
Qed.
