(** * StreamMore.v -- further lemmas about streams, in the form of the property
    theorems *)
From Coq Require Import ZArith NArith Reals List Bool Lia.
From Flocq Require Import Core.Core IEEE754.BinarySingleNaN.
From Verif Require Import Rust Float Chan Frame Ops Stream Audio SpecChan SpecFrame SpecStream SpecSink
  FrameProofs OpsProofs StreamProofs SinkProofs.
Import ListNotations.

Lemma take_pulls_full l k (s t : stream l k) gs n : pulls (take s n) gs t ->
  (N.of_nat (length gs) <= n)%N /\
  exists s', t = take s' (n - N.of_nat (length gs)) /\ pulls s gs s' /\
    (N.of_nat (length gs) = n -> next t = Ok (None, t)).
Proof.
  intros H. destruct (take_pulls_inv _ _ _ _ _ _ H) as (L & s' & -> & P). split; [exact L|].
  exists s'. split; [reflexivity|]. split; [exact P|]. intros E. rewrite E, N.sub_diag. apply take_stops.
Qed.
Lemma blend_frames l k l' k' (a : stream l k) (b : stream l' k') op t ms : blend a b op = Ok t ->
  starts t ms -> exists xs ys, starts a xs /\ starts b ys /\ length xs = length ms /\ length ys = length ms /\
  forall i m, nth_error ms i = Some m ->
    exists x y, nth_error xs i = Some x /\ nth_error ys i = Some y /\ mixed op x y m.
Proof.
  intros H S. destruct (blend_sound _ _ _ _ _ _ _ _ _ H S) as (xs & ys & Ha & Hb & Hm).
  exists xs, ys. destruct (mixes_length _ _ _ _ _ _ _ _ Hm) as [L1 L2]. repeat split; auto.
  intros i m Hi. exact (mixes_nth _ _ _ _ _ _ _ _ _ _ Hm Hi).
Qed.
Lemma blend_honest l k l' k' (a : stream l k) (b : stream l' k') op t : blend a b op = Ok t ->
  total_op op l k -> honest a -> honest b -> honest t.
Proof.
  intros H Ht Ha Hb. pose proof (proj1 (blend_ok _ _ _ _ _ _ _ _ H)) as L.
  unfold honest. rewrite L. destruct (slen a) as [na|] eqn:La, (slen b) as [nb|] eqn:Lb; cbn [shorter].
  - destruct (honest_some _ _ _ _ Ha La) as (xs & Yx & Ex), (honest_some _ _ _ _ Hb Lb) as (ys & Yy & Ey).
    destruct (N.leb_spec na nb) as [C|C].
    + pose proof (honest_starts _ _ b (length xs) Hb) as S. rewrite Lb in S. destruct (S ltac:(lia)) as (ys' & Sy & Ly).
      destruct (mixes_ex _ _ _ _ op xs ys' Ht (eq_sym Ly)) as (ms & Hm). exists ms.
      split; [eapply blend_left; eauto|]. destruct (mixes_length _ _ _ _ _ _ _ _ Hm). lia.
    + pose proof (honest_starts _ _ a (S (length ys)) Ha) as S. rewrite La in S. destruct (S ltac:(lia)) as (xs' & Sx & Lx).
      destruct (firstn_snoc xs' (length ys) Lx) as (x & Ex'). rewrite Ex' in Sx.
      destruct (mixes_ex _ _ _ _ op (firstn (length ys) xs') ys Ht) as (ms & Hm); [rewrite firstn_length; lia|].
      exists ms. split; [eapply blend_right; eauto|]. destruct (mixes_length _ _ _ _ _ _ _ _ Hm). lia.
  - destruct (honest_some _ _ _ _ Ha La) as (xs & Yx & Ex).
    destruct (honest_none _ _ _ Hb Lb (length xs)) as (ys' & Sy & Ly).
    destruct (mixes_ex _ _ _ _ op xs ys' Ht (eq_sym Ly)) as (ms & Hm). exists ms.
    split; [eapply blend_left; eauto|]. destruct (mixes_length _ _ _ _ _ _ _ _ Hm). lia.
  - destruct (honest_some _ _ _ _ Hb Lb) as (ys & Yy & Ey).
    destruct (honest_none _ _ _ Ha La (S (length ys))) as (xs' & Sx & Lx).
    destruct (firstn_snoc xs' (length ys) Lx) as (x & Ex'). rewrite Ex' in Sx.
    destruct (mixes_ex _ _ _ _ op (firstn (length ys) xs') ys Ht) as (ms & Hm); [rewrite firstn_length; lia|].
    exists ms. split; [eapply blend_right; eauto|]. destruct (mixes_length _ _ _ _ _ _ _ _ Hm). lia.
  - intros n. destruct (honest_none _ _ _ Ha La n) as (xs & (a' & Sx) & Lx), (honest_none _ _ _ Hb Lb n) as (ys & (b' & Sy) & Ly).
    destruct (mixes_ex _ _ _ _ op xs ys Ht ltac:(lia)) as (ms & Hm). exists ms.
    split; [eapply blend_result_pulls; eauto|]. destruct (mixes_length _ _ _ _ _ _ _ _ Hm). lia.
Qed.
Lemma blend_rates l k l' k' (a : stream l k) (b : stream l' k') op :
  match sample_rate a, sample_rate b with
  | Some x, Some y =>
      (feq x y = true -> exists t, blend a b op = Ok t /\ sample_rate t = Some x) /\
      (feq x y = false -> blend a b op = Panic AssertFailed)
  | None, None => exists t, blend a b op = Ok t /\ sample_rate t = None
  | None, Some _ =>
      (configurable a -> exists t, blend a b op = Ok t) /\ (~ configurable a -> blend a b op = Panic ExplicitPanic)
  | Some x, None =>
      (configurable b -> exists t, blend a b op = Ok t /\ sample_rate t = Some x) /\
      (~ configurable b -> blend a b op = Panic ExplicitPanic)
  end.
Proof.
  pose proof (blend_cases l k l' k' a b op) as C.
  destruct (sample_rate a) as [x|] eqn:Ea, (sample_rate b) as [y|].
  - destruct C as [C1 C2]. split; [|exact C2]. intros H. rewrite (C1 H). eexists; split; [reflexivity|]. exact Ea.
  - destruct C as [C1 C2]. split; [|exact C2]. intros H. destruct (C1 H) as (b' & _ & E). rewrite E. eexists; split; [reflexivity|exact Ea].
  - destruct C as [C1 C2]. split; [|exact C2]. intros H. destruct (C1 H) as (a' & _ & E). eauto.
  - rewrite C. eexists; split; [reflexivity|exact Ea].
Qed.
Lemma blend_nan l k l' k' (a : stream l k) (b : stream l' k') op y :
  sample_rate a = Some B754_nan -> sample_rate b = Some y -> blend a b op = Panic AssertFailed.
Proof. intros Ha Hb. pose proof (blend_cases l k l' k' a b op) as C. rewrite Ha, Hb in C. apply C. reflexivity. Qed.
Lemma frame_blend_audio_sink l k l' k' (f : frame l k) (a : audio l' k') op :
  exists t, blend (SFrame f) (audio_stream a) op = Ok t /\
    forall fuel lk kk (sk : sink lk kk), sink_stream fuel sk t = Panic ExplicitPanic.
Proof. destruct (frame_blend_audio l k l' k' f a op) as (t & H & _ & _ & P). eauto. Qed.
Lemma audio_blend_frame_sink l k l' k' (f : frame l' k') (a : audio l k) op : total_op op l k ->
  exists t, blend (audio_stream a) (SFrame f) op = Ok t /\
    forall lk kk (sk : sink lk kk), exists sk' it, sink_stream (S (length (frames a))) sk t = Ok (sk', it).
Proof.
  intros Ht. eexists. split; [reflexivity|]. intros lk kk sk.
  set (t := SBlend (audio_stream a) (SFrame f) op).
  assert (L : slen t = Some (N.of_nat (length (frames a)))) by reflexivity.
  assert (W : well_formed t) by (cbn; tauto).
  destruct (honest_some _ _ _ _ (well_formed_honest _ _ _ W) L) as (fs & Y & E).
  assert (Ng : negotiated sk t (fdiv (sk_rate sk) (s_rate a)) t) by (left; eexists; repeat split; reflexivity).
  destruct (stream_finite _ _ _ _ sk t t _ fs _ Ng Y L) as (sk' & _ & _ & _ & it & H & _).
  exists sk', it. replace (length (frames a)) with (length fs) by lia. exact H.
Qed.

(** The negotiated rate. *)
Lemma set_rate_told l k (s s' : stream l k) sr : set_sample_rate s sr = Ok s' ->
  (remembers s -> sample_rate s' = Some sr) /\ (~ remembers s -> sample_rate s' = None).
Proof.
  revert s'; induction s as [l k f|l k r fs|l k r fs c|l k s IH n|l k l' k' a IHa b IHb op|l k u]; intros s' H; cbn [remembers].
  - injection H as <-. split; [intros []|reflexivity].
  - discriminate.
  - discriminate.
  - cbn [set_sample_rate] in H. destruct (set_sample_rate s sr) as [t| |] eqn:E; try discriminate. cbn [bind] in H. injection H as <-.
    exact (IH t eq_refl).
  - cbn [set_sample_rate] in H. destruct (set_sample_rate a sr) as [a2| |] eqn:Ea; try discriminate. cbn [bind] in H.
    destruct (set_sample_rate b sr) as [b2| |] eqn:Eb; try discriminate. cbn [bind] in H. injection H as <-. exact (IHa a2 eq_refl).
  - cbn [set_sample_rate] in H. destruct (u_configurable u); [|discriminate]. injection H as <-. split; [reflexivity|tauto].
Qed.
Lemma blend_told l k l' k' (a : stream l k) (b : stream l' k') op r : sample_rate a = None -> sample_rate b = Some r -> configurable a ->
  exists t, blend a b op = Ok t /\ (remembers a -> sample_rate t = Some r) /\ (~ remembers a -> sample_rate t = None).
Proof.
  intros A B C. pose proof (blend_cases l k l' k' a b op) as H. rewrite A, B in H. destruct (proj1 H C) as (a' & E & Et).
  exists (SBlend a' b op). split; [exact Et|]. exact (set_rate_told l k a a' r E).
Qed.
(** The frames of a user's stream. *)
Lemma user_starts l k (u : user_stream l k) fs : starts (SUser u) fs <->
  forall i, (i < length fs)%nat -> u_item u (u_pos u + i) = Ok (nth_error fs i).
Proof.
  unfold starts. revert u; induction fs as [|f fs IH]; intros u; split.
  - intros _ i Hi. cbn in Hi. lia.
  - intros _. exists (SUser u). constructor.
  - intros (t & P) i Hi. inversion P as [|? s' ? ? ? N P']; subst. cbn [next] in N. destruct (u_item u (u_pos u)) as [o| |] eqn:E; try discriminate.
    cbn [bind] in N. injection N as -> <-. destruct i as [|i]; [rewrite Nat.add_0_r; exact E|]. cbn [nth_error].
    pose proof (proj1 (IH _) (ex_intro _ t P') i ltac:(cbn in Hi; lia)) as G. cbn [u_item u_pos] in G. rewrite <- G. f_equal. lia.
  - intros H. assert (E : u_item u (u_pos u) = Ok (Some f)). { rewrite <- (Nat.add_0_r (u_pos u)). apply (H 0%nat). cbn. lia. }
    destruct (proj2 (IH (mkUser (u_rate u) (u_configurable u) (u_len u) (u_item u) (S (u_pos u))))) as (t & P).
    + intros i Hi. cbn [u_item u_pos]. pose proof (H (S i) ltac:(cbn; lia)) as G. cbn [nth_error] in G. rewrite <- G. f_equal. lia.
    + exists t. econstructor; [|exact P]. cbn [next]. rewrite E. reflexivity.
Qed.
