(** * RangeProofs.v -- signals stay within full scale (C75) *)
From Coq Require Import ZArith NArith Reals List Bool Lia Lra.
From Flocq Require Import Core.Core IEEE754.BinarySingleNaN.
From Verif Require Import Rust Float Math Chan Frame Ops Stream Audio Unwind FloatProofs SpecChan SpecFrame SpecStream SpecSink SpecAudio SpecRange
  ChanProofs FChanProofs FrameProofs FArithProofs FloorProofs RoundTripProofs StreamProofs SinkProofs AudioProofs OpsProofs UnwindProofs.
Import ListNotations.
Open Scope R_scope.

Lemma int_valid k (c : chan k) : is_int k -> valid c.
Proof. intros [-> | ->]; exact I. Qed.
Lemma kind_cases k : is_int k \/ is_float k.
Proof. destruct k; unfold is_int, is_float; auto. Qed.
Lemma from_f64_valid k (x : f64) : in_range x -> valid (from_f64 k x).
Proof. intros H. destruct k; cbn; auto. exact (proj1 (via32 x H)). Qed.
Lemma mid_valid k : valid (MID k).
Proof.
  pose proof (frame_default_valid Mono k) as H. unfold frame_valid in H. inversion H; subst. assumption.
Qed.
Lemma c_mul_valid k (a b c : chan k) : valid a -> valid b -> c_mul a b = Ok c -> valid c.
Proof.
  intros Ha Hb E. destruct (kind_cases k) as [Hk|Hk]; [now apply int_valid|].
  destruct (float_mul_valid k Hk a b Ha Hb) as (p & Ep & V & _). congruence.
Qed.
Lemma c_add_valid k (a b : chan k) : valid (c_add a b).
Proof.
  destruct (kind_cases k) as [Hk|Hk]; [now apply int_valid|]. exact (proj1 (float_ops_valid k Hk a b)).
Qed.
Lemma Forall_nth_valid {l k} (f : frame l k) : frame_valid f <-> forall i c, nth_error (channels f) i = Some c -> valid c.
Proof.
  unfold frame_valid. rewrite Forall_forall. split.
  - intros H i c E. apply H. now apply nth_error_In in E.
  - intros H c Hc. apply In_nth_error in Hc as (i & E). eauto.
Qed.

Lemma convert_valid l k l2 k2 (f : frame l k) : frame_valid f -> exists g, convert l2 k2 f = Ok g /\ frame_valid g.
Proof.
  intros V. pose proof (mid_valid k2) as Hm.
  assert (P : match convert l2 k2 f with Ok g => Forall valid (channels g) | _ => False end).
  { unfold frame_valid in V.
    destruct l; frame_cases f; cbn in V;
    repeat match goal with H : Forall _ (_ :: _) |- _ => inversion H; clear H; subst | H : Forall _ [] |- _ => clear H end;
    destruct l2; cbn; repeat apply Forall_cons; try apply Forall_nil; try exact Hm;
    apply from_f64_valid; try (now apply to_f64_range); apply avg_correct; now apply to_f64_range. }
  destruct (convert l2 k2 f) as [g|p|]; try contradiction. exists g. split; [reflexivity|exact P].
Qed.

(** ** Operators *)
Lemma accum_valid k (c c' : chan k) ps : accum c ps c' -> valid c -> valid c'.
Proof. induction 1; auto. intros _. apply IHaccum. apply c_add_valid. Qed.
Lemma builtin_keeps op : builtin op -> keeps_range op.
Proof.
  intros Hb l k x y z Vx Vy E. destruct op as [| | | | | |t|m|m mf]; try contradiction.
  - rewrite (proj1 (mix_src_dest_clear l k x y)) in E. congruence.
  - rewrite (proj1 (proj2 (mix_src_dest_clear l k x y))) in E. congruence.
  - rewrite (proj2 (proj2 (mix_src_dest_clear l k x y))) in E. injection E as <-. apply frame_default_valid.
  - destruct (mix_amplify_spec l k x y) as (z' & E' & _ & C). rewrite E in E'. injection E' as <-.
    rewrite Forall_nth_valid in *. intros i c Hc. pose proof (FrameProofs.nth_some _ _ _ _ _ Hc) as Hi.
    destruct (nth_ex _ _ x i Hi) as (a & Ea), (nth_ex _ _ y i Hi) as (b & Eb).
    destruct (C i a b Ea Eb) as (c' & M & N). rewrite Hc in N. injection N as <-. apply (c_mul_valid k a b c); eauto.
  - rewrite mix_plus in E. injection E as <-. apply frame_add_valid.
  - rewrite mix_compress in E. discriminate.
  - destruct (mix_pan l k t x y) as (z' & E' & C). rewrite E in E'. injection E' as <-.
    rewrite Forall_nth_valid. intros i c Hc. apply (accum_valid _ _ _ _ (C i c Hc)). apply mid_valid.
Qed.

(** ** Streams *)
Lemma ranged_next {l k} (s t : stream l k) o : ranged s -> next s = Ok (o, t) -> ranged t /\ (forall f, o = Some f -> frame_valid f).
Proof.
  intros H. revert t o. induction H as [l k f Hf|l k r fs Hf|l k r fs c Hf|l k s n H IH|l k l2 k2 a b op Ha IHa Hb IHb Hop|l k r c n f i Hf];
    intros t o E; cbn [next] in E.
  - injection E as <- <-. split; [now constructor|]. intros g [= <-]. exact Hf.
  - destruct Hf as [|g gs Hg Hf]; injection E as <- <-; (split; [now constructor|]); [discriminate|]. intros g' [= <-]. exact Hg.
  - destruct (nth_error fs c) as [g|] eqn:En; injection E as <- <-; (split; [now constructor|]); [|discriminate].
    intros g' [= <-]. rewrite Forall_forall in Hf. apply Hf. now apply nth_error_In in En.
  - destruct (N.eqb n 0); [injection E as <- <-; split; [now constructor|discriminate]|].
    destruct (next s) as [[o' s']|p|]; cbn [bind] in E; try discriminate. injection E as <- <-.
    destruct (IH s' o' eq_refl) as [A B]. split; [now constructor|exact B].
  - destruct (next a) as [[oa a']|p|]; cbn [bind] in E; try discriminate. destruct (IHa a' oa eq_refl) as [A B].
    destruct oa as [fa|]; [|injection E as <- <-; split; [now constructor|discriminate]].
    destruct (next b) as [[ob b']|p|]; cbn [bind] in E; try discriminate. destruct (IHb b' ob eq_refl) as [A2 B2].
    destruct ob as [fb|]; [|injection E as <- <-; split; [now constructor|discriminate]].
    destruct (convert_valid l2 k2 l k fb (B2 _ eq_refl)) as (g & Eg & Vg). rewrite Eg in E. cbn [bind] in E.
    destruct (mix_frames op fa g) as [m|p|] eqn:Em; cbn [bind] in E; try discriminate. injection E as <- <-.
    split; [now constructor|]. intros f [= <-]. exact (Hop l k fa g m (B _ eq_refl) Vg Em).
  - cbn [u_item u_pos u_rate u_configurable u_len] in E. destruct (f i) as [x|p|] eqn:Ei; cbn [bind] in E; try discriminate.
    injection E as <- <-. split; [now constructor|]. intros g ->. eauto.
Qed.
Lemma ranged_set_rate {l k} (s t : stream l k) sr : ranged s -> set_sample_rate s sr = Ok t -> ranged t.
Proof.
  intros H. revert t. induction H as [l k f Hf|l k r fs Hf|l k r fs c Hf|l k s n H IH|l k l2 k2 a b op Ha IHa Hb IHb Hop|l k r c n f i Hf];
    intros t E; cbn [set_sample_rate] in E; try discriminate.
  - injection E as <-. now constructor.
  - destruct (set_sample_rate s sr) as [s'|p|]; cbn [bind] in E; try discriminate. injection E as <-. constructor. now apply IH.
  - destruct (set_sample_rate a sr) as [a'|p|]; cbn [bind] in E; try discriminate.
    destruct (set_sample_rate b sr) as [b'|p|]; cbn [bind] in E; try discriminate. injection E as <-. constructor; auto.
  - cbn [u_configurable] in E. destruct c; try discriminate. injection E as <-. now constructor.
Qed.
Lemma ranged_pulls {l k} (s t : stream l k) fs : ranged s -> pulls s fs t -> Forall frame_valid fs /\ ranged t.
Proof.
  intros H P. induction P as [s|s f s' fs s'' E P IH]; [auto|].
  destruct (ranged_next _ _ _ H E) as [A B]. destruct (IH A) as [C D]. auto.
Qed.

(** ** Sinks *)
Lemma update_valid {l k} (g : frame l k -> frame l k) : (forall x, frame_valid (g x)) -> forall xs i ys, Forall frame_valid xs ->
  update_at i g xs = Ok ys -> Forall frame_valid ys.
Proof.
  intros Hg xs. induction xs as [|x xs IH]; intros [|i] ys V E; cbn [update_at] in E; try discriminate; inversion V; subst.
  - injection E as <-. auto.
  - destruct (update_at i g xs) as [zs|p|] eqn:Ez; cbn [bind] in E; try discriminate. injection E as <-. eauto.
Qed.
Lemma buf_add_valid {l k} e i (x : frame l k) xs ys : Forall frame_valid xs -> buf_add e i x xs = Ok ys -> Forall frame_valid ys.
Proof.
  unfold buf_add. intros V E. destruct (_ && _)%bool; [|discriminate].
  revert V E. apply update_valid. intros y. apply frame_add_valid.
Qed.
Lemma run_split {A B St} (st : St) (x : res A) (f : A -> St * res B) (P : St -> Prop) : P st -> (forall a, x = Ok a -> P (fst (f a))) -> P (fst (run st x f)).
Proof. destruct x; cbn; auto. Qed.
Lemma loop_ranged {l k ls ks} fuel : forall i ratio e (sk : sink l k) (it : stream ls ks) n, sink_ranged sk ->
  sink_ranged (fst (fst (loop_st fuel i ratio e sk it n))).
Proof.
  induction fuel as [|fuel IH]; intros i ratio e sk it n H; [exact H|]. cbn [loop_st].
  apply (run_split (sk, it) _ _ (fun st => sink_ranged (fst st))); [exact H|]. intros c _.
  destruct (negb _); [exact H|]. destruct (next_st it) as [it' o].
  apply (run_split (sk, it') _ _ (fun st => sink_ranged (fst st))); [exact H|]. intros [src|] _; [|exact H].
  apply (run_split (sk, it') _ _ (fun st => sink_ranged (fst st))); [exact H|]. intros f _.
  apply (run_split (sk, it') _ _ (fun st => sink_ranged (fst st))); [exact H|]. intros xf _.
  apply (run_split (sk, it') _ _ (fun st => sink_ranged (fst st))); [exact H|]. intros b Eb. cbn zeta.
  assert (H1 : sink_ranged (with_buf sk b)) by (split; [exact (buf_add_valid _ _ _ _ _ (proj1 H) Eb)|exact (proj2 H)]).
  apply (run_split (with_buf sk b, it') _ _ (fun st => sink_ranged (fst st))); [exact H1|]. intros xc _.
  destruct (_ <? _)%Z.
  - apply (run_split (with_buf sk b, it') _ _ (fun st => sink_ranged (fst st))); [exact H1|]. intros b2 Eb2. apply IH.
    split; [exact (buf_add_valid _ _ _ _ _ (proj1 H1) Eb2)|exact (proj2 H1)].
  - apply IH. split; [exact (proj1 H1)|]. apply frame_add_valid.
Qed.
Lemma sink_stays {l k ls ks} fuel (sk sk' : sink l k) (s it : stream ls ks) r : sink_ranged sk ->
  sink_stream_st fuel sk s = ((sk', it), r) -> sink_ranged sk'.
Proof.
  intros H E. assert (G : sink_ranged (fst (fst (sink_stream_st fuel sk s)))); [|now rewrite E in G]. clear E. unfold sink_stream_st.
  destruct (ratio_st sk s) as [s' q]. apply (run_split (sk, s') _ _ (fun st => sink_ranged (fst st))); [exact H|]. intros ratio _. cbn zeta.
  set (sk1 := with_buf sk _).
  assert (H1 : sink_ranged sk1).
  { split; [|exact (proj2 H)]. destruct H as [V _]. unfold sk1. cbn [sk_buf with_buf]. destruct V as [|b bs Vb V]; cbn [add_partial]; constructor; auto. apply frame_add_valid. }
  apply (run_split (sk1, s') _ _ (fun st => sink_ranged (fst st))); [exact H1|]. intros buf Eb.
  assert (H2 : sink_ranged (with_buf sk1 buf)).
  { split; [|exact (proj2 H1)]. cbn [sk_buf with_buf]. unfold buf_clear in Eb. destruct (_ <=? _)%Z; [|discriminate]. injection Eb as <-.
    apply Forall_app. split; [apply Forall_forall; intros f Hf; apply repeat_spec in Hf as ->; apply frame_default_valid|].
    apply Forall_forall. intros f Hf. pose proof (proj1 H1) as V. rewrite Forall_forall in V. apply V. rewrite <- (firstn_skipn (Z.to_nat (dst_end ratio (slen s') (sk_buf sk1))) (sk_buf sk1)). apply in_or_app. now right. }
  pose proof (loop_ranged fuel 0 ratio (dst_end ratio (slen s') (sk_buf sk1)) _ s' (slen s') H2) as L.
  destruct (loop_st _ _ _ _ _ _ _) as [[sk2 it2] n]. cbn [fst] in L.
  apply (run_split (sk2, it2) _ _ (fun st => sink_ranged (fst st))); [exact L|]. intros n' _.
  apply (run_split (sk2, it2) _ _ (fun st => sink_ranged (fst st))); [exact L|]. intros n'' _. exact L.
Qed.
Lemma flush_stays {l k} (sk sk' : sink l k) : sink_ranged sk -> flush sk = Ok sk' -> sink_ranged sk'.
Proof.
  intros H E. unfold flush in E. destruct (_ || _)%bool; [|injection E as <-; exact H].
  destruct (_ <? _)%Z; [|discriminate]. destruct (update_at _ _ _) as [b|p|] eqn:Eb; cbn [bind] in E; try discriminate. injection E as <-.
  split; [|exact (proj2 H)]. cbn [sk_buf with_buf]. revert Eb. apply update_valid; [|exact (proj1 H)]. intros _. exact (proj2 H).
Qed.
Lemma tail_ranged l k rate d : sink_ranged (tail_sink l k rate d).
Proof.
  split; [|apply frame_default_valid]. cbn. apply Forall_forall. intros f Hf. apply repeat_spec in Hf as ->. apply frame_default_valid.
Qed.
Lemma extend_stays {l k ls ks} fuel (a a' : audio l k) (s it : stream ls ks) r : Forall frame_valid (frames a) ->
  extend_st fuel a s = ((a', it), r) -> Forall frame_valid (frames a').
Proof.
  intros H E. pose proof (both_agree l k ls ks fuel (tail_sink l k (flit 0 0) 0) a s) as [_ G]. rewrite E in G.
  destruct r as [[]|p|].
  - pose proof (extend_valid _ _ _ _ _ _ _ _ _ G) as V. destruct (extend_appends _ _ _ _ _ _ _ _ _ G) as (n & added & _ & Ef & _).
    rewrite Ef. apply Forall_app. split; [exact H|]. apply Forall_forall. intros f Hf. apply In_nth_error in Hf as (i & Hi).
    apply (V (length (frames a) + i)%nat); [unfold audio_len; lia|]. unfold audio_get. rewrite Ef, nth_error_app2 by lia.
    now replace (length (frames a) + i - length (frames a))%nat with i by lia.
  - unfold extend in G. destruct (extend_internal fuel a s) as [[? ?]|?|]; try discriminate; injection G as <- _; constructor.
  - unfold extend in G. destruct (extend_internal fuel a s) as [[? ?]|?|]; try discriminate; injection G as <-; constructor.
Qed.
