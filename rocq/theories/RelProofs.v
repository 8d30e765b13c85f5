(** * RelProofs.v -- two runs with related frames (C73, C74) *)
From Coq Require Import ZArith NArith Reals List Bool Lia.
From Flocq Require Import Core.Core IEEE754.BinarySingleNaN.
From Verif Require Import Rust Float Math Chan Frame Ops Stream Audio SpecChan SpecFrame SpecStream SpecSink SpecAudio SpecRel
  FChanProofs FrameProofs StreamProofs SinkProofs AudioProofs OpsProofs.
Import ListNotations.
Open Scope Z_scope.

Lemma both_bind {A B C D} (P : A -> B -> Prop) (Q : C -> D -> Prop) x y f g : both P x y ->
  (forall a b, P a b -> both Q (f a) (g b)) -> both Q (bind x f) (bind y g).
Proof. destruct x, y; cbn; intros H K; try contradiction; auto. Qed.
Lemma both_refl {A} (x : res A) : both eq x x.
Proof. destruct x; cbn; auto. Qed.
Lemma Forall2_len {A B} (P : A -> B -> Prop) xs ys : Forall2 P xs ys -> length ys = length xs.
Proof. induction 1; cbn; congruence. Qed.
Lemma Forall2_nth {A B} (P : A -> B -> Prop) xs ys i : Forall2 P xs ys -> both_some P (nth_error xs i) (nth_error ys i).
Proof. intros H. revert i. induction H; intros [|i]; cbn; auto. Qed.
Lemma Forall2_skipn {A B} (P : A -> B -> Prop) xs ys n : Forall2 P xs ys -> Forall2 P (skipn n xs) (skipn n ys).
Proof. intros H. revert n. induction H; intros [|n]; cbn; auto. Qed.
Lemma Forall2_repeat {A B} (P : A -> B -> Prop) x y n : P x y -> Forall2 P (repeat x n) (repeat y n).
Proof. intros H. induction n; cbn; auto. Qed.
Lemma update_both {A B} (P : A -> B -> Prop) f g : (forall x y, P x y -> P (f x) (g y)) -> forall xs ys i, Forall2 P xs ys ->
  both (Forall2 P) (update_at i f xs) (update_at i g ys).
Proof.
  intros H xs ys i F. revert i. induction F as [|x y xs ys Pxy F IH]; intros [|i]; cbn [update_at]; cbn; auto.
  apply (both_bind (Forall2 P)); [apply IH|]. intros a b Hab. cbn. auto.
Qed.

Lemma paired_rate {l k l2 k2} (R : frame l k -> frame l2 k2 -> Prop) s s2 : paired R s s2 -> sample_rate s2 = sample_rate s.
Proof. induction 1; cbn [sample_rate u_rate]; auto. Qed.
Lemma paired_len {l k l2 k2} (R : frame l k -> frame l2 k2 -> Prop) s s2 : paired R s s2 -> slen s2 = slen s.
Proof.
  induction 1; cbn [slen u_len]; auto.
  - match goal with H : Forall2 _ _ _ |- _ => now rewrite (Forall2_len _ _ _ H) end.
  - match goal with H : Forall2 _ _ _ |- _ => now rewrite (Forall2_len _ _ _ H) end.
  - now rewrite IHpaired.
  - now rewrite IHpaired1, IHpaired2.
Qed.
Lemma paired_set_rate {l k l2 k2} (R : frame l k -> frame l2 k2 -> Prop) s s2 sr : paired R s s2 ->
  both (paired R) (set_sample_rate s sr) (set_sample_rate s2 sr).
Proof.
  induction 1 as [| | |l k l2 k2 R s s2 n H IH|l k l2 k2 R la ka la2 ka2 Q a a2 b b2 op op2 H1 IH1 H2 IH2 Hm|l k l2 k2 R r c n f f2 i H];
    cbn [set_sample_rate]; try reflexivity.
  - cbn. now constructor.
  - apply (both_bind (paired R)); [exact IH|]. intros x y Hxy. cbn. now constructor.
  - apply (both_bind (paired R)); [exact IH1|]. intros x y Hxy.
    apply (both_bind (paired Q)); [exact IH2|]. intros v w Hvw. cbn. now apply pa_blend with Q.
  - cbn [u_configurable]. destruct c; cbn; [|reflexivity]. now constructor.
Qed.
Definition step_alike {l k l2 k2} (R : frame l k -> frame l2 k2 -> Prop)
  (x : option (frame l k) * stream l k) (y : option (frame l2 k2) * stream l2 k2) : Prop :=
  both_some R (fst x) (fst y) /\ paired R (snd x) (snd y).
Lemma paired_next {l k l2 k2} (R : frame l k -> frame l2 k2 -> Prop) s s2 : paired R s s2 -> both (step_alike R) (next s) (next s2).
Proof.
  induction 1 as [l k l2 k2 R f f2 H|l k l2 k2 R r fs fs2 H|l k l2 k2 R r fs fs2 c H|l k l2 k2 R s s2 n H IH
    |l k l2 k2 R la ka la2 ka2 Q a a2 b b2 op op2 H1 IH1 H2 IH2 Hm|l k l2 k2 R r c n f f2 i H]; cbn [next].
  - cbn. split; cbn; auto. now constructor.
  - destruct H as [|x y xs ys Hxy H]; cbn; split; cbn; auto; constructor; auto.
  - pose proof (Forall2_nth R fs fs2 c H) as N. destruct (nth_error fs c), (nth_error fs2 c); cbn in N; try contradiction; cbn; split; cbn; auto; now constructor.
  - destruct (N.eqb n 0); [cbn; split; cbn; auto; now constructor|].
    apply (both_bind (step_alike R)); [exact IH|]. intros [o t] [o2 t2] [A B]. cbn in *. split; [exact A|]. now constructor.
  - apply (both_bind (step_alike R)); [exact IH1|]. intros [o t] [o2 t2] [A B]. cbn [fst snd] in A, B.
    destruct o as [x|], o2 as [x2|]; cbn in A; try contradiction; [|cbn; split; [exact I|]; now apply pa_blend with Q].
    apply (both_bind (step_alike Q)); [exact IH2|]. intros [q v] [q2 v2] [C D]. cbn [fst snd] in C, D.
    destruct q as [y|], q2 as [y2|]; cbn in C; try contradiction; [|cbn; split; [exact I|]; now apply pa_blend with Q].
    pose proof (Hm x x2 y y2 A C) as M.
    destruct (convert l k y) as [z|p|], (convert l2 k2 y2) as [z2|p2|]; cbn [bind] in *; try exact M; try contradiction;
    repeat match goal with |- context [mix_frames ?o ?x ?z] => destruct (mix_frames o x z) end; cbn [bind] in *; cbn in M |- *; try exact M; try contradiction.
    split; [exact M|]. now apply pa_blend with Q.
  - cbn [u_item u_pos u_rate u_configurable u_len]. apply (both_bind (both_some R)); [apply H|].
    intros a b Hab. cbn. split; [exact Hab|]. now constructor.
Qed.
Lemma paired_refl {l k} (s : stream l k) : paired eq s s.
Proof.
  assert (F : forall A (xs : list A), Forall2 eq xs xs) by (induction xs; auto).
  induction s as [l k f|l k r fs|l k r fs c|l k s IH n|l k l' k' a IHa b IHb op|l k [r c n f i]]; try (constructor; auto; fail).
  - apply pa_blend with eq; auto. intros x ? y ? <- <-. destruct (y <- convert l k y ;; mix_frames op x y); cbn; auto.
  - constructor. intros j. destruct (f j) as [[x|]|p|]; cbn; auto.
Qed.

Section Runs.
  Context {l : layout} {k : ck} {l2 : layout} {k2 : ck} {ls : layout} {ks : ck} {ls2 : layout} {ks2 : ck}.
  Context (W : f64 -> Prop) (R Rc : frame l k -> frame l2 k2 -> Prop) (Rs : frame ls ks -> frame ls2 ks2 -> Prop).
  Context (K : kept W R Rc Rs).
  Notation run_alike := (run_alike R Rs).
  Definition loop_alike (x : sink l k * stream ls ks * option N) (y : sink l2 k2 * stream ls2 ks2 * option N) : Prop :=
    run_alike (fst x) (fst y) /\ snd y = snd x.
  Lemma buf_add_both e i x x2 b b2 : R x x2 -> Forall2 R b b2 -> both (Forall2 R) (buf_add e i x b) (buf_add e i x2 b2).
  Proof.
    intros Hx Hb. unfold buf_add. rewrite (Forall2_len _ _ _ Hb). destruct (_ && _)%bool; [|reflexivity].
    apply update_both; [|exact Hb]. intros y y2 Hy. now apply (ke_add _ _ _ _ K).
  Qed.
  Lemma alike_buf sk sk2 b b2 : sinks_alike R sk sk2 -> Forall2 R b b2 -> sinks_alike R (with_buf sk b) (with_buf sk2 b2).
  Proof. intros [A B C D] H. constructor; cbn; auto. Qed.
  Lemma alike_res sk sk2 p p2 o : sinks_alike R sk sk2 -> R p p2 -> sinks_alike R (with_res sk (mkResampler p o)) (with_res sk2 (mkResampler p2 o)).
  Proof. intros [A B C D] H. constructor; cbn; auto. Qed.
  Lemma loop_both ratio e off fuel : weights_in W ratio off -> forall i sk sk2 it it2 n,
    offseti (sk_res sk) = off -> sinks_alike R sk sk2 -> paired Rs it it2 ->
    both loop_alike (stream_loop fuel i ratio e sk it n) (stream_loop fuel i ratio e sk2 it2 n).
  Proof.
    intros Hw. induction fuel as [|fuel IH]; intros i sk sk2 it it2 n Ho Hs Hp; [exact I|]. cbn [stream_loop].
    pose proof (sa_index _ _ _ Hs) as Hi. unfold resampler_index in Hi. rewrite Hi, Ho.
    apply (both_bind eq); [apply both_refl|]. intros c ? <-.
    destruct (_ <? e); cbn [negb]; [|cbn; split; [split; assumption|reflexivity]].
    apply (both_bind (step_alike Rs)); [now apply paired_next|]. intros [o t] [o2 t2] [Hoo Ht]. cbn [fst snd] in Hoo, Ht.
    destruct o as [x|], o2 as [x2|]; cbn in Hoo; try contradiction; [|cbn; split; [split; assumption|reflexivity]].
    apply (both_bind Rc); [now apply (ke_convert _ _ _ _ K)|]. intros y y2 Hy.
    destruct (Hw i) as [Wu Wl].
    apply (both_bind R); [now apply (ke_mul _ _ _ _ K)|]. intros xf xf2 Hf.
    apply (both_bind (Forall2 R)); [apply buf_add_both; [exact Hf|exact (sa_buf _ _ _ Hs)]|]. intros b b2 Hb.
    apply (both_bind R); [now apply (ke_mul _ _ _ _ K)|]. intros xc xc2 Hc.
    destruct (c <? e).
    - apply (both_bind (Forall2 R)); [now apply buf_add_both|]. intros b' b2' Hb'.
      apply IH; [exact Ho|now apply alike_buf|exact Ht].
    - apply IH; [reflexivity| |exact Ht]. apply alike_res; [now apply alike_buf|].
      apply (ke_add _ _ _ _ K); [exact (sa_frame _ _ _ Hs)|exact Hc].
  Qed.
  Lemma sink_both fuel sk sk2 s s2 : sinks_alike R sk sk2 -> paired Rs s s2 ->
    weights_in W (ratio_for (sk_rate sk) (sample_rate s)) (resampler_index (sk_res sk)) ->
    both run_alike (sink_stream fuel sk s) (sink_stream fuel sk2 s2).
  Proof.
    intros Hs Hp Hw. unfold sink_stream.
    apply (both_bind (fun x y => fst y = fst x /\ paired Rs (snd x) (snd y) /\ fst x = ratio_for (sk_rate sk) (sample_rate s))).
    - unfold stream_ratio. rewrite (paired_rate _ _ _ Hp), (sa_rate _ _ _ Hs). destruct (sample_rate s) as [r|].
      + cbn. auto.
      + apply (both_bind (paired Rs)); [now apply paired_set_rate|]. intros a b Hab. cbn. auto.
    - intros [ratio t] [? t2] (H1 & Ht & H2). cbn [fst snd] in *. subst.
      set (ratio := ratio_for _ _) in *. rewrite (paired_len _ _ _ Ht).
      assert (Hb : Forall2 R (add_partial (partial (sk_res sk)) (sk_buf sk)) (add_partial (partial (sk_res sk2)) (sk_buf sk2))).
      { pose proof (sa_buf _ _ _ Hs) as B. destruct B as [|b b2 bs bs2 Hb B]; cbn [add_partial]; constructor; auto.
        apply (ke_add _ _ _ _ K); [exact Hb|exact (sa_frame _ _ _ Hs)]. }
      cbn [sk_buf with_buf].
      assert (E : dst_end ratio (slen t) (add_partial (partial (sk_res sk2)) (sk_buf sk2)) = dst_end ratio (slen t) (add_partial (partial (sk_res sk)) (sk_buf sk))).
      { unfold dst_end. now rewrite (Forall2_len _ _ _ Hb). }
      rewrite E. set (e := dst_end _ _ _).
      apply (both_bind (Forall2 R)).
      { unfold buf_clear. rewrite (Forall2_len _ _ _ Hb). destruct (_ <=? _); [|reflexivity]. cbn.
        apply Forall2_app; [apply Forall2_repeat, (ke_default _ _ _ _ K)|now apply Forall2_skipn]. }
      intros b b2 Hb'.
      apply (both_bind loop_alike).
      { apply (loop_both ratio e (offseti (sk_res sk))); auto. apply alike_buf; [|exact Hb']. now apply alike_buf. }
      intros [[sk' it] n] [[sk2' it2] n2] [[Hs' Hit] Hn]. cbn [fst snd] in *. subst n2.
      apply (both_bind eq); [apply both_refl|]. intros m ? <-.
      pose proof (sa_index _ _ _ Hs') as Hi. unfold resampler_index in Hi. rewrite Hi. cbn. split; [|exact Hit].
      apply alike_res; [exact Hs'|exact (sa_frame _ _ _ Hs')].
  Qed.
  Lemma flush_both sk sk2 : sinks_alike R sk sk2 -> both (sinks_alike R) (flush sk) (flush sk2).
  Proof.
    intros Hs. unfold flush. pose proof (sa_index _ _ _ Hs) as Hi. unfold resampler_index in Hi. rewrite Hi.
    destruct (_ || _)%bool; [|exact Hs]. rewrite (Forall2_len _ _ _ (sa_buf _ _ _ Hs)). destruct (_ <? _); [|reflexivity].
    apply (both_bind (Forall2 R)); [|intros b b2 Hb; now apply alike_buf].
    apply update_both; [|exact (sa_buf _ _ _ Hs)]. intros. exact (sa_frame _ _ _ Hs).
  Qed.
  Lemma extend_both fuel (a : audio l k) (a2 : audio l2 k2) s s2 a' it n :
    s_rate a2 = s_rate a -> Forall2 R (frames a) (frames a2) -> paired Rs s s2 ->
    weights_in W (ratio_for (s_rate a) (sample_rate s)) (flit 0 0) -> slen s = Some n ->
    allocatable l2 k2 (Z.of_nat (length (frames a)) + frames_for (s_rate a) (sample_rate s) n) ->
    extend fuel a s = (a', Ok it) ->
    exists a2' it2, extend fuel a2 s2 = (a2', Ok it2) /\ s_rate a2' = s_rate a' /\ Forall2 R (frames a') (frames a2') /\ paired Rs it it2.
  Proof.
    intros Hr Hf Hp Hw Hn Al2 H.
    assert (Al : allocatable l k (Z.of_nat (length (frames a)) + frames_for (s_rate a) (sample_rate s) n)).
    { destruct (Z.le_gt_cases ((Z.of_nat (length (frames a)) + frames_for (s_rate a) (sample_rate s) n) * bytes_per_frame l k) (2 ^ 63 - 1)) as [L|L]; [exact L|].
      destruct (extend_too_long l k ls ks fuel a s n Hn) as (p & E & _); [unfold allocatable; lia|].
      unfold extend in H. rewrite E in H. discriminate. }
    pose proof (extend_internal_eq l k ls ks fuel a s n Hn Al) as E1.
    pose proof (extend_internal_eq l2 k2 ls2 ks2 fuel a2 s2 n) as E2. rewrite (paired_len _ _ _ Hp), (paired_rate _ _ _ Hp), Hr, (Forall2_len _ _ _ Hf) in E2.
    specialize (E2 Hn Al2). set (d := frames_for _ _ _) in *.
    assert (Ht : sinks_alike R (tail_sink l k (s_rate a) d) (tail_sink l2 k2 (s_rate a) d)).
    { constructor; cbn; auto using Forall2_repeat, (ke_default _ _ _ _ K). }
    pose proof (sink_both fuel _ _ s s2 Ht Hp Hw) as B.
    unfold extend in *. rewrite E1 in H. rewrite E2.
    destruct (sink_stream fuel (tail_sink l k (s_rate a) d) s) as [[sk t]|p|]; cbn [bind] in H; try discriminate.
    destruct (sink_stream fuel (tail_sink l2 k2 (s_rate a) d) s2) as [[sk2 t2]|p2|]; cbn in B; try contradiction.
    destruct B as [B1 B2]. cbn [fst snd] in B1, B2. cbn [bind].
    pose proof (flush_both _ _ B1) as F. destruct (flush sk) as [sk'|p|]; cbn [bind] in H; try discriminate.
    destruct (flush sk2) as [sk2'|p2|]; cbn in F; try contradiction. cbn [bind]. injection H as <- <-.
    do 2 eexists. split; [reflexivity|]. cbn [s_rate frames]. split; [reflexivity|]. split; [|exact B2].
    apply Forall2_app; [exact Hf|exact (sa_buf _ _ _ F)].
  Qed.
  (** The same with every outcome. *)
  Lemma extend_outcome fuel (a : audio l k) (a2 : audio l2 k2) s s2 n :
    s_rate a2 = s_rate a -> Forall2 R (frames a) (frames a2) -> paired Rs s s2 ->
    weights_in W (ratio_for (s_rate a) (sample_rate s)) (flit 0 0) -> slen s = Some n ->
    let m := Z.of_nat (length (frames a)) + frames_for (s_rate a) (sample_rate s) n in
    allocatable l k m -> allocatable l2 k2 m ->
    both (paired Rs) (snd (extend fuel a s)) (snd (extend fuel a2 s2)) /\
    s_rate (fst (extend fuel a2 s2)) = s_rate (fst (extend fuel a s)) /\
    Forall2 R (frames (fst (extend fuel a s))) (frames (fst (extend fuel a2 s2))).
  Proof.
    intros Hr Hf Hp Hw Hn m Al Al2. subst m.
    pose proof (extend_internal_eq l k ls ks fuel a s n Hn Al) as E1.
    pose proof (extend_internal_eq l2 k2 ls2 ks2 fuel a2 s2 n) as E2. rewrite (paired_len _ _ _ Hp), (paired_rate _ _ _ Hp), Hr, (Forall2_len _ _ _ Hf) in E2.
    specialize (E2 Hn Al2). set (d := frames_for _ _ _) in *.
    assert (Ht : sinks_alike R (tail_sink l k (s_rate a) d) (tail_sink l2 k2 (s_rate a) d)).
    { constructor; cbn; auto using Forall2_repeat, (ke_default _ _ _ _ K). }
    pose proof (sink_both fuel _ _ s s2 Ht Hp Hw) as B.
    unfold extend in *. rewrite E1, E2.
    destruct (sink_stream fuel (tail_sink l k (s_rate a) d) s) as [[sk t]|p|];
      destruct (sink_stream fuel (tail_sink l2 k2 (s_rate a) d) s2) as [[sk2 t2]|p2|]; cbn in B; try contradiction;
      [|subst p2; cbn; split; [reflexivity|]; split; [reflexivity|constructor]|cbn; split; [exact I|]; split; [reflexivity|constructor]].
    destruct B as [B1 B2]. cbn [fst snd] in B1, B2. cbn [bind].
    pose proof (flush_both _ _ B1) as F.
    destruct (flush sk) as [sk'|p|]; destruct (flush sk2) as [sk2'|p2|]; cbn in F; try contradiction; cbn [bind fst snd s_rate frames];
      [|subst p2; split; [reflexivity|]; split; [reflexivity|constructor]|split; [exact I|]; split; [reflexivity|constructor]].
    split; [exact B2|]. split; [reflexivity|].
    apply Forall2_app; [exact Hf|exact (sa_buf _ _ _ F)].
  Qed.
End Runs.

(** ** Channels *)
Lemma convert_same l k1 k2 (x : frame l k1) : exists y, convert l k2 x = Ok y /\ channels y = map (fun c => from_f64 k2 (to_f64 c)) (channels x).
Proof. destruct l; frame_cases x; eexists; (split; [reflexivity|]); reflexivity. Qed.
Lemma frame_mul_total l k (x y : frame l k) : exists z, frame_mul x y = Ok z.
Proof. apply (vmap2M_total (nchan l) (@c_mul_assign k) x y (mul_total k)). Qed.
Lemma nth_some {A} (xs : list A) i : (i < length xs)%nat -> exists a, nth_error xs i = Some a.
Proof. intros H. destruct (nth_error xs i) eqn:E; [eauto|]. apply nth_error_None in E. lia. Qed.
Lemma from_f64_channels l k w : channels (frame_from_f64 l k w) = repeat (from_f64 k w) (nchan l).
Proof. apply vmap2_const. Qed.

Section Routed.
  Context {l l2 : layout} {k ks : ck} (p : nat -> nat) (Hp : forall i, (i < nchan l2)%nat -> (p i < nchan l)%nat).
  Lemma chan_index (l' : layout) k' (f : frame l' k') i c : nth_error (channels f) i = Some c -> (i < nchan l')%nat.
  Proof. intros H. rewrite <- (channels_length l' k' f). apply nth_error_Some. congruence. Qed.
  Lemma chan_at (l' : layout) k' (f : frame l' k') i : (i < nchan l')%nat -> exists c, nth_error (channels f) i = Some c.
  Proof. intros H. apply nth_some. now rewrite channels_length. Qed.
  Lemma routed_kept : kept (fun _ => True) (@routed l k l2 p) (@routed l k l2 p) (@routed l ks l2 p).
  Proof.
    constructor.
    - intros i c H. pose proof (Hp i (chan_index _ _ _ _ _ H)) as Hi. rewrite (nth_default _ _ _ _ H).
      destruct (chan_at _ _ (frame_default l k) (p i) Hi) as (d & E). rewrite E. f_equal. exact (nth_default _ _ _ _ E).
    - intros x x2 y y2 Hx Hy i c H. pose proof (chan_index _ _ _ _ _ H) as Hi.
      destruct (chan_at _ _ x2 i Hi) as (a & Ea), (chan_at _ _ y2 i Hi) as (b & Eb).
      unfold frame_add, channels in *. rewrite (vmap2_nth _ _ _ _ _ _ _ Ea Eb) in H.
      rewrite (vmap2_nth _ _ _ _ _ _ _ (Hx _ _ Ea) (Hy _ _ Eb)). exact H.
    - intros x x2 w Hx _. destruct (frame_mul_total l k x (frame_from_f64 l k w)) as (z & Ez), (frame_mul_total l2 k x2 (frame_from_f64 l2 k w)) as (z2 & Ez2).
      rewrite Ez, Ez2. cbn. intros i c H. pose proof (chan_index _ _ _ _ _ H) as Hi.
      destruct (chan_at _ _ x2 i Hi) as (a & Ea).
      assert (Eb : nth_error (channels (frame_from_f64 l2 k w)) i = Some (from_f64 k w)) by (rewrite from_f64_channels; now apply nth_repeat).
      assert (Eb1 : nth_error (channels (frame_from_f64 l k w)) (p i) = Some (from_f64 k w)) by (rewrite from_f64_channels; now apply nth_repeat, Hp).
      destruct (proj1 (vmap2M_ok _ _ _ _ _) Ez2 i a _ Ea Eb) as (c2 & E1 & E2).
      destruct (proj1 (vmap2M_ok _ _ _ _ _) Ez (p i) a _ (Hx _ _ Ea) Eb1) as (c1 & F1 & F2).
      unfold channels in *. rewrite F2. congruence.
    - intros x x2 Hx. destruct (convert_same l ks k x) as (y & Ey & Cy), (convert_same l2 ks k x2) as (y2 & Ey2 & Cy2).
      rewrite Ey, Ey2. cbn. intros i c H. rewrite Cy2 in H. rewrite Cy.
      rewrite nth_error_map in *. destruct (nth_error (channels x2) i) as [a|] eqn:E; [|discriminate]. now rewrite (Hx _ _ E).
  Qed.
End Routed.
Lemma weights_any ratio off : weights_in (fun _ => True) ratio off.
Proof. intros i. auto. Qed.

(** The same source into sinks of two layouts. *)
Section Layouts.
  Context {k ks : ck}.
  Lemma weaken_kept {l l2 ls ls2} (p : nat -> nat) (Rs : frame ls ks -> frame ls2 ks -> Prop) :
    (forall i, (i < nchan l2)%nat -> (p i < nchan l)%nat) ->
    (forall x x2, Rs x x2 -> both (@routed l k l2 p) (convert l k x) (convert l2 k x2)) ->
    kept (fun _ => True) (@routed l k l2 p) (@routed l k l2 p) Rs.
  Proof.
    intros Hp Hc. destruct (@routed_kept l l2 k ks p Hp) as [K1 K2 K3 _]. constructor; auto.
  Qed.
  Lemma stereo_of_mono : kept (fun _ => True) (@routed Mono k Stereo (fun _ => O)) (@routed Mono k Stereo (fun _ => O)) (@eq (frame Mono ks)).
  Proof.
    apply weaken_kept; [cbn; lia|]. intros x ? <-. frame_cases x. cbn.
    intros [|[|[|i]]] c0 H; cbn in *; try discriminate; exact H.
  Qed.
  Lemma surround_front ls :
    kept (fun _ => True) (@routed Surround k Stereo front) (@routed Surround k Stereo front) (@eq (frame ls ks)).
  Proof.
    apply weaken_kept; [intros [|[|i]]; cbn; lia|]. intros x ? <-. destruct ls; frame_cases x; cbn;
    intros [|[|[|i]]] d H; cbn in *; try discriminate; exact H.
  Qed.
End Layouts.

(** ** Blends *)
Lemma routed_mix {l l2 k} (p : nat -> nat) op : (forall i, (i < nchan l2)%nat -> (p i < nchan l)%nat) ->
  op = Src \/ op = Dest \/ op = Clear \/ op = Plus \/ op = Amplify ->
  forall (x y : frame l k) (x2 y2 : frame l2 k), routed p x x2 -> routed p y y2 ->
  both (routed p) (mix_frames op x y) (mix_frames op x2 y2).
Proof.
  intros Hp Hop x y x2 y2 Hx Hy.
  destruct (@routed_kept l l2 k k p Hp) as [K1 K2 _ _].
  destruct (mix_src_dest_clear l k x y) as (A1 & A2 & A3), (mix_src_dest_clear l2 k x2 y2) as (B1 & B2 & B3).
  destruct Hop as [-> | [-> | [-> | [-> | ->]]]].
  - rewrite A1, B1. exact Hy.
  - rewrite A2, B2. exact Hx.
  - rewrite A3, B3. exact K1.
  - rewrite !mix_plus. exact (K2 _ _ _ _ Hx Hy).
  - destruct (mix_amplify_spec l k x y) as (z & E & _ & C), (mix_amplify_spec l2 k x2 y2) as (z2 & E2 & _ & C2).
    rewrite E, E2. cbn. intros i c Hc. pose proof (chan_index _ _ _ _ _ Hc) as Hi.
    destruct (chan_at _ _ x2 i Hi) as (a & Ea), (chan_at _ _ y2 i Hi) as (b & Eb).
    destruct (C2 i a b Ea Eb) as (c2 & M2 & N2), (C (p i) a b (Hx _ _ Ea) (Hy _ _ Eb)) as (c1 & M1 & N1). congruence.
Qed.
Lemma routed_convert {l l2 k ks} (p : nat -> nat) : (forall i, (i < nchan l2)%nat -> (p i < nchan l)%nat) ->
  forall (x : frame l ks) (x2 : frame l2 ks), routed p x x2 -> both (routed p) (convert l k x) (convert l2 k x2).
Proof. intros Hp. exact (ke_convert _ _ _ _ (@routed_kept l l2 k ks p Hp)). Qed.
Lemma routed_blend {l l2 k kb} (p : nat -> nat) op : (forall i, (i < nchan l2)%nat -> (p i < nchan l)%nat) ->
  op = Src \/ op = Dest \/ op = Clear \/ op = Plus \/ op = Amplify ->
  forall (a : stream l k) (b : stream l kb) (a2 : stream l2 k) (b2 : stream l2 kb), paired (routed p) a a2 -> paired (routed p) b b2 ->
  paired (routed p) (SBlend a b op) (SBlend a2 b2 op).
Proof.
  intros Hp Hop a b a2 b2 Ha Hb. apply pa_blend with (routed p); auto. intros x x2 y y2 Hx Hy.
  apply (both_bind (routed p)); [now apply routed_convert|]. intros z z2 Hz. now apply routed_mix.
Qed.

(** ** Runs *)
Lemma routed_stream {l l2 k ks} (p : nat -> nat) fuel (sk : sink l k) (sk2 : sink l2 k) (s : stream l ks) (s2 : stream l2 ks) :
  (forall i, (i < nchan l2)%nat -> (p i < nchan l)%nat) -> sinks_alike (routed p) sk sk2 -> paired (routed p) s s2 ->
  both (run_alike (routed p) (routed p)) (sink_stream fuel sk s) (sink_stream fuel sk2 s2).
Proof. intros Hp Ha Hs. apply (sink_both (fun _ => True) _ (routed p)); auto using routed_kept, weights_any. Qed.
Lemma routed_flush {l l2 k} (p : nat -> nat) (sk : sink l k) (sk2 : sink l2 k) :
  sinks_alike (routed p) sk sk2 -> both (sinks_alike (routed p)) (flush sk) (flush sk2).
Proof. apply flush_both. Qed.
Lemma routed_extend {l l2 k ks} (p : nat -> nat) fuel (a a' : audio l k) (a2 : audio l2 k) (s it : stream l ks) (s2 : stream l2 ks) n :
  (forall i, (i < nchan l2)%nat -> (p i < nchan l)%nat) ->
  s_rate a2 = s_rate a -> Forall2 (routed p) (frames a) (frames a2) -> paired (routed p) s s2 -> slen s = Some n ->
  allocatable l2 k (Z.of_nat (length (frames a)) + frames_for (s_rate a) (sample_rate s) n) ->
  extend fuel a s = (a', Ok it) ->
  exists a2' it2, extend fuel a2 s2 = (a2', Ok it2) /\ s_rate a2' = s_rate a' /\ Forall2 (routed p) (frames a') (frames a2') /\
    paired (routed p) it it2.
Proof.
  intros Hp Hr Hf Hs Hn Al H.
  exact (extend_both (fun _ => True) _ (routed p) _ (routed_kept p Hp) fuel a a2 s s2 a' it n Hr Hf Hs (weights_any _ _) Hn Al H).
Qed.
Lemma routed_extend_outcome {l l2 k ks} (p : nat -> nat) fuel (a : audio l k) (a2 : audio l2 k) (s : stream l ks) (s2 : stream l2 ks) n :
  (forall i, (i < nchan l2)%nat -> (p i < nchan l)%nat) ->
  s_rate a2 = s_rate a -> Forall2 (routed p) (frames a) (frames a2) -> paired (routed p) s s2 -> slen s = Some n ->
  let m := Z.of_nat (length (frames a)) + frames_for (s_rate a) (sample_rate s) n in
  allocatable l k m -> allocatable l2 k m ->
  both (paired (routed p)) (snd (extend fuel a s)) (snd (extend fuel a2 s2)) /\
  s_rate (fst (extend fuel a2 s2)) = s_rate (fst (extend fuel a s)) /\
  Forall2 (routed p) (frames (fst (extend fuel a s))) (frames (fst (extend fuel a2 s2))).
Proof.
  intros Hp Hr Hf Hs Hn m Al Al2.
  exact (extend_outcome (fun _ => True) _ (routed p) _ (routed_kept p Hp) fuel a a2 s s2 n Hr Hf Hs (weights_any _ _) Hn Al Al2).
Qed.
Lemma stereo_stream {k ks} fuel (sk : sink Mono k) (sk2 : sink Stereo k) (s : stream Mono ks) :
  sinks_alike (routed (fun _ => O)) sk sk2 ->
  both (run_alike (routed (fun _ => O)) eq) (sink_stream fuel sk s) (sink_stream fuel sk2 s).
Proof. intros Ha. apply (sink_both (fun _ => True) _ (routed (fun _ => O))); auto using stereo_of_mono, weights_any, paired_refl. Qed.
Lemma front_stream {k ls ks} fuel (sk : sink Surround k) (sk2 : sink Stereo k) (s : stream ls ks) :
  sinks_alike (routed front) sk sk2 ->
  both (run_alike (routed front) eq) (sink_stream fuel sk s) (sink_stream fuel sk2 s).
Proof. intros Ha. apply (sink_both (fun _ => True) _ (routed front)); auto using surround_front, weights_any, paired_refl. Qed.
