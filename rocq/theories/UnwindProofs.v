(** * UnwindProofs.v -- lemmas about Unwind.v *)
From Coq Require Import ZArith NArith Reals List Bool Lia.
From Flocq Require Import Core.Core IEEE754.BinarySingleNaN.
From Verif Require Import Rust Float Math Chan Frame Ops Stream Audio Unwind SpecChan SpecFrame SpecStream SpecSink SpecAudio SpecUnwind
  FrameProofs StreamProofs SinkProofs DrainProofs SinkMore AudioProofs.
Import ListNotations.
Open Scope Z_scope.

(** ** Same outcomes *)
Definition outcome {A St} (x : St * res A) : res (A * St) :=
  match x with (st, Ok a) => Ok (a, st) | (_, Panic p) => Panic p | (_, OutOfFuel) => OutOfFuel end.
Lemma outcome_run {A B St} (st : St) (x : res A) (f : A -> St * res B) : outcome (run st x f) = bind x (fun a => outcome (f a)).
Proof. now destruct x. Qed.

Lemma next_agree l k (s : stream l k) : next s = outcome (next_st s).
Proof.
  induction s as [l k f|l k r fs|l k r fs c|l k s IH n|l k l' k' a IHa b IHb op|l k u]; cbn [next next_st].
  - reflexivity.
  - destruct fs; reflexivity.
  - destruct (nth_error fs c); reflexivity.
  - destruct (N.eqb n 0); [reflexivity|]. rewrite IH. destruct (next_st s) as [t [o|p|]]; reflexivity.
  - rewrite IHa. destruct (next_st a) as [a' [[fa|]|p|]]; cbn [outcome bind run]; try reflexivity.
    rewrite IHb. destruct (next_st b) as [b' [[fb|]|p|]]; cbn [outcome bind run]; try reflexivity.
    destruct (convert l k fb) as [g|p|]; cbn [outcome bind run]; try reflexivity.
    destruct (mix_frames op fa g) as [m|p|]; reflexivity.
  - destruct (u_item u (u_pos u)); reflexivity.
Qed.
Lemma set_agree l k (s : stream l k) sr : set_sample_rate s sr = ('(_, t) <- outcome (set_rate_st s sr) ;; Ok t).
Proof.
  induction s as [l k f|l k r fs|l k r fs c|l k s IH n|l k l' k' a IHa b IHb op|l k u]; cbn [set_sample_rate set_rate_st]; try reflexivity.
  - rewrite IH. destruct (set_rate_st s sr) as [t [[]|p|]]; reflexivity.
  - rewrite IHa. destruct (set_rate_st a sr) as [a' [[]|p|]]; cbn [outcome bind run]; try reflexivity.
    rewrite IHb. destruct (set_rate_st b sr) as [b' [[]|p|]]; reflexivity.
  - destruct (u_configurable u); reflexivity.
Qed.
Lemma loop_agree l k ls ks ratio e fuel : forall i (sk : sink l k) (it : stream ls ks) srclen,
  stream_loop fuel i ratio e sk it srclen = ('(n, (sk, it)) <- outcome (loop_st fuel i ratio e sk it srclen) ;; Ok (sk, it, n)).
Proof.
  induction fuel as [|fuel IH]; intros i sk it srclen; [reflexivity|]. cbn [stream_loop loop_st].
  destruct (ceil_usize (dst_pos ratio (offseti (sk_res sk)) i)) as [c|p|]; cbn [bind run outcome]; try reflexivity.
  destruct (negb _); [reflexivity|]. rewrite next_agree.
  destruct (next_st it) as [it' [[src|]|p|]]; cbn [bind run outcome]; try reflexivity.
  destruct (convert l k src) as [f|p|]; cbn [bind run outcome]; try reflexivity.
  destruct (frame_mul f _) as [xf|p|]; cbn [bind run outcome]; try reflexivity.
  destruct (buf_add e _ xf (sk_buf sk)) as [buf|p|]; cbn [bind run outcome]; try reflexivity.
  destruct (frame_mul f _) as [xc|p|]; cbn [bind run outcome]; try reflexivity.
  destruct (c <? e); [|apply IH]. cbn [with_buf sk_buf sk_res sk_rate].
  destruct (buf_add e c xc buf) as [buf'|p|]; cbn [bind run outcome]; try reflexivity. apply IH.
Qed.
Lemma ratio_agree l k ls ks (sk : sink l k) (s : stream ls ks) : stream_ratio sk s = outcome (ratio_st sk s).
Proof.
  unfold stream_ratio, ratio_st. destruct (sample_rate s); [reflexivity|]. rewrite set_agree.
  destruct (set_rate_st s (sk_rate sk)) as [t [[]|p|]]; reflexivity.
Qed.
Lemma sink_agree l k ls ks fuel (sk : sink l k) (s : stream ls ks) :
  sink_stream fuel sk s = ('(_, st) <- outcome (sink_stream_st fuel sk s) ;; Ok st).
Proof.
  unfold sink_stream, sink_stream_st. rewrite ratio_agree. destruct (ratio_st sk s) as [t [ratio|p|]]; cbn [bind run outcome]; try reflexivity.
  destruct (buf_clear _ _) as [buf|p|]; cbn [bind run outcome]; try reflexivity. rewrite loop_agree.
  destruct (loop_st _ _ _ _ _ _ _) as [[sk' it] [n|p|]]; cbn [bind run outcome]; try reflexivity.
  destruct n; reflexivity.
Qed.
Lemma extend_agree l k ls ks fuel (a : audio l k) (s : stream ls ks) :
  extend fuel a s = (fst (fst (extend_st fuel a s)), '(_, (_, it)) <- outcome (extend_st fuel a s) ;; Ok it).
Proof.
  unfold extend, extend_internal, extend_st. cbv zeta.
  destruct (of_opt UnwrapNone (slen s)) as [n|p|]; cbn [bind run outcome fst]; try reflexivity.
  destruct (checked _ _ _) as [m|p|]; cbn [bind run outcome fst]; try reflexivity.
  destruct (isize_max <? _); [reflexivity|].
  destruct (audio_sink _ _) as [[[pre sk] post]|p|]; cbn [bind run outcome fst]; try reflexivity.
  rewrite sink_agree. destruct (sink_stream_st fuel sk s) as [[sk' it] [[]|p|]]; cbn [bind run outcome fst]; try reflexivity.
  destruct (flush sk') as [sk2|p|]; reflexivity.
Qed.

(** ** The state after a panic *)
Lemma next_st_ok l k (s t : stream l k) o : next_st s = (t, Ok o) <-> next s = Ok (o, t).
Proof.
  rewrite next_agree. destruct (next_st s) as [t' [o'|p|]]; cbn; split; intros H; try discriminate; now injection H as -> ->.
Qed.
Lemma next_st_panic l k (s : stream l k) p : next s = Panic p <-> exists t, next_st s = (t, Panic p).
Proof.
  rewrite next_agree. destruct (next_st s) as [t' [o'|q|]]; cbn; split; intros H; try discriminate.
  - destruct H as (t & H); discriminate.
  - injection H as ->. eauto.
  - destruct H as (t & H). now injection H as -> ->.
  - destruct H as (t & H); discriminate.
Qed.

Lemma loop_st_panic l k ls ks ratio e fuel : forall i (sk sk' : sink l k) (it it' : stream ls ks) srclen p,
  0 <= e <= Z.of_nat (length (sk_buf sk)) -> loop_st fuel i ratio e sk it srclen = ((sk', it'), Panic p) ->
  exists srcs fs, breaks it srcs p it' /\ converted srcs fs /\ sk' = run_sink ratio e i sk fs /\ (length srcs < fuel)%nat /\
    (forall a, (a <= length srcs)%nat -> floor_index (place ratio (offseti (sk_res sk)) (i + a)) < e).
Proof.
  induction fuel as [|fuel IH]; intros i sk sk' it it' srclen p He H; [discriminate|]. cbn [loop_st] in H.
  change (dst_pos ratio (offseti (sk_res sk)) i) with (place ratio (offseti (sk_res sk)) i) in H.
  set (j := place ratio (offseti (sk_res sk)) i) in *.
  rewrite ceil_index_correct in H. cbn [run] in H. rewrite floor_index_correct in H.
  destruct (Z.ltb_spec (floor_index j) e) as [Hf|Hf]; cbn [negb] in H; [|discriminate].
  destruct (next_st it) as [it1 [[src|]|q|]] eqn:En; cbn [run] in H; try discriminate.
  - destruct (convert_total ls ks l k src) as (f & Hc). rewrite Hc in H. cbn [run] in H.
    rewrite fmulp_ok in H. cbn [run] in H. pose proof (floor_index_bounds j). pose proof (ceil_index_bounds j).
    rewrite (buf_add_ok e) in H by lia. cbn [run] in H. rewrite fmulp_ok in H. cbn [run with_buf sk_buf sk_res sk_rate] in H.
    assert (Hs : loop_st fuel (S i) ratio e (step_sink ratio e i sk f) it1 srclen = ((sk', it'), Panic p)).
    { unfold step_sink. fold j. destruct (Z.ltb_spec (ceil_index j) e); [|exact H].
      rewrite (buf_add_ok e) in H by (rewrite ?addat_length; lia). exact H. }
    destruct (IH (S i) (step_sink ratio e i sk f) sk' it1 it' srclen p ltac:(rewrite step_length; lia) Hs) as (srcs & fs & (t & P & B) & C & -> & L & A).
    exists (src :: srcs), (f :: fs). split; [exists t; split; [econstructor; [apply next_st_ok; exact En|exact P]|exact B]|].
    split; [constructor; auto|]. split; [reflexivity|]. split; [cbn; lia|]. intros [|a] Ha; [rewrite Nat.add_0_r; exact Hf|].
    rewrite step_off in A. rewrite Nat.add_succ_r. apply (A a). cbn in Ha. lia.
  - injection H as <- <- ->. exists [], []. split; [exists it; split; [constructor|exact En]|]. split; [constructor|].
    split; [reflexivity|]. split; [cbn; lia|]. intros [|a] Ha; [rewrite Nat.add_0_r; exact Hf|cbn in Ha; lia].
Qed.
Lemma loop_st_ok l k ls ks ratio e fuel i (sk sk' : sink l k) (it it' : stream ls ks) srclen n :
  loop_st fuel i ratio e sk it srclen = ((sk', it'), Ok n) -> stream_loop fuel i ratio e sk it srclen = Ok (sk', it', n).
Proof. intros H. rewrite loop_agree, H. reflexivity. Qed.

Lemma set_rate_st_dropped l k (s : stream l k) sr : drop_stream (fst (set_rate_st s sr)) = drop_stream s.
Proof.
  induction s as [l k f|l k r fs|l k r fs c|l k s IH n|l k l' k' a IHa b IHb op|l k u]; cbn [set_rate_st]; try reflexivity.
  - destruct (set_rate_st s sr) as [t r]. exact IH.
  - destruct (set_rate_st a sr) as [a' [[]|p|]]; cbn [run fst drop_stream] in *; try now rewrite IHa.
    destruct (set_rate_st b sr) as [b' r]. cbn [fst drop_stream] in *. now rewrite IHa, IHb.
  - destruct (u_configurable u); reflexivity.
Qed.

(** sink_stream_st up to the loop. *)
Lemma sink_st_eq l k ls ks fuel (sk : sink l k) (s s' : stream ls ks) ratio :
  negotiated sk s ratio s' ->
  let e := covered ratio (slen s') (length (sk_buf sk)) in
  sink_stream_st fuel sk s =
  (let '((sk, it), r) := loop_st fuel 0 ratio e (prepared e sk) s' (slen s') in
   run (sk, it) r (fun srclen => run (sk, it) (of_opt UnwrapNone srclen) (fun n =>
     ((with_res sk (mkResampler (partial (sk_res sk)) (fadd (offseti (sk_res sk)) (fmul ratio (usize_as_f64 (Z.of_N n))))), it), Ok tt)))).
Proof.
  intros Hn e. apply negotiated_iff in Hn. rewrite ratio_agree in Hn. unfold sink_stream_st.
  destruct (ratio_st sk s) as [t [q|p|]]; cbn [outcome] in Hn; try discriminate. injection Hn as -> ->. cbn [run]. cbv zeta.
  cbn [sk_buf with_buf]. rewrite dst_end_covered, add_partial_length. unfold buf_clear. rewrite add_partial_length.
  fold e. pose proof (covered_bounds ratio (slen s') (length (sk_buf sk))) as B. fold e in B.
  destruct (Z.leb_spec e (Z.of_nat (length (sk_buf sk)))); [|lia]. cbn [run]. reflexivity.
Qed.

Lemma run_interrupted l k (sk : sink l k) ratio e fs : 0 < e <= Z.of_nat (length (sk_buf sk)) ->
  (forall a, (a < length fs)%nat -> floor_index (place ratio (offseti (sk_res sk)) a) < e) ->
  interrupted sk ratio e fs (run_sink ratio e 0 (prepared e sk) fs).
Proof.
  intros H A. destruct (run_streamed l k sk ratio e fs 0 ltac:(lia) A) as [R L C _ Re F _].
  cbn [with_res sk_rate sk_buf sk_res resampler_frame resampler_index partial offseti] in *.
  constructor; auto.
  - intros p Hp. apply Re; [exact Hp|lia].
  - unfold resampler_index. now rewrite run_off.
Qed.
Lemma sink_left l k ls ks fuel (sk sk' : sink l k) (s it : stream ls ks) p :
  sink_stream_st fuel sk s = ((sk', it), Panic p) ->
  (sample_rate s = None /\ ~ configurable s /\ p = ExplicitPanic /\ sk' = sk /\ drop_stream it = drop_stream s) \/
  exists ratio s' srcs fs, negotiated sk s ratio s' /\
    fails s' ratio (resampler_index (sk_res sk)) (covered ratio (slen s') (length (sk_buf sk))) srcs p it /\
    converted srcs fs /\ interrupted sk ratio (covered ratio (slen s') (length (sk_buf sk))) fs sk' /\ (length srcs < fuel)%nat.
Proof.
  intros H. destruct (ratio_st sk s) as [s' [ratio|q|]] eqn:Er.
  - assert (Hn : negotiated sk s ratio s') by (apply negotiated_iff; rewrite ratio_agree, Er; reflexivity).
    right. rewrite (sink_st_eq _ _ _ _ _ _ _ _ _ Hn) in H. cbv zeta in H.
    set (e := covered ratio (slen s') (length (sk_buf sk))) in *.
    pose proof (covered_bounds ratio (slen s') (length (sk_buf sk))) as He. fold e in He.
    destruct (loop_st fuel 0 ratio e (prepared e sk) s' (slen s')) as [[sk1 it1] [o|q|]] eqn:El; cbn [run] in H; try discriminate.
    + destruct o as [n|]; cbn [run of_opt] in H; [discriminate|]. injection H as <- <- <-.
      apply loop_st_ok in El.
      pose proof (loop_inv l k ls ks ratio e fuel 0 (prepared e sk) s' (slen s') ltac:(rewrite prepared_length; lia)) as
        (srcs & it2 & fs & Hp & Hc & Hall & Hcase). cbv zeta in Hcase. cbn [Nat.add] in *.
      cbn [prepared sk_res with_buf] in Hall, Hcase. fold (prepared e sk) in Hcase.
      pose proof (converted_length _ _ _ _ _ _ Hc) as Lc.
      assert (Hfuel : (length srcs < fuel)%nat).
      { destruct (Nat.lt_ge_cases (length srcs) fuel) as [|G]; [assumption|]. exfalso.
        rewrite <- (firstn_skipn fuel srcs) in Hp. apply pulls_app_inv in Hp as (t & Hp & _).
        destruct (converted_ex l k ls ks (firstn fuel srcs)) as (gs & Hg).
        assert (Lf : length (firstn fuel srcs) = fuel) by (rewrite firstn_length; lia).
        pose proof (loop_run ratio e 0 0 (prepared e sk) s' t (slen s') (firstn fuel srcs) gs ltac:(rewrite prepared_length; lia)
          ltac:(intros a Ha; apply Hall; lia) Hp Hg) as Hr. rewrite Lf, Nat.add_0_r in Hr. rewrite Hr in El. discriminate El. }
      rewrite El in Hcase. destruct Hcase as [(_ & E)|[(Hlt & [(it3 & Hn3 & E)|[(q & _ & E)|(_ & E)]])|(E & _)]]; try discriminate E.
      injection E as -> -> En.
      exists ratio, s', srcs, fs. split; [exact Hn|]. split.
      { split; [|right; exists it2; auto]. intros i Hi. destruct (Nat.eq_dec i (length srcs)) as [->|]; [exact Hlt|apply Hall; lia]. }
      split; [exact Hc|]. split; [|exact Hfuel]. pose proof (floor_index_bounds (place ratio (offseti (sk_res sk)) (length srcs))).
      fold e. apply run_interrupted; [lia|]. intros a Ha. apply Hall. lia.
    + injection H as -> -> ->.
      destruct (loop_st_panic l k ls ks ratio e fuel 0 (prepared e sk) sk' s' it (slen s') p ltac:(rewrite prepared_length; lia) El)
        as (srcs & fs & B & C & -> & Lf & A). cbn [prepared sk_res with_buf Nat.add] in A. fold (prepared e sk).
      exists ratio, s', srcs, fs. split; [exact Hn|]. fold e. split; [split; [exact A|now left]|]. split; [exact C|]. split; [|exact Lf].
      pose proof (converted_length _ _ _ _ _ _ C). pose proof (A 0%nat ltac:(lia)).
      pose proof (floor_index_bounds (place ratio (offseti (sk_res sk)) 0)).
      apply run_interrupted; [lia|]. intros a Ha. apply A. lia.
  - left. unfold sink_stream_st in H. rewrite Er in H. cbn [run] in H. injection H as <- <- ->.
    unfold ratio_st in Er. destruct (sample_rate s) eqn:Es; [discriminate|].
    pose proof (set_agree _ _ s (sk_rate sk)) as Ag. pose proof (set_rate_st_dropped _ _ s (sk_rate sk)) as Dr.
    destruct (set_rate_st s (sk_rate sk)) as [t [[]|r|]]; cbn [run outcome bind fst] in *; try discriminate. injection Er as <- ->.
    pose proof (set_rate_iff _ _ s (sk_rate sk)) as [I1 I2].
    split; [reflexivity|]. split; [intros X; apply I1 in X as (x & X); rewrite X in Ag; discriminate|].
    destruct (I2 _ eq_refl) as [(x & X)|X]; rewrite X in Ag; [discriminate|]. injection Ag as <-. auto.
  - exfalso. unfold sink_stream_st in H. rewrite Er in H. discriminate.
Qed.
Lemma sink_agree_panic l k ls ks fuel (sk : sink l k) (s : stream ls ks) p :
  sink_stream fuel sk s = Panic p <-> exists st, sink_stream_st fuel sk s = (st, Panic p).
Proof.
  rewrite sink_agree. destruct (sink_stream_st fuel sk s) as [st [[]|q|]]; cbn [outcome bind]; split; intros H; try discriminate.
  - destruct H as (x & H); discriminate.
  - injection H as ->. eauto.
  - destruct H as (x & H). now injection H as _ ->.
  - destruct H as (x & H); discriminate.
Qed.
(** Exactly when [stream] panics. *)
Lemma sink_panics_iff l k ls ks fuel (sk : sink l k) (s : stream ls ks) p :
  sink_stream fuel sk s = Panic p <->
  (sample_rate s = None /\ ~ configurable s /\ p = ExplicitPanic) \/
  exists ratio s' srcs it, negotiated sk s ratio s' /\ (length srcs < fuel)%nat /\
    fails s' ratio (resampler_index (sk_res sk)) (covered ratio (slen s') (length (sk_buf sk))) srcs p it.
Proof.
  split.
  - intros H. apply sink_agree_panic in H as ([sk' it] & H). apply sink_left in H as [(A & B & C & _)|(ratio & s' & srcs & fs & N & F & _ & _ & L)]; [auto|].
    right. exists ratio, s', srcs, it. auto.
  - intros [(A & B & ->)|(ratio & s' & srcs & it & Hn & L & Hf & Hc)].
    + unfold sink_stream, stream_ratio. rewrite A. pose proof (set_rate_iff _ _ s (sk_rate sk)) as [I1 I2].
      destruct (I2 _ eq_refl) as [X|X]; [apply I1 in X; contradiction|]. rewrite X. reflexivity.
    + rewrite (sink_stream_eq _ _ _ _ _ _ _ _ _ Hn). set (e := covered ratio (slen s') (length (sk_buf sk))) in *.
      pose proof (covered_bounds ratio (slen s') (length (sk_buf sk))) as He. fold e in He.
      destruct (converted_ex l k ls ks srcs) as (fs & C).
      assert (Hp : exists t, pulls s' srcs t) by (destruct Hc as [(t & P & _)|(t & P & _)]; eauto). destruct Hp as (t & Hp).
      replace fuel with (length srcs + S (fuel - length srcs - 1))%nat by lia.
      rewrite (loop_run ratio e _ 0 (prepared e sk) s' t (slen s') srcs fs);
        [|rewrite prepared_length; lia|cbn; intros a Ha; apply Hf; lia|exact Hp|exact C].
      cbn [Nat.add]. assert (Hlt : floor_index (place ratio (offseti (sk_res (run_sink ratio e 0 (prepared e sk) fs))) (length srcs)) < e)
        by (rewrite run_off; apply Hf; lia).
      destruct (loop_next ratio e (fuel - length srcs - 1) _ _ t (slen s') Hlt) as [L1 L2].
      destruct Hc as [(t' & P & B)|(t' & P & B & S & ->)]; destruct (pulls_det _ _ _ _ _ _ _ Hp P eq_refl) as [_ <-].
      * rewrite (L2 p); [reflexivity|]. apply next_st_panic. eauto.
      * rewrite (L1 it B), S. reflexivity.
Qed.

(** ** What was taken out of drained buffers *)
Lemma removed_next_st l k (s : stream l k) : Forall2 front_removed (drop_stream s) (drop_stream (fst (next_st s))).
Proof.
  induction s as [l k f|l k r fs|l k r fs c|l k s IH n|l k l' k' a IHa b IHb op|l k u]; cbn [next_st].
  - constructor.
  - destruct fs; constructor.
  - destruct (nth_error fs c); cbn [fst drop_stream]; (constructor; [|constructor]); apply front_refl; lia.
  - destruct (N.eqb n 0); [apply removed_refl|]. destruct (next_st s) as [t o]. exact IH.
  - destruct (next_st a) as [a' [[x|]|p|]]; cbn [run fst drop_stream] in *;
      try (apply Forall2_app; [exact IHa|apply removed_refl]).
    destruct (next_st b) as [b' [[y|]|p|]]; cbn [run fst drop_stream] in *; try (apply Forall2_app; assumption).
    destruct (convert l k y) as [y'|p|]; cbn [run fst drop_stream] in *; try (apply Forall2_app; assumption).
    destruct (mix_frames op x y'); cbn [run fst drop_stream]; apply Forall2_app; assumption.
  - destruct (u_item u (u_pos u)); constructor.
Qed.
Lemma removed_loop_st l k ls ks ratio e fuel : forall i (sk : sink l k) (it : stream ls ks) srclen,
  Forall2 front_removed (drop_stream it) (drop_stream (snd (fst (loop_st fuel i ratio e sk it srclen)))).
Proof.
  induction fuel as [|fuel IH]; intros i sk it srclen; cbn [loop_st]; [apply removed_refl|].
  destruct (ceil_usize _) as [c|p|]; cbn [run fst snd]; try apply removed_refl.
  destruct (_ <? e); cbn [negb]; [|apply removed_refl].
  pose proof (removed_next_st _ _ it) as R. destruct (next_st it) as [it' [[x|]|p|]]; cbn [run fst snd] in *; try exact R.
  destruct (convert l k x) as [x'|p|]; cbn [run fst snd]; try exact R.
  destruct (frame_mul x' _) as [xf|p|]; cbn [run fst snd]; try exact R.
  destruct (buf_add e _ xf _) as [buf|p|]; cbn [run fst snd]; try exact R.
  destruct (frame_mul x' _) as [xc|p|]; cbn [run fst snd]; try exact R.
  destruct (c <? e).
  - destruct (buf_add e c xc _) as [buf'|p|]; cbn [run fst snd]; try exact R. eapply removed_trans; [exact R|apply IH].
  - eapply removed_trans; [exact R|apply IH].
Qed.
Lemma ratio_st_dropped l k ls ks (sk : sink l k) (s : stream ls ks) : drop_stream (fst (ratio_st sk s)) = drop_stream s.
Proof.
  unfold ratio_st. destruct (sample_rate s); [reflexivity|]. rewrite <- (set_rate_st_dropped _ _ s (sk_rate sk)).
  destruct (set_rate_st s (sk_rate sk)) as [t [[]|p|]]; reflexivity.
Qed.
Lemma removed_sink_st l k ls ks fuel (sk : sink l k) (s : stream ls ks) :
  Forall2 front_removed (drop_stream s) (drop_stream (snd (fst (sink_stream_st fuel sk s)))).
Proof.
  unfold sink_stream_st. rewrite <- (ratio_st_dropped _ _ _ _ sk s). destruct (ratio_st sk s) as [t [ratio|p|]]; cbn [run fst snd]; try apply removed_refl.
  destruct (buf_clear _ _) as [buf|p|]; cbn [run fst snd]; try apply removed_refl.
  match goal with |- context [loop_st ?a ?b ?c ?d ?e ?f ?g] => pose proof (removed_loop_st _ _ _ _ c d a b e f g) as R; destruct (loop_st a b c d e f g) as [[sk' it] [[n|]|p|]] end; exact R.
Qed.
Lemma removed_extend_st l k ls ks fuel (a : audio l k) (s : stream ls ks) :
  Forall2 front_removed (drop_stream s) (drop_stream (snd (fst (extend_st fuel a s)))).
Proof.
  unfold extend_st. cbv zeta. destruct (of_opt UnwrapNone (slen s)) as [n|p|]; cbn [run fst snd]; try apply removed_refl.
  destruct (checked _ _ _) as [m|p|]; cbn [run fst snd]; try apply removed_refl.
  destruct (isize_max <? _); [apply removed_refl|].
  destruct (audio_sink _ _) as [[[pre sk] post]|p|]; cbn [run fst snd]; try apply removed_refl.
  pose proof (removed_sink_st _ _ _ _ fuel sk s) as R.
  destruct (sink_stream_st fuel sk s) as [[sk' it] [[]|p|]]; cbn [run fst snd] in *; try exact R. destruct (flush sk'); exact R.
Qed.

(** A blend of two drains that breaks has taken the two frames it could not mix. *)
Lemma blend_drains_break l k l' k' (a : audio l k) (b : audio l' k') op t ms p u :
  blend (audio_drain a) (audio_drain b) op = Ok t -> breaks t ms p u ->
  (length ms < length (frames a))%nat /\ (length ms < length (frames b))%nat /\
  drop_stream u = [pack (mkAudio (s_rate a) (skipn (S (length ms)) (frames a)));
                   pack (mkAudio (s_rate b) (skipn (S (length ms)) (frames b)))].
Proof.
  intros B (t' & P & N). assert (t = SBlend (audio_drain a) (audio_drain b) op) as ->.
  { pose proof (blend_cases _ _ _ _ (audio_drain a) (audio_drain b) op) as C. cbn [audio_drain sample_rate] in C.
    destruct (feq (s_rate a) (s_rate b)) eqn:E.
    - pose proof (proj1 C eq_refl). unfold audio_drain in *. congruence.
    - pose proof (proj2 C eq_refl). unfold audio_drain in *. congruence. }
  apply blend_pulls_inv in P as (xs & ys & a' & b' & Pa & Pb & M & ->).
  destruct (mixes_length _ _ _ _ _ _ _ _ M) as [Lx Ly].
  destruct (drain_pulls_inv _ _ _ _ _ _ _ Pa) as (_ & _ & ->). destruct (drain_pulls_inv _ _ _ _ _ _ _ Pb) as (_ & _ & ->).
  cbn [Nat.add] in N. rewrite Lx, Ly in N. cbn [next_st] in N.
  destruct (nth_error (frames a) (length ms)) as [x|] eqn:Ex; cbn [run] in N; [|discriminate].
  destruct (nth_error (frames b) (length ms)) as [y|] eqn:Ey; cbn [run] in N; [|discriminate].
  split; [apply nth_error_Some; congruence|]. split; [apply nth_error_Some; congruence|].
  destruct (convert_total _ _ l k y) as (y' & Hc). rewrite Hc in N. cbn [run] in N.
  destruct (mix_frames op x y') as [m|q|]; cbn [run] in N; try discriminate. injection N as <- _. reflexivity.
Qed.

(** ** [extend] *)
Lemma extend_st_eq l k ls ks fuel (a : audio l k) (s : stream ls ks) n : slen s = Some n ->
  let d := frames_for (s_rate a) (sample_rate s) n in
  allocatable l k (Z.of_nat (length (frames a)) + d) ->
  let '((sk, it), r) := sink_stream_st fuel (tail_sink l k (s_rate a) d) s in
  snd (fst (extend_st fuel a s)) = it /\
  snd (extend_st fuel a s) = (_ <- r ;; _ <- flush sk ;; Ok tt).
Proof.
  intros Hl d Ha. unfold extend_st. rewrite Hl. cbn [of_opt run]. cbv zeta. rewrite dstlen_frames_for. fold d.
  destruct (frames_for_bounds (s_rate a) (sample_rate s) n) as [Bd _]. fold d in Bd.
  unfold allocatable in Ha. rewrite <- frame_size_bytes in Ha.
  assert (P : 1 <= Z.of_nat (frame_size l k)) by (destruct l, k; cbn; lia).
  unfold checked, usize_max, isize_max.
  destruct (Z.leb_spec 0 (Z.of_nat (length (frames a)) + d)); [|lia].
  destruct (Z.leb_spec (Z.of_nat (length (frames a)) + d) 18446744073709551615); [|nia]. cbn [andb run].
  destruct (Z.ltb_spec 9223372036854775807 ((Z.of_nat (length (frames a)) + d) * Z.of_nat (frame_size l k))); [lia|].
  unfold audio_sink. cbn [frames with_frames s_rate range_bounds].
  rewrite app_length, repeat_length.
  destruct (N.leb_spec (N.of_nat (length (frames a))) (N.of_nat (length (frames a) + Z.to_nat d))); [|lia].
  rewrite N.leb_refl. cbn [andb bind run]. rewrite !Nnat.Nat2N.id.
  rewrite skipn_app, skipn_all, Nat.sub_diag. cbn [skipn app].
  replace (length (frames a) + Z.to_nat d - length (frames a))%nat with (Z.to_nat d) by lia.
  rewrite firstn_all2 with (n := Z.to_nat d) by (rewrite repeat_length; lia). fold (tail_sink l k (s_rate a) d).
  destruct (sink_stream_st fuel (tail_sink l k (s_rate a) d) s) as [[sk it] [[]|p|]]; cbn [run bind fst snd]; auto.
  destruct (flush sk); cbn [run bind fst snd]; auto.
Qed.
Lemma extend_st_too_long l k ls ks fuel (a : audio l k) (s : stream ls ks) n : slen s = Some n ->
  ~ allocatable l k (Z.of_nat (length (frames a)) + frames_for (s_rate a) (sample_rate s) n) ->
  snd (fst (extend_st fuel a s)) = s.
Proof.
  intros Hl Ha. unfold extend_st. rewrite Hl. cbn [of_opt run]. cbv zeta. rewrite dstlen_frames_for.
  destruct (frames_for_bounds (s_rate a) (sample_rate s) n) as [Bd _]. set (d := frames_for _ _ _) in *.
  unfold allocatable in Ha. rewrite <- frame_size_bytes in Ha. unfold checked.
  destruct (_ && _)%bool; cbn [run]; [|reflexivity]. unfold isize_max.
  destruct (Z.ltb_spec 9223372036854775807 ((Z.of_nat (length (frames a)) + d) * Z.of_nat (frame_size l k))); [reflexivity|lia].
Qed.
Lemma extend_agree_panic l k ls ks fuel (a a' : audio l k) (s it : stream ls ks) p :
  extend_st fuel a s = ((a', it), Panic p) -> extend fuel a s = (a', Panic p).
Proof. intros H. rewrite extend_agree, H. reflexivity. Qed.
(** A drained buffer when [extend] panics. *)
Lemma extend_drain_left l k ls ks (a a' : audio l k) (b : audio ls ks) it p :
  let n := N.of_nat (length (frames b)) in
  let d := frames_for (s_rate a) (Some (s_rate b)) n in
  let ratio := ratio_for (s_rate a) (Some (s_rate b)) in
  extend_st (S (length (frames b))) a (audio_drain b) = ((a', it), Panic p) ->
  audio_len a' = 0%nat /\ audio_sample_rate a' = flit 0 0 /\
  ((~ allocatable l k (Z.of_nat (length (frames a)) + d) /\ drop_stream it = [pack b]) \/
   (allocatable l k (Z.of_nat (length (frames a)) + d) /\ p = IndexOutOfBounds /\
    exists m, (m <= length (frames b))%nat /\ leaves ratio (Z.min (floor_index (fmul ratio (fofZ (Z.of_N n)))) d) m /\
      drop_stream it = [pack (mkAudio (s_rate b) (skipn m (frames b)))])).
Proof.
  intros n d ratio H. destruct (extend_panic _ _ _ _ _ _ _ _ _ (extend_agree_panic _ _ _ _ _ _ _ _ _ _ H)) as [E1 E2].
  split; [exact E1|]. split; [exact E2|].
  set (s := audio_drain b) in *.
  assert (Hl : slen s = Some n) by (cbn; unfold n; do 2 f_equal; lia).
  assert (Sr : sample_rate s = Some (s_rate b)) by reflexivity.
  assert (Sk : sinkable s) by (left; now rewrite Sr).
  assert (Hh : honest s) by (apply well_formed_honest; cbn; lia).
  destruct (Z_le_dec ((Z.of_nat (length (frames a)) + d) * bytes_per_frame l k) (2 ^ 63 - 1)) as [A|A]; [right|left].
  - split; [exact A|]. destruct (frames_for_bounds (s_rate a) (sample_rate s) n) as [Bd _].
    destruct (tail_outcome l k ls ks s (s_rate a) n _ Sk Hh Hl Bd) as (m & sk' & it' & s' & srcs & fs & Hm & Lv & Hs & Ng & Pl & Le & _ & St & Ix).
    pose proof (extend_st_eq l k ls ks (S (length (frames b))) a s n Hl A) as Eq. rewrite Sr in *. fold d in Eq, Hs, Lv, St.
    assert (Nn : N.to_nat n = length (frames b)) by (unfold n; lia). rewrite Nn in Hm, Hs.
    pose proof Hs as Hs2. rewrite sink_agree in Hs2. destruct (sink_stream_st (S (length (frames b))) (tail_sink l k (s_rate a) d) s) as [st [[]|q|]]; cbn [outcome bind] in Hs2; try discriminate.
    injection Hs2 as ->. destruct Eq as [Eq1 Eq2]. rewrite H in Eq1, Eq2. cbn [fst snd bind] in Eq1, Eq2. subst it'.
    split.
    { destruct (flush_spec l k sk') as (F1 & F2 & F3).
      destruct (Rle_or_lt (Rabs (frac (resampler_index (sk_res sk')))) (bpow radix2 (-52))) as [L|L]; [rewrite (F1 L) in Eq2; discriminate|].
      destruct (Z.lt_ge_cases (floor_index (resampler_index (sk_res sk'))) (Z.of_nat (length (sk_buf sk')))) as [L2|L2].
      - destruct (F2 L L2) as (sk2 & E & _). rewrite E in Eq2. discriminate.
      - rewrite (F3 L L2) in Eq2. now injection Eq2. }
    exists m. split; [exact Hm|]. split; [exact Lv|].
    destruct Ng as [(r & Hr & _ & ->)|(Hr & _)]; [|congruence]. destruct (drain_dropped _ _ _ _ _ Pl) as (_ & _ & D). now rewrite Le in D.
  - split; [exact A|]. pose proof (extend_st_too_long l k ls ks (S (length (frames b))) a s n Hl A) as E. rewrite H in E. cbn [fst snd] in E. subst it.
    cbn. destruct b; reflexivity.
Qed.

(** ** For PropUnwind.v *)
Lemma both_agree l k ls ks fuel (sk : sink l k) (a : audio l k) (s : stream ls ks) :
  sink_stream fuel sk s = match sink_stream_st fuel sk s with
    | (st, Ok _) => Ok st | (_, Panic p) => Panic p | (_, OutOfFuel) => OutOfFuel end /\
  extend fuel a s = match extend_st fuel a s with
    | ((a', it), Ok _) => (a', Ok it) | ((a', _), Panic p) => (a', Panic p) | ((a', _), OutOfFuel) => (a', OutOfFuel) end.
Proof.
  rewrite sink_agree, extend_agree. destruct (sink_stream_st fuel sk s) as [st [[]|p|]], (extend_st fuel a s) as [[a' it] [[]|q|]]; split; reflexivity.
Qed.
Lemma both_removed l k ls ks fuel (sk sk' : sink l k) (a a' : audio l k) (s it it2 : stream ls ks) r r2 :
  (sink_stream_st fuel sk s = ((sk', it), r) -> Forall2 front_removed (drop_stream s) (drop_stream it)) /\
  (extend_st fuel a s = ((a', it2), r2) -> Forall2 front_removed (drop_stream s) (drop_stream it2)).
Proof.
  split; intros H.
  - pose proof (removed_sink_st _ _ _ _ fuel sk s) as R. now rewrite H in R.
  - pose proof (removed_extend_st _ _ _ _ fuel a s) as R. now rewrite H in R.
Qed.
Definition lost_codes (fs : list (frame Mono K8)) : list (list Z) := map (fun f : frame Mono K8 => map sv (channels f)) fs.
Definition lost_any (a : any_audio) : list (list Z) :=
  match a with existT _ (Mono, K8) b => lost_codes (frames b) | _ => [] end.
Lemma extend_loses_both : exists (a a' b : audio Mono K8) it p,
  extend_st (S (length (frames b))) a (audio_drain b) = ((a', it), Panic p) /\
  lost_codes (frames a) = [[1]; [2]] /\ length (frames b) = 147%nat /\ frames a' = [] /\ map lost_any (drop_stream it) = [[]].
Proof.
  pose (a := @mkAudio Mono K8 (flit 48000 0) [(as_sint W8 1, tt); (as_sint W8 2, tt)]).
  pose (b := @mkAudio Mono K8 (flit 44100 0) (repeat (as_sint W8 5, tt) 147)).
  assert (V : let '((a', it), r) := extend_st (S (length (frames b))) a (audio_drain b) in
    (length (frames a'), map lost_any (drop_stream it), match r with Panic _ => true | _ => false end) = (0%nat, [[]], true)) by (vm_compute; reflexivity).
  exists a. destruct (extend_st (S (length (frames b))) a (audio_drain b)) as [[a' it] [u|p|]] eqn:E; try discriminate V.
  injection V as V1 V2. exists a', b, it, p. split; [exact E|]. split; [vm_compute; reflexivity|]. split; [reflexivity|].
  split; [|exact V2]. destruct (frames a'); [reflexivity|discriminate].
Qed.

(** ** Calling [next] again after a panic *)
Fixpoint called_on {l k} (s : stream l k) (i : nat) : stream l k := match i with O => s | S i => called_on (fst (next_st s)) i end.
Lemma call_called l k (s : stream l k) i : call s i = snd (next_st (called_on s i)).
Proof. revert s; induction i as [|i IH]; intros s; [reflexivity|]. exact (IH _). Qed.
Lemma called_S l k (s : stream l k) i : called_on s (S i) = fst (next_st (called_on s i)).
Proof. revert s; induction i as [|i IH]; intros s; [reflexivity|]. exact (IH _). Qed.
Lemma call_user l k (u : user_stream l k) i : call (SUser u) i = u_item u (u_pos u + i).
Proof.
  revert u; induction i as [|i IH]; intros u.
  - rewrite Nat.add_0_r. cbn. destruct (u_item u (u_pos u)); reflexivity.
  - cbn [call]. assert (E : fst (next_st (SUser u)) = SUser (mkUser (u_rate u) (u_configurable u) (u_len u) (u_item u) (S (u_pos u)))).
    { cbn. destruct (u_item u (u_pos u)); reflexivity. }
    rewrite E, IH. cbn [u_item u_pos]. f_equal. lia.
Qed.
Lemma call_take l k (s : stream l k) n i : call (take s n) i = if (N.of_nat i <? n)%N then call s i else Ok None.
Proof.
  unfold take. revert s n; induction i as [|i IH]; intros s n.
  - cbn [call next_st]. destruct (N.eqb_spec n 0) as [->|H]; [reflexivity|]. destruct (next_st s) as [t o] eqn:E. cbn [snd].
    destruct (N.ltb_spec (N.of_nat 0) n); [reflexivity|lia].
  - cbn [call]. cbn [next_st]. destruct (N.eqb_spec n 0) as [->|H].
    + cbn [fst]. rewrite IH. destruct (N.ltb_spec (N.of_nat i) 0); [lia|]. destruct (N.ltb_spec (N.of_nat (S i)) 0); [lia|reflexivity].
    + destruct (next_st s) as [t o] eqn:E. cbn [fst]. rewrite IH.
      destruct (N.ltb_spec (N.of_nat i) (N.pred n)), (N.ltb_spec (N.of_nat (S i)) n); try lia; reflexivity.
Qed.
Lemma called_blend l k l' k' (a : stream l k) (b : stream l' k') op i :
  called_on (SBlend a b op) i = SBlend (called_on a i) (called_on b (frames_given a i)) op /\
  call (SBlend a b op) i = mix_calls op (call a i) (call b (frames_given a i)).
Proof.
  assert (ONE : forall (a : stream l k) (b : stream l' k'),
    fst (next_st (SBlend a b op)) = SBlend (fst (next_st a)) (match snd (next_st a) with Ok (Some _) => fst (next_st b) | _ => b end) op /\
    snd (next_st (SBlend a b op)) = mix_calls op (snd (next_st a)) (snd (next_st b))).
  { clear. intros a b. cbn [next_st]. destruct (next_st a) as [a' [[x|]|p|]]; cbn [run fst snd mix_calls]; try (split; reflexivity).
    destruct (next_st b) as [b' [[y|]|p|]]; cbn [run fst snd mix_calls]; try (split; reflexivity).
    destruct (convert l k y) as [z|p|]; cbn [run bind fst snd]; try (split; reflexivity). destruct (mix_frames op x z); split; reflexivity. }
  assert (A : called_on (SBlend a b op) i = SBlend (called_on a i) (called_on b (frames_given a i)) op).
  { induction i as [|i IH]; [reflexivity|]. rewrite !called_S, IH, (proj1 (ONE _ _)). cbn [frames_given]. rewrite call_called. f_equal.
    destruct (snd (next_st (called_on a i))) as [[x|]|p|]; rewrite ?Nat.add_0_r; try reflexivity. now rewrite Nat.add_1_r, called_S. }
  split; [exact A|]. rewrite !call_called, A. apply ONE.
Qed.
Lemma set_rate_next l k (s s' : stream l k) sr : set_sample_rate s sr = Ok s' ->
  snd (next_st s') = snd (next_st s) /\ set_sample_rate (fst (next_st s)) sr = Ok (fst (next_st s')).
Proof.
  revert s'; induction s as [l k f|l k r fs|l k r fs c|l k s IH n|l k l' k' a IHa b IHb op|l k u]; intros s' H.
  - injection H as <-. split; reflexivity.
  - discriminate.
  - discriminate.
  - cbn [set_sample_rate] in H. destruct (set_sample_rate s sr) as [t| |] eqn:E; try discriminate. cbn [bind] in H. injection H as <-.
    destruct (IH t eq_refl) as [A B]. cbn [next_st]. destruct (N.eqb n 0).
    + cbn [fst snd]. split; [reflexivity|]. cbn [set_sample_rate]. now rewrite E.
    + destruct (next_st s) as [s1 o1], (next_st t) as [t1 o2]. cbn [fst snd] in *. split; [exact A|]. cbn [set_sample_rate]. now rewrite B.
  - cbn [set_sample_rate] in H. destruct (set_sample_rate a sr) as [a2| |] eqn:Ea; try discriminate. cbn [bind] in H.
    destruct (set_sample_rate b sr) as [b2| |] eqn:Eb; try discriminate. cbn [bind] in H. injection H as <-.
    destruct (IHa a2 eq_refl) as [A1 A2]. destruct (IHb b2 eq_refl) as [B1 B2]. cbn [next_st].
    destruct (next_st a) as [a' oa], (next_st a2) as [a2' oa2]. cbn [fst snd] in A1, A2. subst oa2.
    assert (P : forall x y : stream l' k', set_sample_rate x sr = Ok y -> set_sample_rate (SBlend a' x op) sr = Ok (SBlend a2' y op)).
    { intros x y E. cbn [set_sample_rate]. rewrite A2. cbn [bind]. now rewrite E. }
    destruct oa as [[x|]|p|]; cbn [run fst snd]; try (split; [reflexivity|now apply P]).
    destruct (next_st b) as [b' ob], (next_st b2) as [b2' ob2]. cbn [fst snd] in B1, B2. subst ob2.
    destruct ob as [[y|]|p|]; cbn [run fst snd]; try (split; [reflexivity|now apply P]).
    destruct (convert l k y) as [z|p|]; cbn [run fst snd]; try (split; [reflexivity|now apply P]).
    destruct (mix_frames op x z); cbn [run fst snd]; (split; [reflexivity|now apply P]).
  - cbn [set_sample_rate] in H. destruct (u_configurable u) eqn:C; [|discriminate]. injection H as <-. cbn [next_st u_item u_pos u_rate u_configurable u_len].
    destruct (u_item u (u_pos u)); cbn [run fst snd]; (split; [reflexivity|]); cbn [set_sample_rate u_configurable u_item u_pos u_len]; rewrite ?C; reflexivity.
Qed.
Lemma set_rate_call l k (s s' : stream l k) sr i : set_sample_rate s sr = Ok s' -> call s' i = call s i.
Proof.
  revert s s'; induction i as [|i IH]; intros s s' H; [exact (proj1 (set_rate_next l k s s' sr H))|]. cbn [call]. apply IH.
  exact (proj2 (set_rate_next l k s s' sr H)).
Qed.
Lemma frames_given_ext l k (s t : stream l k) i : (forall i, call s i = call t i) -> frames_given s i = frames_given t i.
Proof. intros H. induction i as [|i IH]; [reflexivity|]. cbn [frames_given]. now rewrite IH, H. Qed.
Lemma call_blend l k l' k' (a : stream l k) (b : stream l' k') op t i : blend a b op = Ok t ->
  call t i = mix_calls op (call a i) (call b (frames_given a i)).
Proof.
  intros H. destruct (proj2 (blend_ok l k l' k' a b op t H)) as (a' & b' & -> & Ha & Hb). rewrite (proj2 (called_blend l k l' k' a' b' op i)).
  assert (Ca : forall i, call a' i = call a i) by (intros j; destruct Ha as [->|(sr & Ha)]; [reflexivity|exact (set_rate_call l k a a' sr j Ha)]).
  assert (Cb : forall i, call b' i = call b i) by (intros j; destruct Hb as [->|(sr & Hb)]; [reflexivity|exact (set_rate_call l' k' b b' sr j Hb)]).
  now rewrite Ca, Cb, (frames_given_ext l k a' a i Ca).
Qed.
