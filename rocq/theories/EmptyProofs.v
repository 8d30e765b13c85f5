(** * EmptyProofs.v -- empty streams (C71), saved resamplers (C36), frames taken back (C49) *)
From Coq Require Import ZArith NArith Reals List Bool Lia.
From Flocq Require Import Core.Core IEEE754.BinarySingleNaN.
From Verif Require Import Rust Float Math Chan Frame Ops Stream Audio Heap SpecChan SpecFrame SpecStream SpecSink SpecAudio
  FrameProofs StreamProofs SinkProofs AudioProofs DrainProofs.
Import ListNotations.
Open Scope Z_scope.

Lemma empty_len l k (s : stream l k) : s_is_empty s = true <-> slen s = Some 0%N.
Proof.
  unfold s_is_empty. destruct (slen s) as [n|]; [|split; discriminate].
  rewrite N.eqb_eq. split; [now intros ->|now intros [=]].
Qed.
Lemma empty_iff l k (s : stream l k) : honest s -> s_is_empty s = true <-> yields s [].
Proof.
  intros H. rewrite empty_len. unfold honest in H. split.
  - intros E. rewrite E in H. destruct H as (fs & Y & L). destruct fs; [exact Y|cbn in L; lia].
  - intros (s1 & s2 & P & N). apply pulls_nil_inv in P as <-.
    destruct (slen s) as [n|].
    + destruct H as (fs & (t & t' & Pt & Nt) & L). destruct fs as [|f fs]; [cbn in L; now subst|].
      apply pulls_cons_inv in Pt as (? & Pt & _). congruence.
    + destruct (H 1%nat) as (fs & (t & Pt) & L). destruct fs as [|f fs]; [discriminate|]. apply pulls_cons_inv in Pt as (? & Pt & _). congruence.
Qed.
Lemma empty_take l k (s : stream l k) n : s_is_empty (STake s n) = true <-> n = 0%N \/ s_is_empty s = true.
Proof. rewrite !empty_len. cbn [slen]. destruct (slen s) as [m|]; split; [intros [=]|intros [->|[=->]]|intros [=]|intros [->|[=]]]; try (f_equal; lia); subst; auto.
  destruct (N.min_spec m n) as [[? E]|[? E]]; rewrite E in *; subst; auto. Qed.
Lemma empty_blend l k l' k' (a : stream l k) (b : stream l' k') op t : blend a b op = Ok t ->
  s_is_empty t = true <-> s_is_empty a = true \/ s_is_empty b = true.
Proof.
  intros H. rewrite !empty_len. destruct (blend_ok _ _ _ _ _ _ _ _ H) as [L _]. rewrite L. unfold shorter.
  destruct (slen a) as [m|], (slen b) as [n|]; split; try (intros [E|E]; discriminate || (injection E as ->)); try discriminate; auto; try (f_equal; lia).
  intros [=]. destruct (N.min_spec m n) as [[? E]|[? E]]; rewrite E in *; subst; auto.
Qed.

Lemma fmul_zero_cast (r : f64) : floor_index (fmul r (fofZ 0)) = 0.
Proof. rewrite <- floor_index_correct. destruct r as [[]|[]| |[] m e H]; vm_compute; reflexivity. Qed.
Lemma covered_empty ratio n : covered ratio (Some 0%N) n = 0.
Proof. unfold covered. cbn [Z.of_N]. rewrite fmul_zero_cast. lia. Qed.

Lemma empty_streamed l k ls ks fuel (sk : sink l k) (s s' : stream ls ks) ratio :
  s_is_empty s = true -> negotiated sk s ratio s' ->
  sink_stream (S fuel) sk s =
  Ok (mkSink (sk_rate sk)
        match sk_buf sk with [] => [] | b :: bs => frame_add b (resampler_frame (sk_res sk)) :: bs end
        (resampler_new (resampler_frame (sk_res sk)) (fadd (resampler_index (sk_res sk)) (fmul ratio (fofZ 0)))), s').
Proof.
  intros E Ng. apply empty_len in E. rewrite (sink_stream_eq _ _ _ _ _ _ _ _ _ Ng).
  assert (L : slen s' = Some 0%N). { destruct Ng as [(r & _ & _ & ->)|(_ & _ & R)]; [exact E|]. now rewrite (set_rate_len _ _ _ _ _ R). }
  rewrite L, covered_empty. cbn [stream_loop]. rewrite ceil_index_correct, floor_index_correct. cbn [bind].
  pose proof (floor_index_bounds (place ratio (resampler_index (sk_res sk)) 0)) as B.
  change (dst_pos ratio (offseti (sk_res (prepared 0 sk))) 0) with (place ratio (resampler_index (sk_res sk)) 0).
  destruct (Z.ltb_spec (floor_index (place ratio (resampler_index (sk_res sk)) 0)) 0); [lia|]. cbn [negb bind of_opt].
  unfold prepared, with_res, with_buf, add_partial. cbn. destruct (sk_buf sk); reflexivity.
Qed.

Lemma extend_empty l k ls ks fuel (a : audio l k) (s : stream ls ks) : s_is_empty s = true -> sinkable s ->
  allocatable l k (Z.of_nat (length (frames a))) ->
  exists s', extend (S fuel) a s = (a, Ok s') /\ drop_stream s' = drop_stream s.
Proof.
  intros E Sk Al. pose proof (proj1 (empty_len _ _ _) E) as L.
  assert (Z0 : frames_for (s_rate a) (sample_rate s) 0 = 0).
  { unfold frames_for. destruct (sample_rate s) as [r|]; [|reflexivity]. cbv zeta. cbn [Z.of_N].
    rewrite <- ceil_cast. set (x := fdiv _ _). assert (x = B754_zero false \/ x = B754_zero true \/ x = B754_nan) as [->|[->| ->]].
    { unfold x. destruct (s_rate a) as [[]|[]| |[] m e H], r as [[]|[]| |[] m' e' H']; vm_compute; auto. }
    all: vm_compute; reflexivity. }
  pose proof (extend_internal_eq l k ls ks (S fuel) a s 0 L) as X. cbv zeta in X. rewrite Z0, Z.add_0_r in X. specialize (X Al).
  set (sk := tail_sink l k (s_rate a) 0) in *.
  assert (exists ratio s', negotiated sk s ratio s' /\ drop_stream s' = drop_stream s) as (ratio & s' & Ng & Dr).
  { destruct (sample_rate s) as [r|] eqn:R.
    - exists (fdiv (sk_rate sk) r), s. split; [left; exists r; auto|reflexivity].
    - destruct Sk as [N|C]; [congruence|]. destruct (proj1 (proj1 (set_rate_iff _ _ s (sk_rate sk))) C) as (s' & Es).
      exists (flit 1 0), s'. split; [right; auto|]. exact (set_rate_dropped _ _ _ _ _ Es). }
  rewrite (empty_streamed _ _ _ _ _ _ _ _ _ E Ng) in X. cbn [bind] in X.
  exists s'. split; [|exact Dr]. unfold extend. rewrite X.
  unfold flush. cbn [sk_res sk_buf sk tail_sink resampler_new resampler_index resampler_default offseti partial Z.to_nat repeat sk_rate].
  replace (flt eps64 (frem1 (fadd (flit 0 0) (fmul ratio (fofZ 0)))) || flt (frem1 (fadd (flit 0 0) (fmul ratio (fofZ 0)))) (fneg eps64))%bool with false
    by (destruct ratio as [[]|[]| |[] m e H]; vm_compute; reflexivity).
  cbn [bind sk_buf]. rewrite app_nil_r. destruct a; reflexivity.
Qed.

Lemma sink_saved l k (sk : sink l k) :
  mkSink (sk_rate sk) (sk_buf sk) (resampler_new (resampler_frame (sk_res sk)) (resampler_index (sk_res sk))) = sk.
Proof. destruct sk as [r b [p o]]. reflexivity. Qed.
Lemma into_frames_owned l k (h : heap k) v data : owns_frames l h v data ->
  exists w, heap_into_frames k h v = HOk w h /\ fv_ptr w = fv_ptr v /\ owns_frames l h w data.
Proof. intros H. exists v. split; [reflexivity|]. split; [reflexivity|exact H]. Qed.

Lemma empty_adds_leftover : exists sk' (s : stream Mono K8),
  s_is_empty s = true /\ sinkable s /\
  sink_stream 1 (mkSink (flit 1000 0) [(as_sint W8 7, tt) : frame Mono K8] (resampler_new ((as_sint W8 5, tt) : frame Mono K8) (flit 0 0))) s = Ok (sk', s) /\
  map (fun f : frame Mono K8 => map sv (channels f)) (sk_buf sk') = [[12]] /\ map sv (channels (resampler_frame (sk_res sk'))) = [5].
Proof.
  eexists. exists (SAudio (flit 1000 0) []). split; [reflexivity|]. split; [left; discriminate|]. split.
  - apply empty_streamed; [reflexivity|]. left. eexists. split; [reflexivity|]. split; reflexivity.
  - cbn [sk_buf sk_res]. split; vm_compute; reflexivity.
Qed.
