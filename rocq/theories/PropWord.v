(** * PropWord.v -- property theorems C87 *)
From Coq Require Import ZArith NArith Reals Bool List Lia Lra.
From Flocq Require Import Core.Core IEEE754.BinarySingleNaN.
From Verif Require Import Rust Float Math Chan Frame Ops Stream Audio Word SpecChan SpecFrame SpecStream SpecSink SpecAudio SpecMore SpecWord.
From Verif Require Import FloatProofs StreamProofs SinkProofs SinkTerm AudioProofs WordProofs.
Import ListNotations.
Open Scope Z_scope.

(** ** C87 *)
(** [Sink::stream] does the same on every target (for fewer than [umax t]
    iterations), unless a debug build stops at a position beyond the largest index. *)
Theorem C87_stream : forall t l k ls ks fuel (sk : sink l k) (s : stream ls ks),
  Z.of_nat (length (sk_buf sk)) <= umax t -> Z.of_nat fuel <= umax t ->
  w_sink_stream t fuel sk s = sink_stream fuel sk s \/ stops_beyond t fuel sk s (w_sink_stream t fuel sk s).
Proof. exact w_stream. Qed.
Print Assumptions C87_stream.
(** When exactly a debug build stops: [srcs] are the frames a 64-bit target reads. *)
Theorem C87_exact : forall t l k ls ks fuel (sk : sink l k) (s s' it : stream ls ks) ratio srcs n,
  Z.of_nat (length (sk_buf sk)) <= umax t -> negotiated sk s ratio s' ->
  reads s' ratio (resampler_index (sk_res sk)) (covered ratio (slen s') (length (sk_buf sk))) srcs n it ->
  (length srcs < fuel)%nat -> debug t ->
  (exists sk', sink_stream fuel sk s = Ok (sk', it)) /\
  (w_sink_stream t fuel sk s = sink_stream fuel sk s \/ w_sink_stream t fuel sk s = Panic ArithOverflow) /\
  (w_sink_stream t fuel sk s = Panic ArithOverflow <->
     umax t <= Z.of_nat (length srcs) \/ beyond t (place ratio (resampler_index (sk_res sk)) (length srcs))).
Proof. exact w_exact. Qed.
Print Assumptions C87_exact.
(** Release builds and 64-bit targets never stop for this reason, *)
Theorem C87_release : forall t l k ls ks fuel (sk : sink l k) (s : stream ls ks), release t ->
  Z.of_nat (length (sk_buf sk)) <= umax t -> Z.of_nat fuel <= umax t -> w_sink_stream t fuel sk s = sink_stream fuel sk s.
Proof. exact w_release. Qed.
Print Assumptions C87_release.
Theorem C87_64_bit : forall t l k ls ks fuel (sk : sink l k) (s : stream ls ks), bits t = 64 ->
  Z.of_nat (length (sk_buf sk)) <= umax t -> Z.of_nat fuel <= umax t -> w_sink_stream t fuel sk s = sink_stream fuel sk s.
Proof. exact w_64. Qed.
Print Assumptions C87_64_bit.
(** nor does any target if twice the sink's length plus the ratio of the rates is within range. *)
Theorem C87_roomy : forall t l k ls ks fuel (sk : sink l k) (s : stream ls ks), roomy t sk s ->
  Z.of_nat (length (sk_buf sk)) <= umax t -> Z.of_nat fuel <= umax t -> w_sink_stream t fuel sk s = sink_stream fuel sk s.
Proof. exact w_roomy. Qed.
Print Assumptions C87_roomy.
Definition tone87 : stream Mono K8 := SUser (mkUser (Some (flit 44100 0)) false None (fun _ => Ok (Some (frame_default Mono K8))) 0).
Example C87_roomy_case : roomy (wasm32 true) (mkSink (flit 44100 0) (repeat (frame_default Mono K8) 100) (resampler_default Mono K8)) tone87.
Proof.
  assert (E : ratio_for (flit 44100 0) (sample_rate tone87) = (flit 1 0 : f64)) by (apply B2SF_inj; vm_compute; reflexivity).
  unfold roomy. cbn [sk_rate sk_buf sk_res]. rewrite repeat_length, E.
  change (resampler_index (resampler_default Mono K8)) with (flit 0 0 : f64). rewrite PlaceProofs.flit_0.
  destruct (one_correct 53 1024) as [O F]. rewrite O, F. change (umax (wasm32 true)) with 4294967295.
  change (Z.of_nat 100) with 100. cbn [is_finite B2R]. repeat split; lra.
Qed.
(** A stream that never ends into a sink that never fills (C55): debug builds panic
    when the loop counter overflows. *)
Theorem C87_endless : forall t l k ls ks (sk : sink l k) (s : stream ls ks) fuel, sinkable s -> slen s = None -> honest s -> fresh sk ->
  sk_buf sk <> [] -> ~ positive (ratio_for (sk_rate sk) (sample_rate s)) ->
  Z.of_nat (length (sk_buf sk)) <= umax t -> debug t -> umax t < Z.of_nat fuel -> w_sink_stream t fuel sk s = Panic ArithOverflow.
Proof. exact w_endless. Qed.
Print Assumptions C87_endless.
Example C87_endless_case : let sk := mkSink (flit 0 0) [frame_default Mono K8] (resampler_default Mono K8) in
  sinkable tone87 /\ slen tone87 = None /\ honest tone87 /\ fresh sk /\ sk_buf sk <> [] /\
  ~ positive (ratio_for (sk_rate sk) (sample_rate tone87)) /\ Z.of_nat (length (sk_buf sk)) <= umax (wasm32 true) /\ debug (wasm32 true).
Proof.
  intros sk. split; [left; discriminate|]. split; [reflexivity|].
  split; [intros n; exists (repeat (frame_default Mono K8) n); split; [apply user_constant_starts|apply repeat_length]|].
  split; [reflexivity|]. split; [discriminate|]. split; [|split; [discriminate|reflexivity]].
  assert (E : ratio_for (flit 0 0) (sample_rate tone87) = (B754_zero false : f64)) by (apply B2SF_inj; vm_compute; reflexivity).
  cbn [sk sk_rate]. rewrite E. cbn. lra.
Qed.
(** [flush] and taking a sink over a range do the same on every target. *)
Theorem C87_flush : forall t l k (sk : sink l k), Z.of_nat (length (sk_buf sk)) <= umax t -> w_flush t sk = flush sk.
Proof. exact w_flush_eq. Qed.
Print Assumptions C87_flush.
Theorem C87_sink : forall t l k (a : audio l k) r, Z.of_nat (length (frames a)) <= umax t -> w_audio_sink t a r = audio_sink a r.
Proof. exact w_audio_sink_eq. Qed.
Print Assumptions C87_sink.
(** [extend] does the same on every target and in every build if the result
    fits (growing reserves twice the old length), *)
Theorem C87_extend : forall t l k ls ks fuel (a : audio l k) (s : stream ls ks) n, slen s = Some n -> Z.of_N n <= umax t -> Z.of_nat fuel <= umax t ->
  let d := frames_for (s_rate a) (sample_rate s) n in
  fits t l k (Z.of_nat (length (frames a))) -> d = 0 \/ fits t l k (Z.max (2 * Z.of_nat (length (frames a))) (Z.of_nat (length (frames a)) + d)) ->
  w_extend t fuel a s = extend fuel a s.
Proof. exact w_extend_same. Qed.
Print Assumptions C87_extend.
(** and panics otherwise, in every build, leaving the caller's buffer empty. *)
Theorem C87_extend_too_long : forall t l k ls ks fuel (a : audio l k) (s : stream ls ks) n, slen s = Some n -> Z.of_N n <= umax t ->
  let d := frames_for (s_rate a) (sample_rate s) n in
  fits t l k (Z.of_nat (length (frames a))) -> 0 < d -> ~ fits t l k (Z.max (2 * Z.of_nat (length (frames a))) (Z.of_nat (length (frames a)) + d)) ->
  exists p, w_extend t fuel a s = (with_frames (flit 0 0) [], Panic p).
Proof. exact w_extend_too_long. Qed.
Print Assumptions C87_extend_too_long.
Theorem C87_extend_infinite : forall t l k ls ks fuel (a : audio l k) (s : stream ls ks), slen s = None -> w_extend t fuel a s = extend fuel a s.
Proof. exact w_extend_infinite. Qed.
Print Assumptions C87_extend_infinite.
Theorem C87_with_stream : forall t l k ls ks fuel rate (s : stream ls ks) n, slen s = Some n -> Z.of_N n <= umax t -> Z.of_nat fuel <= umax t ->
  (fits t l k (frames_for rate (sample_rate s) n) -> w_with_stream t l k fuel rate s = with_stream l k fuel rate s) /\
  (~ fits t l k (frames_for rate (sample_rate s) n) -> exists p, w_with_stream t l k fuel rate s = Panic p).
Proof. exact w_with_stream_same. Qed.
Print Assumptions C87_with_stream.
(** A second of audio fits a 32-bit target; a day of 5.1 f64 frames at 192 kHz does not. *)
Example C87_fits_case : fits (wasm32 false) Stereo K16 48000 /\ ~ fits (wasm32 false) Surround K64 (192000 * 86400) /\
  frames_for (flit 48000 0) None 48000 = 48000 /\ umax (wasm32 true) = 4294967295 /\ debug (wasm32 true) /\ release (wasm32 false).
Proof. unfold fits. repeat split; vm_compute; congruence. Qed.
(** A 32-bit debug build does stop where a 64-bit build returns. *)
Theorem C87_same_refuted : exists (sk : sink Mono K8) (s : stream Mono K8),
  (exists sk' it, sink_stream 2 sk s = Ok (sk', it)) /\ w_sink_stream (wasm32 true) 2 sk s = Panic ArithOverflow.
Proof. exact (ex_intro _ ex_sink (ex_intro _ ex_stream ex_stops)). Qed.
Print Assumptions C87_same_refuted.
