(** * PropEmpty.v -- property theorems about empty streams (C71); additions to C36 and C49 *)
From Coq Require Import ZArith NArith Reals Bool List Lia.
From Flocq Require Import Core.Core IEEE754.BinarySingleNaN.
From Verif Require Import Rust Float Math Chan Frame Ops Stream Audio Heap SpecChan SpecFrame SpecStream SpecSink SpecAudio
  StreamProofs EmptyProofs.
Import ListNotations.
Open Scope Z_scope.

Notation "'m8' z" := ((as_sint W8 z, tt) : frame Mono K8) (at level 9, z at next level, only parsing).
Notation "'khz' z" := (flit (1000 * z) 0 : f64) (at level 9, z at next level, only parsing).
(** The sample values of a list of frames. *)
Definition codes (fs : list (frame Mono K8)) : list (list Z) := map (fun f : frame Mono K8 => map sv (channels f)) fs.

(** ** C71 *)
(** "Will not produce any frames". *)
Theorem C71_is_empty : forall l k (s : stream l k), honest s -> s_is_empty s = true <-> yields s [].
Proof. exact empty_iff. Qed.
Print Assumptions C71_is_empty.
Example C71_is_empty_case : honest (SAudio (khz 1) [] : stream Mono K8) /\ honest (SFrame (m8 1)) /\
  s_is_empty (SAudio (khz 1) [] : stream Mono K8) = true /\ s_is_empty (SFrame (m8 1)) = false /\
  s_is_empty (SAudio (khz 1) [m8 1]) = false.
Proof. split; [apply well_formed_honest; exact I|]. split; [apply well_formed_honest; exact I|]. repeat split. Qed.
Theorem C71_adapters : forall l k l' k' (a : stream l k) (b : stream l' k') op t n,
  (s_is_empty (take a n) = true <-> n = 0%N \/ s_is_empty a = true) /\
  (blend a b op = Ok t -> s_is_empty t = true <-> s_is_empty a = true \/ s_is_empty b = true).
Proof. intros l k l' k' a b op t n. split; [apply empty_take|apply empty_blend]. Qed.
Print Assumptions C71_adapters.
Example C71_adapters_case : exists t, blend (SFrame (m8 1)) (SAudio (khz 1) [] : stream Mono K8) Plus = Ok t /\ s_is_empty t = true.
Proof. eexists. split; reflexivity. Qed.
(** Streaming it takes nothing from it and changes one thing in the sink: the
    left-over frame is added to the first frame of the buffer. *)
Theorem C71_streamed : forall l k ls ks fuel (sk : sink l k) (s s' : stream ls ks) ratio,
  s_is_empty s = true -> negotiated sk s ratio s' ->
  sink_stream (S fuel) sk s =
  Ok (mkSink (sk_rate sk)
        match sk_buf sk with [] => [] | b :: bs => frame_add b (resampler_frame (sk_res sk)) :: bs end
        (resampler_new (resampler_frame (sk_res sk)) (fadd (resampler_index (sk_res sk)) (fmul ratio (fofZ 0)))), s').
Proof. exact empty_streamed. Qed.
Print Assumptions C71_streamed.
(** So "streaming nothing changes nothing" is false when there is one. *)
Theorem C71_no_effect_refuted : exists sk' (s : stream Mono K8),
  s_is_empty s = true /\ sinkable s /\
  sink_stream 1 (mkSink (flit 1000 0) [(as_sint W8 7, tt) : frame Mono K8] (resampler_new ((as_sint W8 5, tt) : frame Mono K8) (flit 0 0))) s = Ok (sk', s) /\
  map (fun f : frame Mono K8 => map sv (channels f)) (sk_buf sk') = [[12]] /\ map sv (channels (resampler_frame (sk_res sk'))) = [5].
Proof. exact empty_adds_leftover. Qed.
Print Assumptions C71_no_effect_refuted.
(** Extending by an empty stream changes nothing, whatever the rates. *)
Theorem C71_extend : forall l k ls ks fuel (a : audio l k) (s : stream ls ks), s_is_empty s = true -> sinkable s ->
  allocatable l k (Z.of_nat (length (frames a))) ->
  exists s', extend (S fuel) a s = (a, Ok s') /\ drop_stream s' = drop_stream s.
Proof. exact extend_empty. Qed.
Print Assumptions C71_extend.
Example C71_extend_case : s_is_empty (STake (SFrame (m8 1)) 0) = true /\ sinkable (STake (SFrame (m8 1)) 0) /\
  allocatable Mono K8 1 /\ codes (frames (fst (extend 1 (mkAudio (khz 1) [m8 3]) (STake (SFrame (m8 1)) 0)))) = [[3]].
Proof.
  split; [reflexivity|]. split; [right; exact I|]. split; [unfold allocatable, bytes_per_frame; lia|].
  vm_compute. reflexivity.
Qed.

(** ** C36 *)
(** A sink that is put together again from its rate, its buffer and the two
    values [frame] and [index] of its resampler is the sink. *)
Theorem C36_saved : forall l k (sk : sink l k),
  mkSink (sk_rate sk) (sk_buf sk) (resampler_new (resampler_frame (sk_res sk)) (resampler_index (sk_res sk))) = sk.
Proof. exact sink_saved. Qed.
Print Assumptions C36_saved.
(** A saved resampler continues at its index. *)
Example C36_saved_case : let sk := mkSink (khz 1) (repeat (m8 0) 4) (resampler_new (m8 9) (flit 1 0)) in
  match sink_stream 9 sk (SAudio (khz 1) [m8 100; m8 99]) with
  | Ok (sk', _) => codes (sk_buf sk') = [[0]; [100]; [0]; [0]]
  | _ => False
  end.
Proof. vm_compute. reflexivity. Qed.

(** ** C49 *)
(** Converting into [Vec<F>] or [Box<[F]>] hands the allocation over. *)
Theorem C49_into_frames : forall l k (h : heap k) v data, owns_frames l h v data ->
  exists w, heap_into_frames k h v = HOk w h /\ fv_ptr w = fv_ptr v /\ owns_frames l h w data.
Proof. exact into_frames_owned. Qed.
Print Assumptions C49_into_frames.
Example C49_into_frames_case : let data := map (as_sint W8) [1; 2; 3; 4] in
  let '(p, h) := alloc (k := K8) [] 1 data in
  match heap_with_buffer Stereo K8 h (mkRawBox p 4) with HOk v h => owns_frames Stereo h v data | _ => False end.
Proof. cbv zeta. vm_compute. repeat split; reflexivity. Qed.
