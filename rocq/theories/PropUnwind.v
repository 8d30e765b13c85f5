(** * PropUnwind.v -- property theorems about panics while streaming (C70) *)
From Coq Require Import ZArith NArith Reals Bool List Lia.
From Flocq Require Import Core.Core IEEE754.BinarySingleNaN.
From Verif Require Import Rust Float Math Chan Frame Ops Stream Audio Unwind SpecChan SpecFrame SpecStream SpecSink SpecAudio SpecUnwind
  StreamProofs UnwindProofs.
Import ListNotations.
Open Scope Z_scope.

Notation "'m8' z" := ((as_sint W8 z, tt) : frame Mono K8) (at level 9, z at next level, only parsing).
Notation "'khz' z" := (flit (1000 * z) 0 : f64) (at level 9, z at next level, only parsing).
(** The sample values of a list of frames. *)
Definition codes (fs : list (frame Mono K8)) : list (list Z) := map (fun f : frame Mono K8 => map sv (channels f)) fs.
Definition any_codes (a : any_audio) : list (list Z) :=
  match a with existT _ (Mono, K8) b => codes (frames b) | _ => [] end.
Definition panics {T} (r : res T) : option panic := match r with Panic p => Some p | _ => None end.
(** A stream of 4 frames at 1 kHz whose third [next] panics; one that ends after
    two frames although it claims to be endless. *)
Definition broken : stream Mono K8 := SUser (mkUser (Some (khz 1)) false (Some 4%N)
  (fun i => match i with 0 => Ok (Some (m8 10)) | 1 => Ok (Some (m8 20)) | _ => Panic AssertFailed end)%nat 0).
Definition liar : stream Mono K8 := SUser (mkUser (Some (khz 1)) false None
  (fun i => match i with 0 => Ok (Some (m8 10)) | 1 => Ok (Some (m8 20)) | _ => Ok None end)%nat 0).
Definition four : sink Mono K8 := mkSink (khz 1) (repeat (m8 7) 4) (mkResampler (m8 0) (flit 0 0)).

(** ** C70 *)
(** The functions with state have the outcomes of those without. *)
Theorem C70_agree : forall l k ls ks fuel (sk : sink l k) (a : audio l k) (s : stream ls ks),
  sink_stream fuel sk s = match sink_stream_st fuel sk s with
    | (st, Ok _) => Ok st | (_, Panic p) => Panic p | (_, OutOfFuel) => OutOfFuel end /\
  extend fuel a s = match extend_st fuel a s with
    | ((a', it), Ok _) => (a', Ok it) | ((a', _), Panic p) => (a', Panic p) | ((a', _), OutOfFuel) => (a', OutOfFuel) end.
Proof. exact both_agree. Qed.
Print Assumptions C70_agree.
(** Exactly when [stream] panics. *)
Theorem C70_causes : forall l k ls ks fuel (sk : sink l k) (s : stream ls ks) p,
  sink_stream fuel sk s = Panic p <->
  (sample_rate s = None /\ ~ configurable s /\ p = ExplicitPanic) \/
  exists ratio s' srcs it, negotiated sk s ratio s' /\ (length srcs < fuel)%nat /\
    fails s' ratio (resampler_index (sk_res sk)) (covered ratio (slen s') (length (sk_buf sk))) srcs p it.
Proof. exact sink_panics_iff. Qed.
Print Assumptions C70_causes.
Example C70_causes_case : panics (sink_stream 9 four broken) = Some AssertFailed /\ panics (sink_stream 9 four liar) = Some UnwrapNone /\
  panics (sink_stream 9 four (SBlend (SFrame (m8 1)) (SAudio (khz 1) [m8 1]) Plus)) = Some ExplicitPanic.
Proof. vm_compute. repeat split; reflexivity. Qed.
(** What the sink and the source are then. *)
Theorem C70_left_behind : forall l k ls ks fuel (sk sk' : sink l k) (s it : stream ls ks) p,
  sink_stream_st fuel sk s = ((sk', it), Panic p) ->
  (sample_rate s = None /\ ~ configurable s /\ p = ExplicitPanic /\ sk' = sk /\ drop_stream it = drop_stream s) \/
  exists ratio s' srcs fs, negotiated sk s ratio s' /\
    fails s' ratio (resampler_index (sk_res sk)) (covered ratio (slen s') (length (sk_buf sk))) srcs p it /\
    converted srcs fs /\ interrupted sk ratio (covered ratio (slen s') (length (sk_buf sk))) fs sk' /\ (length srcs < fuel)%nat.
Proof. exact sink_left. Qed.
Print Assumptions C70_left_behind.
(** Two frames arrived, the two after them were cleared. *)
Example C70_left_behind_case : exists sk it, sink_stream_st 9 four broken = ((sk, it), Panic AssertFailed) /\
  codes (sk_buf sk) = [[10]; [20]; [0]; [0]].
Proof.
  assert (V : let '((sk, it), r) := sink_stream_st 9 four broken in (codes (sk_buf sk), panics r) = ([[10]; [20]; [0]; [0]], Some AssertFailed))
    by (vm_compute; reflexivity).
  destruct (sink_stream_st 9 four broken) as [[sk it] [u|p|]]; try discriminate. injection V as V ->. exists sk, it. split; [reflexivity|exact V].
Qed.

(** Drained buffers have lost frames at the front only, however [stream] or
    [extend] ended. *)
Theorem C70_removed : forall l k ls ks fuel (sk sk' : sink l k) (a a' : audio l k) (s it it2 : stream ls ks) r r2,
  (sink_stream_st fuel sk s = ((sk', it), r) -> Forall2 front_removed (drop_stream s) (drop_stream it)) /\
  (extend_st fuel a s = ((a', it2), r2) -> Forall2 front_removed (drop_stream s) (drop_stream it2)).
Proof. exact both_removed. Qed.
Print Assumptions C70_removed.
Example C70_removed_case : let s := SBlend (SDrain (khz 1) [m8 1; m8 2; m8 3] 0) (SDrain (khz 1) [m8 4; m8 5] 0) Compress in
  let '((sk, it), r) := sink_stream_st 9 four s in
  (map any_codes (drop_stream s), map any_codes (drop_stream it), panics r) =
  ([[[1]; [2]; [3]]; [[4]; [5]]], [[[2]; [3]]; [[5]]], Some NotImplemented).
Proof. vm_compute. reflexivity. Qed.
(** A blend of two drains whose operator panics has taken the two frames it was
    mixing. *)
Theorem C70_blend : forall l k l' k' (a : audio l k) (b : audio l' k') op t ms p u,
  blend (audio_drain a) (audio_drain b) op = Ok t -> breaks t ms p u ->
  (length ms < length (frames a))%nat /\ (length ms < length (frames b))%nat /\
  drop_stream u = [pack (mkAudio (s_rate a) (skipn (S (length ms)) (frames a)));
                   pack (mkAudio (s_rate b) (skipn (S (length ms)) (frames b)))].
Proof. exact blend_drains_break. Qed.
Print Assumptions C70_blend.
(** [Compress] is not implemented: it takes one frame from each. *)
Example C70_blend_case : let a := mkAudio (khz 1) [m8 1; m8 2; m8 3] : audio Mono K8 in let b := mkAudio (khz 1) [m8 4; m8 5] : audio Mono K8 in
  exists t u, blend (audio_drain a) (audio_drain b) Compress = Ok t /\ breaks t [] NotImplemented u /\
    map any_codes (drop_stream u) = [[[2]; [3]]; [[5]]].
Proof.
  intros a b. exists (SBlend (audio_drain a) (audio_drain b) Compress), (SBlend (SDrain (khz 1) (frames a) 1) (SDrain (khz 1) (frames b) 1) Compress).
  split.
  - apply (proj1 (blend_cases _ _ _ _ (audio_drain a) (audio_drain b) Compress)). vm_compute. reflexivity.
  - split; [|vm_compute; reflexivity]. eexists. split; [constructor|]. cbn [next_st audio_drain frames a b nth_error run s_rate].
    destruct (convert_total _ _ Mono K8 (m8 4)) as (y & E). rewrite E. reflexivity.
Qed.
(** [extend] with a drain that panics: the caller keeps an empty buffer at 0 Hz,
    and the drained buffer has lost the frames that were read. *)
Theorem C70_extend : forall l k ls ks (a a' : audio l k) (b : audio ls ks) it p,
  let n := N.of_nat (length (frames b)) in
  let d := frames_for (s_rate a) (Some (s_rate b)) n in
  let ratio := ratio_for (s_rate a) (Some (s_rate b)) in
  extend_st (S (length (frames b))) a (audio_drain b) = ((a', it), Panic p) ->
  audio_len a' = 0%nat /\ audio_sample_rate a' = flit 0 0 /\
  ((~ allocatable l k (Z.of_nat (length (frames a)) + d) /\ drop_stream it = [pack b]) \/
   (allocatable l k (Z.of_nat (length (frames a)) + d) /\ p = IndexOutOfBounds /\
    exists m, (m <= length (frames b))%nat /\ leaves ratio (Z.min (floor_index (fmul ratio (fofZ (Z.of_N n)))) d) m /\
      drop_stream it = [pack (mkAudio (s_rate b) (skipn m (frames b)))])).
Proof. exact extend_drain_left. Qed.
Print Assumptions C70_extend.
(** It is not true that the audio is still in one of the two buffers. *)
Theorem C70_extend_keeps_refuted : exists (a a' b : audio Mono K8) it p,
  extend_st (S (length (frames b))) a (audio_drain b) = ((a', it), Panic p) /\
  codes (frames a) = [[1]; [2]] /\ length (frames b) = 147%nat /\ frames a' = [] /\ map any_codes (drop_stream it) = [[]].
Proof. exact extend_loses_both. Qed.
Print Assumptions C70_extend_keeps_refuted.

(** Calling [next] again after a caught panic.  A user's stream is the sequence of its
    outcomes; [take] counts calls, whatever their outcome; [blend] does not call the
    right stream when the left one gave no frame. *)
Theorem C70_call_user : forall l k (u : user_stream l k) i, call (SUser u) i = u_item u (u_pos u + i).
Proof. exact call_user. Qed.
Print Assumptions C70_call_user.
Theorem C70_call_take : forall l k (s : stream l k) n i, call (take s n) i = if (N.of_nat i <? n)%N then call s i else Ok None.
Proof. exact call_take. Qed.
Print Assumptions C70_call_take.
Theorem C70_call_blend : forall l k l' k' (a : stream l k) (b : stream l' k') op t i, blend a b op = Ok t ->
  call t i = mix_calls op (call a i) (call b (frames_given a i)).
Proof. exact call_blend. Qed.
Print Assumptions C70_call_blend.
(** So the streams of a blend are out of step after a panic of the left one. *)
Definition hiccup : stream Mono K8 := SUser (mkUser (Some (khz 1)) false (Some 4%N)
  (fun i => match i with 1 => Panic AssertFailed | 0 | 2 | 3 => Ok (Some (m8 (10 * Z.of_nat i))) | _ => Ok None end)%nat 0).
Definition called (r : res (option (frame Mono K8))) : option (list Z) := match r with Ok (Some f) => Some (map sv (channels f)) | _ => None end.
Theorem C70_in_step_refuted : ~ forall (a b t : stream Mono K8) i, blend a b Plus = Ok t -> call t i = mix_calls Plus (call a i) (call b i).
Proof.
  intros H. specialize (H hiccup (SAudio (khz 1) [m8 1; m8 2; m8 3; m8 4]) (SBlend hiccup (SAudio (khz 1) [m8 1; m8 2; m8 3; m8 4]) Plus) 2%nat).
  apply (f_equal called) in H; [|apply (proj1 (blend_cases _ _ _ _ hiccup (SAudio (khz 1) [m8 1; m8 2; m8 3; m8 4]) Plus)); reflexivity].
  vm_compute in H. discriminate H.
Qed.
Print Assumptions C70_in_step_refuted.
Example C70_call_case : map (fun i => called (call (take hiccup 3) i)) [0; 1; 2; 3]%nat = [Some [0]; None; Some [20]; None].
Proof. vm_compute. reflexivity. Qed.
