(** * PropRel.v -- property theorems comparing runs (C73, C74) and on full scale (C75) *)
From Coq Require Import ZArith NArith Reals Bool List Lia Lra.
From Flocq Require Import Core.Core IEEE754.BinarySingleNaN.
From Verif Require Import Rust Float Math Chan Frame Ops Stream Audio Unwind FloatProofs SpecChan SpecFrame SpecStream SpecSink SpecAudio SpecRel SpecRange
  FChanProofs FrameProofs RangeProofs RelProofs MirrorProofs.
Import ListNotations.
Open Scope Z_scope.

Notation "'m8' z" := ((as_sint W8 z, tt) : frame Mono K8) (at level 9, z at next level, only parsing).
Notation "'st8' y z" := ((as_sint W8 y, (as_sint W8 z, tt)) : frame Stereo K8) (at level 9, y at next level, z at next level, only parsing).
Notation "'khz' z" := (flit (1000 * z) 0 : f64) (at level 9, z at next level, only parsing).
Notation "'m64' m e" := (((flit m e : f64), tt) : frame Mono K64) (at level 9, m at next level, e at next level, only parsing).
(** The sample values of a list of frames. *)
Definition codes {l} (fs : list (frame l K8)) : list (list Z) := map (fun f : frame l K8 => map sv (channels f)) fs.
Definition bits (fs : list (frame Mono K64)) : list (list SpecFloat.spec_float) :=
  map (fun f : frame Mono K64 => map (fun c : f64 => B2SF c) (channels f)) fs.

(** ** C73 *)
(** Choose channels (reorder, repeat, drop) before or after: the same. *)
Theorem C73_channels : forall l l2 k ks (p : nat -> nat) fuel (sk : sink l k) (sk2 : sink l2 k) (s : stream l ks) (s2 : stream l2 ks),
  (forall i, (i < nchan l2)%nat -> (p i < nchan l)%nat) -> sinks_alike (routed p) sk sk2 -> paired (routed p) s s2 ->
  both (run_alike (routed p) (routed p)) (sink_stream fuel sk s) (sink_stream fuel sk2 s2).
Proof. intros l l2 k ks. exact routed_stream. Qed.
Print Assumptions C73_channels.
Theorem C73_flush : forall l l2 k (p : nat -> nat) (sk : sink l k) (sk2 : sink l2 k),
  sinks_alike (routed p) sk sk2 -> both (sinks_alike (routed p)) (flush sk) (flush sk2).
Proof. intros l l2 k. exact routed_flush. Qed.
Print Assumptions C73_flush.
(** The right channel of a stereo source, 32 to 48 kHz: alone or in the pair. *)
Example C73_channels_case :
  let sk := mkSink (khz 48) (repeat (st8 5 6) 4) (mkResampler (st8 1 2) (flit 1 (-2))) in
  let sk2 := mkSink (khz 48) (repeat (m8 6) 4) (mkResampler (m8 2) (flit 1 (-2))) in
  let s := SAudio (khz 32) [st8 10 20; st8 30 50] in let s2 := SAudio (khz 32) [m8 20; m8 50] in
  sinks_alike (routed (fun _ => 1%nat)) sk sk2 /\ paired (routed (fun _ => 1%nat)) s s2 /\
  match sink_stream 9 sk s, sink_stream 9 sk2 s2 with
  | Ok (t, _), Ok (t2, _) => codes (sk_buf t) = [[10; 20]; [24; 41]; [22; 37]; [5; 6]] /\ codes (sk_buf t2) = [[20]; [41]; [37]; [6]]
  | _, _ => False
  end.
Proof.
  assert (R : forall a b, routed (fun _ => 1%nat) (st8 a b) (m8 b)) by (intros a b [|[|i]] c H; cbn in *; try discriminate; exact H).
  cbv zeta. split; [constructor; cbn; auto; repeat constructor; apply R|]. split; [repeat constructor; apply R|].
  vm_compute. auto.
Qed.
Theorem C73_extend : forall l l2 k ks (p : nat -> nat) fuel (a a' : audio l k) (a2 : audio l2 k) (s it : stream l ks) (s2 : stream l2 ks) n,
  (forall i, (i < nchan l2)%nat -> (p i < nchan l)%nat) ->
  s_rate a2 = s_rate a -> Forall2 (routed p) (frames a) (frames a2) -> paired (routed p) s s2 -> slen s = Some n ->
  allocatable l2 k (Z.of_nat (length (frames a)) + frames_for (s_rate a) (sample_rate s) n) ->
  extend fuel a s = (a', Ok it) ->
  exists a2' it2, extend fuel a2 s2 = (a2', Ok it2) /\ s_rate a2' = s_rate a' /\ Forall2 (routed p) (frames a') (frames a2') /\
    paired (routed p) it it2.
Proof. intros l l2 k ks. exact routed_extend. Qed.
Print Assumptions C73_extend.
(** Panics are the same too, if both results can be allocated. *)
Theorem C73_extend_outcome : forall l l2 k ks (p : nat -> nat) fuel (a : audio l k) (a2 : audio l2 k) (s : stream l ks) (s2 : stream l2 ks) n,
  (forall i, (i < nchan l2)%nat -> (p i < nchan l)%nat) ->
  s_rate a2 = s_rate a -> Forall2 (routed p) (frames a) (frames a2) -> paired (routed p) s s2 -> slen s = Some n ->
  let m := Z.of_nat (length (frames a)) + frames_for (s_rate a) (sample_rate s) n in
  allocatable l k m -> allocatable l2 k m ->
  both (paired (routed p)) (snd (extend fuel a s)) (snd (extend fuel a2 s2)) /\
  s_rate (fst (extend fuel a2 s2)) = s_rate (fst (extend fuel a s)) /\
  Forall2 (routed p) (frames (fst (extend fuel a s))) (frames (fst (extend fuel a2 s2))).
Proof. intros l l2 k ks. exact routed_extend_outcome. Qed.
Print Assumptions C73_extend_outcome.
Example C73_extend_case :
  let swap := fun i => match i with O => 1%nat | _ => 0%nat end in
  let s := SAudio (khz 32) [st8 10 20; st8 30 50] in let s2 := SAudio (khz 32) [st8 20 10; st8 50 30] in
  paired (routed swap) s s2 /\
  codes (frames (fst (extend 9 (mkAudio (khz 48) [st8 1 2]) s))) = [[1; 2]; [10; 20]; [30; 50]; [14; 24]] /\
  codes (frames (fst (extend 9 (mkAudio (khz 48) [st8 2 1]) s2))) = [[2; 1]; [20; 10]; [50; 30]; [24; 14]].
Proof.
  intros swap s s2. split.
  - constructor. repeat apply Forall2_cons; try apply Forall2_nil; intros [|[|[|i]]] c H; cbn in *; try discriminate; exact H.
  - vm_compute. auto.
Qed.
(** Blends keep channels apart, with every operator except Pan. *)
Theorem C73_blend : forall l l2 k kb (p : nat -> nat) op, (forall i, (i < nchan l2)%nat -> (p i < nchan l)%nat) ->
  op = Src \/ op = Dest \/ op = Clear \/ op = Plus \/ op = Amplify ->
  forall (a : stream l k) (b : stream l kb) (a2 : stream l2 k) (b2 : stream l2 kb), paired (routed p) a a2 -> paired (routed p) b b2 ->
  paired (routed p) (SBlend a b op) (SBlend a2 b2 op).
Proof. intros l l2 k kb. exact routed_blend. Qed.
Print Assumptions C73_blend.
(** A mono source in a stereo buffer: both channels are the mono result. *)
Theorem C73_stereo : forall k ks fuel (sk : sink Mono k) (sk2 : sink Stereo k) (s : stream Mono ks),
  sinks_alike (routed (fun _ => O)) sk sk2 ->
  both (run_alike (routed (fun _ => O)) eq) (sink_stream fuel sk s) (sink_stream fuel sk2 s).
Proof. intros k ks. exact stereo_stream. Qed.
Print Assumptions C73_stereo.
(** Front left and right of a surround buffer: the stereo result, for sources of
    any layout. *)
Theorem C73_front : forall k ls ks fuel (sk : sink Surround k) (sk2 : sink Stereo k) (s : stream ls ks),
  sinks_alike (routed front) sk sk2 ->
  both (run_alike (routed front) eq) (sink_stream fuel sk s) (sink_stream fuel sk2 s).
Proof. intros k ls ks. exact front_stream. Qed.
Print Assumptions C73_front.
Example C73_layouts_case :
  let s := SAudio (khz 32) [m8 10; m8 30] in
  let sk1 := mkSink (khz 48) (repeat (frame_default Mono K8) 3) (resampler_default Mono K8) in
  let sk2 := mkSink (khz 48) (repeat (frame_default Stereo K8) 3) (resampler_default Stereo K8) in
  let sk6 := mkSink (khz 48) (repeat (frame_default Surround K8) 3) (resampler_default Surround K8) in
  sinks_alike (routed (fun _ => O)) sk1 sk2 /\ sinks_alike (routed front) sk6 sk2 /\
  match sink_stream 9 sk1 s, sink_stream 9 sk2 s, sink_stream 9 sk6 s with
  | Ok (t1, _), Ok (t2, _), Ok (t6, _) => codes (sk_buf t1) = [[10]; [30]; [14]] /\ codes (sk_buf t2) = [[10; 10]; [30; 30]; [14; 14]] /\
      codes (sk_buf t6) = [[0; 10; 0; 10; 0; 0]; [0; 30; 0; 30; 0; 0]; [0; 14; 0; 14; 0; 0]]
  | _, _, _ => False
  end.
Proof.
  cbv zeta. split; [|split].
  - constructor; cbn; auto; repeat apply Forall2_cons; try apply Forall2_nil; intros [|[|[|i]]] c H; cbn in *; try discriminate; exact H.
  - constructor; cbn; auto; repeat apply Forall2_cons; try apply Forall2_nil; intros [|[|[|i]]] c H; cbn in *; try discriminate; exact H.
  - vm_compute. auto.
Qed.

(** ** C74 *)
(** Opposite sources into opposite sinks of floats. *)
Theorem C74_stream : forall l k ls ks fuel (sk sk2 : sink l k) (s s2 : stream ls ks), is_float k -> sinks_alike mirrored sk sk2 ->
  paired flipped s s2 -> moderate (ratio_for (sk_rate sk) (sample_rate s)) ->
  both (run_alike mirrored flipped) (sink_stream fuel sk s) (sink_stream fuel sk2 s2).
Proof. intros l k ls ks. exact mirrored_stream. Qed.
Print Assumptions C74_stream.
Theorem C74_extend : forall l k ls ks fuel (a a2 a' : audio l k) (s s2 it : stream ls ks), is_float k ->
  s_rate a2 = s_rate a -> Forall2 mirrored (frames a) (frames a2) ->
  paired flipped s s2 -> moderate (ratio_for (s_rate a) (sample_rate s)) -> extend fuel a s = (a', Ok it) ->
  exists a2' it2, extend fuel a2 s2 = (a2', Ok it2) /\ s_rate a2' = s_rate a' /\ Forall2 mirrored (frames a') (frames a2') /\
    paired flipped it it2.
Proof. intros l k ls ks. exact mirrored_extend. Qed.
Print Assumptions C74_extend.
(** Panics are the same too. *)
Theorem C74_extend_outcome : forall l k ls ks fuel (a a2 : audio l k) (s s2 : stream ls ks) n, is_float k ->
  s_rate a2 = s_rate a -> Forall2 mirrored (frames a) (frames a2) ->
  paired flipped s s2 -> moderate (ratio_for (s_rate a) (sample_rate s)) -> slen s = Some n ->
  allocatable l k (Z.of_nat (length (frames a)) + frames_for (s_rate a) (sample_rate s) n) ->
  both (paired flipped) (snd (extend fuel a s)) (snd (extend fuel a2 s2)) /\
  s_rate (fst (extend fuel a2 s2)) = s_rate (fst (extend fuel a s)) /\
  Forall2 mirrored (frames (fst (extend fuel a s))) (frames (fst (extend fuel a2 s2))).
Proof. intros l k ls ks. exact mirrored_extend_outcome. Qed.
Print Assumptions C74_extend_outcome.
Theorem C74_flush : forall l k (sk sk2 : sink l k), sinks_alike mirrored sk sk2 -> both (sinks_alike mirrored) (flush sk) (flush sk2).
Proof. intros l k. exact mirrored_flush. Qed.
Print Assumptions C74_flush.
(** Negating a frame of floats gives such a pair. *)
Theorem C74_neg : forall l k, is_float k -> forall f g : frame l k, frame_neg f = Ok g -> frame_valid f -> flipped f g.
Proof. intros l k. exact neg_flipped. Qed.
Print Assumptions C74_neg.
(** So do sums of such pairs, and products with the same gains. *)
Theorem C74_blend : forall l k lb kb, is_float k -> forall (a a2 : stream l k) (b b2 : stream lb kb), paired flipped a a2 ->
  (forall op, op = Src \/ op = Dest \/ op = Clear \/ op = Plus -> paired flipped b b2 ->
     paired flipped (SBlend a b op) (SBlend a2 b2 op)) /\
  (ranged b -> paired flipped (SBlend a b Amplify) (SBlend a2 b Amplify)).
Proof.
  intros l k lb kb Hk a a2 b b2 Ha. split; [intros op Hop Hb; exact (flipped_blend op Hk Hop a a2 b b2 Ha Hb)|exact (flipped_gain Hk a a2 b Ha)].
Qed.
Print Assumptions C74_blend.
Example C74_case :
  let s := SAudio (khz 32) [m64 1 (-1); m64 (-3) (-2)] in let s2 := SAudio (khz 32) [m64 (-1) (-1); m64 3 (-2)] in
  frame_neg (m64 1 (-1)) = Ok (m64 (-1) (-1)) /\ moderate (ratio_for (khz 48) (sample_rate s)) /\
  bits (frames (fst (extend 9 (with_frames (khz 48) []) s))) = bits [m64 3 (-2); m64 (-3) (-2); m64 (-3) (-3)] /\
  bits (frames (fst (extend 9 (with_frames (khz 48) []) s2))) = bits [m64 (-3) (-2); m64 3 (-2); m64 3 (-3)].
Proof.
  cbv zeta. split; [|split; [|split]].
  - unfold frame_neg. change (vmapM c_neg (m64 1 (-1))) with (Ok ((fneg (flit 1 (-1) : f64), tt) : frame Mono K64)).
    assert (E : fneg (flit 1 (-1) : f64) = flit (-1) (-1)) by (apply B2SF_inj; vm_compute; reflexivity). now rewrite E.
  - cbn [sample_rate ratio_for]. assert (E : fdiv (khz 48) (khz 32) = (flit 3 (-1) : f64)) by (apply B2SF_inj; vm_compute; reflexivity).
    rewrite E. split; [reflexivity|]. cbn. unfold F2R. cbn. rewrite Rabs_pos_eq by lra. lra.
  - vm_compute. reflexivity.
  - vm_compute. reflexivity.
Qed.
(** In integer buffers it is false: frames the resampler leaves silent are 0,
    whose mirror image is -1. *)
Theorem C74_integers_refuted : exists (a a1 a2 : audio Mono K8) (fs fs2 : list (frame Mono K8)) it1 it2,
  Forall2 (fun f g => frame_neg f = Ok g) fs fs2 /\ frames a = [] /\
  extend 9 a (SAudio (khz 24) fs) = (a1, Ok it1) /\ extend 9 a (SAudio (khz 24) fs2) = (a2, Ok it2) /\
  codes (frames a1) = [[10]; [0]; [20]; [0]] /\ codes (frames a2) = [[-11]; [0]; [-21]; [0]] /\
  ~ Forall2 (fun f g => frame_neg f = Ok g) (frames a1) (frames a2).
Proof. exact int_not_mirrored. Qed.
Print Assumptions C74_integers_refuted.
(** Nor does negating an integer source always give exactly opposite amplitudes. *)
Theorem C74_integer_source_refuted : exists c d : chan K8, c_neg c = Ok d /\ sv c = -126 /\ amplitude d <> (- amplitude c)%R.
Proof. exact int_source_off. Qed.
Print Assumptions C74_integer_source_refuted.

(** ** C75 *)
Theorem C75_convert : forall l k l2 k2 (f : frame l k), frame_valid f -> exists g, convert l2 k2 f = Ok g /\ frame_valid g.
Proof. exact convert_valid. Qed.
Print Assumptions C75_convert.
Theorem C75_operators : forall op, builtin op -> keeps_range op.
Proof. exact builtin_keeps. Qed.
Print Assumptions C75_operators.
(** Every frame of a stream made of frames in range. *)
Theorem C75_streams : forall l k (s t : stream l k) fs, ranged s -> pulls s fs t -> Forall frame_valid fs /\ ranged t.
Proof. intros l k. exact ranged_pulls. Qed.
Print Assumptions C75_streams.
Example C75_streams_case : ranged (SBlend (SAudio (khz 48) [m64 1 0; m64 (-1) 0]) (STake (SFrame (m64 1 (-1))) 5) Plus) /\
  (forall r, next (SBlend (SAudio (khz 48) [m64 1 0; m64 (-1) 0]) (STake (SFrame (m64 1 (-1))) 5) Plus) = r ->
     match r with Ok (Some f, _) => bits [f] = bits [m64 1 0] | _ => False end).
Proof.
  assert (V : forall m e, in_range (flit m e : f64) -> frame_valid (m64 m e)) by (intros m e H; constructor; [exact H|constructor]).
  split.
  - constructor; [| |now apply builtin_keeps].
    + constructor. apply Forall_cons; [apply V|apply Forall_cons; [apply V|apply Forall_nil]]; (split; [reflexivity|]); cbn; unfold F2R; cbn; lra.
    + constructor. constructor. apply V. split; [reflexivity|]. cbn. unfold F2R. cbn. lra.
  - intros r <-. vm_compute. reflexivity.
Qed.
(** A buffer in range stays in range whatever is streamed into it, NaN and
    infinities included, and if that panics. *)
Theorem C75_sinks : forall l k ls ks fuel (sk sk' : sink l k) (s it : stream ls ks) r, sink_ranged sk ->
  sink_stream_st fuel sk s = ((sk', it), r) -> sink_ranged sk'.
Proof. intros l k ls ks. exact sink_stays. Qed.
Print Assumptions C75_sinks.
Theorem C75_flush : forall l k (sk sk' : sink l k), sink_ranged sk -> flush sk = Ok sk' -> sink_ranged sk'.
Proof. intros l k. exact flush_stays. Qed.
Print Assumptions C75_flush.
Theorem C75_extend : forall l k ls ks fuel (a a' : audio l k) (s it : stream ls ks) r, Forall frame_valid (frames a) ->
  extend_st fuel a s = ((a', it), r) -> Forall frame_valid (frames a').
Proof. intros l k ls ks. exact extend_stays. Qed.
Print Assumptions C75_extend.
Example C75_sinks_case : sink_ranged (mkSink (khz 48) [m64 1 0; m64 (-1) 0] (resampler_default Mono K64)) /\
  match sink_stream 9 (mkSink (khz 48) [m64 1 0; m64 (-1) 0] (resampler_default Mono K64))
    (SAudio (khz 48) [((B754_nan : f64), tt) : frame Mono K64; ((B754_infinity true : f64), tt) : frame Mono K64]) with
  | Ok (sk, _) => bits (sk_buf sk) = bits [m64 1 0; m64 1 0]
  | _ => False
  end.
Proof.
  split; [|vm_compute; reflexivity]. split; [|apply frame_default_valid].
  apply Forall_cons; [|apply Forall_cons; [|apply Forall_nil]]; (constructor; [|constructor]); (split; [reflexivity|]); cbn; unfold F2R; cbn; lra.
Qed.
