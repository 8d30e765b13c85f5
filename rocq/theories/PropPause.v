(** * PropPause.v -- property theorems C102 *)
From Coq Require Import ZArith NArith Reals List Lia Bool Lra.
From Flocq Require Import Core.Core IEEE754.BinarySingleNaN.
From Verif Require Import Rust Float Math Chan Frame Ops Stream Audio SpecChan SpecFrame SpecStream SpecSink SpecAudio SpecMore SpecNearby.
From Verif Require Import FloatProofs FrameProofs StreamProofs MixProofs NearbyProofs PauseProofs.
Import ListNotations.
Open Scope Z_scope.

(** ** C102 *)
(** A destination frame all of whose neighbours in the source (at most one destination frame away) are silent is silent, to the last bit. *)
Theorem C102_frame : forall l k ls ks (a a' : audio l k) (s it : stream ls ks) n all (fs : list (frame l k)) src R S p b,
  sample_rate s = Some src -> whole_rate src S -> whole_rate (s_rate a) R -> S <= 2 ^ 51 -> R * Z.of_N n <= 2 ^ 51 ->
  honest s -> slen s = Some n -> yields s all -> converted all fs -> extend (Datatypes.S (N.to_nat n)) a s = (a', Ok it) ->
  (forall i f, Z.abs (R * Z.of_nat i - S * Z.of_nat p) <= S -> nth_error fs i = Some f -> f = frame_default l k) ->
  audio_get a' (audio_len a + p) = Some b -> b = frame_default l k.
Proof. exact pause_frame. Qed.
Print Assumptions C102_frame.
(** And so for a single channel that is silent while others sound. *)
Theorem C102_channel : forall l k ls ks (a a' : audio l k) (s it : stream ls ks) n all (fs : list (frame l k)) src R S p c b y,
  sample_rate s = Some src -> whole_rate src S -> whole_rate (s_rate a) R -> S <= 2 ^ 51 -> R * Z.of_N n <= 2 ^ 51 ->
  honest s -> slen s = Some n -> yields s all -> converted all fs -> extend (Datatypes.S (N.to_nat n)) a s = (a', Ok it) ->
  (forall i f x, Z.abs (R * Z.of_nat i - S * Z.of_nat p) <= S -> nth_error fs i = Some f -> nth_error (channels f) c = Some x -> x = chan_default k) ->
  audio_get a' (audio_len a + p) = Some b -> nth_error (channels b) c = Some y -> y = chan_default k.
Proof. exact pause_channel. Qed.
Print Assumptions C102_channel.
(** So a pause from source frame [i0] up to [i1], or to the end of the source, is a pause in the result, but for one frame at either end. *)
Theorem C102_pause : forall l k ls ks (a a' : audio l k) (s it : stream ls ks) n all src R S i0 i1 p b,
  is_float ks \/ ks = k \/ (ks = K16 /\ k = K8) ->
  sample_rate s = Some src -> whole_rate src S -> whole_rate (s_rate a) R -> S <= 2 ^ 51 -> R * Z.of_N n <= 2 ^ 51 ->
  honest s -> slen s = Some n -> yields s all -> extend (Datatypes.S (N.to_nat n)) a s = (a', Ok it) ->
  (forall i f, (i0 <= i < i1)%nat -> nth_error all i = Some f -> f = frame_default ls ks) ->
  R * Z.of_nat i0 + S <= S * Z.of_nat p -> S * Z.of_nat p + S < R * Z.of_nat i1 \/ (N.to_nat n <= i1)%nat ->
  audio_get a' (audio_len a + p) = Some b -> b = frame_default l k.
Proof. exact pause_kept. Qed.
Print Assumptions C102_pause.

(** 48 kHz to 32 kHz. *)
Definition mono (k : ck) (x : chan k) : frame Mono k := (x, tt).
Definition loud : frame Mono K8 := mono K8 (as_sint W8 90).
Definition pause : frame Mono K8 := frame_default Mono K8.
Definition talk : list (frame Mono K8) := [loud; loud; loud; pause; pause; pause; pause; pause; pause; loud; loud; loud].
Definition heard8 (a : audio Mono K8) : list Z := map (fun f : frame Mono K8 => sv (fst f)) (frames a).
Definition heard16 (a : audio Mono K16) : list Z := map (fun f : frame Mono K16 => sv (fst f)) (frames a).
Definition at32_8 := extend (Datatypes.S (N.to_nat 12)) (with_frames (flit 32000 0) [] : audio Mono K8) (SAudio (flit 48000 0) talk).
Definition at32_16 := extend (Datatypes.S (N.to_nat 12)) (with_frames (flit 32000 0) [] : audio Mono K16) (SAudio (flit 48000 0) talk).
Lemma found (x : audio Mono K16 * res (stream Mono K8)) : option_map (fun f : frame Mono K16 => sv (fst f)) (audio_get (fst x) 3) = Some 127 ->
  match snd x with Ok _ => true | _ => false end = true -> exists a' it b, x = (a', Ok it) /\ audio_get a' 3 = Some b /\ sv (fst b) = 127.
Proof.
  destruct x as [a' [it|pn|]]; cbn [fst snd]; intros G K; try discriminate. destruct (audio_get a' 3) as [b|] eqn:Eb; [|discriminate].
  change (Some (sv (fst b)) = Some 127) in G. exists a', it, b. split; [reflexivity|]. split; [exact Eb|]. congruence.
Qed.
(** Silence of another integer format is none: in 16 bits the pause is 127. *)
Theorem C102_formats_refuted : ~ forall l k ls ks (a a' : audio l k) (s it : stream ls ks) n all src R S i0 i1 p b,
  sample_rate s = Some src -> whole_rate src S -> whole_rate (s_rate a) R -> S <= 2 ^ 51 -> R * Z.of_N n <= 2 ^ 51 ->
  honest s -> slen s = Some n -> yields s all -> extend (Datatypes.S (N.to_nat n)) a s = (a', Ok it) ->
  (forall i f, (i0 <= i < i1)%nat -> nth_error all i = Some f -> f = frame_default ls ks) ->
  R * Z.of_nat i0 + S <= S * Z.of_nat p -> S * Z.of_nat p + S < R * Z.of_nat i1 ->
  audio_get a' (audio_len a + p) = Some b -> b = frame_default l k.
Proof.
  intros H.
  assert (G : option_map (fun f : frame Mono K16 => sv (fst f)) (audio_get (fst at32_16) 3) = Some 127) by (vm_compute; reflexivity).
  assert (D : sv (fst (frame_default Mono K16)) = 0) by (vm_compute; reflexivity).
  assert (K : match snd at32_16 with Ok _ => true | _ => false end = true) by (vm_compute; reflexivity).
  assert (Sil : forall i f, (3 <= i < 9)%nat -> nth_error talk i = Some f -> f = frame_default Mono K8).
  { intros i f Hi E. apply (f_equal (fun o => match o with Some x => x | None => pause end)) in E.
    do 9 (destruct i as [|i]; [try lia; symmetry; exact E|]). lia. }
  destruct (found at32_16 G K) as (a' & it & b & E & Eb & V).
  assert (B : b = frame_default Mono K16).
  { apply (H Mono K16 Mono K8 (with_frames (flit 32000 0) []) a' (SAudio (flit 48000 0) talk) it 12%N talk (flit 48000 0) 32000 48000 3%nat 9%nat 3%nat b).
    - reflexivity.
    - destruct (flit_Z 53 1024 48000 ltac:(lia)); repeat split; try assumption; lia.
    - destruct (flit_Z 53 1024 32000 ltac:(lia)); repeat split; try assumption; lia.
    - lia.
    - lia.
    - apply audio_honest.
    - reflexivity.
    - apply audio_yields.
    - unfold at32_16 in E. exact E.
    - exact Sil.
    - lia.
    - lia.
    - exact Eb. }
  subst b. rewrite D in V. discriminate.
Qed.
Print Assumptions C102_formats_refuted.
(** In 8 bits it is a pause: source frames 3 to 8, destination frames 3 and 4 (and, at these rates, 5). *)
Example C102_case : heard8 (fst at32_8) = [60; 89; 29; 0; 0; 0; 60; 88] /\ heard16 (fst at32_16) = [15505; 23257; 7837; 127; 127; 127; 15547; 23256] /\
  match snd at32_8 with Ok _ => true | _ => false end = true /\ yields (SAudio (flit 48000 0) talk) talk /\
  32000 * Z.of_nat 3 + 48000 <= 48000 * Z.of_nat 3 /\ 48000 * Z.of_nat 4 + 48000 < 32000 * Z.of_nat 9.
Proof. split; [vm_compute; reflexivity|]. split; [vm_compute; reflexivity|]. split; [vm_compute; reflexivity|]. split; [apply audio_yields|lia]. Qed.
