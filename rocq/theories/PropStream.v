(** * PropStream.v -- the property theorems about streams and their adapters
    (C25, C28 - C31) *)
From Coq Require Import ZArith NArith Reals Bool List Lia.
From Flocq Require Import Core.Core IEEE754.BinarySingleNaN.
From Verif Require Import Rust Float Chan Frame Ops Stream Audio SpecChan SpecFrame SpecStream SpecSink
  StreamProofs SinkProofs StreamMore.
Import ListNotations.

Notation "'m8' z" := ((as_sint W8 z, tt) : frame Mono K8) (at level 9, z at next level, only parsing).
Notation "'m16' z" := ((as_sint W16 z, tt) : frame Mono K16) (at level 9, z at next level, only parsing).
(** What a finite stream gives, computed. *)
Fixpoint drained {l k} (n : nat) (s : stream l k) : list (list (chan k)) :=
  match n with
  | O => []
  | S n => match next s with Ok (Some f, s) => channels f :: drained n s | _ => [] end
  end.

(** ** C25 (streams) *)
Theorem C25_compress_stream_panics : forall l k l' k' (a : stream l k) (b : stream l' k') t x y,
  blend a b Compress = Ok t -> starts a [x] -> starts b [y] -> next t = Panic NotImplemented.
Proof. exact compress_blend. Qed.
Print Assumptions C25_compress_stream_panics.
Example C25_case : let a := SAudio (flit 48000 0) [m8 1; m8 2] in
  starts a [m8 1] /\ starts (SFrame (m8 7)) [m8 7] /\
  match blend a (SFrame (m8 7)) Compress with Ok t => next t = Panic NotImplemented | _ => False end.
Proof.
  split; [eexists; econstructor; [reflexivity|constructor]|].
  split; [eexists; econstructor; [reflexivity|constructor]|reflexivity].
Qed.

(** ** C28 *)
Theorem C28_take_length : forall l k (s : stream l k) n, slen (take s n) = shorter (slen s) (Some n).
Proof. exact take_len. Qed.
Print Assumptions C28_take_length.
(** A stream that gives [fs] and ends: [take n] gives the first [n] of them and
    ends. *)
Theorem C28_take_finite : forall l k (s : stream l k) fs n, yields s fs -> yields (take s n) (firstn (N.to_nat n) fs).
Proof. exact take_yields. Qed.
Print Assumptions C28_take_finite.
(** A stream that can give [n] frames (in particular an infinite one). *)
Theorem C28_take_infinite : forall l k (s : stream l k) fs n, starts s fs -> N.of_nat (length fs) = n ->
  yields (take s n) fs.
Proof. exact take_starts. Qed.
Print Assumptions C28_take_infinite.
(** However it is driven, [take n] takes at most [n] frames out of the
    underlying stream, each of them passed on unchanged; after [n] frames it
    ends without asking the underlying stream again. *)
Theorem C28_take_pulls : forall l k (s t : stream l k) gs n, pulls (take s n) gs t ->
  (N.of_nat (length gs) <= n)%N /\
  exists s', t = take s' (n - N.of_nat (length gs)) /\ pulls s gs s' /\
    (N.of_nat (length gs) = n -> next t = Ok (None, t)).
Proof. exact take_pulls_full. Qed.
Print Assumptions C28_take_pulls.
Example C28_case : let s := SAudio (flit 48000 0) [m8 1; m8 2; m8 3] in
  yields s [m8 1; m8 2; m8 3] /\ slen (take s 2) = Some 2%N /\
  map (map sv) (drained 10 (take s 2)) = [[1%Z]; [2%Z]] /\ map (map sv) (drained 10 (take (SFrame (m8 5)) 3)) = [[5%Z]; [5%Z]; [5%Z]].
Proof. cbv zeta. split; [apply audio_yields|]. repeat split; vm_compute; reflexivity. Qed.

(** ** C29 *)
Theorem C29_blend_length : forall l k l' k' (a : stream l k) (b : stream l' k') op t, blend a b op = Ok t ->
  slen t = shorter (slen a) (slen b).
Proof. intros l k l' k' a b op t H. exact (proj1 (blend_ok l k l' k' a b op t H)). Qed.
Print Assumptions C29_blend_length.
(** Whatever comes out is the mix of frames that the two streams give at the
    same positions. *)
Theorem C29_blend_frames : forall l k l' k' (a : stream l k) (b : stream l' k') op t ms, blend a b op = Ok t ->
  starts t ms -> exists xs ys, starts a xs /\ starts b ys /\ length xs = length ms /\ length ys = length ms /\
  forall i m, nth_error ms i = Some m ->
    exists x y, nth_error xs i = Some x /\ nth_error ys i = Some y /\ mixed op x y m.
Proof. exact blend_frames. Qed.
Print Assumptions C29_blend_frames.
(** Everything the two streams give comes out: with an operator that does not
    panic, and two streams that tell the truth about their length, the blend
    tells the truth about its length, too; and it ends with the shorter one. *)
Theorem C29_blend_complete : forall l k l' k' (a : stream l k) (b : stream l' k') op t, blend a b op = Ok t ->
  total_op op l k -> honest a -> honest b -> honest t.
Proof. exact blend_honest. Qed.
Print Assumptions C29_blend_complete.
(** The built-in operators other than Compress do not panic. *)
Theorem C29_operators_total : forall l k op t,
  op = Src \/ op = Dest \/ op = Clear \/ op = Plus \/ op = Amplify \/ op = Pan_ t -> total_op op l k.
Proof. exact builtin_total. Qed.
Print Assumptions C29_operators_total.
(** Every stream expression built from frames, audio buffers, drains, honest
    user streams, [take] and [blend] tells the truth about its length. *)
Theorem C29_lengths_true : forall l k (s : stream l k), well_formed s -> honest s.
Proof. exact well_formed_honest. Qed.
Print Assumptions C29_lengths_true.
Example C29_case : let a := SAudio (flit 48000 0) [m8 100; m8 2; m8 3] in
  let b := SAudio (flit 48000 0) [m16 (-25700); m16 25700] in
  honest a /\ honest b /\ total_op Plus Mono K8 /\
  match blend a b Plus with
  | Ok t => slen t = Some 2%N /\ map (map sv) (drained 10 t) = [[0]; [102]]%Z
  | _ => False
  end.
Proof.
  split; [apply well_formed_honest; exact I|]. split; [apply well_formed_honest; exact I|].
  split; [apply (builtin_total Mono K8 Plus (mkTrig (fun x => x) (fun x => x))); tauto|]. vm_compute. repeat split; reflexivity.
Qed.

(** ** C30 *)
(** The outcome of [blend] in every case.  Two set rates are compared as f64. *)
Theorem C30_blend_rates : forall l k l' k' (a : stream l k) (b : stream l' k') op,
  match sample_rate a, sample_rate b with
  | Some x, Some y =>
      (feq x y = true -> exists t, blend a b op = Ok t /\ sample_rate t = Some x) /\
      (feq x y = false -> blend a b op = Panic AssertFailed)
  | None, None => exists t, blend a b op = Ok t /\ sample_rate t = None
  | None, Some _ =>
      (configurable a -> exists t, blend a b op = Ok t) /\ (~ configurable a -> blend a b op = Panic ExplicitPanic)
  | Some x, None =>
      (configurable b -> exists t, blend a b op = Ok t /\ sample_rate t = Some x) /\
      (~ configurable b -> blend a b op = Panic ExplicitPanic)
  end.
Proof. exact blend_rates. Qed.
Print Assumptions C30_blend_rates.
(** As f64, NaN differs from itself. *)
Theorem C30_nan_rejected : forall l k l' k' (a : stream l k) (b : stream l' k') op y,
  sample_rate a = Some B754_nan -> sample_rate b = Some y -> blend a b op = Panic AssertFailed.
Proof. exact blend_nan. Qed.
Print Assumptions C30_nan_rejected.
(** A left stream without a rate takes over the right one's; the blend then has it,
    unless it is a single frame's (see C31). *)
Theorem C30_told : forall l k l' k' (a : stream l k) (b : stream l' k') op r, sample_rate a = None -> sample_rate b = Some r -> configurable a ->
  exists t, blend a b op = Ok t /\ (remembers a -> sample_rate t = Some r) /\ (~ remembers a -> sample_rate t = None).
Proof. exact blend_told. Qed.
Print Assumptions C30_told.
Example C30_told_case : let a := STake (SUser (mkUser None true None (fun _ => Ok (Some (m8 5))) 0)) 3 in let b := SAudio (flit 44100 0) [m8 1] in
  sample_rate a = None /\ sample_rate b = Some (flit 44100 0) /\ configurable a /\ remembers a.
Proof. repeat split. Qed.
Example C30_case : let a := SAudio (flit 48000 0) [m8 1] in let b := SAudio (flit 44100 0) [m8 1] in
  blend a b Plus = Panic AssertFailed /\ (exists t, blend a a Plus = Ok t) /\
  (exists t, blend a (SFrame (m8 3)) Plus = Ok t) /\ configurable (SFrame (m8 3)) /\ ~ configurable a.
Proof.
  intros a b. split; [apply (blend_rates Mono K8 Mono K8 a b Plus); vm_compute; reflexivity|]. split.
  - destruct (proj1 (blend_rates Mono K8 Mono K8 a a Plus)) as (t & H & _); [vm_compute; reflexivity|]. exists t. exact H.
  - split; [|split; [exact I|intros []]].
    destruct (proj1 (blend_rates Mono K8 Mono K8 a (SFrame (m8 3)) Plus) I) as (t & H & _). exists t. exact H.
Qed.

(** ** C31 *)
Theorem C31_frame_blend_audio_panics : forall l k l' k' (f : frame l k) (a : audio l' k') op,
  exists t, blend (SFrame f) (audio_stream a) op = Ok t /\
    forall fuel lk kk (sk : sink lk kk), sink_stream fuel sk t = Panic ExplicitPanic.
Proof. exact frame_blend_audio_sink. Qed.
Print Assumptions C31_frame_blend_audio_panics.
Theorem C31_audio_blend_frame_works : forall l k l' k' (f : frame l' k') (a : audio l k) op, total_op op l k ->
  exists t, blend (audio_stream a) (SFrame f) op = Ok t /\
    forall lk kk (sk : sink lk kk), exists sk' it, sink_stream (S (length (frames a))) sk t = Ok (sk', it).
Proof. exact audio_blend_frame_sink. Qed.
Print Assumptions C31_audio_blend_frame_works.
Example C31_case : total_op Plus Mono K8 /\
  match blend (audio_stream (with_frames (flit 48000 0) [m8 1; m8 2])) (SFrame (m8 10)) Plus with
  | Ok t =>
      match sink_stream 10 (mkSink (flit 48000 0) [m8 0; m8 0; m8 0] (resampler_default Mono K8)) t with
      | Ok (sk, _) => map (fun f : frame Mono K8 => map sv (channels f)) (sk_buf sk) = [[11]; [12]; [0]]%Z
      | _ => False
      end
  | _ => False
  end.
Proof.
  split; [apply (builtin_total Mono K8 Plus (mkTrig (fun x => x) (fun x => x))); tauto|]. vm_compute. reflexivity.
Qed.
