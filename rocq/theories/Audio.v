(** * Audio.v -- model of src/audio.rs

    The [VecDeque<F>] holding the frames is modelled by the list of its
    elements in order: [make_contiguous] rotates the ring buffer in memory but
    keeps the element order, so [as_slice] is the identity here.  The private
    [AudioStream] type (src/audio.rs:412-450, marked FIXME) is never
    constructed and is not modelled. *)
From Coq Require Import ZArith NArith List Bool.
From Verif Require Import Rust Float Math Chan Frame Ops Stream.
Import ListNotations.
Open Scope Z_scope.

(** src/audio.rs:47-50 [Audio { s_rate, frames }]. *)
Record audio (l : layout) (k : ck) : Type := mkAudio {
  s_rate : f64;
  frames : list (frame l k)
}.
Arguments mkAudio {l k}. Arguments s_rate {l k}. Arguments frames {l k}.

(** src/audio.rs:54-56 [get]. *)
Definition audio_get {l k} (a : audio l k) (i : nat) : option (frame l k) :=
  nth_error (frames a) i.

(** [if let Some(f) = a.get_mut(i) { *f = v }] (src/audio.rs:59-61). *)
Definition audio_set {l k} (a : audio l k) (i : nat) (v : frame l k) : audio l k :=
  match update_at i (fun _ => v) (frames a) with
  | Ok fs => mkAudio (s_rate a) fs
  | _ => a
  end.

(** src/audio.rs:66-68 [as_slice], 71-73 [iter]: the frames in order. *)
Definition audio_as_slice {l k} (a : audio l k) : list (frame l k) := frames a.
Definition audio_iter {l k} (a : audio l k) : list (frame l k) := frames a.

(** [for (i, f) in a.iter_mut().enumerate() { *f = g(i, *f) }]
    (src/audio.rs:76-78), starting at index [i]. *)
Fixpoint mapi {A} (g : nat -> A -> A) (i : nat) (fs : list A) : list A :=
  match fs with [] => [] | f :: fs => g i f :: mapi g (S i) fs end.
Definition audio_iter_mut {l k} (g : nat -> frame l k -> frame l k) (a : audio l k) : audio l k :=
  mkAudio (s_rate a) (mapi g 0 (frames a)).

(** src/audio.rs:81-85 [with_frame]. *)
Definition with_frame {l k} (rate : f64) (len : nat) (f : frame l k) : audio l k :=
  mkAudio rate (repeat f len).

(** src/audio.rs:88-90 [with_silence]. *)
Definition with_silence (l : layout) (k : ck) (rate : f64) (len : nat) : audio l k :=
  with_frame rate len (frame_default l k).

(** src/audio.rs:115-125 [with_frames]. *)
Definition with_frames {l k} (rate : f64) (fs : list (frame l k)) : audio l k :=
  mkAudio rate fs.

(** src/audio.rs:227-229 [len], 232-234 [is_empty], 237-239 [sample_rate]. *)
Definition audio_len {l k} (a : audio l k) : nat := length (frames a).
Definition audio_is_empty {l k} (a : audio l k) : bool := Nat.eqb (audio_len a) 0.
Definition audio_sample_rate {l k} (a : audio l k) : f64 := s_rate a.

(** src/audio.rs:484-497: [From<Audio<F>>] for [Vec<F>] and [Box<[F]>]. *)
Definition into_frames {l k} (a : audio l k) : list (frame l k) := frames a.

(** ** Raw sample buffers *)

(** [size_of::<F::Chan>()] and [size_of::<F>()] (the types are transparent
    wrappers, src/chan.rs:71-89 and src/{mono,stereo,surround}.rs). *)
Definition chan_size (k : ck) : nat := match k with K8 => 1 | K16 => 2 | K32 => 4 | K64 => 8 end.
Definition frame_size (l : layout) (k : ck) : nat := nchan l * chan_size k.

(** Reinterpret [n] frames' worth of consecutive samples as frames. *)
Fixpoint reinterpret_frames {l k} (n : nat) (buf : list (chan k)) : res (list (frame l k)) :=
  match n with
  | O => Ok []
  | S n =>
      f <- vof_list (nchan l) buf ;;
      fs <- reinterpret_frames n (skipn (nchan l) buf) ;; Ok (f :: fs)
  end.

(** src/audio.rs:129-149 [with_i8_buffer]. *)
Definition with_i8_buffer (l : layout) (rate : f64) (buffer : list (chan K8)) : res (audio l K8) :=
  let len := Nat.div (length buffer) (frame_size l K8) in
  if Nat.eqb 0 (Nat.modulo (length buffer) (frame_size l K8)) then
    fs <- reinterpret_frames len buffer ;; Ok (mkAudio rate fs)
  else Panic AssertFailed.

(** src/audio.rs:153-174 [with_i16_buffer], 178-199 [with_f32_buffer], 203-224
    [with_f64_buffer]: the same text for another channel type. *)
Definition with_wide_buffer (l : layout) (k : ck) (rate : f64) (buffer : list (chan k)) : res (audio l k) :=
  let bytes := (length buffer * chan_size k)%nat in
  let len := Nat.div bytes (frame_size l k) in
  if Nat.eqb 0 (Nat.modulo bytes (frame_size l k)) then
    fs <- reinterpret_frames len buffer ;; Ok (mkAudio rate fs)
  else Panic AssertFailed.
Definition with_i16_buffer (l : layout) := with_wide_buffer l K16.
Definition with_f32_buffer (l : layout) := with_wide_buffer l K32.
Definition with_f64_buffer (l : layout) := with_wide_buffer l K64.

(** The constructor for channel type [k]. *)
Definition with_buffer (l : layout) (k : ck) (rate : f64) : list (chan k) -> res (audio l k) :=
  match k with
  | K8 => with_i8_buffer l rate
  | K16 => with_i16_buffer l rate
  | K32 => with_f32_buffer l rate
  | K64 => with_f64_buffer l rate
  end.

(** The samples of the frames in memory order. *)
Definition raw_samples {l k} (fs : list (frame l k)) : list (chan k) := flat_map channels fs.

(** src/audio.rs:320-370 [as_i8_slice] .. [as_f64_slice] (reading). *)
Definition as_raw_slice {l k} (a : audio l k) : list (chan k) := raw_samples (frames a).

(** Writing [raw] (same length) through the slice returned by [as_*_slice]. *)
Definition write_raw_slice {l k} (a : audio l k) (raw : list (chan k)) : res (audio l k) :=
  fs <- reinterpret_frames (length (frames a)) raw ;; Ok (mkAudio (s_rate a) fs).

(** src/audio.rs:499-553 [From<Audio<F>>] for [Box<[i8]>] .. [Box<[f64]>]: the
    contents of the [capacity] samples starting at the frames' address
    (ownership of that memory is modelled in Heap.v). *)
Definition raw_capacity (l : layout) (k : ck) (n : nat) : nat :=
  match k with
  | K8 => n * frame_size l K8
  | K16 => Nat.div (n * frame_size l K16) 2
  | K32 => Nat.div (n * frame_size l K32) 4
  | K64 => Nat.div (n * frame_size l K64) 8
  end%nat.
Definition into_raw {l k} (a : audio l k) : list (chan k) :=
  firstn (raw_capacity l k (length (frames a))) (raw_samples (frames a)).

(** ** Sinks *)

(** The range forms accepted by [Audio::sink] ([RangeBounds<usize> +
    SliceIndex]). *)
Inductive range : Type :=
| RFull                       (* ..     *)
| RFrom (a : N)               (* a..    *)
| RTo (b : N)                 (* ..b    *)
| RRange (a b : N)            (* a..b   *)
| RToIncl (b : N)             (* ..=b   *)
| RIncl (a b : N).            (* a..=b  *)

(** Slice indexing: the bounds, or a panic.  [core::slice::index]: panics when
    start > end or end > len; inclusive ranges with end = usize::MAX panic. *)
Definition range_bounds (r : range) (len : N) : res (N * N) :=
  let check (a b : N) : res (N * N) :=
    if (N.leb a b && N.leb b len)%bool then Ok (a, b) else Panic IndexOutOfBounds in
  let incl (a b : N) : res (N * N) :=
    if N.eqb b (Z.to_N usize_max) then Panic IndexOutOfBounds else check a (N.succ b) in
  match r with
  | RFull => check 0%N len
  | RFrom a => check a len
  | RTo b => check 0%N b
  | RRange a b => check a b
  | RToIncl b => incl 0%N b
  | RIncl a b => incl a b
  end.

(** src/audio.rs:245-257 [Audio::sink]: the frames before the region, the
    [AudioSink] (fresh resampler) over the region, the frames after it. *)
Definition audio_sink {l k} (a : audio l k) (r : range)
  : res (list (frame l k) * sink l k * list (frame l k)) :=
  '(s, e) <- range_bounds r (N.of_nat (length (frames a))) ;;
  let s := N.to_nat s in
  let e := N.to_nat e in
  Ok (firstn s (frames a),
      mkSink (s_rate a) (firstn (e - s) (skipn s (frames a))) (resampler_default l k),
      skipn e (frames a)).

(** The audio buffer once the sink's borrow ends. *)
Definition audio_unsink {l k} (a : audio l k) (pre : list (frame l k)) (sk : sink l k)
  (post : list (frame l k)) : audio l k :=
  mkAudio (s_rate a) (pre ++ sk_buf sk ++ post).

(** ** Draining *)

(** src/audio.rs:261-266 [drain]. *)
Definition audio_drain {l k} (a : audio l k) : stream l k := SDrain (s_rate a) (frames a) 0.

(** An audio buffer of any format. *)
Definition any_audio : Type := { lk : layout * ck & audio (fst lk) (snd lk) }.
Definition pack {l k} (a : audio l k) : any_audio := existT _ (l, k) a.

(** Dropping a stream (or its iterator): the audio buffers behind the drains
    it contains, left to right, after [Drop for AudioDrain]
    (src/audio.rs:478-482: [frames.drain(..cursor)]). *)
Fixpoint drop_stream {l k} (s : stream l k) : list any_audio :=
  match s with
  | SDrain r fs c => [pack (mkAudio r (skipn c fs))]
  | STake s _ => drop_stream s
  | SBlend a b _ => drop_stream a ++ drop_stream b
  | SFrame _ | SAudio _ _ | SUser _ => []
  end.

(** ** Extending *)

(** src/audio.rs:381-389: [&audio] as a stream. *)
Definition audio_stream {l k} (a : audio l k) : stream l k := SAudio (s_rate a) (frames a).

(** src/audio.rs:297-301: number of frames to add. *)
Definition extend_dstlen {ls ks} (rate : f64) (s : stream ls ks) (srclen : N) : Z :=
  match sample_rate s with
  | Some src_sr => f64_as_usize (ceil (fdiv (fmul rate (usize_as_f64 (Z.of_N srclen))) src_sr))
  | None => Z.of_N srclen
  end.

(** src/audio.rs:285-317 [extend_internal].  Growing a [Vec] beyond isize::MAX
    bytes panics; smaller allocations are assumed to succeed. *)
Definition extend_internal {l k ls ks} (fuel : nat) (self : audio l k) (s : stream ls ks)
  : res (audio l k * stream ls ks) :=
  let rate := s_rate self in
  srclen <- of_opt UnwrapNone (slen s) ;;
  let dstlen := extend_dstlen rate s srclen in
  let orig_len := length (frames self) in
  new_len <- checked 0 usize_max (Z.of_nat orig_len + dstlen) ;;
  if isize_max <? new_len * Z.of_nat (frame_size l k) then Panic CapacityOverflow
  else
    let aud := with_frames rate (frames self ++ repeat (frame_default l k) (Z.to_nat dstlen)) in
    '(pre, sk, post) <- audio_sink aud (RFrom (N.of_nat orig_len)) ;;
    '(sk, it) <- sink_stream fuel sk s ;;
    sk <- flush sk ;;
    Ok (audio_unsink aud pre sk post, it).

(** src/audio.rs:276-283 [extend]: the caller's buffer is swapped with an empty
    one at 0 Hz while [extend_internal] runs, so that is what remains when it
    panics (or never returns).  Returns the buffer afterwards and the outcome. *)
Definition extend {l k ls ks} (fuel : nat) (self : audio l k) (s : stream ls ks)
  : audio l k * res (stream ls ks) :=
  let temp_move : audio l k := with_frames (flit 0 0) [] in
  match extend_internal fuel self s with
  | Ok (a, it) => (a, Ok it)
  | Panic p => (temp_move, Panic p)
  | OutOfFuel => (temp_move, OutOfFuel)
  end.

(** src/audio.rs:99-110 [with_stream]. *)
Definition with_stream (l : layout) (k : ck) {ls ks} (fuel : nat) (rate : f64) (s : stream ls ks)
  : res (audio l k * stream ls ks) :=
  let '(a, r) := extend fuel (with_frames rate []) s in
  it <- r ;; Ok (a, it).
