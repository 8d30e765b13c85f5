(** * SpecAudio.v -- vocabulary for the audio buffer properties *)
From Coq Require Import ZArith NArith Reals List.
From Flocq Require Import Core.Core IEEE754.BinarySingleNaN.
From Verif Require Import Rust Float Chan Frame Ops Stream Audio Heap SpecChan SpecFrame SpecStream SpecSink.
Import ListNotations.
Open Scope Z_scope.

(** ** Extending *)

(** The number of frames [n] source frames become: rate * n / source rate in f64
    arithmetic, rounded up to a whole number (a fractional part of at most
    epsilon does not count); [n] for a source without rate.  An infinite or NaN
    quotient gives 0. *)
Definition frames_for (rate : f64) (src : option f64) (n : N) : Z :=
  match src with
  | None => Z.of_N n
  | Some r =>
      let q := fdiv (fmul rate (fofZ (Z.of_N n))) r in
      if is_finite q then ceil_index q else 0
  end.

(** [m]: the number of source frames after which position [place ratio 0 m]
    leaves the first [e] frames. *)
Definition leaves (ratio : f64) (e : Z) (m : nat) : Prop :=
  (forall i, (i < m)%nat -> floor_index (place ratio (flit 0 0) i) < e) /\
  e <= floor_index (place ratio (flit 0 0) m).

(** Bytes a frame occupies. *)
Definition bytes_per_frame (l : layout) (k : ck) : Z :=
  (match l with Mono => 1 | Stereo => 2 | Surround => 6 end) *
  (match k with K8 => 1 | K16 => 2 | K32 => 4 | K64 => 8 end).
(** A buffer of [n] frames can be allocated. *)
Definition allocatable (l : layout) (k : ck) (n : Z) : Prop := n * bytes_per_frame l k <= 2 ^ 63 - 1.

(** ** Sinks over a region *)

(** The region a range stands for in a buffer of [len] frames, when it is a
    range within the buffer. *)
Definition region (r : range) (len : N) (a b : N) : Prop :=
  match r with
  | RFull => (a = 0 /\ b = len)%N
  | RFrom x => (a = x /\ b = len)%N
  | RTo y => (a = 0 /\ b = y)%N
  | RRange x y => (a = x /\ b = y)%N
  | RToIncl y => (a = 0 /\ b = y + 1)%N
  | RIncl x y => (a = x /\ b = y + 1)%N
  end /\ (a <= b <= len)%N.

(** Any number of [stream] calls (of streams of any format) and [flush] calls
    on a sink. *)
Inductive used {l k} : sink l k -> sink l k -> Prop :=
| used_not sk : used sk sk
| used_stream ls ks fuel (s it : stream ls ks) sk sk' sk'' :
    sink_stream fuel sk s = Ok (sk', it) -> used sk' sk'' -> used sk sk''
| used_flush sk sk' sk'' : flush sk = Ok sk' -> used sk' sk'' -> used sk sk''.

(** ** Draining *)

(** [s'] is [s] after some calls of [next]. *)
Inductive advanced {l k} : stream l k -> stream l k -> Prop :=
| adv_not s : advanced s s
| adv_next s o s' s'' : next s = Ok (o, s') -> advanced s' s'' -> advanced s s''.

(** [b] is [a] without its first frames (how many does not matter). *)
Definition front_removed (a b : any_audio) : Prop :=
  exists l k r (fs : list (frame l k)) n, a = pack (mkAudio r fs) /\ b = pack (mkAudio r (skipn n fs)).

(** ** Raw samples *)

(** Number of channels of a frame. *)
Definition channel_count (l : layout) : nat := match l with Mono => 1 | Stereo => 2 | Surround => 6 end.

(** ** Heap *)

(** [b] is a live box over exactly the samples [data]. *)
Definition owns_raw {k} (h : heap k) (b : raw_box) (data : list (chan k)) : Prop :=
  rb_len b = length data /\
  match data, rb_ptr b with
  | [], None => True
  | _ :: _, Some i => nth_error h i = Some (mkBlock (length data * chan_size k) (chan_size k) true data)
  | _, _ => False
  end.
(** [v] is a live vector of frames over exactly the samples [data]. *)
Definition owns_frames {k} (l : layout) (h : heap k) (v : frame_vec) (data : list (chan k)) : Prop :=
  (fv_len v * channel_count l)%nat = length data /\
  match data, fv_ptr v with
  | [], None => True
  | _ :: _, Some i => nth_error h i = Some (mkBlock (length data * chan_size k) (chan_size k) true data)
  | _, _ => False
  end.
(** [h'] is [h] with the memory behind [p] freed, and nothing else changed. *)
Definition freed {k} (h : heap k) (p : ptr) (h' : heap k) : Prop :=
  length h' = length h /\
  (forall i b, p = Some i -> nth_error h i = Some b ->
     nth_error h' i = Some (mkBlock (b_bytes b) (b_align b) false (b_data b))) /\
  (forall i, p <> Some i -> nth_error h' i = nth_error h i).

(** ** Resampling by simple ratios *)

(** [b] is [f] weighted by [m] >= 1: integer formats saturate the weight to 1,
    so [b] is [f]; float formats multiply every channel by [m], round, and
    clamp. *)
Definition scaled {l k} (m : Z) (f b : frame l k) : Prop :=
  (is_int k -> b = f) /\
  (is_float k -> frame_valid f -> forall c x y, nth_error (channels f) c = Some x -> nth_error (channels b) c = Some y ->
     rval y = clampR (round_k k (IZR m * rval x))).
(** The rate is the positive whole number [z], exactly. *)
Definition whole_rate (r : f64) (z : Z) : Prop := is_finite r = true /\ B2R r = IZR z /\ 0 < z <= 2 ^ 53.

(** The half of source frame 2p-1 that destination frame [p] receives, if there
    is such a source frame. *)
Definition before {l k} (fs : list (frame l k)) (p : nat) : list (frame l k * f64) :=
  match p with
  | O => []
  | S q => match nth_error fs (2 * q + 1) with Some g => [(g, flit 1 (-1))] | None => [] end
  end.
