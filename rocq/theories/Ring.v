(** * Ring.v -- ownership and layout of the memory behind [Audio], over any history of calls

    Heap.v models single conversions of buffers whose capacity is their length.  Here the
    [VecDeque] inside an [Audio] is a ring: an allocation of some capacity, a head and a length.
    A program owns any number of raw buffers, vectors of frames and audios, and calls the
    functions of src/audio.rs in any order.  What the standard library leaves open (where
    [make_contiguous] puts the frames, when a conversion moves to another allocation and how
    big that one is) is an argument of the operation, so a theorem for all operations holds
    for all those choices.  All memory is for samples of one channel type [k]; frames are
    [nchan l] samples with the alignment of a sample (src/frame.rs:199-212). *)
From Coq Require Import ZArith List Bool Arith.
From Verif Require Import Rust Float Chan Frame Audio Heap.
Import ListNotations.
Open Scope nat_scope.

(** An allocation; [None] is memory that was not written yet, or moved out of. *)
Record area (k : ck) : Type := mkArea { a_cells : list (option (chan k)); a_align : nat; a_live : bool }.
Arguments mkArea {k}. Arguments a_cells {k}. Arguments a_align {k}. Arguments a_live {k}.
Definition mem (k : ck) : Type := list (area k).

Inductive mres (A : Type) : Type := MOk (a : A) | MUb (u : ub).
Arguments MOk {A}. Arguments MUb {A}.
Definition mbind {A B} (m : mres A) (f : A -> mres B) : mres B := match m with MOk a => f a | MUb u => MUb u end.

Fixpoint set_nth {A} (xs : list A) (i : nat) (x : A) : list A :=
  match xs, i with [], _ => [] | _ :: xs, O => x :: xs | y :: xs, S i => y :: set_nth xs i x end.

(** The live allocation behind a pointer. *)
Definition area_at {k} (h : mem k) (p : ptr) : mres (nat * area k) :=
  match p with
  | None => MUb WildPointer
  | Some b => match nth_error h b with
              | None => MUb WildPointer
              | Some a => if a_live a then MOk (b, a) else MUb UseAfterFree
              end
  end.
Definition malloc {k} (h : mem k) (align : nat) (cells : list (option (chan k))) : ptr * mem k :=
  match cells with [] => (None, h) | _ => (Some (length h), h ++ [mkArea cells align true]) end.
(** Freeing with a layout of [n] samples: it must be the one allocated with. *)
Definition mfree {k} (h : mem k) (p : ptr) (n align : nat) : mres (mem k) :=
  if Nat.eqb n 0 then MOk h
  else match area_at h p with
       | MUb UseAfterFree => MUb DoubleFree
       | MUb u => MUb u
       | MOk (b, a) =>
           if Nat.eqb (length (a_cells a)) n && Nat.eqb (a_align a) align
           then MOk (set_nth h b (mkArea (a_cells a) align false)) else MUb LayoutMismatch
       end.
Definition mload {k} (h : mem k) (p : ptr) (i : nat) : mres (chan k) :=
  mbind (area_at h p) (fun '(_, a) => match nth_error (a_cells a) i with
    | None => MUb WildPointer | Some None => MUb InvalidValue | Some (Some c) => MOk c end).
Definition mstore {k} (h : mem k) (p : ptr) (i : nat) (c : chan k) : mres (mem k) :=
  mbind (area_at h p) (fun '(b, a) => if Nat.ltb i (length (a_cells a))
    then MOk (set_nth h b (mkArea (set_nth (a_cells a) i (Some c)) (a_align a) true)) else MUb WildPointer).

(** What owns memory: [Box<[i8]>] .. [Box<[f64]>] (width 1), [Vec<F>] and [Box<[F]>] (head 0), and
    the [VecDeque<F>] of an [Audio<F>] (src/audio.rs:46-50).  Capacity, head and length count elements of
    [o_width] samples. *)
Record own : Set := mkOwn { o_ptr : ptr; o_width : nat; o_cap : nat; o_head : nat; o_len : nat }.
Inductive kind : Set := KRaw | KVec (l : layout) | KAudio (l : layout).

(** Where sample [j] of the value lies. *)
Definition spot (o : own) (j : nat) : nat := Nat.modulo (o_head o * o_width o + j) (o_cap o * o_width o).
Definition load {k} (h : mem k) (o : own) (j : nat) : mres (chan k) := mload h (o_ptr o) (spot o j).
Definition store {k} (h : mem k) (o : own) (j : nat) (c : chan k) : mres (mem k) := mstore h (o_ptr o) (spot o j) c.
Fixpoint load_from {k} (h : mem k) (o : own) (j n : nat) : mres (list (chan k)) :=
  match n with
  | O => MOk []
  | S n => mbind (load h o j) (fun c => mbind (load_from h o (S j) n) (fun cs => MOk (c :: cs)))
  end.
Definition load_all {k} (h : mem k) (o : own) : mres (list (chan k)) := load_from h o 0 (o_len o * o_width o).
Fixpoint store_from {k} (h : mem k) (o : own) (j : nat) (cs : list (chan k)) : mres (mem k) :=
  match cs with [] => MOk h | c :: cs => mbind (store h o j c) (fun h => store_from h o (S j) cs) end.

(** Dropping a value (samples need no drop of their own). *)
Definition release (k : ck) (h : mem k) (o : own) : mres (mem k) := mfree h (o_ptr o) (o_cap o * o_width o) (chan_size k).

(** The memory of a ring with the samples [data] from [head] on. *)
Definition laid_out {k} (cap w head : nat) (data : list (chan k)) : list (option (chan k)) :=
  map (fun i => nth_error data (Nat.modulo (i + (cap * w - head * w)) (cap * w))) (seq 0 (cap * w)).

(** Moving the elements within the allocation, or to a new one. *)
Definition rearrange {k} (h : mem k) (o : own) (head : nat) : mres (own * mem k) :=
  if Nat.eqb (o_cap o * o_width o) 0 then MOk (o, h)
  else mbind (load_all h o) (fun data => mbind (area_at h (o_ptr o)) (fun '(b, a) =>
    MOk (mkOwn (o_ptr o) (o_width o) (o_cap o) head (o_len o), set_nth h b (mkArea (laid_out (o_cap o) (o_width o) head data) (a_align a) true)))).
Definition relocate {k} (h : mem k) (o : own) (cap : nat) : mres (own * mem k) :=
  mbind (load_all h o) (fun data =>
    let '(p, h) := malloc h (chan_size k) (laid_out cap (o_width o) 0 data) in
    mbind (release k h o) (fun h => MOk (mkOwn p (o_width o) cap 0 (o_len o), h))).

(** [VecDeque -> Vec]: the elements go to the front; [Some c]: to a new allocation. *)
Definition to_vec {k} (h : mem k) (o : own) (c : option nat) : mres (own * mem k) :=
  match c with None => rearrange h o 0 | Some c => relocate h o (Nat.max c (o_len o)) end.
(** [Vec -> Box<[_]>]: shrinks to the length. *)
Definition to_box {k} (h : mem k) (o : own) : mres (own * mem k) :=
  if Nat.eqb (o_cap o) (o_len o) then MOk (o, h) else relocate h o (o_len o).
(** [Vec -> VecDeque]. *)
Definition to_ring {k} (h : mem k) (o : own) (c : option nat) : mres (own * mem k) :=
  match c with None => MOk (o, h) | Some c => relocate h o (Nat.max c (o_len o)) end.
(** [VecDeque::make_contiguous]. *)
Definition contiguous {k} (h : mem k) (o : own) (head : nat) : mres (own * mem k) := rearrange h o (Nat.min head (o_cap o - o_len o)).
(** [Vec::resize_with]. *)
Definition grow {k} (h : mem k) (o : own) (n : nat) (fill : chan k) (c : nat) : mres (own * mem k) :=
  mbind (if Nat.leb (o_len o + n) (o_cap o) then MOk (o, h) else relocate h o (Nat.max c (o_len o + n))) (fun '(o, h) =>
    let o' := mkOwn (o_ptr o) (o_width o) (o_cap o) (o_head o) (o_len o + n) in
    mbind (store_from h o' (o_len o * o_width o) (repeat fill (n * o_width o))) (fun h => MOk (o', h))).

(** ** src/audio.rs *)
(** 128-149 [with_i8_buffer], 152-174, 177-199, 202-224: [None] is the failed assertion, with the buffer
    dropped by unwinding. *)
Definition m_with_buffer (l : layout) (k : ck) (h : mem k) (b : own) (c : option nat) : mres (option own * mem k) :=
  let bytes := o_len b * chan_size k in
  let len := Nat.div bytes (frame_size l k) in
  if Nat.eqb 0 (Nat.modulo bytes (frame_size l k))
  then mbind (to_ring h (mkOwn (o_ptr b) (nchan l) len 0 len) c) (fun '(o, h) => MOk (Some o, h))
  else mbind (release k h b) (fun h => MOk (None, h)).
(** 115-126 [with_frames] of a [Vec<F>] or [Box<[F]>]. *)
Definition m_with_frames {k} (h : mem k) (v : own) (c : option nat) : mres (own * mem k) :=
  mbind (to_box h v) (fun '(o, h) => to_ring h o c).
(** 478-482 dropping an [AudioDrain] that gave [n] frames: [VecDeque::drain(..n)]. *)
Definition m_drain (o : own) (n : nat) : own :=
  let n := Nat.min n (o_len o) in mkOwn (o_ptr o) (o_width o) (o_cap o) (Nat.modulo (o_head o + n) (o_cap o)) (o_len o - n).
(** 273-316 [extend], [extend_internal]: the memory operations, for [added], the samples the stream
    ends up adding: 299-303 with [resize_with], 304 [with_frames], 307-310 the sink's writes. *)
Definition m_extend {k} (h : mem k) (o : own) (n : nat) (added : list (chan k)) (c1 : option nat) (c2 : nat) (c3 : option nat) (c4 : nat) : mres (own * mem k) :=
  let at_ := o_len o * o_width o in
  mbind (to_vec h o c1) (fun '(o, h) => mbind (to_box h o) (fun '(o, h) => mbind (grow h o n (chan_default k) c2) (fun '(o, h) =>
  mbind (m_with_frames h o c3) (fun '(o, h) => mbind (contiguous h o c4) (fun '(o, h) =>
  mbind (store_from h o at_ added) (fun h => MOk (o, h))))))).
(** 484-497 [Vec<F>] and [Box<[F]>] from [Audio<F>]. *)
Definition m_into_frames {k} (h : mem k) (o : own) (box : bool) (c : option nat) : mres (own * mem k) :=
  mbind (to_vec h o c) (fun '(o, h) => if box then to_box h o else MOk (o, h)).
(** 499-553 [Box<[i8]>] .. [Box<[f64]>] from [Audio<F>]: [Box::from_raw] on the memory of the local [frames],
    which is dropped at the end of the function. *)
Definition m_into_raw (l : layout) (k : ck) (h : mem k) (o : own) (c : option nat) : mres (own * mem k) :=
  mbind (to_vec h o c) (fun '(frames, h) =>
    let n := raw_capacity l k (o_len frames) in
    let buffer := mkOwn (o_ptr frames) 1 n 0 n in
    mbind (release k h frames) (fun h => MOk (buffer, h))).

(** ** Programs *)
Inductive op (k : ck) : Type :=
| ONewRaw (data : list (chan k))                       (* a raw buffer of the caller *)
| ONewFrames (l : layout) (fs : list (frame l k))      (* a boxed slice of frames of the caller *)
| OWithBuffer (i : nat) (l : layout) (c : option nat)
| OWithFrames (i : nat) (c : option nat)
| OLoad (i j : nat)                                    (* get, iter, slices, next: sample [j] *)
| OStore (i j : nat) (x : chan k)                      (* get_mut, iter_mut, slices *)
| OContiguous (i head : nat)                           (* as_slice, as_i8_slice .., sink *)
| ODrain (i n : nat)
| OExtend (i : nat) (l : layout) (fs : list (frame l k)) (c1 : option nat) (c2 : nat) (c3 : option nat) (c4 : nat)
| OExtendPanics (i : nat)
| OIntoFrames (i : nat) (box : bool) (c : option nat)
| OIntoRaw (i : nat) (c : option nat)
| ODrop (i : nat).
Arguments ONewRaw {k}. Arguments ONewFrames {k}. Arguments OWithBuffer {k}. Arguments OWithFrames {k}. Arguments OLoad {k}.
Arguments OStore {k}. Arguments OContiguous {k}. Arguments ODrain {k}. Arguments OExtend {k}. Arguments OExtendPanics {k}.
Arguments OIntoFrames {k}. Arguments OIntoRaw {k}. Arguments ODrop {k}.

(** The values a program owns, by variable; [None] is a variable moved out of. *)
Definition vars : Type := list (option (kind * own)).
Definition layout_eqb (a b : layout) : bool := match a, b with Mono, Mono | Stereo, Stereo | Surround, Surround => true | _, _ => false end.
Definition box_of (k : ck) (w n : nat) (h : mem k) (data : list (chan k)) : own * mem k :=
  let '(p, h) := malloc h (chan_size k) (map Some data) in (mkOwn p w n 0 n, h).

(** A call on a variable.  Calls the compiler would reject (a variable moved out of, a value of
    another type) and indexes out of range ([None] or an index panic) touch no memory. *)
Definition call {k} (h : mem k) (vs : vars) (o : op k) : mres (mem k * vars) :=
  let on i (f : kind -> own -> mres (option (kind * own) * mem k)) :=
    match nth_error vs i with
    | Some (Some (kd, v)) => mbind (f kd v) (fun '(v, h) => MOk (h, set_nth vs i v))
    | _ => MOk (h, vs)
    end in
  let same kd (v : own) (h : mem k) : mres (option (kind * own) * mem k) := MOk (Some (kd, v), h) in
  match o with
  | ONewRaw data => let '(v, h) := box_of k 1 (length data) h data in MOk (h, vs ++ [Some (KRaw, v)])
  | ONewFrames l fs => let '(v, h) := box_of k (nchan l) (length fs) h (raw_samples fs) in MOk (h, vs ++ [Some (KVec l, v)])
  | OWithBuffer i l c => on i (fun kd v => match kd with
      | KRaw => mbind (m_with_buffer l k h v c) (fun '(v, h) => match v with Some v => same (KAudio l) v h | None => MOk (None, h) end)
      | _ => same kd v h end)
  | OWithFrames i c => on i (fun kd v => match kd with
      | KVec l => mbind (m_with_frames h v c) (fun '(v, h) => same (KAudio l) v h)
      | _ => same kd v h end)
  | OLoad i j => on i (fun kd v => if Nat.ltb j (o_len v * o_width v) then mbind (load h v j) (fun _ => same kd v h) else same kd v h)
  | OStore i j x => on i (fun kd v => if Nat.ltb j (o_len v * o_width v) then mbind (store h v j x) (fun h => same kd v h) else same kd v h)
  | OContiguous i head => on i (fun kd v => match kd with
      | KAudio l => mbind (contiguous h v head) (fun '(v, h) => same kd v h)
      | _ => same kd v h end)
  | ODrain i n => on i (fun kd v => match kd with KAudio l => same kd (m_drain v n) h | _ => same kd v h end)
  | OExtend i l fs c1 c2 c3 c4 => on i (fun kd v => match kd with
      | KAudio l' => if layout_eqb l l' then mbind (m_extend h v (length fs) (raw_samples fs) c1 c2 c3 c4) (fun '(v, h) => same kd v h) else same kd v h
      | _ => same kd v h end)
  | OExtendPanics i => on i (fun kd v => match kd with                              (* the buffer was moved out of the audio, and is dropped *)
      | KAudio l => mbind (release k h v) (fun h => same kd (mkOwn None (nchan l) 0 0 0) h)
      | _ => same kd v h end)
  | OIntoFrames i box c => on i (fun kd v => match kd with
      | KAudio l => mbind (m_into_frames h v box c) (fun '(v, h) => same (KVec l) v h)
      | _ => same kd v h end)
  | OIntoRaw i c => on i (fun kd v => match kd with
      | KAudio l => mbind (m_into_raw l k h v c) (fun '(v, h) => same KRaw v h)
      | _ => same kd v h end)
  | ODrop i => on i (fun kd v => mbind (release k h v) (fun h => MOk (None, h)))
  end.
Fixpoint run_ops {k} (h : mem k) (vs : vars) (os : list (op k)) : mres (mem k * vars) :=
  match os with [] => MOk (h, vs) | o :: os => mbind (call h vs o) (fun '(h, vs) => run_ops h vs os) end.
