(** * Heap.v -- ownership model of the [unsafe] conversions of src/audio.rs

    A heap of allocations with sizes, alignments and a live flag.  Only the
    allocator-relevant steps of each function are modelled: which owning value
    ([Box], [Vec], [VecDeque]) exists when, and what its destructor does.
    [Box<[T]> -> Vec<T> -> VecDeque<T>] and back are taken to keep the
    allocation (current std; they never free the memory of the value they
    return, whatever the version).  Contents are the samples of one channel
    type [k]. *)
From Coq Require Import ZArith List Bool Arith.
From Verif Require Import Rust Float Chan Frame Audio.
Import ListNotations.

Record block (k : ck) : Type := mkBlock {
  b_bytes : nat; b_align : nat; b_live : bool; b_data : list (chan k)
}.
Arguments mkBlock {k}. Arguments b_bytes {k}. Arguments b_align {k}.
Arguments b_live {k}. Arguments b_data {k}.
Definition heap (k : ck) : Type := list (block k).

(** Undefined behaviour of the allocator interface. *)
Inductive ub : Set := UseAfterFree | DoubleFree | LayoutMismatch | WildPointer | InvalidValue.

(** Outcome of a heap computation: undefined behaviour, a panic (after
    unwinding, with the heap as it is then), or a value. *)
Inductive hres (k : ck) (A : Type) : Type :=
| HOk (a : A) (h : heap k)
| HPanic (p : panic) (h : heap k)
| HUb (u : ub).
Arguments HOk {k A}. Arguments HPanic {k A}. Arguments HUb {k A}.

(** [None] is the dangling pointer used for zero-sized allocations. *)
Definition ptr : Set := option nat.

Fixpoint set_block {k} (h : heap k) (i : nat) (b : block k) : heap k :=
  match h, i with
  | [], _ => []
  | _ :: h, O => b :: h
  | x :: h, S i => x :: set_block h i b
  end.

(** Allocating memory for [data] with the given alignment. *)
Definition alloc {k} (h : heap k) (align : nat) (data : list (chan k)) : ptr * heap k :=
  match data with
  | [] => (None, h)
  | _ => (Some (length h), h ++ [mkBlock (length data * chan_size k) align true data])
  end.

(** Deallocation with a layout: only of a live block, with the layout it was
    allocated with; zero-sized layouts are not deallocated. *)
Definition dealloc {k} (h : heap k) (p : ptr) (bytes align : nat) : hres k unit :=
  if Nat.eqb bytes 0 then HOk tt h
  else match p with
       | None => HUb WildPointer
       | Some i =>
           match nth_error h i with
           | None => HUb WildPointer
           | Some b =>
               if negb (b_live b) then HUb DoubleFree
               else if Nat.eqb (b_bytes b) bytes && Nat.eqb (b_align b) align
               then HOk tt (set_block h i (mkBlock (b_bytes b) (b_align b) false (b_data b)))
               else HUb LayoutMismatch
           end
       end.

(** Reading the first [n] samples behind a pointer. *)
Definition hread {k} (h : heap k) (p : ptr) (n : nat) : hres k (list (chan k)) :=
  if Nat.eqb n 0 then HOk [] h
  else match p with
       | None => HUb WildPointer
       | Some i =>
           match nth_error h i with
           | None => HUb WildPointer
           | Some b => if b_live b then HOk (firstn n (b_data b)) h else HUb UseAfterFree
           end
       end.

(** [Box<[i8]>], [Box<[i16]>], [Box<[f32]>], [Box<[f64]>]: pointer and length in
    samples. *)
Record raw_box : Set := mkRawBox { rb_ptr : ptr; rb_len : nat }.
Definition drop_raw_box (k : ck) (h : heap k) (b : raw_box) : hres k unit :=
  dealloc h (rb_ptr b) (rb_len b * chan_size k) (chan_size k).
Definition read_raw_box {k} (h : heap k) (b : raw_box) : hres k (list (chan k)) :=
  hread h (rb_ptr b) (rb_len b).

(** [Box<[F]>] / [Vec<F>] / the [VecDeque<F>] inside an [Audio]: pointer and
    length in frames (alignment of [F] = alignment of its channel type). *)
Record frame_vec : Set := mkFrameVec { fv_ptr : ptr; fv_len : nat }.
Definition drop_frame_vec (l : layout) (k : ck) (h : heap k) (v : frame_vec) : hres k unit :=
  dealloc h (fv_ptr v) (fv_len v * frame_size l k) (chan_size k).
Definition read_frame_vec {k} (l : layout) (h : heap k) (v : frame_vec) : hres k (list (chan k)) :=
  hread h (fv_ptr v) (fv_len v * nchan l).

(** src/audio.rs:129-149 [with_i8_buffer] (and 153-174, 178-199, 203-224 with
    another channel type): [Box::into_raw] gives up ownership of [buffer],
    [Box::from_raw] takes it up again as frames.  When the assertion fails
    [buffer] is dropped by unwinding. *)
Definition heap_with_buffer (l : layout) (k : ck) (h : heap k) (buffer : raw_box) : hres k frame_vec :=
  let bytes := (rb_len buffer * chan_size k)%nat in
  let len := Nat.div bytes (frame_size l k) in
  if Nat.eqb 0 (Nat.modulo bytes (frame_size l k))
  then HOk (mkFrameVec (rb_ptr buffer) len) h
  else match drop_raw_box k h buffer with
       | HOk _ h => HPanic AssertFailed h
       | HPanic p h => HPanic p h
       | HUb u => HUb u
       end.

(** src/audio.rs:484-497: [Vec<F>] and [Box<[F]>] from [Audio<F>]: the value is
    moved out. *)
Definition heap_into_frames (k : ck) (h : heap k) (audio : frame_vec) : hres k frame_vec :=
  HOk audio h.

(** src/audio.rs:499-511 [Box<[i8]>] from [Audio<F>] (and 513-525, 527-539,
    541-553): [Box::from_raw] on the pointer of the local [frames: Vec<F>],
    which is still owned by [frames] and dropped at the end of the function. *)
Definition heap_into_raw (l : layout) (k : ck) (h : heap k) (audio : frame_vec) : hres k raw_box :=
  let frames := audio in
  let capacity := raw_capacity l k (fv_len frames) in
  let buffer := mkRawBox (fv_ptr frames) capacity in
  match drop_frame_vec l k h frames with
  | HOk _ h => HOk buffer h
  | HPanic p h => HPanic p h
  | HUb u => HUb u
  end.
