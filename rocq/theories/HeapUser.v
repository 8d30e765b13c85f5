(** * HeapUser.v -- the raw buffer functions of src/audio.rs for any type that implements [Frame]

    [Frame] is a public trait without unsafe obligations (src/frame.rs:26-197), and
    [with_*_buffer], [as_*_slice] and [get] are safe functions for every
    [F: Frame<Chan = ..>].  Nothing ties the memory layout of [F] to its channels. *)
From Coq Require Import ZArith List Bool Arith.
From Verif Require Import Rust Float Chan Frame Audio Heap.
Import ListNotations.

(** A frame type with channel type [k]: [size_of::<F>()], [align_of::<F>()], and
    which samples, taken as the memory of an [F], are a value of the type.  (A type
    with a reference or a [bool] in it has memory that is not a value.) *)
Record user_frame (k : ck) : Type := mkUserFrame {
  uf_bytes : nat; uf_align : nat; uf_value : list (chan k) -> bool
}.
Arguments mkUserFrame {k}. Arguments uf_bytes {k}. Arguments uf_align {k}. Arguments uf_value {k}.

(** Dropping the [VecDeque<F>] inside an [Audio<F>]. *)
Definition u_drop {k} (uf : user_frame k) (h : heap k) (v : frame_vec) : hres k unit :=
  dealloc h (fv_ptr v) (fv_len v * uf_bytes uf) (uf_align uf).

(** src/audio.rs:129-149 [with_i8_buffer] (and 153-174, 178-199, 203-224): the
    length is divided by [size_of::<F>()] before the assertion; on a panic [buffer]
    is dropped by unwinding. *)
Definition u_with_buffer {k} (uf : user_frame k) (h : heap k) (buffer : raw_box) : hres k frame_vec :=
  let bytes := (rb_len buffer * chan_size k)%nat in
  let fail p := match drop_raw_box k h buffer with HOk _ h => HPanic p h | HPanic p h => HPanic p h | HUb u => HUb u end in
  if Nat.eqb (uf_bytes uf) 0 then fail DivOverflow
  else let len := Nat.div bytes (uf_bytes uf) in
       if Nat.eqb 0 (Nat.modulo bytes (uf_bytes uf)) then HOk (mkFrameVec (rb_ptr buffer) len) h else fail AssertFailed.

(** src/audio.rs:54-56 [get] (and every other use of frame [i < len]): copying it out.
    A frame is taken to be a whole number of samples. *)
Definition u_get {k} (uf : user_frame k) (h : heap k) (v : frame_vec) (i : nat) : hres k (list (chan k)) :=
  let n := Nat.div (uf_bytes uf) (chan_size k) in
  match hread h (fv_ptr v) (fv_len v * n) with
  | HOk data h => let f := firstn n (skipn (i * n) data) in if uf_value uf f then HOk f h else HUb InvalidValue
  | HPanic p h => HPanic p h
  | HUb u => HUb u
  end.

(** src/audio.rs:321-368 [as_*_slice]: [as_i8_slice()[j] = c]. *)
Definition u_set {k} (h : heap k) (v : frame_vec) (j : nat) (c : chan k) : heap k :=
  match fv_ptr v with
  | None => h
  | Some i =>
      match nth_error h i with
      | None => h
      | Some b => set_block h i (mkBlock (b_bytes b) (b_align b) (b_live b) (firstn j (b_data b) ++ c :: skipn (S j) (b_data b)))
      end
  end.
