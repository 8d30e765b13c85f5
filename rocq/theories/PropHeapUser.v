(** * PropHeapUser.v -- C84 *)
From Coq Require Import ZArith NArith List Lia Bool Arith.
From Verif Require Import Rust Float Chan Frame Audio Heap HeapUser SpecAudio SpecHeapUser RawProofs HeapUserProofs.
Import ListNotations.
Open Scope nat_scope.

(** A frame type laid out as an array of [n] channels works for every [n]: the
    buffer is rejected and freed when it is not whole frames; otherwise frame
    [i] is its samples [i*n ..], and dropping the audio frees the buffer. *)
Theorem C84_arrays k (uf : user_frame k) n h b data : array_like uf n -> n <> 0 -> owns_raw h b data ->
  (length data mod n <> 0 -> exists h', u_with_buffer uf h b = HPanic AssertFailed h' /\ freed h (rb_ptr b) h') /\
  (length data mod n = 0 -> exists v, u_with_buffer uf h b = HOk v h /\ fv_len v * n = length data /\
     (forall i, i < fv_len v -> u_get uf h v i = HOk (firstn n (skipn (i * n) data)) h) /\
     exists h', u_drop uf h v = HOk tt h' /\ freed h (rb_ptr b) h').
Proof. exact (array_like_ok k uf n h b data). Qed.
Print Assumptions C84_arrays.

(** The crate's own frame types are such types. *)
Theorem C84_own l k (h : heap k) b v :
  array_like (own_frame l k) (channel_count l) /\
  u_with_buffer (own_frame l k) h b = heap_with_buffer l k h b /\ u_drop (own_frame l k) h v = drop_frame_vec l k h v.
Proof. exact (own_frame_same l k h b v). Qed.
Print Assumptions C84_own.

(** A frame type without memory: every buffer is refused, and freed. *)
Theorem C84_zero_size k (uf : user_frame k) h b data : owns_raw h b data -> samples_per_frame uf 0 ->
  exists h', u_with_buffer uf h b = HPanic DivOverflow h' /\ freed h (rb_ptr b) h'.
Proof. exact (u_with_zero k uf h b data). Qed.
Print Assumptions C84_zero_size.

(** Another alignment than the channel's: every non-empty buffer is freed with
    the wrong layout when the audio is dropped. *)
Theorem C84_alignment k (uf : user_frame k) n h b data : samples_per_frame uf n -> n <> 0 -> owns_raw h b data ->
  data <> [] -> length data mod n = 0 -> uf_align uf <> chan_size k ->
  exists v, u_with_buffer uf h b = HOk v h /\ u_drop uf h v = HUb LayoutMismatch.
Proof. exact (bad_align k uf n h b data). Qed.
Print Assumptions C84_alignment.

(** Samples that are no value of the type: looking at the frame is undefined. *)
Theorem C84_values k (uf : user_frame k) n xs (h : heap k) : samples_per_frame uf n -> n <> 0 -> length xs = n -> uf_value uf xs = false ->
  exists h1 b v, owns_raw h1 b xs /\ u_with_buffer uf h1 b = HOk v h1 /\ fv_len v = 1 /\ u_get uf h1 v 0 = HUb InvalidValue.
Proof. exact (bad_value k uf n xs h). Qed.
Print Assumptions C84_values.

(** Exactly the types without memory and the array-like ones are safe. *)
Theorem C84_safe_iff k (uf : user_frame k) n : samples_per_frame uf n -> (memory_safe uf <-> n = 0 \/ array_like uf n).
Proof. exact (memory_safe_iff k uf n). Qed.
Print Assumptions C84_safe_iff.

(** The same memory after a write through the slice. *)
Theorem C84_write k (uf : user_frame k) (h : heap k) b (data : list (chan k)) n j (c : chan k) : samples_per_frame uf n -> n <> 0 -> owns_raw h b data -> length data mod n = 0 ->
  j < length data ->
  owns_raw (u_set h (mkFrameVec (rb_ptr b) (length data / n)) j c) b (firstn j data ++ c :: skipn (S j) data).
Proof. exact (u_set_owned k uf h b data n j c). Qed.
Print Assumptions C84_write.

(** [#[repr(align(2))] struct F([Ch8; 2])]. *)
Definition wide_pair : user_frame K8 := mkUserFrame 2 2 (fun _ => true).
(** [struct F(Ch8, bool)]: the second byte is 0 or 1. *)
Definition flagged : user_frame K8 :=
  mkUserFrame (k := K8) 2 1 (fun xs : list i8 => match xs with [_; c] => Z.eqb (sv c) 0 || Z.eqb (sv c) 1 | _ => false end).

(** Not every frame type that safe code can define is safe to use. *)
Theorem C84_every_frame_safe_refuted : ~ memory_safe wide_pair /\ ~ memory_safe flagged.
Proof. exact (conj (wide_pair_bad wide_pair eq_refl eq_refl) (flagged_bad flagged eq_refl (as_sint W8 0) (as_sint W8 2) eq_refl)). Qed.
Print Assumptions C84_every_frame_safe_refuted.

(** A frame of three 16-bit channels, a buffer of two frames and a sample too many. *)
Example C84_case : let uf : user_frame K16 := mkUserFrame 6 2 (fun _ => true) in
  let data := map (as_sint W16) [1; 2; 3; 4; 5; 6]%Z in
  let '(p, h) := alloc (k := K16) [] 2 data in
  array_like uf 3 /\ owns_raw h (mkRawBox p 6) data /\
  match u_with_buffer uf h (mkRawBox p 6) with
  | HOk v h => fv_len v = 2 /\
      match u_get uf h v 1 with HOk f _ => map sv f = [4; 5; 6]%Z | _ => False end /\
      match u_drop uf h v with HOk _ h => map b_live h = [false] | _ => False end
  | _ => False
  end.
Proof. cbn. repeat split. Qed.
Example C84_case_alignment : let data := map (as_sint W8) [1; 2; 3; 4]%Z in
  let '(p, h) := alloc (k := K8) [] 1 data in
  owns_raw h (mkRawBox p 4) data /\ samples_per_frame wide_pair 2 /\ uf_align wide_pair <> chan_size K8 /\
  match u_with_buffer wide_pair h (mkRawBox p 4) with
  | HOk v h => match u_drop wide_pair h v with HUb LayoutMismatch => True | _ => False end
  | _ => False
  end.
Proof. cbn. repeat split. discriminate. Qed.
Example C84_case_values : samples_per_frame flagged 2 /\
  uf_value flagged (map (as_sint W8) [7; 1]%Z) = true /\ uf_value flagged (map (as_sint W8) [7; 2]%Z) = false.
Proof. repeat split. Qed.
