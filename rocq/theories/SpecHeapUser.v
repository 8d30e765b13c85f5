(** * SpecHeapUser.v -- what "memory safe" means for a frame type used with raw buffers (C84) *)
From Coq Require Import ZArith List Bool Arith.
From Verif Require Import Rust Float Chan Frame Audio Heap HeapUser SpecAudio.
Import ListNotations.

(** No undefined behaviour. *)
Definition defined {k A} (r : hres k A) : Prop := match r with HUb _ => False | _ => True end.

(** Frames are [n] samples. *)
Definition samples_per_frame {k} (uf : user_frame k) (n : nat) : Prop := uf_bytes uf = (n * chan_size k)%nat.

(** Laid out as an array of channels: the alignment of a channel, and any samples are a frame. *)
Definition array_like {k} (uf : user_frame k) (n : nat) : Prop :=
  samples_per_frame uf n /\ uf_align uf = chan_size k /\ forall xs, length xs = n -> uf_value uf xs = true.

(** A program may hand over any buffer it owns, write any samples through the
    slice, look at any frame and drop the audio, without undefined behaviour. *)
Definition memory_safe {k} (uf : user_frame k) : Prop :=
  forall (h : heap k) b data, owns_raw h b data ->
    defined (u_with_buffer uf h b) /\
    forall v h1, u_with_buffer uf h b = HOk v h1 ->
      (forall i, (i < fv_len v)%nat -> defined (u_get uf h1 v i)) /\
      defined (u_drop uf h1 v).
