(** * SpecPitch.v -- sounds that repeat (C100) *)
From Coq Require Import ZArith Reals List.
From Flocq Require Import Core.Core IEEE754.BinarySingleNaN.
From Verif Require Import Rust Float Chan Frame SpecChan SpecFrame SpecSink SpecMore.
Open Scope R_scope.

(** Channel [c] of the first [n] frames: samples within full scale, of levels [v]. *)
Definition waveform {l k} (fs : list (frame l k)) (n c : nat) (v : nat -> R) : Prop :=
  forall i, (i < n)%nat -> exists f x, nth_error fs i = Some f /\ nth_error (channels f) c = Some x /\ valid x /\ level x = v i.

(** [n] levels that repeat every [m], up to [e]. *)
Definition repeats (n m : nat) (e : R) (v : nat -> R) : Prop :=
  forall i, (i + m < n)%nat -> Rabs (v (i + m)%nat - v i) <= e.
