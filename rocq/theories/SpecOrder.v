(** * SpecOrder.v -- C95: order of samples.

    No model code here: the vocabulary of property C95. *)
From Coq Require Import ZArith Reals List.
From Flocq Require Import IEEE754.BinarySingleNaN.
From Verif Require Import Rust Float Chan Frame Stream SpecChan SpecFrame SpecSink.
Import ListNotations.

(** Channel by channel [f <= g] (Rust's [<=]), neither infinite nor NaN. *)
Definition under {l k} (f g : frame l k) : Prop :=
  Forall2 (fun c d => fin c = true /\ fin d = true /\ c_leb c d = true) (channels f) (channels g).
(** ... of ordinary amplitudes, from -1 to 1. *)
Definition under_valid {l k} (f g : frame l k) : Prop := under f g /\ frame_valid f /\ frame_valid g.
(** A frame of gains between 0 and 1 that are the same in both runs. *)
Definition same_gain {l k} (f g : frame l k) : Prop := g = f /\ frame_valid f /\ Forall (fun c => c_leb (MID k) c = true) (channels f).
