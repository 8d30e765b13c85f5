(** * SpecLower.v -- lowering the sample rate (C89) *)
From Coq Require Import ZArith Reals.
Open Scope R_scope.

(** Source frame [i] sounds from [(R (i - 1) + S) / S] to [(R i + S) / S], in destination
    frames; [share R S p i] is how much of that time falls on destination frame [p]. *)
Definition share (R S : Z) (p i : nat) : Rdefinitions.R :=
  Rmax 0 (Rmin (INR p + 1) ((IZR R * INR i + IZR S) / IZR S) - Rmax (INR p) ((IZR R * INR i - IZR R + IZR S) / IZR S)).

Fixpoint total (n : nat) (f : nat -> Rdefinitions.R) : Rdefinitions.R :=
  match n with O => 0 | Datatypes.S n => total n f + f n end.
