(** * SpecSum.v -- the sum of the samples when the sample rate is lowered (C96) *)
From Coq Require Import Reals.
Open Scope R_scope.

(** Source frame [i] sounds from [(R (i - 1) + S) / S] to [(R i + S) / S], in destination
    frames (SpecLower.v); [counted R S d i] is how much of that time falls before the end of
    [d] destination frames. *)
Definition counted (R S : Z) (d i : nat) : Rdefinitions.R :=
  Rmin (INR d) ((IZR R * INR i + IZR S) / IZR S) - Rmin (INR d) ((IZR R * INR i - IZR R + IZR S) / IZR S).
