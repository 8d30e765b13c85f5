(** * SpecSpread.v -- the sum of the samples when the sample rate is raised (C98) *)
From Coq Require Import ZArith Reals.
From Verif Require Import Chan SpecRaise.
Open Scope R_scope.

(** Source frame [i] is placed at [R i / S]: the fraction goes to the destination frame after
    that position, the rest of [R / S], as the format applies it, to the one at or before it. *)
Definition spread (k : ck) (R S : Z) (i : nat) : Rdefinitions.R :=
  let t := IZR ((R * Z.of_nat i) mod S) / IZR S in t + applied k (IZR R / IZR S - t).
