(** * SpecLerp.v -- interpolating between two samples (C101) *)
From Coq Require Import ZArith Reals.
From Verif Require Import Rust Chan SpecChan SpecArith.
Open Scope R_scope.

(** The point a share [t] of the way from [a] to [b]. *)
Definition on_the_way (a b t : R) : R := a + t * (b - a).
(** A difference, a product, a sum. *)
Definition way_error (k : ck) : R := 2 * sum_error k + product_error k.
