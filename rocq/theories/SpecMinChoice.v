(** * SpecMinChoice.v -- what Rust's documentation says about [min] and [max] of floats *)
From Coq Require Import ZArith Reals.
From Flocq Require Import Core.Core IEEE754.BinarySingleNaN.
From Verif Require Import Float.
Open Scope R_scope.

Section M.
Context (prec emax : Z) (Hp : FLX.Prec_gt_0 prec) (He : Prec_lt_emax prec emax).
Notation fl := (binary_float prec emax).
(** "If one of the arguments is NaN, then the other argument is returned"; of two that compare equal (+0.0 and
    -0.0 do) "either input" may be returned. *)
Definition is_min (x y r : fl) : Prop :=
  match Bcompare x y with
  | None => (x = B754_nan /\ r = y) \/ (x <> B754_nan /\ y = B754_nan /\ r = x)
  | Some Lt => r = x
  | Some Gt => r = y
  | Some Eq => r = x \/ r = y
  end.
Definition is_max (x y r : fl) : Prop :=
  match Bcompare x y with
  | None => (x = B754_nan /\ r = y) \/ (x <> B754_nan /\ y = B754_nan /\ r = x)
  | Some Lt => r = y
  | Some Gt => r = x
  | Some Eq => r = x \/ r = y
  end.
End M.
Arguments is_min {prec emax}. Arguments is_max {prec emax}.
