(** * Float.v -- the IEEE-754 arithmetic the Rust code uses.

    Rust's [f32]/[f64] are modelled by Flocq's [binary_float] with a single
    NaN (NaN sign and payload are not observable in this crate's API, apart
    from raw bits of a NaN handed back to the caller, which we do not model).
    All arithmetic is round-to-nearest-even, as Rust guarantees. *)
From Coq Require Import ZArith Bool.
From Flocq Require Import Core.Core IEEE754.BinarySingleNaN.

Open Scope Z_scope.

#[global] Instance Hprec32 : FLX.Prec_gt_0 24 := eq_refl Lt.
#[global] Instance Hemax32 : Prec_lt_emax 24 128 := eq_refl Lt.
#[global] Instance Hprec64 : FLX.Prec_gt_0 53 := eq_refl Lt.
#[global] Instance Hemax64 : Prec_lt_emax 53 1024 := eq_refl Lt.

(** Rust [f32] and [f64]. *)
Definition f32 : Set := binary_float 24 128.
Definition f64 : Set := binary_float 53 1024.

Section Generic.
Context (prec emax : Z).
Context {Hp : FLX.Prec_gt_0 prec} {He : Prec_lt_emax prec emax}.
Notation fl := (binary_float prec emax).

(** Rust operators [+], [-], [*], [/] and unary [-] on floats. *)
Definition fadd (x y : fl) : fl := Bplus mode_NE x y.
Definition fsub (x y : fl) : fl := Bminus mode_NE x y.
Definition fmul (x y : fl) : fl := Bmult mode_NE x y.
Definition fdiv (x y : fl) : fl := Bdiv mode_NE x y.
Definition fneg (x : fl) : fl := Bopp x.

(** Rust [<], [<=], [>=], [>], [==] on floats (false when a NaN is involved). *)
Definition flt (x y : fl) : bool := Bltb x y.
Definition fle (x y : fl) : bool := Bleb x y.
Definition feq (x y : fl) : bool := Beqb x y.

(** [f32::min]/[f64::min]: if one argument is NaN the other is returned.
    (For two zeros of opposite sign Rust leaves the choice open; we return the
    receiver.) *)
Definition fmin (x y : fl) : fl :=
  if is_nan x then y else if is_nan y then x else if flt y x then y else x.
Definition fmax (x y : fl) : fl :=
  if is_nan x then y else if is_nan y then x else if flt x y then y else x.

(** [x % 1.0]: C [fmod(x, 1.0)], exact, with the sign of [x]. *)
Definition frem1 (x : fl) : fl :=
  match x with
  | B754_nan => B754_nan
  | B754_infinity _ => B754_nan
  | B754_zero s => B754_zero s
  | B754_finite s m e _ =>
      if 0 <=? e then B754_zero s
      else binary_normalize prec emax _ _ mode_NE
             (SpecFloat.cond_Zopp s (Zpos m mod 2 ^ (- e))) e s
  end.

(** Value truncated toward zero (only used on finite values). *)
Definition ftrunc (x : fl) : Z :=
  match x with
  | B754_finite s m e _ =>
      SpecFloat.cond_Zopp s
        (if 0 <=? e then Zpos m * 2 ^ e else Zpos m / 2 ^ (- e))
  | _ => 0
  end.

(** [x as iN] / [x as usize]: saturating cast to the integer range [lo, hi];
    NaN becomes 0. *)
Definition fcast (lo hi : Z) (x : fl) : Z :=
  match x with
  | B754_nan => 0
  | B754_zero _ => 0
  | B754_infinity s => if s then lo else hi
  | B754_finite _ _ _ _ => Z.max lo (Z.min hi (ftrunc x))
  end.

(** [n as f64] / [f32::from(n)]: integer to float, rounded to nearest even. *)
Definition fofZ (z : Z) : fl := binary_normalize prec emax _ _ mode_NE z 0 false.

(** The float literal m * 2^e. *)
Definition flit (m e : Z) : fl := binary_normalize prec emax _ _ mode_NE m e false.

End Generic.

Arguments fadd {prec emax Hp He}. Arguments fsub {prec emax Hp He}.
Arguments fmul {prec emax Hp He}. Arguments fdiv {prec emax Hp He}.
Arguments fneg {prec emax}. Arguments flt {prec emax}. Arguments fle {prec emax}.
Arguments feq {prec emax}. Arguments fmin {prec emax}. Arguments fmax {prec emax}.
Arguments frem1 {prec emax Hp He}. Arguments ftrunc {prec emax}.
Arguments fcast {prec emax}. Arguments fofZ {prec emax Hp He}.
Arguments flit {prec emax Hp He}.

(** [x as f32] for an [f64] (rounds), and [f64::from(x)]/[x as f64] for an
    [f32] (exact). *)
Definition fconv {p1 e1 p2 e2 : Z} {Hp : FLX.Prec_gt_0 p2} {He : Prec_lt_emax p2 e2}
  (x : binary_float p1 e1) : binary_float p2 e2 :=
  match x with
  | B754_nan => B754_nan
  | B754_infinity s => B754_infinity s
  | B754_zero s => B754_zero s
  | B754_finite s m e _ =>
      binary_normalize p2 e2 _ _ mode_NE (SpecFloat.cond_Zopp s (Zpos m)) e s
  end.

Definition f64_as_f32 (x : f64) : f32 := fconv x.
Definition f32_as_f64 (x : f32) : f64 := fconv x.
