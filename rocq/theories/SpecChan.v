(** * SpecChan.v -- vocabulary for the channel properties.

    Nothing here refers to the model's functions: integers, real numbers, and
    the correctly rounded value of a real number (from Chan.v only the names of
    the four channel types are used). *)
From Coq Require Import ZArith Reals.
From Flocq Require Import Core.Core IEEE754.BinarySingleNaN.
From Verif Require Import Chan.
Open Scope Z_scope.

(** [z] limited to the interval [lo, hi]. *)
Definition clampZ (lo hi z : Z) : Z :=
  if z <? lo then lo else if hi <? z then hi else z.

(** Real [x] limited to [-1, 1]. *)
Definition clampR (x : R) : R :=
  if Rlt_dec x (-1) then (-1)%R else if Rlt_dec 1 x then 1%R else x.

(** The real number nearest to [x] (ties to even) among the numbers
    representable with [prec] bits and minimal exponent 3 - emax - prec. *)
Definition round_to (prec emax : Z) (x : R) : R :=
  round radix2 (FLT_exp (3 - emax - prec) prec) ZnearestE x.
Definition round32 : R -> R := round_to 24 128.
Definition round64 : R -> R := round_to 53 1024.

(** A float that is a number in [-1, 1] (neither NaN nor infinite). *)
Definition in_range {prec emax} (x : binary_float prec emax) : Prop :=
  is_finite x = true /\ (-1 <= B2R x <= 1)%R.

(** The sample value an integer code stands for, spread evenly over [-1, 1]:
    (2c+1)/(2^bits-1). *)
Definition code_value (bits c : Z) : R := (IZR (2 * c + 1) / IZR (2 ^ bits - 1))%R.

(** The integer channel types Ch8 and Ch16; the float channel types. *)
Definition is_int (k : ck) : Prop := k = K8 \/ k = K16.
Definition is_float (k : ck) : Prop := k = K32 \/ k = K64.

(** Number of bits of an integer channel type. *)
Definition int_bits (k : ck) : Z := match k with K8 => 8 | K16 => 16 | _ => 0 end.

(** ** Views of a channel value of any type *)

(** A sample whose value lies in the type's documented range: every integer
    sample, every float sample in [-1, 1]. *)
Definition valid {k : ck} : chan k -> Prop :=
  match k with
  | K8 => fun _ => True | K16 => fun _ => True
  | K32 => fun c => in_range (c : binary_float 24 128)
  | K64 => fun c => in_range (c : binary_float 53 1024)
  end.

(** Float samples: finite, NaN, the real value, rounding to the format, sign. *)
Definition fin {k : ck} : chan k -> bool :=
  match k with
  | K8 => fun _ => true | K16 => fun _ => true
  | K32 => fun c => is_finite (c : binary_float 24 128)
  | K64 => fun c => is_finite (c : binary_float 53 1024)
  end.
Definition isnan {k : ck} : chan k -> bool :=
  match k with
  | K8 => fun _ => false | K16 => fun _ => false
  | K32 => fun c => is_nan (c : binary_float 24 128)
  | K64 => fun c => is_nan (c : binary_float 53 1024)
  end.
Definition rval {k : ck} : chan k -> R :=
  match k with
  | K8 => fun c => IZR (Rust.sv c) | K16 => fun c => IZR (Rust.sv c)
  | K32 => fun c => B2R (c : binary_float 24 128)
  | K64 => fun c => B2R (c : binary_float 53 1024)
  end.
Definition negative {k : ck} : chan k -> bool :=
  match k with
  | K8 => fun c => Rust.sv c <? 0 | K16 => fun c => Rust.sv c <? 0
  | K32 => fun c => Bsign (c : binary_float 24 128)
  | K64 => fun c => Bsign (c : binary_float 53 1024)
  end.
Definition round_k (k : ck) : R -> R := match k with K32 => round32 | _ => round64 end.
Definition prec_k (k : ck) : Z := match k with K32 => 24 | _ => 53 end.
