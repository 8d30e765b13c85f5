(** * Rust.v -- the fragment of Rust's semantics the model needs:
    panics as values, fixed-width integers, slices as lists. *)
From Coq Require Import ZArith List Bool Lia.
Import ListNotations.
Open Scope Z_scope.

(** ** Panics and non-termination as values *)

(** Why a Rust computation panicked. *)
Inductive panic : Set :=
| IndexOutOfBounds      (* slice / array index or range out of bounds *)
| ArithOverflow         (* checked integer arithmetic overflowed *)
| DivOverflow           (* iN::MIN / -1, or division by zero *)
| NotImplemented        (* todo!() *)
| ExplicitPanic         (* panic!(..) *)
| AssertFailed          (* assert!/assert_eq! *)
| UnwrapNone            (* Option::unwrap / expect on None *)
| CapacityOverflow.     (* Vec growth beyond isize::MAX bytes *)

(** Result of running a Rust function: a value, a panic, or "the fuel given to
    a loop ran out" (never a normal-looking value). *)
Inductive res (A : Type) : Type :=
| Ok (a : A)
| Panic (p : panic)
| OutOfFuel.
Arguments Ok {A}. Arguments Panic {A}. Arguments OutOfFuel {A}.

Definition bind {A B} (x : res A) (f : A -> res B) : res B :=
  match x with Ok a => f a | Panic p => Panic p | OutOfFuel => OutOfFuel end.
Notation "x <- e ;; f" := (bind e (fun x => f))
  (at level 61, e at next level, right associativity).
Notation "' p <- e ;; f" := (bind e (fun p => f))
  (at level 61, p pattern, e at next level, right associativity).

Definition of_opt {A} (p : panic) (o : option A) : res A :=
  match o with Some a => Ok a | None => Panic p end.

(** ** Fixed-width integers *)

(** Intermediate integers are plain [Z]; an arithmetic operation of a Rust
    type with range [lo, hi] is checked (debug builds panic, and where the
    check provably never fires release builds agree). *)
Definition checked (lo hi z : Z) : res Z :=
  if (lo <=? z) && (z <=? hi) then Ok z else Panic ArithOverflow.

Definition i16_min := -32768. Definition i16_max := 32767.
Definition i32_min := -2147483648. Definition i32_max := 2147483647.
Definition usize_max := 18446744073709551615.   (* 64-bit target *)
Definition isize_max := 9223372036854775807.

(** Two's complement wrap of [z] to a signed type with 2^[bits] values
    ([as iN] from a wider integer, [<<]). *)
Definition wrap_signed (bits : Z) (z : Z) : Z :=
  (z + 2 ^ (bits - 1)) mod 2 ^ bits - 2 ^ (bits - 1).
Definition wrap_unsigned (bits : Z) (z : Z) : Z := z mod 2 ^ bits.

(** Rust integer division [a / b] of an N-bit signed type: panics on a zero
    divisor and on MIN / -1, otherwise truncates toward zero. *)
Definition int_div (lo a b : Z) : res Z :=
  if b =? 0 then Panic DivOverflow
  else if (a =? lo) && (b =? -1) then Panic DivOverflow
  else Ok (Z.quot a b).

(** The two sample widths. *)
Inductive width : Set := W8 | W16.
Definition bits_of (w : width) : Z := match w with W8 => 8 | W16 => 16 end.
Definition smin (w : width) : Z := match w with W8 => -128 | W16 => -32768 end.
Definition smax (w : width) : Z := match w with W8 => 127 | W16 => 32767 end.

(** Rust [i8] / [i16]: an integer with a proof that it is in range. *)
Record sint (w : width) : Set := mkSint {
  sv : Z;
  sok : (smin w <=? sv) && (sv <=? smax w) = true
}.
Arguments mkSint {w}. Arguments sv {w}. Arguments sok {w}.
Definition i8 := sint W8.
Definition i16 := sint W16.

Lemma wrap_ok (w : width) (z : Z) :
  (smin w <=? wrap_signed (bits_of w) z) && (wrap_signed (bits_of w) z <=? smax w) = true.
Proof.
  unfold wrap_signed. destruct w; cbn [smin smax bits_of].
  - change (2 ^ (8 - 1)) with 128. change (2 ^ 8) with 256.
    pose proof (Z.mod_pos_bound (z + 128) 256). lia.
  - change (2 ^ (16 - 1)) with 32768. change (2 ^ 16) with 65536.
    pose proof (Z.mod_pos_bound (z + 32768) 65536). lia.
Qed.

(** [z as i8] / [z as i16] for an integer [z] of any other type. *)
Definition as_sint (w : width) (z : Z) : sint w := mkSint _ (wrap_ok w z).

Lemma sat_ok (w : width) (z : Z) :
  (smin w <=? Z.max (smin w) (Z.min (smax w) z)) &&
  (Z.max (smin w) (Z.min (smax w) z) <=? smax w) = true.
Proof. destruct w; cbn [smin smax]; lia. Qed.

(** Saturation, the result of [saturating_add]/[saturating_sub]. *)
Definition sat (w : width) (z : Z) : sint w := mkSint _ (sat_ok w z).

(** ** Slices as lists *)

(** [buf[i] = f(buf[i])], panicking when [i] is out of bounds. *)
Fixpoint update_at {A} (i : nat) (f : A -> A) (l : list A) : res (list A) :=
  match l, i with
  | [], _ => Panic IndexOutOfBounds
  | x :: xs, O => Ok (f x :: xs)
  | x :: xs, S i => xs' <- update_at i f xs ;; Ok (x :: xs')
  end.
