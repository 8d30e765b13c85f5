(** * Chan.v -- model of src/chan.rs (and the sealed set of channel types of
    src/private.rs:14-18) *)
From Coq Require Import ZArith Bool.
From Flocq Require Import IEEE754.BinarySingleNaN.
From Verif Require Import Rust Float Math.
Open Scope Z_scope.

(** The four channel types; [Channel] is sealed (src/private.rs:14-18), so
    there are no others. *)
Inductive ck : Set := K8 | K16 | K32 | K64.

(** src/chan.rs:71-89: [Ch8(i8)], [Ch16(i16)], [Ch32(f32)], [Ch64(f64)] are
    transparent wrappers, modelled by their content. *)
Definition ch8 := i8.
Definition ch16 := i16.
Definition ch32 := f32.
Definition ch64 := f64.

(** [value.min(1.0).max(-1.0)], used throughout src/chan.rs. *)
Definition clamp32 (v : f32) : f32 := fmax (fmin v (flit 1 0)) (flit (-1) 0).
Definition clamp64 (v : f64) : f64 := fmax (fmin v (flit 1 0)) (flit (-1) 0).

(** ** Constructors and raw-value conversions *)

(** src/chan.rs:98-100 [Ch8::new], 129-131 [From<i8>]. *)
Definition ch8_new (v : i8) : ch8 := v.
(** src/chan.rs:106-108 [Ch16::new], 143-145 [From<i16>]. *)
Definition ch16_new (v : i16) : ch16 := v.
(** src/chan.rs:114-116 [Ch32::new], 157-159 [From<f32>]. *)
Definition ch32_new (v : f32) : ch32 := clamp32 v.
(** src/chan.rs:122-124 [Ch64::new]. *)
Definition ch64_new (v : f64) : ch64 := clamp64 v.

(** ** Constants: src/chan.rs:490-492, 507-509, 524-526, 541-543 and the
    derived [Default] (src/chan.rs:72, 77, 82, 87), which is zero. *)
Definition ch8_MIN : ch8 := as_sint W8 (-128).
Definition ch8_MID : ch8 := as_sint W8 0.
Definition ch8_MAX : ch8 := as_sint W8 127.
Definition ch16_MIN : ch16 := as_sint W16 (-32768).
Definition ch16_MID : ch16 := as_sint W16 0.
Definition ch16_MAX : ch16 := as_sint W16 32767.
Definition ch32_MIN : ch32 := flit (-1) 0.
Definition ch32_MID : ch32 := flit 0 0.
Definition ch32_MAX : ch32 := flit 1 0.
Definition ch64_MIN : ch64 := flit (-1) 0.
Definition ch64_MID : ch64 := flit 0 0.
Definition ch64_MAX : ch64 := flit 1 0.

(** ** Arithmetic *)

(** src/chan.rs:181-183, 191-193 [Sub]: [saturating_sub]. *)
Definition ch8_sub (a b : ch8) : ch8 := sat W8 (sv a - sv b).
Definition ch16_sub (a b : ch16) : ch16 := sat W16 (sv a - sv b).
(** src/chan.rs:201-203, 211-213. *)
Definition ch32_sub (a b : ch32) : ch32 := clamp32 (fsub a b).
Definition ch64_sub (a b : ch64) : ch64 := clamp64 (fsub a b).

(** src/chan.rs:221-223, 231-233 [Add]: [saturating_add]. *)
Definition ch8_add (a b : ch8) : ch8 := sat W8 (sv a + sv b).
Definition ch16_add (a b : ch16) : ch16 := sat W16 (sv a + sv b).
(** src/chan.rs:241-244, 252-255. *)
Definition ch32_add (a b : ch32) : ch32 := clamp32 (fadd a b).
Definition ch64_add (a b : ch64) : ch64 := clamp64 (fadd a b).

(** src/chan.rs:263-273 [Div for Ch8]. *)
Definition ch8_div (a b : ch8) : res ch8 :=
  let rhs := sv b in
  if negb (rhs =? 0) then
    let ss := wrap_signed 32 (sv a * 2 ^ 8) in
    let rr := rhs in
    q <- int_div i32_min ss rr ;;
    Ok (as_sint W8 (Z.max (Z.min q 127) (-128)))
  else Ok ch8_MAX.

(** src/chan.rs:281-291 [Div for Ch16]. *)
Definition ch16_div (a b : ch16) : res ch16 :=
  let rhs := sv b in
  if negb (rhs =? 0) then
    let ss := wrap_signed 32 (sv a * 2 ^ 16) in
    let rr := rhs in
    q <- int_div i32_min ss rr ;;
    Ok (as_sint W16 (Z.max (Z.min q i16_max) i16_min))
  else Ok ch16_MAX.

(** src/chan.rs:299-301, 309-311 [Div for Ch32], [Div for Ch64]. *)
Definition ch32_div (a b : ch32) : ch32 := clamp32 (fdiv a b).
Definition ch64_div (a b : ch64) : ch64 := clamp64 (fdiv a b).

(** src/chan.rs:319-324 [Mul for Ch8]: i16 arithmetic. *)
Definition ch8_mul (a b : ch8) : res ch8 :=
  let l := sv a in
  let r := sv b in
  p <- checked i16_min i16_max (l * r) ;;
  v <- int_div i16_min p 127 ;;
  Ok (as_sint W8 (Z.min v 127)).

(** src/chan.rs:332-337 [Mul for Ch16]: i32 arithmetic. *)
Definition ch16_mul (a b : ch16) : res ch16 :=
  let l := sv a in
  let r := sv b in
  p <- checked i32_min i32_max (l * r) ;;
  v <- int_div i32_min p 32767 ;;
  Ok (as_sint W16 (Z.min v 32767)).

(** src/chan.rs:345-347, 355-357 [Mul for Ch32], [Mul for Ch64]: no clamp. *)
Definition ch32_mul (a b : ch32) : ch32 := fmul a b.
Definition ch64_mul (a b : ch64) : ch64 := fmul a b.

(** src/chan.rs:660-662 [Neg for Ch8]: [(u8::MAX - self.0 as u8) as i8]. *)
Definition ch8_neg (a : ch8) : res ch8 :=
  d <- checked 0 255 (255 - wrap_unsigned 8 (sv a)) ;; Ok (as_sint W8 d).
(** src/chan.rs:671-673 [Neg for Ch16]. *)
Definition ch16_neg (a : ch16) : res ch16 :=
  d <- checked 0 65535 (65535 - wrap_unsigned 16 (sv a)) ;; Ok (as_sint W16 d).
(** src/chan.rs:682-684, 693-695. *)
Definition ch32_neg (a : ch32) : ch32 := fneg a.
Definition ch64_neg (a : ch64) : ch64 := fneg a.

(** ** Conversions between channel types *)

(** src/chan.rs:559-561 [From<Ch64> for Ch8]; 127.5 = 255 * 2^-1. *)
Definition ch8_from_ch64 (v : ch64) : ch8 := ch8_new (floor_i8 (fmul v (flit 255 (-1)))).
(** src/chan.rs:567-569 [From<Ch64> for Ch16]; 32767.5 = 65535 * 2^-1. *)
Definition ch16_from_ch64 (v : ch64) : ch16 := ch16_new (floor_i16 (fmul v (flit 65535 (-1)))).
(** src/chan.rs:575-577 [From<Ch64> for Ch32]. *)
Definition ch32_from_ch64 (v : ch64) : ch32 := ch32_new (f64_as_f32 v).
(** src/chan.rs:583-585 [From<Ch32> for Ch8]. *)
Definition ch8_from_ch32 (v : ch32) : ch8 := ch8_new (floorh_i8 (fmul v (flit 255 (-1)))).
(** src/chan.rs:591-593 [From<Ch32> for Ch16]. *)
Definition ch16_from_ch32 (v : ch32) : ch16 := ch16_new (floorh_i16 (fmul v (flit 65535 (-1)))).
(** src/chan.rs:599-601 [From<Ch32> for Ch64]. *)
Definition ch64_from_ch32 (v : ch32) : ch64 := ch64_new (f32_as_f64 v).
(** src/chan.rs:607-609 [From<Ch16> for Ch8]: arithmetic shift right by 8. *)
Definition ch8_from_ch16 (c : ch16) : ch8 := ch8_new (as_sint W8 (sv c / 2 ^ 8)).
(** src/chan.rs:615-617 [From<Ch16> for Ch32]. *)
Definition ch32_from_ch16 (c : ch16) : ch32 :=
  fadd (fdiv (fofZ (sv c)) (flit 65535 (-1))) (fdiv (flit 1 0) (flit 65535 0)).
(** src/chan.rs:623-625 [From<Ch16> for Ch64]. *)
Definition ch64_from_ch16 (c : ch16) : ch64 :=
  fadd (fdiv (fofZ (sv c)) (flit 65535 (-1))) (fdiv (flit 1 0) (flit 65535 0)).
(** src/chan.rs:631-635 [From<Ch8> for Ch16].  [wrapping_sub(-128) as u8], then
    the two equal bytes form a u16 (so endianness is irrelevant), then
    [wrapping_add(32768) as i16]. *)
Definition ch16_from_ch8 (c : ch8) : ch16 :=
  let u := wrap_unsigned 8 (wrap_signed 8 (sv c - -128)) in
  let v := wrap_unsigned 16 ((u + 256 * u) + 32768) in
  as_sint W16 v.
(** src/chan.rs:641-643 [From<Ch8> for Ch32]. *)
Definition ch32_from_ch8 (c : ch8) : ch32 :=
  fadd (fdiv (fofZ (sv c)) (flit 255 (-1))) (fdiv (flit 1 0) (flit 255 0)).
(** src/chan.rs:649-651 [From<Ch8> for Ch64]. *)
Definition ch64_from_ch8 (c : ch8) : ch64 :=
  fadd (fdiv (fofZ (sv c)) (flit 255 (-1))) (fdiv (flit 1 0) (flit 255 0)).

(** ** [Channel::to_f64] and [Channel::from_f64] *)

(** src/chan.rs:495-497, 512-514, 529-531, 546-548. *)
Definition ch8_to_f64 (c : ch8) : f64 := ch64_from_ch8 c.
Definition ch16_to_f64 (c : ch16) : f64 := ch64_from_ch16 c.
Definition ch32_to_f64 (c : ch32) : f64 := f32_as_f64 c.
Definition ch64_to_f64 (c : ch64) : f64 := c.
(** src/chan.rs:500-502, 517-519, 534-536, 551-553. *)
Definition ch8_from_f64 (x : f64) : ch8 := ch8_from_ch64 (ch64_new x).
Definition ch16_from_f64 (x : f64) : ch16 := ch16_from_ch64 (ch64_new x).
Definition ch32_from_f64 (x : f64) : ch32 := f64_as_f32 x.
Definition ch64_from_f64 (x : f64) : ch64 := x.

(** ** The [Channel] trait as a dispatch on the channel type *)

Definition chan (k : ck) : Set :=
  match k with K8 => ch8 | K16 => ch16 | K32 => ch32 | K64 => ch64 end.

Definition MIN (k : ck) : chan k :=
  match k with K8 => ch8_MIN | K16 => ch16_MIN | K32 => ch32_MIN | K64 => ch64_MIN end.
Definition MID (k : ck) : chan k :=
  match k with K8 => ch8_MID | K16 => ch16_MID | K32 => ch32_MID | K64 => ch64_MID end.
Definition MAX (k : ck) : chan k :=
  match k with K8 => ch8_MAX | K16 => ch16_MAX | K32 => ch32_MAX | K64 => ch64_MAX end.
(** The derived [Default] of each channel type: zero, the same value as [MID]. *)
Definition chan_default (k : ck) : chan k :=
  match k with
  | K8 => as_sint W8 0 | K16 => as_sint W16 0 | K32 => flit 0 0 | K64 => flit 0 0
  end.

Definition c_add {k : ck} : chan k -> chan k -> chan k :=
  match k with K8 => ch8_add | K16 => ch16_add | K32 => ch32_add | K64 => ch64_add end.
Definition c_sub {k : ck} : chan k -> chan k -> chan k :=
  match k with K8 => ch8_sub | K16 => ch16_sub | K32 => ch32_sub | K64 => ch64_sub end.
Definition c_mul {k : ck} : chan k -> chan k -> res (chan k) :=
  match k with
  | K8 => ch8_mul | K16 => ch16_mul
  | K32 => fun a b => Ok (ch32_mul a b) | K64 => fun a b => Ok (ch64_mul a b)
  end.
Definition c_div {k : ck} : chan k -> chan k -> res (chan k) :=
  match k with
  | K8 => ch8_div | K16 => ch16_div
  | K32 => fun a b => Ok (ch32_div a b) | K64 => fun a b => Ok (ch64_div a b)
  end.
Definition c_neg {k : ck} : chan k -> res (chan k) :=
  match k with
  | K8 => ch8_neg | K16 => ch16_neg
  | K32 => fun a => Ok (ch32_neg a) | K64 => fun a => Ok (ch64_neg a)
  end.
Definition to_f64 {k : ck} : chan k -> f64 :=
  match k with K8 => ch8_to_f64 | K16 => ch16_to_f64 | K32 => ch32_to_f64 | K64 => ch64_to_f64 end.
Definition from_f64 (k : ck) : f64 -> chan k :=
  match k with K8 => ch8_from_f64 | K16 => ch16_from_f64 | K32 => ch32_from_f64 | K64 => ch64_from_f64 end.

(** [PartialEq]/[PartialOrd] (derived, src/chan.rs:72-87): integer order, or
    IEEE comparison for the float channels. *)
Definition c_eqb {k : ck} : chan k -> chan k -> bool :=
  match k with
  | K8 => fun a b => sv a =? sv b | K16 => fun a b => sv a =? sv b
  | K32 => fun a b => feq a b | K64 => fun a b => feq a b
  end.
Definition c_leb {k : ck} : chan k -> chan k -> bool :=
  match k with
  | K8 => fun a b => sv a <=? sv b | K16 => fun a b => sv a <=? sv b
  | K32 => fun a b => fle a b | K64 => fun a b => fle a b
  end.

(** src/chan.rs:361-486: [+=], [-=], [*=], [/=] are [*self = *self op rhs]. *)
Definition c_add_assign {k : ck} (self rhs : chan k) : chan k := c_add self rhs.
Definition c_sub_assign {k : ck} (self rhs : chan k) : chan k := c_sub self rhs.
Definition c_mul_assign {k : ck} (self rhs : chan k) : res (chan k) := c_mul self rhs.
Definition c_div_assign {k : ck} (self rhs : chan k) : res (chan k) := c_div self rhs.

(** src/chan.rs:66-68 [Channel::lerp]: [self + t * (rhs - self)]. *)
Definition c_lerp {k : ck} (self rhs t : chan k) : res (chan k) :=
  p <- c_mul t (c_sub rhs self) ;; Ok (c_add self p).

(** The [From]/[Into] conversions between channel types required by the
    [Channel] trait (src/chan.rs:39-46); same-type conversion is Rust's
    reflexive [From<T> for T]. *)
Definition chan_from (k1 k2 : ck) : chan k1 -> chan k2 :=
  match k1, k2 with
  | K8, K8 => fun c => c | K8, K16 => ch16_from_ch8
  | K8, K32 => ch32_from_ch8 | K8, K64 => ch64_from_ch8
  | K16, K8 => ch8_from_ch16 | K16, K16 => fun c => c
  | K16, K32 => ch32_from_ch16 | K16, K64 => ch64_from_ch16
  | K32, K8 => ch8_from_ch32 | K32, K16 => ch16_from_ch32
  | K32, K32 => fun c => c | K32, K64 => ch64_from_ch32
  | K64, K8 => ch8_from_ch64 | K64, K16 => ch16_from_ch64
  | K64, K32 => ch32_from_ch64 | K64, K64 => fun c => c
  end.

(** ** Operands of other types

    Every channel operator is declared for all [R: Into<Self>]
    (src/chan.rs:177-486) and starts with [rhs.into()].  The types with
    [Into<Self>] are the four channel types and the raw values of
    src/chan.rs:127-160; there is no [From<f64> for Ch64]. *)
Definition raw_operand (k : ck) : Set :=
  match k with K8 => i8 | K16 => i16 | K32 => f32 | K64 => Empty_set end.
(** src/chan.rs:127-132, 141-146, 155-160. *)
Definition from_raw {k : ck} : raw_operand k -> chan k :=
  match k with
  | K8 => ch8_new | K16 => ch16_new | K32 => ch32_new
  | K64 => fun v => match v with end
  end.
Inductive operand (k : ck) : Set :=
| OChan (h : ck) (c : chan h)
| ORaw (v : raw_operand k).
Arguments OChan {k} h c.
Arguments ORaw {k} v.
Definition into {k : ck} (b : operand k) : chan k :=
  match b with OChan h c => chan_from h k c | ORaw v => from_raw v end.
(** src/chan.rs:177-214, 217-256, 259-312, 315-358 with any operand. *)
Definition op_sub {k : ck} (a : chan k) (b : operand k) : chan k := c_sub a (into b).
Definition op_add {k : ck} (a : chan k) (b : operand k) : chan k := c_add a (into b).
Definition op_div {k : ck} (a : chan k) (b : operand k) : res (chan k) := c_div a (into b).
Definition op_mul {k : ck} (a : chan k) (b : operand k) : res (chan k) := c_mul a (into b).
