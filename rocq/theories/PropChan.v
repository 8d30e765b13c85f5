(** * PropChan.v -- the property theorems about channels (C01 - C17) *)
From Coq Require Import ZArith Reals Bool List.
From Flocq Require Import Core.Core IEEE754.BinarySingleNaN.
From Verif Require Import Rust Float Math Chan SpecChan IntProofs FloatProofs FArithProofs ChanProofs FChanProofs.
Open Scope Z_scope.

Notation "'s8' z" := (as_sint W8 z : chan K8) (at level 9, only parsing).
Notation "'s16' z" := (as_sint W16 z : chan K16) (at level 9, only parsing).

(** ** C01 *)
Theorem C01_add_sub_saturate :
  (forall a b : chan K8, sv (c_add a b) = clampZ (-128) 127 (sv a + sv b)) /\
  (forall a b : chan K8, sv (c_sub a b) = clampZ (-128) 127 (sv a - sv b)) /\
  (forall a b : chan K16, sv (c_add a b) = clampZ (-32768) 32767 (sv a + sv b)) /\
  (forall a b : chan K16, sv (c_sub a b) = clampZ (-32768) 32767 (sv a - sv b)).
Proof. exact add_int_spec. Qed.
Print Assumptions C01_add_sub_saturate.
Theorem C01_add_sub_laws : forall k, is_int k -> forall a b c : chan k,
  c_add a b = c_add b a /\ c_add a (MID k) = a /\ c_sub a (MID k) = a /\ c_sub a a = MID k /\
  (c_leb a b = true -> c_leb (c_add a c) (c_add b c) = true /\ c_leb (c_sub a c) (c_sub b c) = true).
Proof. exact add_int_laws. Qed.
Print Assumptions C01_add_sub_laws.
Example C01_case : sv (c_add (s8 100) (s8 100)) = 127 /\ sv (c_add (s8 100) (s8 (-30))) = 70 /\
  sv (c_sub (s16 (-30000)) (s16 10000)) = -32768.
Proof. repeat split. Qed.

(** ** C02 *)
Theorem C02_mul_exact :
  (forall a b : chan K8, exists c, c_mul a b = Ok c /\ sv c = clampZ (-128) 127 (Z.quot (sv a * sv b) 127)) /\
  (forall a b : chan K16, exists c, c_mul a b = Ok c /\ sv c = clampZ (-32768) 32767 (Z.quot (sv a * sv b) 32767)).
Proof. exact mul_int_spec. Qed.
Print Assumptions C02_mul_exact.
Theorem C02_mul_laws : forall k, is_int k -> forall a b : chan k,
  (exists c, c_mul a b = Ok c) /\ c_mul a b = c_mul b a /\
  c_mul a (MAX k) = Ok a /\ c_mul a (MID k) = Ok (MID k).
Proof. exact mul_int_laws. Qed.
Print Assumptions C02_mul_laws.
Example C02_case : match c_mul (s8 (-128)) (s8 (-128)) with Ok c => sv c = 127 | _ => False end /\
  match c_mul (s16 (-20000)) (s16 16384) with Ok c => sv c = -10000 | _ => False end.
Proof. split; reflexivity. Qed.

(** ** C03 *)
Theorem C03_div8 : forall a b : chan K8, exists c, c_div a b = Ok c /\
  sv c = if sv b =? 0 then 127 else clampZ (-128) 127 (Z.quot (256 * sv a) (sv b)).
Proof. exact div8_spec. Qed.
Print Assumptions C03_div8.
Theorem C03_div16 : forall a b : chan K16, ~ (sv a = -32768 /\ sv b = -1) -> exists c, c_div a b = Ok c /\
  sv c = if sv b =? 0 then 32767 else clampZ (-32768) 32767 (Z.quot (65536 * sv a) (sv b)).
Proof. exact div16_spec. Qed.
Print Assumptions C03_div16.
Theorem C03_div16_panic_set : forall (a b : chan K16) p,
  c_div a b = Panic p <-> (sv a = -32768 /\ sv b = -1 /\ p = DivOverflow).
Proof. exact div16_panic. Qed.
Print Assumptions C03_div16_panic_set.
(** "Division never panics" is false. *)
Theorem C03_div16_total_refuted : exists a b : chan K16, c_div a b = Panic DivOverflow.
Proof. exists (s16 (-32768)), (s16 (-1)). vm_compute. reflexivity. Qed.
Print Assumptions C03_div16_total_refuted.
Example C03_case : ~ (sv (s16 100) = -32768 /\ sv (s16 1000) = -1) /\
  match c_div (s16 100) (s16 1000) with Ok c => sv c = 6553 | _ => False end /\
  match c_div (s8 5) (s8 0) with Ok c => sv c = 127 | _ => False end.
Proof. split; [|split; reflexivity]. intros [H _]. discriminate H. Qed.

(** ** C04 *)
Theorem C04_div_max8 : forall a : chan K8,
  exists c, c_div a (MAX K8) = Ok c /\ sv c = clampZ (-128) 127 (Z.quot (256 * sv a) 127) /\
    (c = a <-> (a = MIN K8 \/ a = MID K8 \/ a = MAX K8)).
Proof. exact div_max8. Qed.
Print Assumptions C04_div_max8.
Theorem C04_div_max16 : forall a : chan K16,
  exists c, c_div a (MAX K16) = Ok c /\ sv c = clampZ (-32768) 32767 (Z.quot (65536 * sv a) 32767) /\
    (c = a <-> (a = MIN K16 \/ a = MID K16 \/ a = MAX K16)).
Proof. exact div_max16. Qed.
Print Assumptions C04_div_max16.
(** "x / MAX == x" is false: 10 / MAX is 20. *)
Theorem C04_div_max_neutral_refuted : exists a c : chan K8, c_div a (MAX K8) = Ok c /\ sv a = 10 /\ sv c = 20.
Proof.
  exists (s8 10). destruct (div_max8 (s8 10)) as (c & H & E & _). exists c.
  split; [exact H|]. split; [reflexivity|exact E].
Qed.
Print Assumptions C04_div_max_neutral_refuted.

(** ** C05 *)
Theorem C05_neg_int : forall k, is_int k -> forall a b : chan k,
  exists na nb, c_neg a = Ok na /\ c_neg b = Ok nb /\ c_neg na = Ok a /\
    c_leb nb na = c_leb a b /\ c_neg (MIN k) = Ok (MAX k) /\ c_neg (MAX k) = Ok (MIN k).
Proof. exact neg_int_laws. Qed.
Print Assumptions C05_neg_int.
Theorem C05_neg_int_value :
  (forall a : chan K8, exists na, c_neg a = Ok na /\ sv na = -1 - sv a /\ sv (c_add a na) = -1) /\
  (forall a : chan K16, exists na, c_neg a = Ok na /\ sv na = -1 - sv a /\ sv (c_add a na) = -1).
Proof. exact (conj neg_int_add8 neg_int_add16). Qed.
Print Assumptions C05_neg_int_value.
Theorem C05_neg_float : forall k, is_float k -> forall a : chan k,
  exists na, c_neg a = Ok na /\ c_neg na = Ok a /\ rval na = (- rval a)%R /\ fin na = fin a /\ isnan na = isnan a.
Proof. exact float_neg. Qed.
Print Assumptions C05_neg_float.
(** "x + (-x) is silence" is false for integer channels. *)
Theorem C05_cancel_refuted : exists a na : chan K8, c_neg a = Ok na /\ c_add a na <> MID K8.
Proof.
  exists (s8 5). destruct (neg_int_add8 (s8 5)) as (na & H & _ & E). exists na. split; [exact H|].
  intros C. rewrite C in E. discriminate E.
Qed.
Print Assumptions C05_cancel_refuted.
Example C05_case : match c_neg (s8 (-128)) with Ok c => sv c = 127 | _ => False end /\
  match c_neg (s16 5) with Ok c => sv c = -6 | _ => False end.
Proof. split; reflexivity. Qed.

(** ** C06 *)
Theorem C06_widen :
  (forall c : chan K8, sv (chan_from K8 K16 c) = 257 * sv c + 128) /\
  chan_from K8 K16 (MIN K8) = MIN K16 /\ chan_from K8 K16 (MAX K8) = MAX K16 /\
  (forall c d : chan K8, sv c < sv d -> sv (chan_from K8 K16 c) < sv (chan_from K8 K16 d)) /\
  (forall c : chan K8, chan_from K16 K8 (chan_from K8 K16 c) = c).
Proof. exact widen_laws. Qed.
Print Assumptions C06_widen.
Theorem C06_narrow :
  (forall c : chan K16, sv (chan_from K16 K8 c) = sv c / 256) /\
  (forall c d : chan K16, sv c <= sv d -> sv (chan_from K16 K8 c) <= sv (chan_from K16 K8 d)).
Proof. exact narrow_laws. Qed.
Print Assumptions C06_narrow.
Example C06_case : sv (chan_from K8 K16 (s8 0)) = 128 /\ sv (chan_from K16 K8 (s16 (-1))) = -1.
Proof. split; reflexivity. Qed.

(** ** C07, C08 *)
Theorem C07_int_f64_roundtrip : forall k, is_int k -> forall c : chan k,
  from_f64 k (to_f64 c) = c /\ chan_from K64 k (chan_from k K64 c) = c.
Proof. exact int_f64_roundtrip. Qed.
Print Assumptions C07_int_f64_roundtrip.
Theorem C08_int_f32_roundtrip : forall k, is_int k -> forall c : chan k, chan_from K32 k (chan_from k K32 c) = c.
Proof. exact int_f32_roundtrip. Qed.
Print Assumptions C08_int_f32_roundtrip.
Example C07_C08_case : is_int K16 /\ sv (from_f64 K16 (to_f64 (s16 12345))) = 12345 /\
  sv (chan_from K32 K16 (chan_from K16 K32 (s16 (-777)))) = -777.
Proof. split; [right; reflexivity|]. split; vm_compute; reflexivity. Qed.

(** ** C09 *)
Theorem C09_int_to_float_range : forall k, is_int k -> forall c : chan k,
  in_range (to_f64 c) /\ in_range (chan_from k K32 c : f32).
Proof. exact to64_range. Qed.
Print Assumptions C09_int_to_float_range.
Theorem C09_int_to_float_ends : forall k, is_int k ->
  to_f64 (MIN k) = flit (-1) 0 /\ to_f64 (MAX k) = flit 1 0 /\
  chan_from k K32 (MIN k) = flit (-1) 0 /\ chan_from k K32 (MAX k) = flit 1 0.
Proof. exact to_float_ends. Qed.
Print Assumptions C09_int_to_float_ends.
Theorem C09_int_to_float_increasing : forall k, is_int k -> forall c d : chan k, c_leb d c = false ->
  flt (to_f64 c) (to_f64 d) = true /\ flt (chan_from k K32 c : f32) (chan_from k K32 d) = true.
Proof. exact to_float_mono. Qed.
Print Assumptions C09_int_to_float_increasing.
Theorem C09_int_to_float_accuracy :
  (forall c : chan K8, (Rabs (B2R (to_f64 c) - code_value 8 (sv c)) <= 3 * bpow radix2 (-53) /\
     Rabs (B2R (chan_from K8 K32 c : f32) - code_value 8 (sv c)) <= 3 * bpow radix2 (-24))%R) /\
  (forall c : chan K16, (Rabs (B2R (to_f64 c) - code_value 16 (sv c)) <= 3 * bpow radix2 (-53) /\
     Rabs (B2R (chan_from K16 K32 c : f32) - code_value 16 (sv c)) <= 3 * bpow radix2 (-24))%R).
Proof. exact to_float_accuracy. Qed.
Print Assumptions C09_int_to_float_accuracy.
Example C09_case : c_leb (s8 6) (s8 5) = false /\ flt (to_f64 (s8 5)) (to_f64 (s8 6)) = true.
Proof. split; vm_compute; reflexivity. Qed.

(** ** C10 *)
Theorem C10_from_f64_saturates : forall k, is_int k -> forall x : f64,
  (fle (flit 1 0) x = true -> from_f64 k x = MAX k) /\
  (fle x (flit (-1) 0) = true -> from_f64 k x = MIN k) /\
  (is_nan x = true -> from_f64 k x = MAX k) /\
  (feq x (flit 0 0) = true -> from_f64 k x = MID k).
Proof. exact from_f64_sat. Qed.
Print Assumptions C10_from_f64_saturates.
Theorem C10_from_f64_monotone : forall k, is_int k -> forall x y : f64, fle x y = true ->
  c_leb (from_f64 k x) (from_f64 k y) = true.
Proof. exact from_f64_mono. Qed.
Print Assumptions C10_from_f64_monotone.
Example C10_case : fle (flit 1 0 : f64) (B754_infinity false) = true /\
  fle (flit 1 (-3) : f64) (flit 1 (-2)) = true /\
  sv (from_f64 K8 (flit 1 (-3))) = 15 /\ sv (from_f64 K8 (flit 1 (-2))) = 31 /\
  feq (flit 0 0 : f64) (B754_zero true) = true.
Proof. repeat split; vm_compute; reflexivity. Qed.

(** ** C11 *)
Theorem C11_quantisation_error :
  (forall x : f64, in_range x ->
     (Rabs (code_value 8 (sv (from_f64 K8 x)) - B2R x) <= (1 + bpow radix2 (-37)) / 255)%R) /\
  (forall x : f64, in_range x ->
     (Rabs (code_value 16 (sv (from_f64 K16 x)) - B2R x) <= (1 + bpow radix2 (-37)) / 65535)%R).
Proof. exact quantisation_error. Qed.
Print Assumptions C11_quantisation_error.
Example C11_case : in_range (ch64_new (flit 3 (-2))).
Proof. exact (proj1 (proj2 float_new_valid _)). Qed.

(** ** C12 *)
Theorem C12_results_in_range : forall k, is_float k -> forall a b : chan k,
  valid (c_add a b) /\ valid (c_sub a b) /\ exists q, c_div a b = Ok q /\ valid q.
Proof. exact float_ops_valid. Qed.
Print Assumptions C12_results_in_range.
Theorem C12_new :
  (forall x : f32, in_range (ch32_new x) /\ (in_range x -> ch32_new x = x) /\
     (is_finite x = true -> B2R (ch32_new x) = clampR (B2R x))) /\
  (forall x : f64, in_range (ch64_new x) /\ (in_range x -> ch64_new x = x) /\
     (is_finite x = true -> B2R (ch64_new x) = clampR (B2R x))).
Proof. exact float_new_valid. Qed.
Print Assumptions C12_new.
Theorem C12_results_value : forall k, is_float k -> forall a b : chan k, fin a = true -> fin b = true ->
  (rval (c_add a b) = clampR (round_k k (rval a + rval b)) /\
   rval (c_sub a b) = clampR (round_k k (rval a - rval b)) /\
   (rval b <> 0 -> exists q, c_div a b = Ok q /\ rval q = clampR (round_k k (rval a / rval b))))%R.
Proof. exact float_ops_value. Qed.
Print Assumptions C12_results_value.
Theorem C12_division_by_zero : forall k, is_float k -> forall a b : chan k,
  fin a = true -> fin b = true -> rval b = 0%R ->
  (rval a = 0%R -> c_div a b = Ok (MAX k)) /\
  (rval a <> 0%R -> c_div a b = Ok (if xorb (negative a) (negative b) then MIN k else MAX k)).
Proof. exact float_div_zero. Qed.
Print Assumptions C12_division_by_zero.
Theorem C12_nan_becomes_max : forall k, is_float k -> forall a b : chan k, isnan a = true \/ isnan b = true ->
  c_add a b = MAX k /\ c_sub a b = MAX k /\ c_div a b = Ok (MAX k).
Proof. exact float_nan_to_max. Qed.
Print Assumptions C12_nan_becomes_max.
(** Infinite operands: the sign decides; infinity against infinity is NaN, so 1.0. *)
Theorem C12_infinite : forall k, is_float k -> forall a b : chan k,
  let side (s : bool) := if s then MIN k else MAX k in
  (fin a = false -> isnan a = false -> fin b = true ->
     c_add a b = side (negative a) /\ c_sub a b = side (negative a) /\ c_div a b = Ok (side (xorb (negative a) (negative b)))) /\
  (fin a = true -> fin b = false -> isnan b = false ->
     c_add a b = side (negative b) /\ c_sub a b = side (negb (negative b)) /\ exists q, c_div a b = Ok q /\ rval q = 0%R) /\
  (fin a = false -> isnan a = false -> fin b = false -> isnan b = false ->
     c_add a b = side (negative a && negative b)%bool /\ c_sub a b = side (negative a && negb (negative b))%bool /\
     c_div a b = Ok (MAX k)).
Proof. exact float_infinite. Qed.
Print Assumptions C12_infinite.
Theorem C12_new_special :
  (forall x : f32, is_finite x = false -> ch32_new x = if (negb (is_nan x) && Bsign x)%bool then MIN K32 else MAX K32) /\
  (forall x : f64, is_finite x = false -> ch64_new x = if (negb (is_nan x) && Bsign x)%bool then MIN K64 else MAX K64).
Proof. exact float_new_special. Qed.
Print Assumptions C12_new_special.
Example C12_infinite_case : fin (B754_infinity true : chan K64) = false /\ isnan (B754_infinity true : chan K64) = false /\
  c_add (B754_infinity true : chan K64) (flit 3 (-2) : chan K64) = MIN K64.
Proof. repeat split. Qed.
Example C12_case : fin (flit 3 (-2) : chan K64) = true /\
  c_add (flit 3 (-2) : chan K64) (flit 3 (-2) : chan K64) = MAX K64 /\
  isnan (B754_nan : chan K32) = true /\
  c_div (flit (-1) (-1) : chan K64) (flit 0 0 : chan K64) = Ok (MIN K64).
Proof. repeat split; try (vm_compute; reflexivity); try (f_equal; apply B2SF_inj; vm_compute; reflexivity); apply B2SF_inj; vm_compute; reflexivity. Qed.

(** ** C13 *)
Theorem C13_mul_in_range : forall k, is_float k -> forall a b : chan k, valid a -> valid b ->
  exists p, c_mul a b = Ok p /\ valid p /\ rval p = round_k k (rval a * rval b)%R.
Proof. exact float_mul_valid. Qed.
Print Assumptions C13_mul_in_range.
Theorem C13_mul_laws : forall k, is_float k -> forall a b : chan k,
  c_mul a b = c_mul b a /\
  (fin a = true -> c_mul a (MAX k) = Ok a) /\
  (fin a = true -> exists z, c_mul a (MID k) = Ok z /\ rval z = 0%R).
Proof. exact float_mul_laws. Qed.
Print Assumptions C13_mul_laws.
(** Out-of-range samples (see C14) can make the product NaN. *)
Theorem C13_mul_nan_refuted : exists a b c : chan K64, c_mul a b = Ok c /\ isnan c = true.
Proof. exists (B754_infinity false), (B754_zero false), B754_nan. split; reflexivity. Qed.
Print Assumptions C13_mul_nan_refuted.
Example C13_case : valid (ch64_new (flit 3 (-2)) : chan K64) /\ fin (flit 3 (-2) : chan K32) = true.
Proof. split; [exact (proj1 (proj2 float_new_valid _))|vm_compute; reflexivity]. Qed.

(** ** C14 *)
Theorem C14_from_f64_is_raw :
  (forall x : f64, from_f64 K64 x = x /\ to_f64 (k:=K64) x = x) /\
  (forall x : f64, is_finite x = true -> (Rabs (round32 (B2R x)) < bpow radix2 128)%R ->
     is_finite (from_f64 K32 x : f32) = true /\ B2R (from_f64 K32 x : f32) = round32 (B2R x)) /\
  (forall x : f64, is_nan x = true -> isnan (from_f64 K32 x) = true).
Proof. exact from_f64_raw. Qed.
Print Assumptions C14_from_f64_is_raw.
(** [Ch32::to_f64] changes no value, in range or not. *)
Theorem C14_to_f64_is_raw : forall x : f32,
  (is_finite x = true -> is_finite (to_f64 (k:=K32) x) = true /\ B2R (to_f64 (k:=K32) x) = B2R x /\ Bsign (to_f64 (k:=K32) x) = Bsign x) /\
  (is_finite x = false -> is_nan x = false -> to_f64 (k:=K32) x = B754_infinity (Bsign x)) /\
  (is_nan x = true -> is_nan (to_f64 (k:=K32) x) = true) /\
  from_f64 K32 (to_f64 (k:=K32) x) = x.
Proof. exact to_f64_kept. Qed.
Print Assumptions C14_to_f64_is_raw.
Example C14_to_f64_case : is_finite (flit 5 0 : f32) = true /\ flt (flit 1 0 : f64) (to_f64 (k:=K32) (flit 5 0)) = true.
Proof. split; vm_compute; reflexivity. Qed.
(** Numbers too large for an f32, and infinities. *)
Theorem C14_from_f64_too_large : forall x : f64,
  (is_finite x = false /\ is_nan x = false) \/ (is_finite x = true /\ (bpow radix2 128 <= Rabs (round32 (B2R x)))%R) ->
  from_f64 K32 x = (B754_infinity (Bsign x) : f32).
Proof. exact from_f64_overflow. Qed.
Print Assumptions C14_from_f64_too_large.
Theorem C14_eq_reflexive_iff_not_nan : forall k (c : chan k), c_eqb c c = negb (isnan c).
Proof. exact eq_refl_iff. Qed.
Print Assumptions C14_eq_reflexive_iff_not_nan.
(** "A float channel always holds a number in [-1,1]" is false. *)
Theorem C14_range_invariant_refuted :
  (exists x : f64, ~ valid (from_f64 K64 x)) /\ (exists x : f64, ~ valid (from_f64 K32 x)).
Proof. split; exists B754_nan; intros [H _]; discriminate H. Qed.
Print Assumptions C14_range_invariant_refuted.
(** "Eq is reflexive" (which [impl Eq] promises) is false. *)
Theorem C14_eq_contract_refuted :
  (exists x : f64, c_eqb (from_f64 K64 x) (from_f64 K64 x) = false) /\
  (exists x : f64, c_eqb (from_f64 K32 x) (from_f64 K32 x) = false).
Proof. split; exists B754_nan; reflexivity. Qed.
Print Assumptions C14_eq_contract_refuted.
Example C14_case : is_finite (flit 5 0 : f64) = true /\ is_finite (from_f64 K32 (flit 5 0) : f32) = true /\
  flt (flit 1 0 : f32) (from_f64 K32 (flit 5 0)) = true.
Proof. repeat split; vm_compute; reflexivity. Qed.

(** ** C15 *)
Theorem C15_f32_f64_roundtrip : forall c : chan K32, valid c ->
  rval (chan_from K32 K64 c) = rval c /\ valid (chan_from K32 K64 c) /\
  chan_from K64 K32 (chan_from K32 K64 c) = c.
Proof. exact ch32_ch64_roundtrip. Qed.
Print Assumptions C15_f32_f64_roundtrip.
Theorem C15_f64_to_f32 : forall x : chan K64, valid (chan_from K64 K32 x) /\
  (fin x = true -> rval (chan_from K64 K32 x) = clampR (round32 (rval x))).
Proof. exact ch64_to_ch32. Qed.
Print Assumptions C15_f64_to_f32.
Theorem C15_f64_to_f32_monotone : forall x y : chan K64, fle (x : f64) y = true ->
  fle (chan_from K64 K32 x : f32) (chan_from K64 K32 y) = true.
Proof. exact ch64_to_ch32_mono. Qed.
Print Assumptions C15_f64_to_f32_monotone.
Example C15_case : valid (ch32_new (flit 3 (-2)) : chan K32) /\ fle (flit 1 (-3) : f64) (flit 1 (-2)) = true.
Proof. split; [exact (proj1 (proj1 float_new_valid _))|vm_compute; reflexivity]. Qed.

(** ** C16 *)
Theorem C16_lerp_never_panics : forall k (a b t : chan k), exists c, c_lerp a b t = Ok c.
Proof. exact lerp_total. Qed.
Print Assumptions C16_lerp_never_panics.
Theorem C16_lerp_mid_int : forall k, is_int k -> forall a b : chan k, c_lerp a b (MID k) = Ok a.
Proof. exact lerp_mid_int. Qed.
Print Assumptions C16_lerp_mid_int.
Theorem C16_lerp_mid_float : forall k, is_float k -> forall a b : chan k, valid a -> valid b ->
  exists c, c_lerp a b (MID k) = Ok c /\ c_eqb c a = true.
Proof. exact lerp_mid_float. Qed.
Print Assumptions C16_lerp_mid_float.
Theorem C16_lerp_max_int :
  (forall a b : chan K8, exists c, c_lerp a b (MAX K8) = Ok c /\
     (c = b <-> (-128 <= sv b - sv a <= 127))) /\
  (forall a b : chan K16, exists c, c_lerp a b (MAX K16) = Ok c /\
     (c = b <-> (-32768 <= sv b - sv a <= 32767))).
Proof. exact (conj lerp_max8_gen lerp_max16_gen). Qed.
Print Assumptions C16_lerp_max_int.
Theorem C16_lerp_max_float : forall k, is_float k -> forall a b : chan k, valid a -> valid b ->
  (Rabs (rval b - rval a) <= 1)%R ->
  exists c, c_lerp a b (MAX k) = Ok c /\ (Rabs (rval c - rval b) <= bpow radix2 (1 - prec_k k))%R.
Proof. exact lerp_max_float. Qed.
Print Assumptions C16_lerp_max_float.
(** "a.lerp(b, MAX) == b" is false: MIN to MAX ends at -1 (int) and 0.0 (float);
    and even without saturation 1.0 to 2^-60 ends at 0.0. *)
Theorem C16_lerp_max_exact_refuted :
  (exists a b c : chan K16, c_lerp a b (MAX K16) = Ok c /\ sv c = -1 /\ sv b = 32767) /\
  (exists a b c : chan K64, c_lerp a b (MAX K64) = Ok c /\ c_eqb c b = false /\ a = MIN K64 /\ b = MAX K64) /\
  (exists a b c : chan K64, c_lerp a b (MAX K64) = Ok c /\ c_eqb c b = false /\
     a = flit 1 0 /\ b = flit 1 (-60)).
Proof.
  split; [|split].
  - assert (H : match c_lerp (MIN K16) (MAX K16) (MAX K16) with Ok c => sv c = -1 | _ => False end)
      by (vm_compute; reflexivity).
    exists (MIN K16), (MAX K16). destruct (c_lerp (MIN K16) (MAX K16) (MAX K16)) as [c| |]; [|contradiction|contradiction].
    exists c. split; [reflexivity|]. split; [exact H|reflexivity].
  - exists (MIN K64), (MAX K64), (flit 0 0). split; [unfold c_lerp; cbn [c_mul bind]; f_equal; apply B2SF_inj; vm_compute; reflexivity|].
    split; [vm_compute; reflexivity|]. split; reflexivity.
  - exists (flit 1 0), (flit 1 (-60)), (flit 0 0). split; [unfold c_lerp; cbn [c_mul bind]; f_equal; apply B2SF_inj; vm_compute; reflexivity|].
    split; [vm_compute; reflexivity|]. split; reflexivity.
Qed.
Print Assumptions C16_lerp_max_exact_refuted.
Example C16_case : valid (ch64_new (flit 1 (-2)) : chan K64) /\ valid (ch64_new (flit 1 (-1)) : chan K64) /\
  match c_lerp (s8 10) (s8 50) (s8 64) with Ok c => sv c = 30 | _ => False end.
Proof. split; [exact (proj1 (proj2 float_new_valid _))|]. split; [exact (proj1 (proj2 float_new_valid _))|vm_compute; reflexivity]. Qed.

(** ** C17 *)
Theorem C17_widen_paths_agree : forall c : chan K8, from_f64 K16 (to_f64 c) = chan_from K8 K16 c.
Proof. exact widen_paths. Qed.
Print Assumptions C17_widen_paths_agree.
Theorem C17_narrow_paths_close : forall c : chan K16,
  Z.abs (sv (from_f64 K8 (to_f64 c)) - sv (chan_from K16 K8 c)) <= 1.
Proof. exact narrow_paths. Qed.
Print Assumptions C17_narrow_paths_close.
(** "Both paths agree for Ch16 to Ch8" is false. *)
Theorem C17_narrow_paths_equal_refuted : exists c : chan K16, from_f64 K8 (to_f64 c) <> chan_from K16 K8 c.
Proof.
  exists (s16 256). intros H. apply (f_equal sv) in H. vm_compute in H. discriminate H.
Qed.
Print Assumptions C17_narrow_paths_equal_refuted.
