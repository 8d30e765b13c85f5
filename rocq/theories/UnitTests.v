(** * UnitTests.v -- the unit tests of the crate, run in the model

    Every [assert_eq!] of the tests in src/chan.rs:698-910 (the crate has no
    other tests), translated line by line.  They are a check of the model, not of
    the code: a definition that departs from the code these tests cover does not
    build. *)
From Coq Require Import ZArith Bool List.
From Flocq Require Import IEEE754.BinarySingleNaN.
From Verif Require Import Rust Float Chan.
Import ListNotations.
Open Scope Z_scope.

Definition n8 (z : Z) : res (chan K8) := Ok (ch8_new (as_sint W8 z)).
Definition n16 (z : Z) : res (chan K16) := Ok (ch16_new (as_sint W16 z)).
Definition n32 (x : f32) : res (chan K32) := Ok (ch32_new x).
Definition n64 (x : f64) : res (chan K64) := Ok (ch64_new x).
Definition add {k} (a b : res (chan k)) : res (chan k) := x <- a ;; y <- b ;; Ok (c_add x y).
Definition sub {k} (a b : res (chan k)) : res (chan k) := x <- a ;; y <- b ;; Ok (c_sub x y).
Definition mul {k} (a b : res (chan k)) : res (chan k) := x <- a ;; y <- b ;; c_mul x y.
Definition div {k} (a b : res (chan k)) : res (chan k) := x <- a ;; y <- b ;; c_div x y.
Definition neg {k} (a : res (chan k)) : res (chan k) := x <- a ;; c_neg x.
Definition to {k} (a : res (chan k)) : res f64 := x <- a ;; Ok (to_f64 x).
Definition from k (a : res f64) : res (chan k) := x <- a ;; Ok (from_f64 k x).
Definition into k1 k2 (a : res (chan k1)) : res (chan k2) := x <- a ;; Ok (chan_from k1 k2 x).
(** [assert_eq!] on channels and on f64: no panic, and [==]. *)
Definition same {k} (a b : res (chan k)) : bool := match a, b with Ok x, Ok y => c_eqb x y | _, _ => false end.
Definition same_f64 (a b : res f64) : bool := match a, b with Ok x, Ok y => feq x y | _, _ => false end.

(** src/chan.rs:703-720 *)
Example channel_neg : forallb id [
  same (n8 (-128)) (neg (n8 127));
  same (n16 (-32768)) (neg (n16 32767));
  same (n32 (flit (-1) 0)) (neg (n32 (flit 1 0)));
  same (n64 (flit (-1) 0)) (neg (n64 (flit 1 0)));
  same (n8 127) (neg (n8 (-128)));
  same (n16 32767) (neg (n16 (-32768)));
  same (n32 (flit 1 0)) (neg (n32 (flit (-1) 0)));
  same (n64 (flit 1 0)) (neg (n64 (flit (-1) 0)));
  same (n8 (-1)) (neg (n8 0));
  same (n8 0) (neg (n8 (-1)));
  same (n16 (-1)) (neg (n16 0));
  same (n16 0) (neg (n16 (-1)));
  same (n32 (flit 0 0)) (neg (n32 (flit 0 0)));
  same (n64 (flit 0 0)) (neg (n64 (flit 0 0)))] = true.
Proof. vm_compute. reflexivity. Qed.
(** src/chan.rs:723-730 *)
Example ch8_roundtrip : forallb id [
  same_f64 (Ok (flit (-1) 0)) (to (n8 (-128)));
  same_f64 (Ok (flit 1 0)) (to (n8 127));
  same (n8 (-128)) (from K8 (to (n8 (-128))));
  same (n8 0) (from K8 (to (n8 0)));
  same (n8 127) (from K8 (to (n8 127)))] = true.
Proof. vm_compute. reflexivity. Qed.
(** src/chan.rs:733-743 *)
Example ch16_roundtrip : forallb id [
  same_f64 (Ok (flit (-1) 0)) (to (n16 (-32768)));
  same_f64 (Ok (flit 1 0)) (to (n16 32767));
  same (n16 (-32768)) (from K16 (to (n16 (-32768))));
  same (n16 0) (from K16 (to (n16 0)));
  same (n16 32767) (from K16 (to (n16 32767)))] = true.
Proof. vm_compute. reflexivity. Qed.
(** src/chan.rs:746-754 *)
Example ch32_roundtrip : forallb id [
  same_f64 (Ok (flit (-1) 0)) (to (n32 (flit (-1) 0)));
  same_f64 (Ok (flit 0 0)) (to (n32 (flit 0 0)));
  same_f64 (Ok (flit 1 0)) (to (n32 (flit 1 0)));
  same (n32 (flit (-1) 0)) (from K32 (to (n32 (flit (-1) 0))));
  same (n32 (flit 0 0)) (from K32 (to (n32 (flit 0 0))));
  same (n32 (flit 1 0)) (from K32 (to (n32 (flit 1 0))))] = true.
Proof. vm_compute. reflexivity. Qed.
(** src/chan.rs:757-760 *)
Example ch8_to_ch16 : forallb id [
  same (n16 (-32768)) (into K8 K16 (n8 (-128)));
  same (n16 32767) (into K8 K16 (n8 127))] = true.
Proof. vm_compute. reflexivity. Qed.
(** src/chan.rs:763-767 *)
Example ch16_to_ch8 : forallb id [
  same (n8 (-128)) (into K16 K8 (n16 (-32768)));
  same (n8 0) (into K16 K8 (n16 0));
  same (n8 127) (into K16 K8 (n16 32767))] = true.
Proof. vm_compute. reflexivity. Qed.
(** src/chan.rs:770-794 *)
Example ch8_arith : forallb id [
  same (n8 (-1)) (add (n8 (-128)) (n8 127));
  same (n8 32) (add (n8 (-32)) (n8 64));
  same (n8 127) (add (n8 0) (n8 127));
  same (n8 (-128)) (add (n8 (-64)) (n8 (-64)));
  same (n8 0) (sub (n8 (-128)) (n8 (-128)));
  same (n8 0) (sub (n8 127) (n8 127));
  same (n8 (-127)) (sub (n8 0) (n8 127));
  same (n8 0) (mul (n8 0) (n8 127));
  same (n8 127) (mul (n8 127) (n8 127));
  same (n8 (-128)) (mul (n8 127) (n8 (-128)));
  same (n8 (-128)) (mul (n8 (-128)) (n8 127));
  same (n8 127) (mul (n8 (-128)) (n8 (-128)));
  same (n8 (-64)) (mul (n8 127) (n8 (-64)));
  same (n8 0) (div (n8 0) (n8 127));
  same (n8 127) (div (n8 127) (n8 127));
  same (n8 (-128)) (div (n8 127) (n8 (-128)));
  same (n8 (-128)) (div (n8 (-128)) (n8 127));
  same (n8 127) (div (n8 (-128)) (n8 (-128)));
  same (n8 (-128)) (div (n8 64) (n8 (-64)))] = true.
Proof. vm_compute. reflexivity. Qed.
(** src/chan.rs:797-821 *)
Example ch16_arith : forallb id [
  same (n16 (-1)) (add (n16 (-32768)) (n16 32767));
  same (n16 8192) (add (n16 (-8192)) (n16 16384));
  same (n16 32767) (add (n16 0) (n16 32767));
  same (n16 (-32768)) (add (n16 (-16384)) (n16 (-16384)));
  same (n16 0) (sub (n16 (-32768)) (n16 (-32768)));
  same (n16 0) (sub (n16 32767) (n16 32767));
  same (n16 (-32767)) (sub (n16 0) (n16 32767));
  same (n16 0) (mul (n16 0) (n16 32767));
  same (n16 32767) (mul (n16 32767) (n16 32767));
  same (n16 (-32768)) (mul (n16 32767) (n16 (-32768)));
  same (n16 (-32768)) (mul (n16 (-32768)) (n16 32767));
  same (n16 32767) (mul (n16 (-32768)) (n16 (-32768)));
  same (n16 (-16384)) (mul (n16 32767) (n16 (-16384)));
  same (n16 0) (div (n16 0) (n16 32767));
  same (n16 32767) (div (n16 32767) (n16 32767));
  same (n16 (-32768)) (div (n16 32767) (n16 (-32768)));
  same (n16 (-32768)) (div (n16 (-32768)) (n16 32767));
  same (n16 32767) (div (n16 (-32768)) (n16 (-32768)));
  same (n16 (-32768)) (div (n16 16384) (n16 (-16384)))] = true.
Proof. vm_compute. reflexivity. Qed.
(** src/chan.rs:824-847 *)
Example ch32_arith : forallb id [
  same (n32 (flit 0 0)) (add (n32 (flit (-1) 0)) (n32 (flit 1 0)));
  same (n32 (flit 1 (-2))) (add (n32 (flit (-1) (-2))) (n32 (flit 1 (-1))));
  same (n32 (flit 1 0)) (add (n32 (flit 0 0)) (n32 (flit 1 0)));
  same (n32 (flit (-1) 0)) (add (n32 (flit (-1) (-1))) (n32 (flit (-1) (-1))));
  same (n32 (flit 0 0)) (sub (n32 (flit (-1) 0)) (n32 (flit (-1) 0)));
  same (n32 (flit 0 0)) (sub (n32 (flit 1 0)) (n32 (flit 1 0)));
  same (n32 (flit (-1) 0)) (sub (n32 (flit 0 0)) (n32 (flit 1 0)));
  same (n32 (flit 0 0)) (mul (n32 (flit 0 0)) (n32 (flit 1 0)));
  same (n32 (flit 1 0)) (mul (n32 (flit 1 0)) (n32 (flit 1 0)));
  same (n32 (flit (-1) 0)) (mul (n32 (flit 1 0)) (n32 (flit (-1) 0)));
  same (n32 (flit 1 0)) (mul (n32 (flit (-1) 0)) (n32 (flit (-1) 0)));
  same (n32 (flit (-1) (-1))) (mul (n32 (flit 1 0)) (n32 (flit (-1) (-1))));
  same (n32 (flit 0 0)) (div (n32 (flit 0 0)) (n32 (flit 1 0)));
  same (n32 (flit 1 0)) (div (n32 (flit 1 0)) (n32 (flit 1 0)));
  same (n32 (flit (-1) 0)) (div (n32 (flit 1 0)) (n32 (flit (-1) 0)));
  same (n32 (flit (-1) 0)) (div (n32 (flit (-1) 0)) (n32 (flit 1 0)));
  same (n32 (flit 1 0)) (div (n32 (flit (-1) 0)) (n32 (flit (-1) 0)));
  same (n32 (flit (-1) 0)) (div (n32 (flit 1 (-1))) (n32 (flit (-1) (-1))))] = true.
Proof. vm_compute. reflexivity. Qed.
(** src/chan.rs:850-873 *)
Example ch64_arith : forallb id [
  same (n64 (flit 0 0)) (add (n64 (flit (-1) 0)) (n64 (flit 1 0)));
  same (n64 (flit 1 (-2))) (add (n64 (flit (-1) (-2))) (n64 (flit 1 (-1))));
  same (n64 (flit 1 0)) (add (n64 (flit 0 0)) (n64 (flit 1 0)));
  same (n64 (flit (-1) 0)) (add (n64 (flit (-1) (-1))) (n64 (flit (-1) (-1))));
  same (n64 (flit 0 0)) (sub (n64 (flit (-1) 0)) (n64 (flit (-1) 0)));
  same (n64 (flit 0 0)) (sub (n64 (flit 1 0)) (n64 (flit 1 0)));
  same (n64 (flit (-1) 0)) (sub (n64 (flit 0 0)) (n64 (flit 1 0)));
  same (n64 (flit 0 0)) (mul (n64 (flit 0 0)) (n64 (flit 1 0)));
  same (n64 (flit 1 0)) (mul (n64 (flit 1 0)) (n64 (flit 1 0)));
  same (n64 (flit (-1) 0)) (mul (n64 (flit 1 0)) (n64 (flit (-1) 0)));
  same (n64 (flit 1 0)) (mul (n64 (flit (-1) 0)) (n64 (flit (-1) 0)));
  same (n64 (flit (-1) (-1))) (mul (n64 (flit 1 0)) (n64 (flit (-1) (-1))));
  same (n64 (flit 0 0)) (div (n64 (flit 0 0)) (n64 (flit 1 0)));
  same (n64 (flit 1 0)) (div (n64 (flit 1 0)) (n64 (flit 1 0)));
  same (n64 (flit (-1) 0)) (div (n64 (flit 1 0)) (n64 (flit (-1) 0)));
  same (n64 (flit (-1) 0)) (div (n64 (flit (-1) 0)) (n64 (flit 1 0)));
  same (n64 (flit 1 0)) (div (n64 (flit (-1) 0)) (n64 (flit (-1) 0)));
  same (n64 (flit (-1) 0)) (div (n64 (flit 1 (-1))) (n64 (flit (-1) (-1))))] = true.
Proof. vm_compute. reflexivity. Qed.
(** src/chan.rs:876-882 *)
Example ch8_saturation : forallb id [
  same (n8 127) (add (n8 96) (n8 64));
  same (n8 (-128)) (add (n8 (-64)) (n8 (-96)));
  same (n8 (-128)) (sub (n8 (-64)) (n8 96));
  same (n8 127) (div (n8 64) (n8 32));
  same (n8 (-128)) (div (n8 64) (n8 (-32)))] = true.
Proof. vm_compute. reflexivity. Qed.
(** src/chan.rs:885-891 *)
Example ch16_saturation : forallb id [
  same (n16 32767) (add (n16 24576) (n16 16384));
  same (n16 (-32768)) (add (n16 (-16384)) (n16 (-24576)));
  same (n16 (-32768)) (sub (n16 (-16384)) (n16 24576));
  same (n16 32767) (div (n16 16384) (n16 8192));
  same (n16 (-32768)) (div (n16 16384) (n16 (-8192)))] = true.
Proof. vm_compute. reflexivity. Qed.
(** src/chan.rs:894-900 *)
Example ch32_saturation : forallb id [
  same (n32 (flit 1 0)) (add (n32 (flit 3 (-2))) (n32 (flit 1 (-1))));
  same (n32 (flit (-1) 0)) (add (n32 (flit (-1) (-1))) (n32 (flit (-3) (-2))));
  same (n32 (flit (-1) 0)) (sub (n32 (flit (-1) (-1))) (n32 (flit 3 (-2))));
  same (n32 (flit 1 0)) (div (n32 (flit 1 (-1))) (n32 (flit 1 (-2))));
  same (n32 (flit (-1) 0)) (div (n32 (flit 1 (-1))) (n32 (flit (-1) (-2))))] = true.
Proof. vm_compute. reflexivity. Qed.
(** src/chan.rs:903-909 *)
Example ch64_saturation : forallb id [
  same (n64 (flit 1 0)) (add (n64 (flit 3 (-2))) (n64 (flit 1 (-1))));
  same (n64 (flit (-1) 0)) (add (n64 (flit (-1) (-1))) (n64 (flit (-3) (-2))));
  same (n64 (flit (-1) 0)) (sub (n64 (flit (-1) (-1))) (n64 (flit 3 (-2))));
  same (n64 (flit 1 0)) (div (n64 (flit 1 (-1))) (n64 (flit 1 (-2))));
  same (n64 (flit (-1) 0)) (div (n64 (flit 1 (-1))) (n64 (flit (-1) (-2))))] = true.
Proof. vm_compute. reflexivity. Qed.
