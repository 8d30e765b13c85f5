(** * SpecUserPan.v -- vocabulary for C80 *)
From Coq Require Import ZArith Reals List Sorted.
From Flocq Require Import Core.Core IEEE754.BinarySingleNaN.
From Verif Require Import Rust Float Chan.
Import ListNotations.

(** A speaker configuration as documented: locations listed from left to right. *)
Definition left_to_right (conf : list f64) : Prop :=
  Forall (fun c => is_finite c = true) conf /\ Sorted (fun a b : f64 => (B2R a < B2R b)%R) conf.
(** The two speakers for position [s]: the first two from the first location on, and the
    last and the first to the left of it. *)
Definition speakers (conf : list f64) (s : f64) : nat * nat :=
  match conf with
  | [] => (0, 0)%nat
  | c :: _ => if Bleb c s then (0, Nat.modulo 1 (length conf))%nat else (length conf - 1, 0)%nat
  end.
(** A frame of [n] channels has both of them. *)
Definition present (conf : list f64) (n : nat) (s : f64) : Prop :=
  (fst (speakers conf s) < n)%nat /\ (snd (speakers conf s) < n)%nat.
