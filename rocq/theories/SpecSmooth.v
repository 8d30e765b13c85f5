(** * SpecSmooth.v -- samples and frames that differ little (C99) *)
From Coq Require Import ZArith Reals List.
From Flocq Require Import Core.Core.
From Verif Require Import Rust Chan Frame Ops SpecChan SpecFrame SpecArith.
Open Scope R_scope.

(** How far apart two samples are. *)
Definition distance {k} (a b : chan k) : R := Rabs (amplitude a - amplitude b).
(** Frames within full scale, in every channel at most [e] apart. *)
Definition close {l k} (e : R) (f g : frame l k) : Prop :=
  Forall2 (fun a b => valid a /\ valid b /\ distance a b <= e) (channels f) (channels g).
(** The distances of two rows of samples, added up. *)
Fixpoint distances {k} (cs ds : list (chan k)) : R :=
  match cs, ds with c :: cs, d :: ds => distance c d + distances cs ds | _, _ => 0 end.
(** What rounding can add: nothing to sums of integers. *)
Definition sum_slack (k : ck) : R := match k with K8 | K16 => 0 | _ => 2 * sum_error k end.
Definition mix_slack (op : blend_op) (k : ck) : R :=
  match op with Plus => sum_slack k | Amplify => 2 * product_error k | _ => 0 end.
(** A conversion goes through [f64]; a mean of two channels is rounded there. *)
Definition convert_slack (k k2 : ck) : R := 2 * (conversion_error k K64 + bpow radix2 (-53) + conversion_error K64 k2).
(** [lerp] is a difference, a product and a sum. *)
Definition lerp_slack (k : ck) : R := 2 * sum_slack k + 2 * product_error k.
