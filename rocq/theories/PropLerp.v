(** * PropLerp.v -- property theorems C101 *)
From Coq Require Import ZArith NArith Reals Bool List Lia Lra.
From Flocq Require Import Core.Core IEEE754.BinarySingleNaN.
From Verif Require Import Rust Float Chan Frame Ops Stream Audio SpecChan SpecFrame SpecStream SpecSink SpecAudio SpecMix SpecArith SpecLerp.
From Verif Require Import IntProofs LerpProofs.
Import ListNotations.
Open Scope R_scope.

(** ** C101 *)
(** Interpolating between samples less than half the range apart: the point on the way from one to the other, up to rounding. *)
Theorem C101_near : forall k (a b t c : chan k), valid a -> valid b -> valid t -> 0 <= amplitude t -> Rabs (amplitude b - amplitude a) <= 1 -> c_lerp a b t = Ok c ->
  Rabs (amplitude c - on_the_way (amplitude a) (amplitude b) (amplitude t)) <= way_error k.
Proof. exact lerp_near. Qed.
Print Assumptions C101_near.
(** Farther apart the difference saturates: the result is [t] away from [a], whatever [b]. *)
Theorem C101_far : forall k (a b t c : chan k), valid a -> valid b -> valid t -> 0 <= amplitude t -> c_lerp a b t = Ok c ->
  (1 <= amplitude b - amplitude a -> Rabs (amplitude c - (amplitude a + amplitude t)) <= way_error k) /\
  (1 <= amplitude a - amplitude b -> Rabs (amplitude c - (amplitude a - amplitude t)) <= way_error k).
Proof. exact lerp_far. Qed.
Print Assumptions C101_far.
(** Frames, channel by channel. *)
Theorem C101_frames : forall l k (f g h z : frame l k), frame_lerp f g h = Ok z -> forall i a b t, nth_error (channels f) i = Some a -> nth_error (channels g) i = Some b ->
  nth_error (channels h) i = Some t -> valid a -> valid b -> valid t -> 0 <= amplitude t -> Rabs (amplitude b - amplitude a) <= 1 ->
  exists c, nth_error (channels z) i = Some c /\ Rabs (amplitude c - on_the_way (amplitude a) (amplitude b) (amplitude t)) <= way_error k.
Proof. exact lerp_frames. Qed.
Print Assumptions C101_frames.
(** "Half way between any two samples is their mean" is false: half way from the lowest to the highest code. *)
Lemma half_way : match c_lerp (MIN K8) (MAX K8) (as_sint W8 64) with Ok c => sv (c : chan K8) | _ => 0%Z end = (-64)%Z.
Proof. vm_compute. reflexivity. Qed.
Theorem C101_any_refuted : ~ forall (a b t c : chan K8), valid a -> valid b -> valid t -> 0 <= amplitude t -> c_lerp a b t = Ok c ->
  Rabs (amplitude c - on_the_way (amplitude a) (amplitude b) (amplitude t)) <= / 3.
Proof.
  intros H. destruct (c_lerp (MIN K8) (MAX K8) (as_sint W8 64)) as [c|p|] eqn:E; pose proof half_way as W; rewrite E in W; [|discriminate|discriminate].
  assert (V : forall z, (-128 <= z <= 127)%Z -> amplitude (as_sint W8 z : chan K8) = IZR (2 * z + 1) / 255).
  { intros z Hz. unfold amplitude, code_value. rewrite sv_as8 by lia. reflexivity. }
  assert (A : amplitude (MIN K8) = -1) by (change (amplitude (MIN K8)) with (IZR (2 * sv (MIN K8 : chan K8) + 1) / 255); replace (sv (MIN K8 : chan K8)) with (-128)%Z by (vm_compute; reflexivity); change (2 * -128 + 1)%Z with (-255)%Z; lra).
  assert (B : amplitude (MAX K8) = 1) by (change (amplitude (MAX K8)) with (IZR (2 * sv (MAX K8 : chan K8) + 1) / 255); replace (sv (MAX K8 : chan K8)) with 127%Z by (vm_compute; reflexivity); change (2 * 127 + 1)%Z with 255%Z; lra).
  assert (T : amplitude (as_sint W8 64 : chan K8) = 129 / 255) by (rewrite V by lia; change (2 * 64 + 1)%Z with 129%Z; reflexivity).
  assert (C : amplitude c = -127 / 255) by (change (amplitude c) with (IZR (2 * sv c + 1) / 255); rewrite W; change (2 * -64 + 1)%Z with (-127)%Z; reflexivity).
  specialize (H _ _ _ c I I I ltac:(rewrite T; lra) E). rewrite A, B, T, C in H. unfold on_the_way in H. apply Rabs_le_inv in H. lra.
Qed.
Print Assumptions C101_any_refuted.
(** A quarter of the way from -20 to 80. *)
Example C101_case : match c_lerp (as_sint W8 (-20) : chan K8) (as_sint W8 80) (as_sint W8 32) with Ok c => sv (c : chan K8) | _ => 0%Z end = 5%Z /\
  0 <= amplitude (as_sint W8 32 : chan K8) /\ Rabs (amplitude (as_sint W8 80 : chan K8) - amplitude (as_sint W8 (-20) : chan K8)) <= 1.
Proof.
  split; [vm_compute; reflexivity|]. unfold amplitude, code_value. rewrite !sv_as8 by lia. change (2 ^ 8 - 1)%Z with 255%Z.
  change (2 * 32 + 1)%Z with 65%Z. change (2 * 80 + 1)%Z with 161%Z. change (2 * -20 + 1)%Z with (-39)%Z. split; [lra|]. rewrite Rabs_pos_eq by lra. lra.
Qed.
