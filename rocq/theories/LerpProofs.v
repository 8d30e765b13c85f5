(** * LerpProofs.v -- proofs for C101 *)
From Coq Require Import ZArith NArith Reals Bool List Lia Lra.
From Flocq Require Import Core.Core IEEE754.BinarySingleNaN.
From Verif Require Import Rust Float Chan Frame Ops Stream Audio SpecChan SpecFrame SpecStream SpecSink SpecAudio SpecMix SpecArith SpecLerp.
From Verif Require Import FloatProofs FArithProofs FChanProofs IntProofs FrameProofs CopyProofs MixedProofs FadeProofs MixProofs ArithProofs.
Import ListNotations.
Open Scope R_scope.

Lemma lerp_law k (a b t : chan k) : valid a -> valid b -> valid t -> exists c, c_lerp a b t = Ok c /\ valid c /\
  Rabs (amplitude c - clampR (amplitude a + amplitude t * clampR (amplitude b - amplitude a))) <= way_error k.
Proof.
  intros A B T. unfold c_lerp, way_error. pose proof (sub_valid k b a) as V. pose proof (sub_amp k b a B A) as D.
  destruct (mul_amp k t (c_sub b a) T V) as (p & E & Vp & M). rewrite E. cbn [bind]. exists (c_add a p). split; [reflexivity|]. split; [apply add_valid; assumption|].
  pose proof (add_amp k a p A Vp) as Su. pose proof (amp_range _ _ T) as Rt.
  assert (L : Rabs (amplitude p - amplitude t * clampR (amplitude b - amplitude a)) <= product_error k + sum_error k).
  { apply (near _ _ _ _ _ M). rewrite <- Rmult_minus_distr_l, Rabs_mult. assert (Rabs (amplitude t) <= 1) by (apply Rabs_le; lra).
    pose proof (Rabs_pos (amplitude (c_sub b a) - clampR (amplitude b - amplitude a))). pose proof (Rabs_pos (amplitude t)). nra. }
  assert (L2 : Rabs (clampR (amplitude a + amplitude p) - clampR (amplitude a + amplitude t * clampR (amplitude b - amplitude a))) <= product_error k + sum_error k).
  { apply clampR_lip. replace (_ - _) with (amplitude p - amplitude t * clampR (amplitude b - amplitude a)) by ring. exact L. }
  pose proof (near _ _ _ _ _ Su L2). lra.
Qed.
Lemma clampR_id x : -1 <= x <= 1 -> clampR x = x.
Proof. intros H. unfold clampR. repeat destruct Rlt_dec; lra. Qed.
Lemma lerp_near k (a b t c : chan k) : valid a -> valid b -> valid t -> 0 <= amplitude t -> Rabs (amplitude b - amplitude a) <= 1 -> c_lerp a b t = Ok c ->
  Rabs (amplitude c - on_the_way (amplitude a) (amplitude b) (amplitude t)) <= way_error k.
Proof.
  intros A B T T0 N E. destruct (lerp_law k a b t A B T) as (c' & E' & _ & L). rewrite E in E'. injection E' as <-.
  apply Rabs_le_inv in N. pose proof (amp_range _ _ A). pose proof (amp_range _ _ B). pose proof (amp_range _ _ T).
  rewrite (clampR_id (amplitude b - amplitude a)) in L by lra. rewrite clampR_id in L; [exact L|]. nra.
Qed.
Lemma lerp_far k (a b t c : chan k) : valid a -> valid b -> valid t -> 0 <= amplitude t -> c_lerp a b t = Ok c ->
  (1 <= amplitude b - amplitude a -> Rabs (amplitude c - (amplitude a + amplitude t)) <= way_error k) /\
  (1 <= amplitude a - amplitude b -> Rabs (amplitude c - (amplitude a - amplitude t)) <= way_error k).
Proof.
  intros A B T T0 E. destruct (lerp_law k a b t A B T) as (c' & E' & _ & L). rewrite E in E'. injection E' as <-.
  pose proof (amp_range _ _ A). pose proof (amp_range _ _ B). pose proof (amp_range _ _ T).
  split; intros N.
  - replace (clampR (amplitude b - amplitude a)) with 1 in L by (unfold clampR; repeat destruct Rlt_dec; lra). rewrite Rmult_1_r, clampR_id in L by lra. exact L.
  - replace (clampR (amplitude b - amplitude a)) with (-1) in L by (unfold clampR; repeat destruct Rlt_dec; lra).
    replace (amplitude a + amplitude t * -1) with (amplitude a - amplitude t) in L by ring. rewrite clampR_id in L by lra. exact L.
Qed.
Lemma lerp_frames l k (f g h z : frame l k) : frame_lerp f g h = Ok z -> forall i a b t, nth_error (channels f) i = Some a -> nth_error (channels g) i = Some b ->
  nth_error (channels h) i = Some t -> valid a -> valid b -> valid t -> 0 <= amplitude t -> Rabs (amplitude b - amplitude a) <= 1 ->
  exists c, nth_error (channels z) i = Some c /\ Rabs (amplitude c - on_the_way (amplitude a) (amplitude b) (amplitude t)) <= way_error k.
Proof.
  intros E i a b t Ha Hb Ht A B T T0 N. destruct (frame_lerp_channelwise l k f g h) as (z' & E' & C). rewrite E in E'. injection E' as <-.
  destruct (C i a b t Ha Hb Ht) as (c & L & Hc). exists c. split; [exact Hc|]. exact (lerp_near k a b t c A B T T0 N L).
Qed.
