(** * PropSmooth.v -- property theorems C99 *)
From Coq Require Import ZArith NArith Reals Bool List Lia Lra.
From Flocq Require Import Core.Core IEEE754.BinarySingleNaN.
From Verif Require Import Rust Float Chan Frame Ops Stream Audio SpecChan SpecFrame SpecStream SpecSink SpecAudio SpecMix SpecArith SpecSmooth.
From Verif Require Import IntProofs SmoothProofs.
Import ListNotations.
Open Scope R_scope.

(** ** C99 *)
(** A sum or difference moves no more than its two operands together, saturating or not; in integer formats exactly. *)
Theorem C99_add : forall k (a a' b b' : chan k), valid a -> valid a' -> valid b -> valid b' ->
  distance (c_add a b) (c_add a' b') <= distance a a' + distance b b' + sum_slack k.
Proof. exact smooth_add. Qed.
Print Assumptions C99_add.
Theorem C99_sub : forall k (a a' b b' : chan k), valid a -> valid a' -> valid b -> valid b' ->
  distance (c_sub a b) (c_sub a' b') <= distance a a' + distance b b' + sum_slack k.
Proof. exact smooth_sub. Qed.
Print Assumptions C99_sub.
(** So a product, up to rounding; *)
Theorem C99_mul : forall k (a a' b b' : chan k), valid a -> valid a' -> valid b -> valid b' -> exists c c',
  c_mul a b = Ok c /\ c_mul a' b' = Ok c' /\ distance c c' <= distance a a' + distance b b' + 2 * product_error k.
Proof. exact smooth_mul. Qed.
Print Assumptions C99_mul.
(** turning a sample over keeps distances, *)
Theorem C99_neg : forall k (a a' : chan k), exists c c', c_neg a = Ok c /\ c_neg a' = Ok c' /\ distance c c' = distance a a'.
Proof. exact smooth_neg. Qed.
Print Assumptions C99_neg.
(** and so do conversions of samples, up to the error of both, *)
Theorem C99_kind : forall w k k2 (a a' : chan k), valid a -> valid a' ->
  distance (to_kind w k2 a) (to_kind w k2 a') <= distance a a' + 2 * conversion_error k k2.
Proof. exact smooth_kind. Qed.
Print Assumptions C99_kind.
(** and of frames between any layouts. *)
Theorem C99_convert : forall l k l2 k2 (f g : frame l k) e, 0 <= e -> close e f g ->
  exists f2 g2, convert l2 k2 f = Ok f2 /\ convert l2 k2 g = Ok g2 /\ close (e + convert_slack k k2) f2 g2.
Proof. exact smooth_convert. Qed.
Print Assumptions C99_convert.
(** Blending frames, *)
Theorem C99_mix : forall l k op (f f' g g' : frame l k) e d, op = Src \/ op = Dest \/ op = Clear \/ op = Plus \/ op = Amplify ->
  0 <= e -> 0 <= d -> close e f f' -> close d g g' ->
  exists h h', mix_frames op f g = Ok h /\ mix_frames op f' g' = Ok h' /\ close (e + d + mix_slack op k) h h'.
Proof. exact smooth_mix. Qed.
Print Assumptions C99_mix.
(** interpolating between them, *)
Theorem C99_lerp : forall k (a a' b b' t t' : chan k), valid a -> valid a' -> valid b -> valid b' -> valid t -> valid t' -> exists c c',
  c_lerp a b t = Ok c /\ c_lerp a' b' t' = Ok c' /\ valid c /\ valid c' /\ distance c c' <= 2 * distance a a' + distance b b' + distance t t' + lerp_slack k.
Proof. exact smooth_lerp. Qed.
Print Assumptions C99_lerp.
Theorem C99_frame_lerp : forall l k (f f' g g' h h' : frame l k) d e r, close d f f' -> close e g g' -> close r h h' ->
  exists u u', frame_lerp f g h = Ok u /\ frame_lerp f' g' h' = Ok u' /\ close (2 * d + e + r + lerp_slack k) u u'.
Proof. exact smooth_frame_lerp. Qed.
Print Assumptions C99_frame_lerp.
(** and mixing any number of tracks. *)
Theorem C99_mixdown : forall l k (a a' : stream l k) bs bs' t t' n j c c', length bs = length bs' -> mixdown a bs = Ok t -> mixdown a' bs' = Ok t' ->
  given t n j c -> given t' n j c' ->
  exists cs ds, together (a :: bs) n j cs /\ together (a' :: bs') n j ds /\
    (Forall valid cs -> Forall valid ds -> distance c c' <= distances cs ds + INR (length bs) * sum_slack k).
Proof. exact smooth_mixdown. Qed.
Print Assumptions C99_mixdown.
(** A product of integers can move more than its factors: 126 by -128 is -126, 127 by -128 is -128. *)
Theorem C99_mul_exact_refuted : ~ forall a a' b c c' : chan K8, c_mul a b = Ok c -> c_mul a' b = Ok c' -> distance c c' <= distance a a'.
Proof.
  intros H. specialize (H (as_sint W8 126) (as_sint W8 127) (as_sint W8 (-128)) (as_sint W8 (-126)) (as_sint W8 (-128))).
  assert (E : c_mul (as_sint W8 126 : chan K8) (as_sint W8 (-128)) = Ok (as_sint W8 (-126))) by (vm_compute; reflexivity).
  assert (E2 : c_mul (as_sint W8 127 : chan K8) (as_sint W8 (-128)) = Ok (as_sint W8 (-128))) by (vm_compute; reflexivity).
  specialize (H E E2). unfold distance, amplitude, code_value in H. rewrite !sv_as8 in H by lia.
  change (2 * -126 + 1)%Z with (-251)%Z in H. change (2 * -128 + 1)%Z with (-255)%Z in H. change (2 * 126 + 1)%Z with 253%Z in H. change (2 * 127 + 1)%Z with 255%Z in H.
  change (2 ^ 8 - 1)%Z with 255%Z in H. rewrite Rabs_pos_eq, Rabs_left in H by lra. lra.
Qed.
Print Assumptions C99_mul_exact_refuted.
(** Two stereo frames one code apart, and what Plus makes of them. *)
Notation st x y := ((as_sint W8 x, (as_sint W8 y, tt)) : frame Stereo K8) (only parsing).
Definition codes (r : res (frame Stereo K8)) : list Z := match r with Ok f => map sv (channels f) | _ => [] end.
Example C99_case : close (2 / 255) (st 10 (-20)) (st 11 (-20)) /\ close (4 / 255) (st 100 5) (st 100 7) /\
  codes (mix_frames Plus (st 10 (-20)) (st 100 5)) = [110; -15]%Z /\ codes (mix_frames Plus (st 11 (-20)) (st 100 7)) = [111; -13]%Z.
Proof.
  assert (D : forall x y, (-128 <= x <= 127)%Z -> (-128 <= y <= 127)%Z -> distance (as_sint W8 x : chan K8) (as_sint W8 y : chan K8) = Rabs (IZR (x - y)) * 2 / 255).
  { intros x y Hx Hy. unfold distance, amplitude, code_value. rewrite !sv_as8 by lia. change (2 ^ 8 - 1)%Z with 255%Z. rewrite minus_IZR, !plus_IZR, !mult_IZR.
    replace ((2 * IZR x + 1) / 255 - (2 * IZR y + 1) / 255) with ((IZR x - IZR y) * (2 / 255)) by lra. rewrite Rabs_mult, (Rabs_pos_eq (2 / 255)) by lra. lra. }
  split; [|split; [|split; vm_compute; reflexivity]].
  - apply Forall2_cons; [|apply Forall2_cons; [|apply Forall2_nil]].
    + split; [exact I|]; split; [exact I|]; apply Rle_trans with (1 := Req_le _ _ (D (10)%Z (11)%Z ltac:(lia) ltac:(lia))); change (10 - 11)%Z with (-1)%Z; rewrite Rabs_left by lra; lra.
    + split; [exact I|]; split; [exact I|]; apply Rle_trans with (1 := Req_le _ _ (D (-20)%Z (-20)%Z ltac:(lia) ltac:(lia))); change (-20 - -20)%Z with (0)%Z; rewrite Rabs_R0; lra.
  - apply Forall2_cons; [|apply Forall2_cons; [|apply Forall2_nil]].
    + split; [exact I|]; split; [exact I|]; apply Rle_trans with (1 := Req_le _ _ (D (100)%Z (100)%Z ltac:(lia) ltac:(lia))); change (100 - 100)%Z with (0)%Z; rewrite Rabs_R0; lra.
    + split; [exact I|]; split; [exact I|]; apply Rle_trans with (1 := Req_le _ _ (D (5)%Z (7)%Z ltac:(lia) ltac:(lia))); change (5 - 7)%Z with (-2)%Z; rewrite Rabs_left by lra; lra.
Qed.
