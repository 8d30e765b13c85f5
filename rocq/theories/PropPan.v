(** * PropPan.v -- C79: levels of a panned channel, constant power *)
From Coq Require Import ZArith Reals List Lra.
From Flocq Require Import Core.Core IEEE754.BinarySingleNaN.
From Verif Require Import Rust Float Chan Frame Ops SpecChan SpecFrame SpecPan.
From Verif Require Import FrameProofs PiProofs PanProofs.
Import ListNotations.
Open Scope R_scope.

(** ** C79 *)
(** A single sounding channel [x] panned to position [p] comes out of the two speakers
    with the gains cos and sin of the panning angle, and of no others. *)
Theorem C79_levels : forall l k t e (d s : frame l k) j x p a b th,
  accurate t e -> frame_valid d -> frame_valid s -> only d j x -> nth_error (channels s) j = Some p ->
  pan_law l (B2R (to_f64 p)) a b th ->
  exists out u v, mix_frames (Pan_ t) d s = Ok out /\ a <> b /\
    nth_error (channels out) a = Some u /\ nth_error (channels out) b = Some v /\
    Rabs (rval u - rval x * cos th) <= tolerance k (e + angle_error) /\
    Rabs (rval v - rval x * sin th) <= tolerance k (e + angle_error) /\
    forall i c, i <> a -> i <> b -> nth_error (channels out) i = Some c -> rval c = 0.
Proof. exact law_levels. Qed.
Print Assumptions C79_levels.
(** Every position is covered by the law. *)
Theorem C79_law_total : forall l s, l <> Mono -> exists a b th, pan_law l s a b th.
Proof. exact law_exists. Qed.
Print Assumptions C79_law_total.
(** Panning neither adds nor loses power. *)
Theorem C79_constant_power : forall l k t e (d s : frame l k) j x p, l <> Mono ->
  accurate t e -> frame_valid d -> frame_valid s -> only d j x -> nth_error (channels s) j = Some p ->
  exists out, mix_frames (Pan_ t) d s = Ok out /\
    Rabs (power out - power d) <= 2 * tolerance k (e + angle_error) * (2 * full_scale k + tolerance k (e + angle_error)).
Proof. exact constant_power. Qed.
Print Assumptions C79_constant_power.
(** "MID is straight ahead": near position 0 the two speakers of a stereo frame are level. *)
Theorem C79_centre : forall k t e (d s : frame Stereo k) j x p,
  accurate t e -> frame_valid d -> frame_valid s -> only d j x -> nth_error (channels s) j = Some p ->
  -1/2 <= B2R (to_f64 p) ->
  exists out u v, mix_frames (Pan_ t) d s = Ok out /\ channels out = [u; v] /\
    Rabs (rval u - rval v) <= 2 * tolerance k (e + angle_error) + 4 * Rabs (B2R (to_f64 p)) * full_scale k.
Proof. exact centre. Qed.
Print Assumptions C79_centre.
(** "MIN is left" is false: left of -1/2 a stereo frame comes out of the right speaker. *)
Theorem C79_left_refuted : forall k t e (d s : frame Stereo k) j x p,
  accurate t e -> frame_valid d -> frame_valid s -> only d j x -> nth_error (channels s) j = Some p ->
  B2R (to_f64 p) < -1/2 ->
  exists out u v, mix_frames (Pan_ t) d s = Ok out /\ channels out = [u; v] /\
    Rabs (rval u) <= 3/10 * Rabs (rval x) + tolerance k (e + angle_error) /\
    19/20 * Rabs (rval x) - tolerance k (e + angle_error) <= Rabs (rval v).
Proof. exact hard_left. Qed.
Print Assumptions C79_left_refuted.
(** Right of 3/4 the left speaker plays the channel upside down. *)
Theorem C79_right_refuted : forall k t e (d s : frame Stereo k) j x p,
  accurate t e -> frame_valid d -> frame_valid s -> only d j x -> nth_error (channels s) j = Some p ->
  3/4 <= B2R (to_f64 p) ->
  exists out u v, mix_frames (Pan_ t) d s = Ok out /\ channels out = [u; v] /\
    rval u * rval x <= - (3/10) * (rval x * rval x) + tolerance k (e + angle_error) * Rabs (rval x).
Proof. exact hard_right. Qed.
Print Assumptions C79_right_refuted.

(** Correctly rounded functions meet the hypothesis. *)
Example C79_accurate_case : accurate rounded_trig (bpow radix2 (-53)).
Proof. exact rounded_accurate. Qed.
(** The left channel at 10000, panned to MIN, of a 16-bit stereo frame. *)
Definition tone : frame Stereo K16 := (as_sint W16 10000, (as_sint W16 0, tt)).
Definition leftmost : frame Stereo K16 := (as_sint W16 (-32768), (as_sint W16 (-32768), tt)).
Example C79_case : exists out u v, mix_frames (Pan_ rounded_trig) tone leftmost = Ok out /\ channels out = [u; v] /\
  Rabs (rval u) <= 3010 /\ 9490 <= Rabs (rval v).
Proof.
  assert (P : B2R (to_f64 (as_sint W16 (-32768) : chan K16)) < -1/2) by (konst (to_f64 (as_sint W16 (-32768) : chan K16)); lra).
  assert (V : forall f : frame Stereo K16, frame_valid f) by (intros f; apply Forall_forall; intros; exact I).
  assert (O : only tone 0 (as_sint W16 10000 : chan K16)).
  { split; [reflexivity|]. intros [|[|i]] y N H; [congruence|injection H as <-; reflexivity|destruct i; discriminate]. }
  destruct (C79_left_refuted K16 rounded_trig (bpow radix2 (-53)) tone leftmost 0 _ _ rounded_accurate (V _) (V _) O eq_refl P)
    as (out & u & v & M & E & A & B).
  exists out, u, v. split; [exact M|]. split; [exact E|].
  change (rval (as_sint W16 10000 : chan K16)) with 10000 in A, B. rewrite (Rabs_pos_eq 10000) in A, B by lra.
  unfold tolerance, angle_error in A, B. change (bpow radix2 (-53)) with (/ 9007199254740992) in A, B. change (bpow radix2 (-45)) with (/ 35184372088832) in A, B.
  lra.
Qed.
