(** * PropFrame.v -- the property theorems about frames and blend operators
    (C18 - C27) *)
From Coq Require Import ZArith Reals Bool List Lia.
From Flocq Require Import Core.Core IEEE754.BinarySingleNaN.
From Verif Require Import Rust Float Math Chan Frame Ops SpecChan SpecFrame
  FChanProofs FrameProofs OpsProofs.
Import ListNotations.
Open Scope Z_scope.

Notation "'s8' z" := (as_sint W8 z : chan K8) (at level 9, only parsing).
Notation "'s16' z" := (as_sint W16 z : chan K16) (at level 9, only parsing).
Notation "'st8' a b" := ((s8 a, (s8 b, tt)) : frame Stereo K8) (at level 9, a at next level, b at next level, only parsing).

(** ** C18 *)
Theorem C18_add_sub_mul_neg_channelwise : forall l k (x y : frame l k),
  (forall i a b, nth_error (channels x) i = Some a -> nth_error (channels y) i = Some b ->
     nth_error (channels (frame_add x y)) i = Some (c_add a b) /\
     nth_error (channels (frame_sub x y)) i = Some (c_sub a b)) /\
  (exists z, frame_mul x y = Ok z /\
     forall i a b, nth_error (channels x) i = Some a -> nth_error (channels y) i = Some b ->
       exists c, c_mul a b = Ok c /\ nth_error (channels z) i = Some c) /\
  (exists z, frame_neg x = Ok z /\
     forall i a, nth_error (channels x) i = Some a ->
       exists c, c_neg a = Ok c /\ nth_error (channels z) i = Some c).
Proof. exact frame_ops_channelwise. Qed.
Print Assumptions C18_add_sub_mul_neg_channelwise.
Theorem C18_div_channelwise : forall l k (x y : frame l k),
  (forall z, frame_div x y = Ok z <->
     (forall i a b, nth_error (channels x) i = Some a -> nth_error (channels y) i = Some b ->
       exists c, c_div a b = Ok c /\ nth_error (channels z) i = Some c)) /\
  ((exists p, frame_div x y = Panic p) <->
   (exists i a b p, nth_error (channels x) i = Some a /\ nth_error (channels y) i = Some b /\ c_div a b = Panic p)).
Proof. exact frame_div_channelwise. Qed.
Print Assumptions C18_div_channelwise.
Theorem C18_lerp_channelwise : forall l k (x y t : frame l k), exists z, frame_lerp x y t = Ok z /\
  forall i a b c, nth_error (channels x) i = Some a -> nth_error (channels y) i = Some b ->
    nth_error (channels t) i = Some c -> exists r, c_lerp a b c = Ok r /\ nth_error (channels z) i = Some r.
Proof. exact frame_lerp_channelwise. Qed.
Print Assumptions C18_lerp_channelwise.
Example C18_case :
  map sv (channels (frame_add (st8 100 3) (st8 100 4))) = [127; 7] /\
  match frame_div (st8 100 3) (st8 0 4) with Ok z => map sv (channels z) = [127; 127] | _ => False end.
Proof. split; vm_compute; reflexivity. Qed.

(** ** C19 *)
Theorem C19_convert_channel_map : forall l1 k1 l2 k2 (f : frame l1 k1), exists g, convert l2 k2 f = Ok g /\
  Forall2 (from_source f) (channel_map l1 l2) (channels g).
Proof. exact convert_map. Qed.
Print Assumptions C19_convert_channel_map.
(** What [average] computes: the correctly rounded mean. *)
Theorem C19_average_correct : forall a b : f64, in_range a -> in_range b ->
  in_range (average a b) /\ B2R (average a b) = round64 ((B2R a + B2R b) / 2)%R.
Proof. exact avg_correct. Qed.
Print Assumptions C19_average_correct.
Example C19_case :
  match convert Mono K8 (st8 100 50) with Ok z => map sv (channels z) = [75] | _ => False end /\
  match convert Surround K16 (st8 100 50) with
  | Ok z => map sv (channels z) = [0; 25828; 0; 12978; 0; 0] | _ => False end.
Proof. split; vm_compute; reflexivity. Qed.

(** ** C20 *)
Theorem C20_convert_identity : forall l k (f : frame l k), convert l k f = Ok f.
Proof. exact convert_self. Qed.
Print Assumptions C20_convert_identity.
Theorem C20_layout_round_trip : forall l1 l2 k (f : frame l1 k), (nchan l1 <= nchan l2)%nat -> frame_valid f ->
  exists g, convert l2 k f = Ok g /\ convert l1 k g = Ok f.
Proof. exact up_down. Qed.
Print Assumptions C20_layout_round_trip.
Example C20_case : (nchan Stereo <= nchan Surround)%nat /\ frame_valid (st8 (-128) 127) /\
  frame_valid (from_channel Mono K64 (flit 1 (-3))).
Proof.
  split; [cbn; lia|]. split; [repeat (constructor; try exact I)|]. constructor; [|constructor].
  exact (proj1 (proj2 float_new_valid (flit 1 (-3)))).
Qed.

(** ** C21 *)
Theorem C21_zero_is_silence : forall l k, frame_from_f64 l k (flit 0 0) = frame_default l k /\
  all_channels (MID k) (frame_default l k).
Proof. intros l k. split; [exact (frame_from_f64_0 l k)|]. unfold all_channels. rewrite MID_default. exact (channels_default l k). Qed.
Print Assumptions C21_zero_is_silence.
Theorem C21_convert_silence : forall l1 k1 l2 k2, is_float k1 \/ k1 = k2 ->
  convert l2 k2 (frame_default l1 k1) = Ok (frame_default l2 k2).
Proof. intros l1 k1 l2 k2 H. apply convert_silence. destruct H; [left|right; left]; assumption. Qed.
Print Assumptions C21_convert_silence.
(** Exactly when silence is converted to silence, whatever the layouts. *)
Theorem C21_silence_iff : forall l1 k1 l2 k2,
  convert l2 k2 (frame_default l1 k1) = Ok (frame_default l2 k2) <-> is_float k1 \/ k1 = k2 \/ (k1 = K16 /\ k2 = K8).
Proof. exact convert_silence_iff. Qed.
Print Assumptions C21_silence_iff.
(** Integer silence converted to another channel type is a DC offset. *)
Theorem C21_integer_silence_refuted :
  (exists g, convert Mono K16 (frame_default Mono K8) = Ok g /\ map sv (channels g) = [128]) /\
  (exists g, convert Mono K64 (frame_default Mono K8) = Ok g /\ channels g = [fdiv (flit 1 0) (flit 255 0)]).
Proof.
  split; (eexists; split; [reflexivity|]).
  - vm_compute. reflexivity.
  - cbn [channels vlist nchan fst snd]. apply (f_equal2 (@cons (chan K64))); [apply B2SF_inj; vm_compute|]; reflexivity.
Qed.
Print Assumptions C21_integer_silence_refuted.
Example C21_case : is_float K32 \/ K32 = K8. Proof. left. left. reflexivity. Qed.

(** ** C22 *)
Theorem C22_uniform_constructors : forall l k,
  (forall x, all_channels (from_f64 k x) (frame_from_f64 l k x)) /\
  (forall c, all_channels c (from_channel l k c)) /\
  (forall f : frame Mono k, exists c g, channels f = [c] /\ from_mono l k f = Ok g /\ all_channels c g).
Proof.
  intros l k. exact (conj (frame_from_f64_all l k) (conj (from_channel_all l k) (from_mono_all l k))).
Qed.
Print Assumptions C22_uniform_constructors.
Theorem C22_from_channels : forall l k (cs : list (chan k)),
  (forall g, from_channels l k cs = Ok g <-> (nchan l <= length cs)%nat /\ channels g = firstn (nchan l) cs) /\
  (forall p, from_channels l k cs = Panic p <-> (length cs < nchan l)%nat /\ p = IndexOutOfBounds).
Proof. exact from_channels_spec. Qed.
Print Assumptions C22_from_channels.
Theorem C22_new_converts_each_channel : forall l k h (v : vec (chan h) (nchan l)) i c,
  nth_error (vlist v) i = Some c -> nth_error (channels (frame_new l k h v)) i = Some (chan_from h k c).
Proof. exact frame_new_spec. Qed.
Print Assumptions C22_new_converts_each_channel.
Example C22_case : match from_channels Stereo K8 [s8 1; s8 2; s8 3] with
  Ok g => map sv (channels g) = [1; 2] | _ => False end /\
  from_channels Stereo K8 [s8 1] = Panic IndexOutOfBounds.
Proof. split; reflexivity. Qed.

(** ** C23 *)
Theorem C23_src_dest_clear : forall l k (d s : frame l k),
  mix_frames Src d s = Ok s /\ mix_frames Dest d s = Ok d /\ mix_frames Clear d s = Ok (frame_default l k).
Proof. exact mix_src_dest_clear. Qed.
Print Assumptions C23_src_dest_clear.
(** On a single channel. *)
Theorem C23_one_channel : forall k (d s : chan k), mix Src d s = Ok s /\ mix Dest d s = Ok d /\ mix Clear d s = Ok (MID k).
Proof. exact one_channel. Qed.
Print Assumptions C23_one_channel.

(** ** C24 *)
Theorem C24_plus_is_saturating_sum : forall l k (d s : frame l k), exists out,
  mix_frames Plus d s = Ok out /\ mix_frames Plus s d = Ok out /\
  forall i a b, nth_error (channels d) i = Some a -> nth_error (channels s) i = Some b ->
    nth_error (channels out) i = Some (c_add a b).
Proof. exact mix_plus_spec. Qed.
Print Assumptions C24_plus_is_saturating_sum.
Theorem C24_plus_silence_neutral : forall l k (x : frame l k),
  (is_int k -> mix_frames Plus x (frame_default l k) = Ok x) /\
  (frame_valid x -> exists z, mix_frames Plus x (frame_default l k) = Ok z /\ frame_eqv z x).
Proof. exact mix_plus_neutral. Qed.
Print Assumptions C24_plus_silence_neutral.
Theorem C24_amplify_is_product : forall l k (d s : frame l k), exists out,
  mix_frames Amplify d s = Ok out /\ mix_frames Amplify s d = Ok out /\
  forall i a b, nth_error (channels d) i = Some a -> nth_error (channels s) i = Some b ->
    exists c, c_mul a b = Ok c /\ nth_error (channels out) i = Some c.
Proof. exact mix_amplify_spec. Qed.
Print Assumptions C24_amplify_is_product.
Theorem C24_amplify_neutral_absorbing : forall l k (x : frame l k), frame_fin x ->
  mix_frames Amplify x (from_channel l k (MAX k)) = Ok x /\
  exists z, mix_frames Amplify x (frame_default l k) = Ok z /\ frame_eqv z (frame_default l k).
Proof. exact mix_amplify_neutral. Qed.
Print Assumptions C24_amplify_neutral_absorbing.
(** Mixing with Plus is not associative: the order of mixing matters. *)
Theorem C24_plus_associative_refuted : exists x y z xy yz a b : frame Mono K8,
  mix_frames Plus x y = Ok xy /\ mix_frames Plus xy z = Ok a /\
  mix_frames Plus y z = Ok yz /\ mix_frames Plus x yz = Ok b /\
  channels a <> channels b.
Proof.
  exists (s8 100, tt), (s8 100, tt), (s8 (-100), tt). do 4 eexists. do 4 (split; [reflexivity|]).
  intros H. apply (f_equal (map sv)) in H. vm_compute in H. discriminate H.
Qed.
Print Assumptions C24_plus_associative_refuted.
Example C24_case : frame_fin (st8 1 2) /\ frame_valid (st8 1 2) /\
  match mix_frames Amplify (st8 127 64) (st8 50 50) with Ok z => map sv (channels z) = [50; 25] | _ => False end.
Proof. split; [repeat constructor|]. split; [repeat (constructor; try exact I)|]. vm_compute. reflexivity. Qed.

(** ** C25 *)
Theorem C25_compress_panics : forall l k (d s : frame l k), mix_frames Compress d s = Panic NotImplemented.
Proof. exact mix_compress. Qed.
Print Assumptions C25_compress_panics.

(** ** C26 *)
(** A single channel cannot be panned. *)
Theorem C26_one_channel_panics : forall k t (d s : chan k), mix (Pan_ t) d s = Panic ExplicitPanic.
Proof. exact pan_one_channel. Qed.
Print Assumptions C26_one_channel_panics.
Theorem C26_pan_routing : forall l k t (d s : frame l k), exists out, mix_frames (Pan_ t) d s = Ok out /\
  forall i c, nth_error (channels out) i = Some c ->
    accum (MID k) (pan_reaches l (t_cos t) (t_sin t) i (channels d) (channels s)) c.
Proof. exact mix_pan. Qed.
Print Assumptions C26_pan_routing.
Theorem C26_surround_mostly_silent : forall k t (d s : frame Surround k), exists out,
  mix_frames (Pan_ t) d s = Ok out /\
  (forall i, i = 2%nat \/ i = 3%nat \/ i = 5%nat -> nth_error (channels out) i = Some (MID k)) /\
  ((forall c, In c (channels s) -> fle (fdiv (flit (-2) 0) (flit 3 0)) (to_f64 c) = true) ->
   nth_error (channels out) 4 = Some (MID k)).
Proof. exact mix_pan_surround_silent. Qed.
Print Assumptions C26_surround_mostly_silent.
(** "A 5.1 frame panned hard right is heard on the right" is false: every
    channel at position 1.0 leaves the right speakers (3, 4, 5) silent. *)
Theorem C26_pan_right_reaches_right_refuted : forall k t (d : frame Surround k), exists out,
  mix_frames (Pan_ t) d (from_channel Surround k (MAX k)) = Ok out /\
  forall i, (2 <= i < 6)%nat -> nth_error (channels out) i = Some (MID k).
Proof.
  intros k t d. destruct (mix_pan_surround_silent k t d (from_channel Surround k (MAX k))) as (out & H & S1 & S2).
  exists out. split; [exact H|]. intros i Hi.
  assert (i = 4 \/ (i = 2 \/ i = 3 \/ i = 5))%nat as [->|Hj] by lia; [|exact (S1 i Hj)].
  apply S2. intros c Hc. rewrite from_channel_all in Hc. apply repeat_spec in Hc as ->. destruct k; vm_compute; reflexivity.
Qed.
Print Assumptions C26_pan_right_reaches_right_refuted.
(** With cos = 1 and sin = 0 everywhere, a stereo frame panned to the centre is
    summed into the left speaker. *)
Example C26_case : match mix_frames (Pan_ (mkTrig (fun _ => flit 1 0) (fun _ => flit 0 0))) (st8 100 20) (st8 0 0) with
  Ok z => map sv (channels z) = [120; 0] | _ => False end.
Proof. vm_compute. reflexivity. Qed.

(** ** C27 *)
Theorem C27_pan_mono : forall k t (d s : frame Mono k) (x : chan k),
  (forall y : f64, is_finite y = false -> t_cos t y = B754_nan /\ t_sin t y = B754_nan) ->
  channels d = [x] ->
  exists out c, mix_frames (Pan_ t) d s = Ok out /\ channels out = [c] /\
    (is_int k -> c = c_add x x) /\ (is_float k -> c = MAX k).
Proof. exact mix_pan_mono. Qed.
Print Assumptions C27_pan_mono.
Example C27_case : let t := mkTrig (fun x => if is_finite x then flit 1 0 else B754_nan)
                                   (fun x => if is_finite x then flit 0 0 else B754_nan) in
  (forall y : f64, is_finite y = false -> t_cos t y = B754_nan /\ t_sin t y = B754_nan) /\
  match mix_frames (Pan_ t) ((s8 30, tt) : frame Mono K8) (s8 77, tt) with
  Ok z => map sv (channels z) = [60] | _ => False end.
Proof. split; [intros y Hy; cbn; rewrite Hy; split; reflexivity|vm_compute; reflexivity]. Qed.
