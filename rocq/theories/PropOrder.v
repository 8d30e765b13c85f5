(** * PropOrder.v -- property theorems C95 *)
From Coq Require Import ZArith NArith Reals Bool List Lia Lra.
From Flocq Require Import Core.Core IEEE754.BinarySingleNaN.
From Verif Require Import Rust Float Chan Frame Ops Stream Audio SpecChan SpecFrame SpecStream SpecSink SpecAudio SpecRel SpecOrder.
From Verif Require Import FloatProofs RelProofs OrderProofs.
Import ListNotations.
Open Scope R_scope.

Notation "'m8' z" := ((as_sint W8 z, tt) : frame Mono K8) (at level 9, z at next level, only parsing).
Notation "'khz' z" := (flit (1000 * z) 0 : f64) (at level 9, z at next level, only parsing).
(** The sample values of a list of frames. *)
Definition codes (fs : list (frame Mono K8)) : list (list Z) := map (fun f : frame Mono K8 => map sv (channels f)) fs.

(** ** C95 *)
(** If no sample of one source is above that of another, no sample that is made of them is, whatever the
    formats, layouts and the ratio of the rates; and what happens otherwise is the same. *)
Theorem C95_stream : forall l k ls ks fuel (sk sk2 : sink l k) (s s2 : stream ls ks), sinks_alike under sk sk2 -> paired under_valid s s2 ->
  moderate (ratio_for (sk_rate sk) (sample_rate s)) -> 0 <= B2R (ratio_for (sk_rate sk) (sample_rate s)) ->
  is_finite (resampler_index (sk_res sk)) = true -> 0 <= B2R (resampler_index (sk_res sk)) ->
  both (run_alike under under_valid) (sink_stream fuel sk s) (sink_stream fuel sk2 s2).
Proof. intros l k ls ks. exact under_stream. Qed.
Print Assumptions C95_stream.
Theorem C95_flush : forall l k (sk sk2 : sink l k), sinks_alike under sk sk2 -> both (sinks_alike under) (flush sk) (flush sk2).
Proof. intros l k. exact under_flush. Qed.
Print Assumptions C95_flush.
Theorem C95_extend : forall l k ls ks fuel (a a2 a' : audio l k) (s s2 it : stream ls ks),
  s_rate a2 = s_rate a -> Forall2 under (frames a) (frames a2) -> paired under_valid s s2 ->
  moderate (ratio_for (s_rate a) (sample_rate s)) -> 0 <= B2R (ratio_for (s_rate a) (sample_rate s)) -> extend fuel a s = (a', Ok it) ->
  exists a2' it2, extend fuel a2 s2 = (a2', Ok it2) /\ s_rate a2' = s_rate a' /\ Forall2 under (frames a') (frames a2').
Proof. intros l k ls ks. exact under_extend. Qed.
Print Assumptions C95_extend.
(** The same for converting frames, *)
Theorem C95_convert : forall l k ls ks (x x2 : frame ls ks), under_valid x x2 -> both under_valid (convert l k x) (convert l k x2).
Proof. intros l k ls ks. exact under_convert. Qed.
Print Assumptions C95_convert.
(** for mixing, *)
Theorem C95_blend : forall l k lb kb op, op = Src \/ op = Dest \/ op = Clear \/ op = Plus ->
  forall (a a2 : stream l k) (b b2 : stream lb kb), paired under_valid a a2 -> paired under_valid b b2 ->
  paired under_valid (SBlend a b op) (SBlend a2 b2 op).
Proof. intros l k lb kb. exact under_blend. Qed.
Print Assumptions C95_blend.
(** and for gains that are not negative. *)
Theorem C95_gain : forall l k lb kb (a a2 : stream l k) (b b2 : stream lb kb), paired under_valid a a2 -> paired same_gain b b2 ->
  paired under_valid (SBlend a b Amplify) (SBlend a2 b2 Amplify).
Proof. intros l k lb kb. exact under_gain. Qed.
Print Assumptions C95_gain.
(** Samples that differ need not differ afterwards, nor stay in order under a negative gain. *)
Definition amplified (x g : Z) : list (list Z) :=
  match blend (SAudio (khz 48) [m8 x]) (SFrame (m8 g)) Amplify with
  | Ok t => codes (frames (fst (extend 9 (mkAudio (khz 48) []) t)))
  | _ => []
  end.
Theorem C95_strict_refuted : ~ forall x x2 g y y2, (-128 <= x < x2)%Z -> (x2 <= 127)%Z -> (0 < g <= 127)%Z ->
  amplified x g = [[y]] -> amplified x2 g = [[y2]] -> (y < y2)%Z.
Proof.
  intros H. specialize (H 10%Z 11%Z 20%Z 1%Z 1%Z ltac:(lia) ltac:(lia) ltac:(lia)). enough (1 < 1)%Z by lia. apply H; vm_compute; reflexivity.
Qed.
Print Assumptions C95_strict_refuted.
Theorem C95_any_gain_refuted : ~ forall x x2 g y y2, (-128 <= x <= x2)%Z -> (x2 <= 127)%Z -> (-128 <= g <= 127)%Z ->
  amplified x g = [[y]] -> amplified x2 g = [[y2]] -> (y <= y2)%Z.
Proof.
  intros H. specialize (H 10%Z 50%Z (-127)%Z (-10)%Z (-50)%Z ltac:(lia) ltac:(lia) ltac:(lia)). enough (-10 <= -50)%Z by lia. apply H; vm_compute; reflexivity.
Qed.
Print Assumptions C95_any_gain_refuted.
(** 44.1 to 48 kHz: a source and a higher one, into empty buffers. *)
Lemma under8 x y : (-128 <= x <= y)%Z -> (y <= 127)%Z -> under_valid (m8 x) (m8 y).
Proof.
  intros H1 H2. split; [|split; repeat constructor]. constructor; [|constructor]. split; [reflexivity|]. split; [reflexivity|].
  apply Z.leb_le. pose proof (IntProofs.sv_as8 x ltac:(lia)) as E1. pose proof (IntProofs.sv_as8 y ltac:(lia)) as E2. cbn [sv] in *. etransitivity; [apply Z.eq_le_incl; exact E1|]. etransitivity; [|apply Z.eq_le_incl; symmetry; exact E2]. lia.
Qed.
Example C95_case : let s := SAudio (flit 44100 0) [m8 10; m8 (-128); m8 40] in let s2 := SAudio (flit 44100 0) [m8 20; m8 (-128); m8 127] in
  paired under_valid s s2 /\ moderate (ratio_for (khz 48) (sample_rate s)) /\ 0 <= B2R (ratio_for (khz 48) (sample_rate s)) /\
  sinks_alike under (mkSink (khz 48) [m8 1] (resampler_default Mono K8)) (mkSink (khz 48) [m8 1] (resampler_default Mono K8)) /\
  paired same_gain (SFrame (m8 100)) (SFrame (m8 100)) /\
  codes (frames (fst (extend 9 (mkAudio (khz 48) []) s))) = [[10]; [-128]; [25]; [6]]%Z /\ codes (frames (fst (extend 9 (mkAudio (khz 48) []) s2))) = [[20]; [-128]; [105]; [22]]%Z.
Proof.
  cbv zeta. split.
  { constructor. repeat apply Forall2_cons; try apply Forall2_nil; apply under8; lia. }
  assert (A : fle (flit 0 0) (ratio_for (khz 48) (Some (flit 44100 0))) = true /\ fle (ratio_for (khz 48) (Some (flit 44100 0))) (flit 2 0) = true /\
    is_finite (ratio_for (khz 48) (Some (flit 44100 0))) = true) by (repeat split; vm_compute; reflexivity).
  cbn [sample_rate]. set (r := ratio_for _ _) in *. destruct A as (A & B & F).
  destruct (flit_Z 53 1024 2 ltac:(lia)) as [V2 F2].
  apply (fle_correct 53 1024) in A, B; auto. change (B2R (flit 0 0 : f64)) with 0 in A. rewrite V2 in B.
  split; [|split; [exact A|split; [|split; [|split; vm_compute; reflexivity]]]].
  - split; [exact F|]. rewrite Rabs_pos_eq by exact A. apply Rle_trans with (1 := B). change 2 with (bpow radix2 1). apply bpow_le. lia.
  - constructor; try reflexivity; [|apply under_default]. constructor; [|constructor]. apply under8; lia.
  - constructor. split; [reflexivity|]. split; repeat constructor.
Qed.
