(** * PanicProofs.v -- concrete conversions that panic or change length (C45, C52) *)
From Coq Require Import ZArith NArith Reals List Lia Bool Lra.
From Flocq Require Import Core.Core IEEE754.BinarySingleNaN.
From Verif Require Import Rust Float Math Chan Frame Ops Stream Audio Heap SpecChan SpecFrame SpecStream SpecSink SpecAudio.
From Verif Require Import FloatProofs SinkProofs SinkMore AudioProofs ResampleProofs.
Import ListNotations.
Open Scope Z_scope.

(** Executable forms of [frames_for], [leaves] and the fraction test. *)
Definition frames_forb (rate src : f64) (n : N) : Z :=
  f64_as_usize (ceil (fdiv (fmul rate (fofZ (Z.of_N n))) src)).
Fixpoint below (ratio : f64) (e : Z) (i : nat) (x : Z) : bool :=
  match i with O => true | S i => (f64_as_usize (fadd (fmul ratio (fofZ x)) (flit 0 0)) <? e) && below ratio e i (Z.succ x) end.
Definition overruns (rate src : f64) (n : N) (d : Z) : bool :=
  let ratio := fdiv rate src in
  let e := Z.min (f64_as_usize (fmul ratio (fofZ (Z.of_N n)))) d in
  let last := fadd (fmul ratio (fofZ (Z.of_N n))) (flit 0 0) in
  (frames_forb rate src n =? d) && below ratio e (N.to_nat n) 0 && (e <=? f64_as_usize last) &&
  flt eps64 (frem1 last) && (d <=? f64_as_usize last).
Lemma frames_forb_ok rate src n : frames_forb rate src n = frames_for rate (Some src) n.
Proof. exact (dstlen_frames_for Mono K8 rate (SAudio src []) n). Qed.
Lemma below_ok ratio e i x : 0 <= x -> below ratio e i x = true ->
  forall a, (a < i)%nat -> floor_index (place ratio (flit 0 0) (Z.to_nat x + a)) < e.
Proof.
  revert x. induction i as [|i IH]; intros x Hx H a Ha; [lia|]. cbn [below] in H. apply andb_true_iff in H as [A B].
  destruct a as [|a].
  - rewrite Nat.add_0_r. apply Z.ltb_lt in A. rewrite floor_index_correct in A. unfold place. now rewrite Z2Nat.id by lia.
  - specialize (IH (Z.succ x) ltac:(lia) B a ltac:(lia)). now replace (Z.to_nat x + S a)%nat with (Z.to_nat (Z.succ x) + a)%nat by lia.
Qed.
Lemma overruns_panic l k ls ks (a : audio l k) (s : stream ls ks) src n d : overruns (s_rate a) src n d = true ->
  sample_rate s = Some src -> honest s -> slen s = Some n -> allocatable l k (Z.of_nat (length (frames a)) + d) ->
  snd (extend (S (N.to_nat n)) a s) = Panic IndexOutOfBounds.
Proof.
  intros O Hr Hh Hl A. unfold overruns in O. rewrite !andb_true_iff in O. destruct O as ((((O1 & O2) & O3) & O4) & O5).
  apply Z.eqb_eq in O1. apply Z.leb_le in O3, O5. rewrite frames_forb_ok in O1. rewrite !floor_index_correct in O2, O3, O5.
  assert (Sk : sinkable s) by (left; rewrite Hr; discriminate).
  destruct (extend_outcome l k ls ks a s n Sk Hh Hl) as [_ E]. rewrite Hr, O1 in E. cbn [ratio_for] in E.
  destruct (E A) as (m & Hm & Lv & P & _). set (ratio := fdiv (s_rate a) src) in *.
  assert (Pn : fadd (fmul ratio (fofZ (Z.of_N n))) (flit 0 0) = place ratio (flit 0 0) (N.to_nat n)).
  { unfold place. now rewrite N_nat_Z. }
  rewrite Pn in O3, O4, O5. rewrite floor_index_correct in O3.
  assert (m = N.to_nat n) as ->.
  { apply (leaves_at _ _ _ _ Lv); [|exact O3]. intros i Hi. exact (below_ok _ _ _ 0 ltac:(lia) O2 i Hi). }
  apply P. split; [|exact O5]. apply flt_eps_frac in O4. eapply Rlt_le_trans; [exact O4|apply Rle_abs].
Qed.
Lemma cd_to_dat_147 : overruns (flit 48000 0) (flit 44100 0) 147 160 = true.
Proof. vm_compute. reflexivity. Qed.
Lemma cd_to_dat_second : overruns (flit 48000 0) (flit 44100 0) 44100 48000 = true.
Proof. exact (eq_refl true <: overruns (flit 48000 0) (flit 44100 0) 44100 48000 = true). Qed.

Lemma pulldown_length : frames_for (fdiv (flit 44100000 0) (flit 1001 0)) (Some (fdiv (flit 44100000 0) (flit 1001 0))) 3 = 4.
Proof. rewrite <- frames_forb_ok. vm_compute. reflexivity. Qed.
Lemma cd_to_dat_147_panics l k ls ks (a : audio l k) (s : stream ls ks) :
  audio_sample_rate a = flit (1000 * 48) 0 -> sample_rate s = Some (flit 44100 0) -> honest s -> slen s = Some 147%N ->
  allocatable l k (Z.of_nat (length (frames a)) + 160) -> snd (extend 148 a s) = Panic IndexOutOfBounds.
Proof.
  intros Ha Hr Hh Hl A. refine (overruns_panic l k ls ks a s _ 147 160 _ Hr Hh Hl A).
  unfold audio_sample_rate in Ha. rewrite Ha. exact cd_to_dat_147.
Qed.
Lemma cd_to_dat_second_panics l k ls ks (a : audio l k) (s : stream ls ks) :
  audio_sample_rate a = flit (1000 * 48) 0 -> sample_rate s = Some (flit 44100 0) -> honest s -> slen s = Some 44100%N ->
  allocatable l k (Z.of_nat (length (frames a)) + 48000) -> snd (extend (S (N.to_nat 44100)) a s) = Panic IndexOutOfBounds.
Proof.
  intros Ha Hr Hh Hl A. refine (overruns_panic l k ls ks a s _ 44100 48000 _ Hr Hh Hl A).
  unfold audio_sample_rate in Ha. rewrite Ha. exact cd_to_dat_second.
Qed.
