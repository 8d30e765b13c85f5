(** * PropFade.v -- property theorems C82 *)
From Coq Require Import ZArith NArith Reals Bool List Lia Lra.
From Flocq Require Import Core.Core IEEE754.BinarySingleNaN.
From Verif Require Import Rust Float Chan Frame Ops Stream SpecChan SpecFrame SpecStream SpecMix SpecFade FadeProofs MixProofs IntProofs.
Import ListNotations.
Open Scope R_scope.

(** ** C82 *)
(** A louder sample stays louder under the same gain, and is mirrored by a negative one. *)
Theorem C82_monotone : forall k (a b g x y : chan k), valid a -> valid b -> valid g -> c_mul a g = Ok x -> c_mul b g = Ok y ->
  rval a <= rval b -> (0 <= rval g -> rval x <= rval y) /\ (rval g <= 0 -> rval y <= rval x).
Proof. exact gain_mono. Qed.
Print Assumptions C82_monotone.
(** Amplify never makes a sample louder, but for one pair of integers: MAX by MIN. *)
Theorem C82_never_louder : forall k (a g x : chan k), valid a -> valid g -> c_mul a g = Ok x ->
  Rabs (rval x) <= Rabs (rval a) \/ is_int k /\ rval a = top k /\ rval g = - top k - 1.
Proof. exact gain_quiet. Qed.
Print Assumptions C82_never_louder.
Theorem C82_never_louder_refuted : ~ forall k (a g x : chan k), valid a -> valid g -> c_mul a g = Ok x -> Rabs (rval x) <= Rabs (rval a).
Proof.
  intros H. destruct (mul8_spec (MAX K8) (MIN K8)) as (x & E & S). specialize (H K8 _ _ x I I E).
  assert (V : sv x = (-128)%Z) by (rewrite S; reflexivity). cbn [rval] in H. rewrite V in H. rewrite <- !abs_IZR in H. apply le_IZR in H. vm_compute in H. now apply H.
Qed.
Print Assumptions C82_never_louder_refuted.
(** Two gains one after the other, or multiplied first. *)
Theorem C82_chain : forall l k r (a g h : stream l k), tracks_at r [a; g; h] -> exists t u, fade_twice a g h = Ok t /\ fade_once a g h = Ok u /\
  regular r (shortest [a; g; h]) t /\ regular r (shortest [a; g; h]) u /\
  forall n j c d, given t n j c -> given u n j d -> exists x y z, given a n j x /\ given g n j y /\ given h n j z /\
    (within x -> within y -> within z -> Rabs (rval c - rval d) <= slack k 2).
Proof. exact fade_chain. Qed.
Print Assumptions C82_chain.
(** A gain applied to the mix, or to the tracks. *)
Theorem C82_fade_of_mix : forall l k r (a b g : stream l k), tracks_at r [a; b; g] -> exists t u, mix_then_fade a b g = Ok t /\ fade_then_mix a b g = Ok u /\
  regular r (shortest [a; b; g]) t /\ regular r (shortest [a; b; g]) u /\
  forall n j c d, given t n j c -> given u n j d -> exists x y z, given a n j x /\ given b n j y /\ given g n j z /\
    (valid x -> valid y -> within z -> Rabs (rval x) + Rabs (rval y) <= top k -> Rabs (rval c - rval d) <= slack k 4).
Proof. exact fade_mix. Qed.
Print Assumptions C82_fade_of_mix.
(** Neither is an identity: 3 by 70 by 100, and 1 + 1 by 64. *)
Theorem C82_chain_exact_refuted : exists a g h ag gh x y : chan K8, within a /\ within g /\ within h /\
  c_mul a g = Ok ag /\ c_mul ag h = Ok x /\ c_mul g h = Ok gh /\ c_mul a gh = Ok y /\ x <> y.
Proof. exact chain_inexact. Qed.
Print Assumptions C82_chain_exact_refuted.
Theorem C82_fade_of_mix_exact_refuted : exists a b g x ag bg : chan K8, within g /\ Rabs (rval a) + Rabs (rval b) <= 127 /\
  c_mul (c_add a b) g = Ok x /\ c_mul a g = Ok ag /\ c_mul b g = Ok bg /\ x <> c_add ag bg.
Proof. exact mix_inexact. Qed.
Print Assumptions C82_fade_of_mix_exact_refuted.
(** The same as streams. *)
Example C82_case : let r := flit 48000 0 in let s z := SAudio r [((as_sint W8 z, tt) : frame Mono K8)] in
  tracks_at r [s 3%Z; s 70%Z; s 100%Z] /\ within (as_sint W8 3 : chan K8) /\ within (as_sint W8 70 : chan K8) /\ within (as_sint W8 100 : chan K8) /\
  exists t u, fade_twice (s 3%Z) (s 70%Z) (s 100%Z) = Ok t /\ fade_once (s 3%Z) (s 70%Z) (s 100%Z) = Ok u /\
    given t 0 0 (as_sint W8 0) /\ given u 0 0 (as_sint W8 1).
Proof.
  intros r s. assert (T : tracks_at r [s 3%Z; s 70%Z; s 100%Z]) by (split; [reflexivity|]; repeat constructor; apply audio_honest).
  assert (G : forall z, given (s z) 0 0 (as_sint W8 z)).
  { intros z. exists [(as_sint W8 z, tt)], (as_sint W8 z, tt). split; [apply LawProofs.yields_starts, StreamProofs.audio_yields|]. split; reflexivity. }
  split; [exact T|]. do 3 (split; [apply within8; lia|]).
  destruct (C82_chain _ _ r _ _ _ T) as (t & u & Et & Eu & _). exists t, u. split; [exact Et|]. split; [exact Eu|].
  unfold fade_twice in Et. unfold fade_once in Eu.
  destruct (blend (s 3%Z) (s 70%Z) Amplify) as [ag|p|] eqn:E1; try discriminate Et. destruct (blend (s 70%Z) (s 100%Z) Amplify) as [gh|p|] eqn:E2; try discriminate Eu.
  cbn [bind] in Et, Eu. split.
  - apply (amplify_given _ _ _ _ _ 0 0 _ Et). exists (as_sint W8 1), (as_sint W8 100). split; [|split; [apply G|apply mul8_case; [lia|lia|lia|reflexivity]]].
    apply (amplify_given _ _ _ _ _ 0 0 _ E1). exists (as_sint W8 3), (as_sint W8 70). split; [apply G|]. split; [apply G|apply mul8_case; [lia|lia|lia|reflexivity]].
  - apply (amplify_given _ _ _ _ _ 0 0 _ Eu). exists (as_sint W8 3), (as_sint W8 55). split; [apply G|]. split; [|apply mul8_case; [lia|lia|lia|reflexivity]].
    apply (amplify_given _ _ _ _ _ 0 0 _ E2). exists (as_sint W8 70), (as_sint W8 100). split; [apply G|]. split; [apply G|apply mul8_case; [lia|lia|lia|reflexivity]].
Qed.
