(** * PropNearby.v -- property theorems C97 *)
From Coq Require Import ZArith NArith Reals Bool List Lia Lra.
From Flocq Require Import Core.Core IEEE754.BinarySingleNaN.
From Verif Require Import Rust Float Chan Frame Ops Stream Audio SpecChan SpecFrame SpecStream SpecSink SpecAudio SpecMore SpecRaise SpecLower SpecNearby.
From Verif Require Import FloatProofs IntProofs FrameProofs WholeProofs AudioProofs StreamProofs MixProofs LowerProofs NearbyProofs.
Import ListNotations.
Open Scope R_scope.

(** ** C97 *)
(** Two sources at most [e] apart, lowered from [S] to [R] Hz: so are the results, up to the error of both. *)
Theorem C97_lower : forall rate src R S, whole_rate rate R -> whole_rate src S -> (S <= 2 ^ 50)%Z -> (R <= S)%Z ->
  forall l k ls ks ls2 ks2 (a a' b b' : audio l k) (s : stream ls ks) (t : stream ls2 ks2) n fs gs c e p y z,
  s_rate a = rate -> s_rate b = rate -> extends src n fs a a' s -> extends src n gs b b' t -> nearby (N.to_nat n) c e fs gs -> 0 <= e ->
  (R * Z.of_N n <= 2 ^ 51)%Z ->
  ((Z.of_nat p + 1) * S < R * Z.of_N n \/ (Z.of_nat p + 1) * S = R * Z.of_N n /\ (S <= 2 ^ 49)%Z /\ aligned rate src R S n)%Z ->
  added a a' p c y -> added b b' p c z ->
  Rabs (level y - level z) <= e + 2 * ((IZR S / IZR R + 7) * (step k + (INR p + 6) * bpow radix2 (-49))).
Proof. exact nearby_lower. Qed.
Print Assumptions C97_lower.
Theorem C97_lower_last : forall rate src R S, whole_rate rate R -> whole_rate src S -> (S <= 2 ^ 50)%Z -> (R <= S)%Z ->
  forall l k ls ks ls2 ks2 (a a' b b' : audio l k) (s : stream ls ks) (t : stream ls2 ks2) n fs gs c e p m y z, (S <= 2 ^ 49)%Z ->
  s_rate a = rate -> s_rate b = rate -> extends src n fs a a' s -> extends src n gs b b' t -> nearby (N.to_nat n) c e fs gs -> 0 <= e ->
  (R * Z.of_N n <= 2 ^ 51)%Z -> aligned rate src R S n -> (S * Z.of_nat p < R * Z.of_N n < S * (Z.of_nat p + 1))%Z ->
  (R * (Z.of_nat m - 1) < S * Z.of_nat p < R * Z.of_nat m)%Z ->
  added a a' p c y -> added b b' p c z ->
  Rabs (level y - level z) <= e + 2 * ((IZR S / IZR R + 7) * (step k + (INR p + 6) * bpow radix2 (-49))).
Proof. exact nearby_lower_last. Qed.
Print Assumptions C97_lower_last.
(** Raised: the same in integer formats, R/S times as much in float formats. *)
Theorem C97_raise : forall rate src R S, whole_rate rate R -> whole_rate src S -> (S <= 2 ^ 51)%Z -> (S < R)%Z ->
  forall l k ls ks ls2 ks2 (a a' b b' : audio l k) (s : stream ls ks) (t : stream ls2 ks2) n fs gs c e p y z,
  s_rate a = rate -> s_rate b = rate -> extends src n fs a a' s -> extends src n gs b b' t -> nearby (N.to_nat n) c e fs gs -> 0 <= e ->
  (R * Z.of_N n <= 2 ^ 51)%Z -> aligned rate src R S n -> ((Z.of_nat p + 1) * S <= R * Z.of_N n)%Z ->
  added a a' p c y -> added b b' p c z ->
  Rabs (level y - level z) <= applied k (IZR R / IZR S) * e
    + 2 * (6 * applied k (IZR R / IZR S) * step k + (IZR R / IZR S + INR p + 6) * bpow radix2 (-49)).
Proof. exact nearby_raise. Qed.
Print Assumptions C97_raise.
Theorem C97_raise_last : forall rate src R S, whole_rate rate R -> whole_rate src S -> (S <= 2 ^ 51)%Z -> (S < R)%Z ->
  forall l k ls ks ls2 ks2 (a a' b b' : audio l k) (s : stream ls ks) (t : stream ls2 ks2) n fs gs c e p y z, (S < 2 ^ 50)%Z ->
  s_rate a = rate -> s_rate b = rate -> extends src n fs a a' s -> extends src n gs b b' t -> nearby (N.to_nat n) c e fs gs -> 0 <= e ->
  (R * Z.of_N n <= 2 ^ 51)%Z -> aligned rate src R S n -> (S * Z.of_nat p < R * Z.of_N n < S * (Z.of_nat p + 1))%Z ->
  added a a' p c y -> added b b' p c z ->
  Rabs (level y - level z) <= e + 2 * (5 * step k + (INR p + 6) * bpow radix2 (-49)).
Proof. exact nearby_raise_last. Qed.
Print Assumptions C97_raise_last.

(** A 48 kHz sound at 32 kHz. *)
Definition sound (zs : list Z) : list (frame Mono K16) := map (fun z => (as_sint W16 z, tt) : frame Mono K16) zs.
Definition at32 (zs : list Z) : audio Mono K16 * res (stream Mono K16) :=
  extend (S (length zs)) (with_frames (flit 32000 0) []) (SAudio (flit 48000 0) (sound zs)).
Definition codes (a : audio Mono K16) : list Z := map (fun f : frame Mono K16 => sv (fst f)) (frames a).
(** "One code apart stays one code apart" is false. *)
Theorem C97_one_code_refuted : ~ forall ys zs, Forall2 (fun y z => -32768 <= y <= 32767 /\ -32768 <= z <= 32767 /\ Z.abs (y - z) <= 1)%Z ys zs ->
  Forall2 (fun y z => Z.abs (y - z) <= 1)%Z (codes (fst (at32 ys))) (codes (fst (at32 zs))).
Proof.
  intros H. specialize (H [0; 1; 3; 0; 0; 0]%Z [0; 2; 4; 0; 0; 0]%Z).
  assert (E : codes (fst (at32 [0; 1; 3; 0; 0; 0]%Z)) = [0; 0; 0; 0]%Z) by (vm_compute; reflexivity).
  assert (E2 : codes (fst (at32 [0; 2; 4; 0; 0; 0]%Z)) = [0; 2; 1; 0]%Z) by (vm_compute; reflexivity).
  rewrite E, E2 in H. assert (F : Forall2 (fun y z => Z.abs (y - z) <= 1)%Z [0; 0; 0; 0]%Z [0; 2; 1; 0]%Z) by (apply H; repeat constructor; lia).
  inversion F as [|? ? ? ? _ F2]. inversion F2. lia.
Qed.
Print Assumptions C97_one_code_refuted.
(** The hypotheses are met by the two sounds, [1 / 32767] apart. *)
Example C97_case :
  extends (flit 48000 0) 6%N (sound [0; 1; 3; 0; 0; 0]%Z) (with_frames (flit 32000 0) []) (fst (at32 [0; 1; 3; 0; 0; 0]%Z)) (SAudio (flit 48000 0) (sound [0; 1; 3; 0; 0; 0]%Z)) /\
  extends (flit 48000 0) 6%N (sound [0; 2; 4; 0; 0; 0]%Z) (with_frames (flit 32000 0) []) (fst (at32 [0; 2; 4; 0; 0; 0]%Z)) (SAudio (flit 48000 0) (sound [0; 2; 4; 0; 0; 0]%Z)) /\
  nearby 6 0 (/ 32767) (sound [0; 1; 3; 0; 0; 0]%Z) (sound [0; 2; 4; 0; 0; 0]%Z) /\
  whole_rate (flit 48000 0) 48000 /\ whole_rate (flit 32000 0) 32000 /\ ((Z.of_nat 1 + 1) * 48000 < 32000 * 6)%Z /\
  aligned (flit 32000 0) (flit 48000 0) 32000 48000 6.
Proof.
  split; [apply (audio_extends (flit 48000 0) (sound [0; 1; 3; 0; 0; 0]%Z)); vm_compute; exact I|].
  split; [apply (audio_extends (flit 48000 0) (sound [0; 2; 4; 0; 0; 0]%Z)); vm_compute; exact I|].
  split.
  - assert (L : forall y z : Z, (-32768 <= y <= 32767)%Z -> (-32768 <= z <= 32767)%Z -> (Z.abs (y - z) <= 1)%Z ->
      Rabs (level (as_sint W16 y : chan K16) - level (as_sint W16 z : chan K16)) <= / 32767).
    { intros y z Hy Hz D. unfold level. rewrite !sv_as16 by lia. replace (IZR y / 32767 - IZR z / 32767) with (IZR (y - z) / 32767) by (rewrite minus_IZR; field).
      unfold Rdiv. rewrite Rabs_mult, (Rabs_pos_eq (/ 32767)) by lra. rewrite <- abs_IZR. apply IZR_le in D. nra. }
    intros i Hi. do 6 (destruct i as [|i]; [eexists; eexists; eexists; eexists; do 4 (split; [reflexivity|]); split; [exact I|]; split; [exact I|]; apply L; lia|]). lia.
  - split; [destruct (flit_Z 53 1024 48000 ltac:(lia)); repeat split; try assumption; lia|].
    split; [destruct (flit_Z 53 1024 32000 ltac:(lia)); repeat split; try assumption; lia|]. split; [lia|].
    apply lower_usual_aligned; [cbn [usual_rates In]; tauto|cbn [usual_rates In]; tauto|lia|lia].
Qed.
