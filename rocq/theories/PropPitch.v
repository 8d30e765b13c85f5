(** * PropPitch.v -- property theorems C100 *)
From Coq Require Import ZArith NArith Reals Bool List Lia Lra.
From Flocq Require Import Core.Core IEEE754.BinarySingleNaN.
From Verif Require Import Rust Float Chan Frame Ops Stream Audio SpecChan SpecFrame SpecStream SpecSink SpecAudio SpecMore SpecRaise SpecLower SpecNearby SpecPitch.
From Verif Require Import FloatProofs IntProofs FrameProofs WholeProofs AudioProofs StreamProofs MixProofs LowerProofs NearbyProofs PitchProofs.
Import ListNotations.
Open Scope R_scope.

(** ** C100 *)
(** A sound that repeats every [m] source frames, a whole number [q] of destination frames, repeats every [q] frames once lowered. *)
Theorem C100_lower : forall rate src R S m q, whole_rate rate R -> whole_rate src S -> (R * Z.of_nat m = S * Z.of_nat q)%Z ->
  forall l k ls ks (a a' : audio l k) (s : stream ls ks) n fs c v e p y z,
  (S <= 2 ^ 50)%Z -> (R <= S)%Z -> s_rate a = rate -> extends src n fs a a' s -> waveform fs (N.to_nat n) c v -> repeats (N.to_nat n) m e v -> 0 <= e ->
  (R * Z.of_N n <= 2 ^ 51)%Z -> (1 <= p)%nat -> ((Z.of_nat (p + q) + 1) * S < R * Z.of_N n)%Z ->
  added a a' p c y -> added a a' (p + q) c z ->
  Rabs (level z - level y) <= e + 2 * ((IZR S / IZR R + 7) * (step k + (INR (p + q) + 6) * bpow radix2 (-49))).
Proof. exact repeat_lower. Qed.
Print Assumptions C100_lower.
(** And once raised. *)
Theorem C100_raise : forall rate src R S m q, whole_rate rate R -> whole_rate src S -> (R * Z.of_nat m = S * Z.of_nat q)%Z ->
  forall l k ls ks (a a' : audio l k) (s : stream ls ks) n fs c v e p y z,
  (S <= 2 ^ 51)%Z -> (S < R)%Z -> s_rate a = rate -> extends src n fs a a' s -> waveform fs (N.to_nat n) c v -> repeats (N.to_nat n) m e v -> 0 <= e ->
  (R * Z.of_N n <= 2 ^ 51)%Z -> aligned rate src R S n -> (1 <= p)%nat -> ((Z.of_nat (p + q) + 1) * S <= R * Z.of_N n)%Z ->
  added a a' p c y -> added a a' (p + q) c z ->
  Rabs (level z - level y) <= applied k (IZR R / IZR S) * e
    + 2 * (6 * applied k (IZR R / IZR S) * step k + (IZR R / IZR S + INR (p + q) + 6) * bpow radix2 (-49)).
Proof. exact repeat_raise. Qed.
Print Assumptions C100_raise.

(** A 48 kHz sound at 32 kHz: three source frames last as long as two. *)
Definition wave (zs : list Z) : list (frame Mono K16) := map (fun z => (as_sint W16 z, tt) : frame Mono K16) zs.
Definition at32k (zs : list Z) : audio Mono K16 * res (stream Mono K16) :=
  extend (S (length zs)) (with_frames (flit 32000 0) []) (SAudio (flit 48000 0) (wave zs)).
Definition wave_codes (a : audio Mono K16) : list Z := map (fun f : frame Mono K16 => sv (fst f)) (frames a).
Definition tone : list Z := [10000; -20000; 3001; 10000; -20000; 3001; 10000; -20000; 3001]%Z.
Lemma tone_codes : wave_codes (fst (at32k tone)) = [6666; -12333; 7666; -12332; 7666; -12332]%Z.
Proof. vm_compute. reflexivity. Qed.
(** "It repeats exactly" is false, ... *)
Theorem C100_exact_refuted : ~ forall zs, Forall (fun z => -32768 <= z <= 32767)%Z zs ->
  (forall i, (i + 3 < length zs)%nat -> nth (i + 3) zs 0%Z = nth i zs 0%Z) ->
  forall p, (1 <= p)%nat -> (p + 2 < length (wave_codes (fst (at32k zs))))%nat ->
  nth (p + 2) (wave_codes (fst (at32k zs))) 0%Z = nth p (wave_codes (fst (at32k zs))) 0%Z.
Proof.
  intros H. specialize (H tone). assert (F : Forall (fun z => -32768 <= z <= 32767)%Z tone) by (unfold tone; repeat constructor; lia).
  specialize (H F). rewrite tone_codes in H. cbn [length] in H.
  assert (P : forall i, (i + 3 < length tone)%nat -> nth (i + 3) tone 0%Z = nth i tone 0%Z).
  { intros i Hi. cbn in Hi. do 6 (destruct i as [|i]; [reflexivity|]). lia. }
  specialize (H P 1%nat ltac:(lia) ltac:(lia)). cbn in H. discriminate.
Qed.
Print Assumptions C100_exact_refuted.
(** ... and so is "from the first frame on": the first frame only gets part of its share. *)
Theorem C100_first_refuted : ~ forall zs, Forall (fun z => -32768 <= z <= 32767)%Z zs ->
  (forall i, (i + 3 < length zs)%nat -> nth (i + 3) zs 0%Z = nth i zs 0%Z) ->
  forall p, (p + 2 < length (wave_codes (fst (at32k zs))))%nat ->
  (Z.abs (nth (p + 2) (wave_codes (fst (at32k zs))) 0 - nth p (wave_codes (fst (at32k zs))) 0) <= 100)%Z.
Proof.
  intros H. specialize (H tone). assert (F : Forall (fun z => -32768 <= z <= 32767)%Z tone) by (unfold tone; repeat constructor; lia).
  specialize (H F). rewrite tone_codes in H. cbn [length] in H.
  assert (P : forall i, (i + 3 < length tone)%nat -> nth (i + 3) tone 0%Z = nth i tone 0%Z).
  { intros i Hi. cbn in Hi. do 6 (destruct i as [|i]; [reflexivity|]). lia. }
  specialize (H P 0%nat ltac:(lia)). cbn in H. lia.
Qed.
Print Assumptions C100_first_refuted.
(** The hypotheses are met by this sound. *)
Example C100_case : exists v,
  extends (flit 48000 0) 9%N (wave tone) (with_frames (flit 32000 0) []) (fst (at32k tone)) (SAudio (flit 48000 0) (wave tone)) /\
  waveform (wave tone) 9 0 v /\ repeats 9 3 0 v /\ (exists i, v i <> v (Datatypes.S i)) /\
  whole_rate (flit 48000 0) 48000 /\ whole_rate (flit 32000 0) 32000 /\ (32000 * Z.of_nat 3 = 48000 * Z.of_nat 2)%Z /\
  ((Z.of_nat (1 + 2) + 1) * 48000 < 32000 * 9)%Z /\ aligned (flit 32000 0) (flit 48000 0) 32000 48000 9.
Proof.
  exists (fun i => IZR (nth i tone 0%Z) / 32767).
  split; [apply (audio_extends (flit 48000 0) (wave tone)); vm_compute; exact I|].
  split; [|split; [|split]].
  - assert (L : forall z : Z, (-32768 <= z <= 32767)%Z -> level (as_sint W16 z : chan K16) = IZR z / 32767).
    { intros z Hz. unfold level. rewrite sv_as16 by lia. reflexivity. }
    intros i Hi. do 9 (destruct i as [|i]; [eexists; eexists; split; [reflexivity|]; split; [reflexivity|]; split; [exact I|]; apply L; split; vm_compute; discriminate|]). lia.
  - intros i Hi. do 6 (destruct i as [|i]; [cbn [nth tone Nat.add]; rewrite Rminus_diag_eq, Rabs_R0 by reflexivity; lra|]). lia.
  - exists 0%nat. cbn [nth tone]. lra.
  - split; [destruct (flit_Z 53 1024 48000 ltac:(lia)); repeat split; try assumption; lia|].
    split; [destruct (flit_Z 53 1024 32000 ltac:(lia)); repeat split; try assumption; lia|]. split; [lia|]. split; [lia|].
    apply lower_usual_aligned; [cbn [usual_rates In]; tauto|cbn [usual_rates In]; tauto|lia|lia].
Qed.
