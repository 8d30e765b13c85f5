(** * PropSpread.v -- property theorems C98 *)
From Coq Require Import ZArith NArith Reals Bool List Lia Lra.
From Flocq Require Import Core.Core IEEE754.BinarySingleNaN.
From Verif Require Import Rust Float Chan Frame Ops Stream Audio SpecChan SpecFrame SpecStream SpecSink SpecAudio SpecMore SpecRaise SpecLower SpecNearby SpecSpread.
From Verif Require Import FloatProofs IntProofs WholeProofs AudioProofs RaiseProofs NearbyProofs SpreadProofs.
Import ListNotations.
Open Scope R_scope.

(** ** C98 *)
(** A sound whose rate is raised from [S] to [R] Hz, added up: each source frame as it is spread.
    Float formats need the level [S / R]; integer formats never amplify. *)
Theorem C98_sum : forall rate src R S, whole_rate rate R -> whole_rate src S -> (S <= 2 ^ 51)%Z -> (S < R)%Z ->
  forall l k ls ks (a a' : audio l k) (s : stream ls ks) n fs d c (v : nat -> Rdefinitions.R) (y : nat -> chan k),
  s_rate a = rate -> extends src n fs a a' s -> (R * Z.of_N n <= 2 ^ 51)%Z -> aligned rate src R S n -> (Z.of_nat d * S = R * Z.of_N n)%Z ->
  (forall i, (i < N.to_nat n)%nat -> level_at fs i c (v i) /\ bottom k <= applied k (IZR R / IZR S) * v i <= 1) ->
  (forall p, (p < d)%nat -> added a a' p c (y p)) ->
  Rabs (total d (fun p => level (y p)) - total (N.to_nat n) (fun i => spread k R S i * v i))
    <= INR d * (6 * applied k (IZR R / IZR S) * step k + (IZR R / IZR S + INR d + 6) * bpow radix2 (-49)).
Proof. exact raise_sum. Qed.
Print Assumptions C98_sum.
(** The same with a last frame that is not full. *)
Theorem C98_sum_part : forall rate src R S, whole_rate rate R -> whole_rate src S -> (S <= 2 ^ 51)%Z -> (S < R)%Z ->
  forall l k ls ks (a a' : audio l k) (s : stream ls ks) n fs d c (v : nat -> Rdefinitions.R) (y : nat -> chan k), (S < 2 ^ 50)%Z ->
  s_rate a = rate -> extends src n fs a a' s -> (R * Z.of_N n <= 2 ^ 51)%Z -> aligned rate src R S n ->
  (S * Z.of_nat d < R * Z.of_N n < S * (Z.of_nat d + 1))%Z ->
  (forall i, (i < N.to_nat n)%nat -> level_at fs i c (v i) /\ bottom k <= applied k (IZR R / IZR S) * v i <= 1) ->
  (forall p, (p < Datatypes.S d)%nat -> added a a' p c (y p)) ->
  Rabs (total (Datatypes.S d) (fun p => level (y p)) - total (N.to_nat n) (fun i => spread k R S i * v i))
    <= INR (Datatypes.S d) * (6 * applied k (IZR R / IZR S) * step k + (IZR R / IZR S + INR (Datatypes.S d) + 6) * bpow radix2 (-49)).
Proof. exact raise_sum_part. Qed.
Print Assumptions C98_sum_part.
(** R/S in float formats; in integer formats between 1 and 2, and 1 for a frame at a whole position. *)
Theorem C98_spread : forall k R S i, (1 <= S < R)%Z ->
  ((k = K32 \/ k = K64) -> spread k R S i = IZR R / IZR S) /\
  (is_int k -> 1 <= spread k R S i <= 2 /\ spread k R S i <= IZR R / IZR S) /\
  (is_int k -> ((R * Z.of_nat i) mod S = 0)%Z -> spread k R S i = 1).
Proof. exact spread_facts. Qed.
Print Assumptions C98_spread.
(** So the mean is kept in float formats. *)
Theorem C98_mean : forall rate src R S, whole_rate rate R -> whole_rate src S -> (S <= 2 ^ 51)%Z -> (S < R)%Z ->
  forall l k ls ks (a a' : audio l k) (s : stream ls ks) n fs d c (v : nat -> Rdefinitions.R) (y : nat -> chan k),
  (k = K32 \/ k = K64) -> (0 < d)%nat ->
  s_rate a = rate -> extends src n fs a a' s -> (R * Z.of_N n <= 2 ^ 51)%Z -> aligned rate src R S n -> (Z.of_nat d * S = R * Z.of_N n)%Z ->
  (forall i, (i < N.to_nat n)%nat -> level_at fs i c (v i) /\ Rabs (v i) <= IZR S / IZR R) ->
  (forall p, (p < d)%nat -> added a a' p c (y p)) ->
  Rabs (total d (fun p => level (y p)) / INR d - total (N.to_nat n) v / INR (N.to_nat n))
    <= 6 * (IZR R / IZR S) * step k + (IZR R / IZR S + INR d + 6) * bpow radix2 (-49).
Proof. exact raise_mean. Qed.
Print Assumptions C98_mean.

(** A 24 kHz sound at 48 kHz. *)
Definition sound (zs : list Z) : list (frame Mono K16) := map (fun z => (as_sint W16 z, tt) : frame Mono K16) zs.
Definition at48 (zs : list Z) : audio Mono K16 * res (stream Mono K16) :=
  extend (S (length zs)) (with_frames (flit 48000 0) []) (SAudio (flit 24000 0) (sound zs)).
Definition codes (a : audio Mono K16) : list Z := map (fun f : frame Mono K16 => sv (fst f)) (frames a).
Definition sumZ : list Z -> Z := fold_right Z.add 0%Z.
(** Not in 16 bits, however quiet the sound: the mean of 100 becomes 50. *)
Theorem C98_mean_refuted : ~ forall zs, Forall (fun z => -1000 <= z <= 1000)%Z zs -> (Z.of_nat (length zs) * 2 = Z.of_nat (length (codes (fst (at48 zs)))))%Z ->
  (Z.abs (sumZ (codes (fst (at48 zs))) * Z.of_nat (length zs) - sumZ zs * Z.of_nat (length (codes (fst (at48 zs))))) <=
    20 * Z.of_nat (length zs) * Z.of_nat (length (codes (fst (at48 zs)))))%Z.
Proof.
  intros H. specialize (H (repeat 100%Z 4)).
  assert (E : codes (fst (at48 (repeat 100%Z 4))) = [100; 0; 100; 0; 100; 0; 100; 0]%Z) by (vm_compute; reflexivity). rewrite E in H.
  cbn in H. assert (F : Forall (fun z => -1000 <= z <= 1000)%Z (repeat 100%Z 4)) by (repeat constructor; lia).
  specialize (H F ltac:(lia)). lia.
Qed.
Print Assumptions C98_mean_refuted.
(** Two samples of 1/2 and two of -1/4 at 32 kHz, made 48 kHz: 3/4, 1/2, 1/4, then -3/8, -1/4, -1/8 -- the mean stays 1/8. *)
Definition quiet : list (frame Mono K32) := [((flit 1 (-1) : f32), tt); ((flit 1 (-1) : f32), tt); ((flit (-1) (-2) : f32), tt); ((flit (-1) (-2) : f32), tt)].
Definition raised : audio Mono K32 * res (stream Mono K32) := extend 5 (with_frames (flit 48000 0) []) (SAudio (flit 32000 0) quiet).
Example C98_case :
  map (fun '(f, e) => feq (fst (f : frame Mono K32) : f32) (flit e (-3))) (combine (frames (fst raised)) [6; 4; 2; -3; -2; -1]%Z) = repeat true 6 /\
  extends (flit 32000 0) 4%N quiet (with_frames (flit 48000 0) []) (fst raised) (SAudio (flit 32000 0) quiet) /\
  (forall i, (i < 4)%nat -> level_at quiet i 0 (nth i [/ 2; / 2; - / 4; - / 4] 0) /\ Rabs (nth i [/ 2; / 2; - / 4; - / 4] 0) <= 32000 / 48000) /\
  (forall p, (p < 6)%nat -> exists y, added (with_frames (flit 48000 0) []) (fst raised) p 0 y) /\
  whole_rate (flit 32000 0) 32000 /\ whole_rate (flit 48000 0) 48000 /\ (Z.of_nat 6 * 32000 = 48000 * 4)%Z /\ (32000 * Z.of_nat 4 < 48000 * 3 < 32000 * (Z.of_nat 4 + 1))%Z /\
  aligned (flit 48000 0) (flit 32000 0) 48000 32000 4.
Proof.
  split; [vm_compute; reflexivity|].
  split; [apply (audio_extends (flit 32000 0) quiet); vm_compute; exact I|].
  split.
  - assert (A : B2R (flit 1 (-1) : f32) = / 2).
    { rewrite <- (SF2R_B2SF _ _ (flit 1 (-1) : f32)). let v := eval vm_compute in (B2SF (flit 1 (-1) : f32)) in change (B2SF (flit 1 (-1) : f32)) with v.
      cbn [SF2R F2R Fnum Fexp cond_Zopp]. unfold F2R. cbn. lra. }
    assert (B : B2R (flit (-1) (-2) : f32) = - / 4).
    { rewrite <- (SF2R_B2SF _ _ (flit (-1) (-2) : f32)). let v := eval vm_compute in (B2SF (flit (-1) (-2) : f32)) in change (B2SF (flit (-1) (-2) : f32)) with v.
      cbn [SF2R F2R Fnum Fexp cond_Zopp]. unfold F2R. cbn. lra. }
    assert (VA : valid (flit 1 (-1) : chan K32)) by (split; [reflexivity|rewrite A; lra]).
    assert (VB : valid (flit (-1) (-2) : chan K32)) by (split; [reflexivity|rewrite B; lra]).
    intros i Hi. do 4 (destruct i as [|i]; [split; [intros f x Hf Hx; unfold quiet in Hf; cbn [nth_error] in Hf; injection Hf as <-; cbn [channels nth_error] in Hx; injection Hx as <-; split; [assumption|symmetry; assumption]|cbn [nth]; apply Rabs_le; lra]|]). lia.
  - split.
    { intros p Hp. assert (L : length (frames (fst raised)) = 6%nat) by (vm_compute; reflexivity).
      destruct (nth_error (frames (fst raised)) p) as [b|] eqn:E; [|apply nth_error_None in E; lia].
      exists (fst b), b. split; [exact E|]. destruct b as [x []]. reflexivity. }
    split; [destruct (flit_Z 53 1024 32000 ltac:(lia)); repeat split; try assumption; lia|].
    split; [destruct (flit_Z 53 1024 48000 ltac:(lia)); repeat split; try assumption; lia|]. split; [lia|]. split; [lia|].
    apply usual_aligned; [cbn [usual_rates In]; tauto|cbn [usual_rates In]; tauto|lia|lia].
Qed.
