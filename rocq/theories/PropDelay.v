(** * PropDelay.v -- property theorems C92 *)
From Coq Require Import ZArith NArith Reals Bool List Lia Lra.
From Flocq Require Import Core.Core IEEE754.BinarySingleNaN.
From Verif Require Import Rust Float Chan Frame Ops Stream Audio SpecChan SpecFrame SpecStream SpecSink SpecAudio SpecMore SpecRaise SpecLower.
From Verif Require Import FloatProofs IntProofs AudioProofs RaiseProofs LowerProofs DelayProofs.
Import ListNotations.
Open Scope R_scope.

(** ** C92 *)
(** Raising the rate from [S] to [R] Hz.  The second sound has at frames [i + m] and [i + m - 1] what
    the first has at [i] and [i - 1] (before its first frame: anything), and [m] source frames last as long as [q] destination
    frames.  Then destination frame [p + q] of the second is destination frame [p] of the first. *)
Theorem C92_raise : forall rate src R S, whole_rate rate R -> whole_rate src S -> (S <= 2 ^ 51)%Z -> (S < R)%Z ->
  forall l k l1 k1 l2 k2 (a1 a1' a2 a2' : audio l k) (s1 it1 : stream l1 k1) (s2 it2 : stream l2 k2) n1 n2 all1 all2 (f1 f2 : list (frame l k)) m q p i c v v' w' b1 b2 y1 y2,
  s_rate a1 = rate -> sample_rate s1 = Some src -> honest s1 -> slen s1 = Some n1 -> yields s1 all1 -> converted all1 f1 ->
  s_rate a2 = rate -> sample_rate s2 = Some src -> honest s2 -> slen s2 = Some n2 -> yields s2 all2 -> converted all2 f2 ->
  (R * Z.of_N n1 <= 2 ^ 51)%Z -> (R * Z.of_N n2 <= 2 ^ 51)%Z -> aligned rate src R S n1 -> aligned rate src R S n2 -> (R * Z.of_nat m = S * Z.of_nat q)%Z ->
  extend (Datatypes.S (N.to_nat n1)) a1 s1 = (a1', Ok it1) -> extend (Datatypes.S (N.to_nat n2)) a2 s2 = (a2', Ok it2) ->
  ((Z.of_nat p + 1) * S <= R * Z.of_N n1)%Z -> ((Z.of_nat (p + q) + 1) * S <= R * Z.of_N n2)%Z -> first_at R S p i ->
  level_at f1 i c v -> level_at f2 (i + m) c v -> level_at f1 (i - 1) c v' -> level_at f2 (i + m - 1) c w' -> ((0 < i)%nat -> w' = v') ->
  audio_get a1' (audio_len a1 + p) = Some b1 -> nth_error (channels b1) c = Some y1 ->
  audio_get a2' (audio_len a2 + (p + q)) = Some b2 -> nth_error (channels b2) c = Some y2 ->
  Rabs (level y2 - level y1) <= 12 * applied k (IZR R / IZR S) * step k + (2 * (IZR R / IZR S) + 2 * INR p + INR q + 12) * bpow radix2 (-49).
Proof. exact raise_delay. Qed.
Print Assumptions C92_raise.
(** The destination frames before the end of a silent start are silent. *)
Theorem C92_raise_before : forall rate src R S, whole_rate rate R -> whole_rate src S -> (S <= 2 ^ 51)%Z -> (S < R)%Z ->
  forall l k ls ks (a a' : audio l k) (s it : stream ls ks) n all (fs : list (frame l k)) m p i c w b y,
  s_rate a = rate -> sample_rate s = Some src -> honest s -> slen s = Some n -> yields s all -> converted all fs ->
  (R * Z.of_N n <= 2 ^ 51)%Z -> aligned rate src R S n -> extend (Datatypes.S (N.to_nat n)) a s = (a', Ok it) ->
  ((Z.of_nat p + 1) * S <= R * Z.of_N n)%Z -> first_at R S p i -> (S * (Z.of_nat p + 1) <= R * Z.of_nat m)%Z ->
  (forall j, (j < m)%nat -> level_at fs j c 0) -> level_at fs m c w ->
  audio_get a' (audio_len a + p) = Some b -> nth_error (channels b) c = Some y ->
  Rabs (level y) <= 6 * applied k (IZR R / IZR S) * step k + (IZR R / IZR S + INR p + 6) * bpow radix2 (-49).
Proof. exact raise_before. Qed.
Print Assumptions C92_raise_before.
(** Lowering it.  Only the source frames that sound during destination frame [p + q] count; those
    before the delayed sound starts are silent. *)
Theorem C92_lower : forall rate src R S, whole_rate rate R -> whole_rate src S -> (S <= 2 ^ 50)%Z -> (R <= S)%Z ->
  forall l k l1 k1 l2 k2 (a1 a1' a2 a2' : audio l k) (s1 it1 : stream l1 k1) (s2 it2 : stream l2 k2) n1 n2 all1 all2 (f1 f2 : list (frame l k)) m q p c (v1 v2 : nat -> Rdefinitions.R) b1 b2 y1 y2,
  s_rate a1 = rate -> sample_rate s1 = Some src -> honest s1 -> slen s1 = Some n1 -> yields s1 all1 -> converted all1 f1 ->
  s_rate a2 = rate -> sample_rate s2 = Some src -> honest s2 -> slen s2 = Some n2 -> yields s2 all2 -> converted all2 f2 ->
  (R * Z.of_N n1 <= 2 ^ 51)%Z -> (R * Z.of_N n2 <= 2 ^ 51)%Z -> (R * Z.of_nat m = S * Z.of_nat q)%Z ->
  extend (Datatypes.S (N.to_nat n1)) a1 s1 = (a1', Ok it1) -> extend (Datatypes.S (N.to_nat n2)) a2 s2 = (a2', Ok it2) ->
  ((Z.of_nat p + 1) * S < R * Z.of_N n1 \/ (Z.of_nat p + 1) * S = R * Z.of_N n1 /\ (S <= 2 ^ 49)%Z /\ aligned rate src R S n1)%Z -> ((Z.of_nat (p + q) + 1) * S < R * Z.of_N n2 \/ (Z.of_nat (p + q) + 1) * S = R * Z.of_N n2 /\ (S <= 2 ^ 49)%Z /\ aligned rate src R S n2)%Z ->
  (forall i, (i < N.to_nat n1)%nat -> level_at f1 i c (v1 i)) -> (forall i, (i < N.to_nat n2)%nat -> level_at f2 i c (v2 i)) ->
  (forall i, (i < N.to_nat n2)%nat -> share R S (p + q) i <> 0 -> v2 i = if Nat.ltb i m then 0 else v1 (i - m)%nat) ->
  audio_get a1' (audio_len a1 + p) = Some b1 -> nth_error (channels b1) c = Some y1 ->
  audio_get a2' (audio_len a2 + (p + q)) = Some b2 -> nth_error (channels b2) c = Some y2 ->
  Rabs (level y2 - level y1) <= (IZR S / IZR R + 7) * (2 * step k + (2 * INR p + INR q + 12) * bpow radix2 (-49)).
Proof. exact lower_delay. Qed.
Print Assumptions C92_lower.
Theorem C92_lower_before : forall rate src R S, whole_rate rate R -> whole_rate src S -> (S <= 2 ^ 50)%Z -> (R <= S)%Z ->
  forall l k ls ks (a a' : audio l k) (s it : stream ls ks) n all (fs : list (frame l k)) m p c (v : nat -> Rdefinitions.R) b y,
  s_rate a = rate -> sample_rate s = Some src -> honest s -> slen s = Some n -> yields s all -> converted all fs ->
  (R * Z.of_N n <= 2 ^ 51)%Z -> extend (Datatypes.S (N.to_nat n)) a s = (a', Ok it) -> ((Z.of_nat p + 1) * S < R * Z.of_N n \/ (Z.of_nat p + 1) * S = R * Z.of_N n /\ (S <= 2 ^ 49)%Z /\ aligned rate src R S n)%Z ->
  (forall i, (i < N.to_nat n)%nat -> level_at fs i c (v i)) -> (forall i, (i < m)%nat -> v i = 0) -> (S * (Z.of_nat p + 1) <= R * Z.of_nat m)%Z ->
  audio_get a' (audio_len a + p) = Some b -> nth_error (channels b) c = Some y ->
  Rabs (level y) <= (IZR S / IZR R + 7) * (step k + (INR p + 6) * bpow radix2 (-49)).
Proof. exact lower_before. Qed.
Print Assumptions C92_lower_before.
(** Not at all rates: from 5 to 7 kHz a click at frame 5 is heard at frame 7 only; 40 frames later
    part of it is heard a frame early. *)
Definition converted16 (R S : Z) (xs : list Z) : list Z :=
  match with_stream Mono K16 (Datatypes.S (length xs)) (flit R 0) (SAudio (flit S 0) (map (fun x => (as_sint W16 x, tt) : frame Mono K16) xs)) with
  | Ok (a, _) => map (fun f : frame Mono K16 => sv (fst f)) (frames a)
  | _ => []
  end.
Theorem C92_all_rates_refuted : ~ forall R S xs m q p y1 y2, (0 < S < R)%Z -> (R < 10000)%Z -> (R * Z.of_nat m = S * Z.of_nat q)%Z ->
  nth_error (converted16 R S xs) p = Some y1 -> nth_error (converted16 R S (repeat 0%Z m ++ xs)) (p + q) = Some y2 -> (Z.abs (y2 - y1) <= 1000)%Z.
Proof.
  intros H. specialize (H 7000 5000 [0;0;0;0;0;10000;0;0;0;0] 40%nat 56%nat 6%nat 0 4000 ltac:(lia) ltac:(lia) eq_refl ltac:(vm_compute; reflexivity) ltac:(vm_compute; reflexivity))%Z. lia.
Qed.
Print Assumptions C92_all_rates_refuted.
(** Nor to the last bit, even at usual rates: 15999 instead of 16000. *)
Theorem C92_exact_refuted : ~ forall R S xs m q p, In R usual_rates -> In S usual_rates -> (R * Z.of_nat m = S * Z.of_nat q)%Z ->
  (p < length (converted16 R S xs))%nat -> nth_error (converted16 R S (repeat 0%Z m ++ xs)) (p + q) = nth_error (converted16 R S xs) p.
Proof.
  intros H. specialize (H 32000%Z 48000%Z [3000; 24000; 0; 600; 0; 0]%Z 3%nat 2%nat 1%nat ltac:(cbn [usual_rates In]; tauto) ltac:(cbn [usual_rates In]; tauto) eq_refl ltac:(vm_compute; lia)).
  revert H. vm_compute. discriminate.
Qed.
Print Assumptions C92_exact_refuted.
(** Delays of 3 frames at 48 kHz, 2 at 32 kHz, both ways. *)
Example C92_case :
  converted16 32000 48000 [3000; 24000; 0; 600; 0; 0]%Z = [2000; 16000; 400; 0]%Z /\ converted16 32000 48000 [0; 0; 0; 3000; 24000; 0; 600; 0; 0]%Z = [0; 0; 2000; 15999; 400; 0]%Z /\
  converted16 48000 32000 [3000; 24000; 1200; 600]%Z = [3000; 24000; 11999; 1200; 600; 299]%Z /\
  converted16 48000 32000 [0; 0; 3000; 24000; 1200; 600]%Z = [0; 0; 0; 3000; 24000; 11999; 1200; 600; 299]%Z /\
  (32000 * Z.of_nat 3 = 48000 * Z.of_nat 2)%Z /\ In 48000%Z usual_rates /\ In 32000%Z usual_rates /\
  ((Z.of_nat 1 + 1) * 48000 < 32000 * 6)%Z /\ ((Z.of_nat (1 + 2) + 1) * 48000 < 32000 * 9)%Z /\ first_at 48000 32000 2 2 /\ (share 32000 48000 (0 + 2) 2 <> 0)%R /\
  (48000 * (Z.of_nat 1 + 1) <= 32000 * Z.of_nat 3)%Z.
Proof.
  do 4 (split; [vm_compute; reflexivity|]). split; [lia|]. do 2 (split; [cbn [usual_rates In]; tauto|]). do 2 (split; [lia|]). split; [unfold first_at; lia|].
  split; [|lia]. unfold share. cbn [INR Nat.add]. unfold Rmax, Rmin; repeat destruct (Rle_dec _ _); lra.
Qed.
