(** * PropSum.v -- property theorems C96 *)
From Coq Require Import ZArith NArith Reals Bool List Lia Lra.
From Flocq Require Import Core.Core IEEE754.BinarySingleNaN.
From Verif Require Import Rust Float Chan Frame Ops Stream Audio SpecChan SpecFrame SpecStream SpecSink SpecAudio SpecMore SpecRaise SpecLower SpecSum.
From Verif Require Import FloatProofs IntProofs WholeProofs AudioProofs LowerProofs SumProofs.
Import ListNotations.
Open Scope R_scope.

(** ** C96 *)
(** The first [d] frames of a sound whose rate is lowered from [S] to [R] Hz, added up: each source
    frame by the time it sounds before their end. *)
Theorem C96_sum : forall rate src R S, whole_rate rate R -> whole_rate src S -> (S <= 2 ^ 50)%Z -> (R <= S)%Z ->
  forall l k ls ks (a a' : audio l k) (s it : stream ls ks) n all (fs : list (frame l k)) d c (v : nat -> Rdefinitions.R) (y : nat -> chan k),
  s_rate a = rate -> sample_rate s = Some src -> honest s -> slen s = Some n -> yields s all -> converted all fs ->
  (R * Z.of_N n <= 2 ^ 51)%Z -> extend (Datatypes.S (N.to_nat n)) a s = (a', Ok it) ->
  (Z.of_nat d * S < R * Z.of_N n \/ Z.of_nat d * S = R * Z.of_N n /\ (S <= 2 ^ 49)%Z /\ aligned rate src R S n)%Z ->
  (forall i, (i < N.to_nat n)%nat -> level_at fs i c (v i)) ->
  (forall p, (p < d)%nat -> exists b, audio_get a' (audio_len a + p) = Some b /\ nth_error (channels b) c = Some (y p)) ->
  Rabs (total d (fun p => level (y p)) - total (N.to_nat n) (fun i => counted R S d i * v i))
    <= INR d * ((IZR S / IZR R + 7) * (step k + (INR d + 6) * bpow radix2 (-49))).
Proof. exact lower_sum. Qed.
Print Assumptions C96_sum.
(** R/S for a source frame that has ended by then, 0 for one that has not begun. *)
Theorem C96_counted : forall R S, (1 <= R <= S)%Z ->
  (forall d i, 0 <= counted R S d i <= IZR R / IZR S) /\
  (forall d i, (R * Z.of_nat i + S <= S * Z.of_nat d)%Z -> counted R S d i = IZR R / IZR S) /\
  (forall d i, (S * Z.of_nat d <= R * (Z.of_nat i - 1) + S)%Z -> counted R S d i = 0).
Proof. exact counted_facts. Qed.
Print Assumptions C96_counted.
(** The mean of a sound that ends in about one destination frame of silence is kept. *)
Theorem C96_mean : forall rate src R S, whole_rate rate R -> whole_rate src S -> (S <= 2 ^ 50)%Z -> (R <= S)%Z ->
  forall l k ls ks (a a' : audio l k) (s it : stream ls ks) n all (fs : list (frame l k)) d c (v : nat -> Rdefinitions.R) (y : nat -> chan k),
  s_rate a = rate -> sample_rate s = Some src -> honest s -> slen s = Some n -> yields s all -> converted all fs ->
  (R * Z.of_N n <= 2 ^ 51)%Z -> extend (Datatypes.S (N.to_nat n)) a s = (a', Ok it) ->
  (0 < d)%nat -> (Z.of_nat d * S = R * Z.of_N n)%Z -> (S <= 2 ^ 49)%Z -> aligned rate src R S n ->
  (forall i, (i < N.to_nat n)%nat -> level_at fs i c (v i)) ->
  (forall i, (i < N.to_nat n)%nat -> (S * Z.of_nat d < R * Z.of_nat i + S)%Z -> v i = 0) ->
  (forall p, (p < d)%nat -> exists b, audio_get a' (audio_len a + p) = Some b /\ nth_error (channels b) c = Some (y p)) ->
  Rabs (total d (fun p => level (y p)) / INR d - total (N.to_nat n) v / INR (N.to_nat n))
    <= (IZR S / IZR R + 7) * (step k + (INR d + 6) * bpow radix2 (-49)).
Proof. exact lower_mean. Qed.
Print Assumptions C96_mean.
(** A 48 kHz sound at 32 kHz. *)
Definition at32 (zs : list Z) : list Z :=
  match with_stream Mono K16 (Datatypes.S (length zs)) (flit 32000 0) (SAudio (flit 48000 0) (map (fun z => (as_sint W16 z, tt) : frame Mono K16) zs)) with
  | Ok (a, _) => map (fun f : frame Mono K16 => sv (fst f)) (frames a)
  | _ => []
  end.
Definition sumZ : list Z -> Z := fold_right Z.add 0%Z.
(** Without that silence it is not: the mean of 24000 becomes 21999. *)
Theorem C96_mean_refuted : ~ forall zs, Forall (fun z => -32768 <= z <= 32767)%Z zs -> (Z.of_nat (length zs) * 2 = Z.of_nat (length (at32 zs)) * 3)%Z ->
  (Z.abs (sumZ (at32 zs) * Z.of_nat (length zs) - sumZ zs * Z.of_nat (length (at32 zs))) <= 1000 * Z.of_nat (length zs) * Z.of_nat (length (at32 zs)))%Z.
Proof.
  intros H. specialize (H (repeat 24000%Z 6)).
  assert (E : at32 (repeat 24000%Z 6) = [16000; 23999; 23999; 23998]%Z) by (vm_compute; reflexivity). rewrite E in H.
  cbn in H. assert (F : Forall (fun z => -32768 <= z <= 32767)%Z (repeat 24000%Z 6)) by (repeat constructor; lia).
  specialize (H F ltac:(lia)). lia.
Qed.
Print Assumptions C96_mean_refuted.
Example C96_case :
  at32 [24000; 24000; 24000; 24000; 24000; 0]%Z = [16000; 23999; 23999; 15999]%Z /\
  (forall i, (i < 6)%nat -> (48000 * Z.of_nat 4 < 32000 * Z.of_nat i + 48000)%Z -> i = 5%nat) /\
  (Z.of_nat 4 * 48000 = 32000 * 6)%Z /\ counted 32000 48000 4 3 = 2 / 3 /\ counted 32000 48000 4 5 = / 3 /\
  whole_rate (flit 48000 0) 48000 /\ whole_rate (flit 32000 0) 32000 /\ aligned (flit 32000 0) (flit 48000 0) 32000 48000 6.
Proof.
  split; [vm_compute; reflexivity|]. split; [intros; lia|]. split; [lia|].
  split; [unfold counted; cbn [INR]; unfold Rmin; repeat destruct (Rle_dec _ _); lra|].
  split; [unfold counted; cbn [INR]; unfold Rmin; repeat destruct (Rle_dec _ _); lra|].
  split; [destruct (flit_Z 53 1024 48000 ltac:(lia)); repeat split; try assumption; lia|].
  split; [destruct (flit_Z 53 1024 32000 ltac:(lia)); repeat split; try assumption; lia|].
  apply lower_usual_aligned; [cbn [usual_rates In]; tauto|cbn [usual_rates In]; tauto|lia|lia].
Qed.
