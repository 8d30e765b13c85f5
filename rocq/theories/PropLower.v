(** * PropLower.v -- property theorems C89 *)
From Coq Require Import ZArith NArith Reals Bool List Lia Lra.
From Flocq Require Import Core.Core IEEE754.BinarySingleNaN.
From Verif Require Import Rust Float Chan Frame Ops Stream Audio SpecChan SpecFrame SpecStream SpecSink SpecAudio SpecMore SpecRaise SpecLower.
From Verif Require Import FloatProofs IntProofs WholeProofs AudioProofs LowerProofs.
Import ListNotations.
Open Scope R_scope.

(** ** C89 *)
(** Lowering the rate from [S] to [R] Hz.  Each whole destination frame is the mean of the
    source frames by the time they share with it, source frame [i] sounding during
    [(R (i - 1) + S) / S .. (R i + S) / S]. *)
Theorem C89_frames : forall rate src R S, whole_rate rate R -> whole_rate src S -> (S <= 2 ^ 50)%Z -> (R <= S)%Z ->
  forall l k ls ks (a a' : audio l k) (s it : stream ls ks) n all (fs : list (frame l k)) p c (v : nat -> Rdefinitions.R) b y,
  s_rate a = rate -> sample_rate s = Some src -> honest s -> slen s = Some n -> yields s all -> converted all fs ->
  (R * Z.of_N n <= 2 ^ 51)%Z -> extend (Datatypes.S (N.to_nat n)) a s = (a', Ok it) ->
  ((Z.of_nat p + 1) * S < R * Z.of_N n \/ (Z.of_nat p + 1) * S = R * Z.of_N n /\ (S <= 2 ^ 49)%Z /\ aligned rate src R S n)%Z ->
  (forall i, (i < N.to_nat n)%nat -> level_at fs i c (v i)) ->
  audio_get a' (audio_len a + p) = Some b -> nth_error (channels b) c = Some y ->
  Rabs (level y - total (N.to_nat n) (fun i => share R S p i * v i)) <= (IZR S / IZR R + 7) * (step k + (INR p + 6) * bpow radix2 (-49)).
Proof. exact lower_frame. Qed.
Print Assumptions C89_frames.
(** The shares of a frame total 1, those of frame 0 only R/S; every source frame counts R/S in all. *)
Theorem C89_shares : forall R S, (1 <= R <= S)%Z ->
  (forall p i, 0 <= share R S p i <= 1) /\
  (forall p n, (Z.of_nat p * S <= R * (Z.of_nat n - 1))%Z -> total n (share R S p) = if Nat.eqb p 0 then IZR R / IZR S else 1) /\
  (forall i d, (R * Z.of_nat i + S <= S * Z.of_nat d)%Z -> total d (fun p => share R S p i) = IZR R / IZR S).
Proof. exact lower_shares. Qed.
Print Assumptions C89_shares.
(** When the new length is not a whole number of frames the last frame gets the shares of
    those source frames only, that lie before it: the first [m]. *)
Theorem C89_last : forall rate src R S, whole_rate rate R -> whole_rate src S -> (S <= 2 ^ 50)%Z -> (R <= S)%Z ->
  forall l k ls ks (a a' : audio l k) (s it : stream ls ks) n all (fs : list (frame l k)) p m c (v : nat -> Rdefinitions.R) b y, (S <= 2 ^ 49)%Z ->
  s_rate a = rate -> sample_rate s = Some src -> honest s -> slen s = Some n -> yields s all -> converted all fs ->
  (R * Z.of_N n <= 2 ^ 51)%Z -> aligned rate src R S n -> extend (Datatypes.S (N.to_nat n)) a s = (a', Ok it) ->
  (S * Z.of_nat p < R * Z.of_N n < S * (Z.of_nat p + 1))%Z -> (R * (Z.of_nat m - 1) < S * Z.of_nat p <= R * Z.of_nat m)%Z ->
  (forall i, (i < N.to_nat n)%nat -> level_at fs i c (v i)) ->
  audio_get a' (audio_len a + p) = Some b -> nth_error (channels b) c = Some y ->
  ((S * Z.of_nat p < R * Z.of_nat m)%Z -> Rabs (level y - total m (fun i => share R S p i * v i)) <= (IZR S / IZR R + 7) * (step k + (INR p + 6) * bpow radix2 (-49))) /\
  ((S * Z.of_nat p = R * Z.of_nat m)%Z -> B2R (fmul (fdiv rate src) (fofZ (Z.of_nat m))) = INR p -> b = frame_default l k).
Proof. exact lower_last_frame. Qed.
Print Assumptions C89_last.
Theorem C89_usual_rates : forall R S n, In R usual_rates -> In S usual_rates -> (R <= S)%Z -> (R * Z.of_N n <= 2 ^ 51)%Z ->
  aligned (flit R 0) (flit S 0) R S n.
Proof. exact lower_usual_aligned. Qed.
Print Assumptions C89_usual_rates.
(** A 48 kHz sound at 32 kHz. *)
Definition lowered (zs : list Z) : list Z :=
  match with_stream Mono K16 (Datatypes.S (length zs)) (flit 32000 0) (SAudio (flit 48000 0) (map (fun z => (as_sint W16 z, tt) : frame Mono K16) zs)) with
  | Ok (a, _) => map (fun f : frame Mono K16 => sv (fst f)) (frames a)
  | _ => []
  end.
(** Every source frame is not heard: the fourth of four is lost, and the last frame is silent. *)
Theorem C89_all_heard_refuted : ~ forall zs, (exists z, In z zs /\ (10000 <= z <= 32767)%Z) -> exists y, In y (lowered zs) /\ y <> 0%Z.
Proof.
  intros H. destruct (H [0; 0; 0; 30000]%Z) as (y & I & N).
  - exists 30000%Z. cbn [In]. split; [tauto|lia].
  - assert (E : lowered [0; 0; 0; 30000]%Z = [0; 0; 0]%Z) by (vm_compute; reflexivity). rewrite E in I. cbn [In] in I. intuition lia.
Qed.
Print Assumptions C89_all_heard_refuted.
(** Steady 24000 becomes 16000 and then 24000; source frames 0 to 3 count 2/3 in frame 0, 2/3 in frame 1,
    1/3 and 1/3 in 1 and 2, 2/3 in frame 2 (rounded).  With four source frames the last frame is
    silent, with five it has the share of source frame 4. *)
Example C89_case :
  lowered [24000; 0; 0; 0; 0; 0]%Z = [16000; 0; 0; 0]%Z /\ lowered [0; 24000; 0; 0; 0; 0]%Z = [0; 16000; 0; 0]%Z /\
  lowered [0; 0; 24000; 0; 0; 0]%Z = [0; 7999; 7999; 0]%Z /\ lowered [0; 0; 0; 24000; 0; 0]%Z = [0; 0; 16000; 0]%Z /\
  lowered (repeat 24000%Z 6) = [16000; 23999; 23999; 23998]%Z /\ lowered (repeat 24000%Z 4) = [16000; 23999; 0]%Z /\
  lowered (repeat 24000%Z 5) = [16000; 23999; 23999; 15999]%Z /\
  share 32000 48000 0 0 = 2 / 3 /\ share 32000 48000 1 2 = / 3 /\ share 32000 48000 2 2 = / 3 /\ share 32000 48000 3 4 = 2 / 3 /\ share 32000 48000 0 1 = 0 /\
  In 48000%Z usual_rates /\ In 32000%Z usual_rates /\ ((Z.of_nat 2 + 1) * 48000 < 32000 * 5)%Z /\ ((Z.of_nat 3 + 1) * 48000 = 32000 * 6)%Z /\
  (48000 * Z.of_nat 3 < 32000 * 5 < 48000 * (Z.of_nat 3 + 1))%Z /\ (32000 * (Z.of_nat 5 - 1) < 48000 * Z.of_nat 3 < 32000 * Z.of_nat 5)%Z /\
  (48000 * Z.of_nat 2 < 32000 * 4 < 48000 * (Z.of_nat 2 + 1))%Z /\ (32000 * (Z.of_nat 3 - 1) < 48000 * Z.of_nat 2)%Z /\ (48000 * Z.of_nat 2 = 32000 * Z.of_nat 3)%Z /\
  B2R (fmul (fdiv (flit 32000 0 : f64) (flit 48000 0)) (fofZ (Z.of_nat 3))) = INR 2.
Proof.
  do 7 (split; [vm_compute; reflexivity|]). unfold share. cbn [INR].
  do 5 (split; [unfold Rmax, Rmin; repeat destruct (Rle_dec _ _); lra|]).
  split; [cbn [usual_rates In]; tauto|]. split; [cbn [usual_rates In]; tauto|]. do 7 (split; [lia|]).
  assert (E : fmul (fdiv (flit 32000 0 : f64) (flit 48000 0)) (fofZ (Z.of_nat 3)) = flit 2 0) by (apply B2SF_inj; vm_compute; reflexivity).
  rewrite E. destruct (flit_Z 53 1024 2 ltac:(lia)) as [-> _]. cbn [INR]. lra.
Qed.
