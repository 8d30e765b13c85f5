(** * PropTrip.v -- property theorems C76 *)
From Coq Require Import ZArith NArith Reals Bool List Lia Lra.
From Flocq Require Import Core.Core IEEE754.BinarySingleNaN.
From Verif Require Import Rust Float Chan Frame Stream Audio SpecChan SpecFrame SpecStream SpecSink SpecAudio SpecTrip FloatProofs TripProofs.
Import ListNotations.
Open Scope Z_scope.

Notation "'m8' z" := ((as_sint W8 z, tt) : frame Mono K8) (at level 9, z at next level, only parsing).
Notation "'khz' z" := (flit (1000 * z) 0 : f64) (at level 9, z at next level, only parsing).
Definition codes_of {l T} (r : res (audio l K8 * T)) : list (list Z) :=
  match r with Ok (a, _) => map (fun f : frame l K8 => map sv (channels f)) (frames a) | _ => [] end.

(** ** C76 *)
Theorem C76_up_down : forall l k ls ks (s : stream ls ks) up back src r n all (fs : list (frame l k)),
  sample_rate s = Some src -> whole_rate src r -> whole_rate up (2 * r) -> whole_rate back r -> 2 * r * Z.of_N n <= 2 ^ 53 ->
  honest s -> slen s = Some n -> allocatable l k (2 * Z.of_N n) -> yields s all -> converted all fs ->
  (is_float k -> Forall frame_valid fs) ->
  exists a b it it2, with_stream l k (S (N.to_nat n)) up s = Ok (a, it) /\
    with_stream l k (S (audio_len a)) back (audio_stream a) = Ok (b, it2) /\
    audio_sample_rate b = back /\ audio_len b = length fs /\
    (forall p f, nth_error fs p = Some f -> exists y, audio_get b p = Some y /\ frame_trip f y).
Proof. exact up_down. Qed.
Print Assumptions C76_up_down.
Theorem C76_down_up : forall l k ls ks (s : stream ls ks) down back src r n all (fs : list (frame l k)),
  sample_rate s = Some src -> whole_rate src (2 * r) -> whole_rate down r -> whole_rate back (2 * r) -> 2 * r * (Z.of_N n + 1) <= 2 ^ 53 ->
  honest s -> slen s = Some n -> allocatable l k (Z.of_N n + 1) -> yields s all -> converted all fs ->
  (is_float k -> Forall frame_valid fs) ->
  exists a b it it2, with_stream l k (S (N.to_nat n)) down s = Ok (a, it) /\
    with_stream l k (S (audio_len a)) back (audio_stream a) = Ok (b, it2) /\
    audio_sample_rate b = back /\ Z.of_nat (audio_len b) = 2 * ((Z.of_N n + 1) / 2) /\
    (forall p, (2 * p + 1 < audio_len b)%nat -> audio_get b (2 * p + 1) = Some (frame_default l k)).
Proof. exact down_up. Qed.
Print Assumptions C76_down_up.
Theorem C76_up_up : forall l k ls ks (s : stream ls ks) mid top src r m1 m2 n all, is_int k ->
  sample_rate s = Some src -> whole_rate src r -> whole_rate mid (m1 * r) -> whole_rate top (m2 * (m1 * r)) -> 1 <= m1 -> 1 <= m2 ->
  m2 * (m1 * r) * Z.of_N n * m1 <= 2 ^ 53 -> honest s -> slen s = Some n -> allocatable l k (m2 * m1 * Z.of_N n) -> yields s all ->
  exists a b it it2 it3, with_stream l k (S (N.to_nat n)) mid s = Ok (a, it) /\
    with_stream l k (S (audio_len a)) top (audio_stream a) = Ok (b, it2) /\ with_stream l k (S (N.to_nat n)) top s = Ok (b, it3).
Proof. exact up_up. Qed.
Print Assumptions C76_up_up.

(** 24 to 48 kHz and back. *)
Definition trip_source : stream Mono K8 := SAudio (khz 24) [m8 100; m8 (-40); m8 7].
Definition there : list (list Z) := codes_of (with_stream Mono K8 4 (khz 48) trip_source).
Definition and_back : list (list Z) :=
  match with_stream Mono K8 4 (khz 48) trip_source with
  | Ok (a, _) => codes_of (with_stream Mono K8 7 (khz 24) (audio_stream a))
  | _ => []
  end.
(** The signal is not restored. *)
Theorem C76_restored_refuted : and_back <> codes_of (with_stream Mono K8 4 (khz 24) trip_source).
Proof. vm_compute. discriminate. Qed.
Print Assumptions C76_restored_refuted.
Example C76_case : there = [[100]; [0]; [-40]; [0]; [7]; [0]] /\ and_back = [[49]; [-19]; [3]] /\
  codes_of (with_stream Mono K8 4 (khz 24) trip_source) = [[100]; [-40]; [7]] /\
  honest trip_source /\ slen trip_source = Some 3%N /\ whole_rate (khz 24) 24000 /\ whole_rate (khz 48) (2 * 24000) /\ allocatable Mono K8 7.
Proof.
  split; [vm_compute; reflexivity|]. split; [vm_compute; reflexivity|]. split; [vm_compute; reflexivity|].
  split; [exact (StreamProofs.well_formed_honest _ _ trip_source I)|]. split; [reflexivity|].
  split; [|split]; try (split; [reflexivity|split; [|lia]]; cbn; unfold F2R; cbn; lra). unfold allocatable. cbn. lia.
Qed.
(** A float sample within half of full scale is restored, a louder one is cut off. *)
Example C76_float_case : forall x y : chan K32, trip x y -> (B2R (x : f32) = / 4 -> B2R (y : f32) = / 4)%R /\ (B2R (x : f32) = 1 -> B2R (y : f32) = / 2)%R.
Proof.
  intros x y H. cbn in H. split; intros E; rewrite H, E; unfold Rmax, Rmin; repeat destruct Rle_dec; lra.
Qed.
