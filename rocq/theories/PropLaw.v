(** * PropLaw.v -- further property theorems (C65 and later) *)
From Coq Require Import ZArith NArith Reals Bool List Lia Lra.
From Flocq Require Import Core.Core IEEE754.BinarySingleNaN.
From Verif Require Import Rust Float Math Chan Frame Ops Stream Audio Heap SpecChan SpecFrame SpecStream SpecSink SpecAudio SpecMore SpecLaw
  FloatProofs StreamProofs StreamMore SinkProofs AudioProofs ChunkProofs RatioProofs ApartProofs LawProofs.
Import ListNotations.
Open Scope Z_scope.

Notation "'m8' z" := ((as_sint W8 z, tt) : frame Mono K8) (at level 9, z at next level, only parsing).
Notation "'khz' z" := (flit (1000 * z) 0 : f64) (at level 9, z at next level, only parsing).
(** An empty buffer. *)
Definition none8 (r : f64) : audio Mono K8 := mkAudio r [].
(** The sample values of a buffer; of what [extend] leaves. *)
Definition codes {l} (fs : list (frame l K8)) : list (list Z) := map (fun f : frame l K8 => map sv (channels f)) fs.
Definition codes_ext {l T} (r : audio l K8 * res T) : list (list Z) :=
  match r with (a, Ok _) => codes (frames a) | _ => [] end.

(** ** C65 *)
(** Extending with pieces is extending with the whole, if the rates are equal. *)
Theorem C65_pieces : forall l k ls ks (a : audio l k) z (ss : list (stream ls ks)) xss s,
  whole_rate (s_rate a) z -> Forall2 (piece (s_rate a)) ss xss -> piece (s_rate a) s (concat xss) ->
  z * Z.of_nat (length (concat xss)) <= 2 ^ 53 -> allocatable l k (Z.of_nat (audio_len a) + Z.of_nat (length (concat xss))) ->
  exists b, extended a ss b /\ extended a [s] b /\ audio_len b = (audio_len a + length (concat xss))%nat.
Proof. exact pieces. Qed.
Print Assumptions C65_pieces.
(** Successive calls have one outcome. *)
Theorem C65_one_outcome : forall l k ls ks (a b c : audio l k) (ss : list (stream ls ks)),
  extended a ss b -> extended a ss c -> b = c.
Proof. intros l k ls ks a b c ss H. exact (extended_fun l k ls ks a b ss H c). Qed.
Print Assumptions C65_one_outcome.
(** At half the rate the pieces differ from the whole. *)
Theorem C65_differing_rates_refuted : ~ (forall l k ls ks (a b c : audio l k) (ss : list (stream ls ks)) xss s src,
  whole_rate (s_rate a) 24000 -> whole_rate src 48000 -> Forall2 (piece src) ss xss -> piece src s (concat xss) ->
  extended a ss b -> extended a [s] c -> b = c).
Proof. exact pieces_differ. Qed.
Print Assumptions C65_differing_rates_refuted.
Example C65_case : let a := mkAudio (khz 48) [m8 9] in
  let s1 := SAudio (khz 48) [m8 1; m8 2] in let s2 := STake (SAudio (khz 48) [m8 3; m8 4]) 1 in
  let s := SAudio (khz 48) [m8 1; m8 2; m8 3] in
  whole_rate (s_rate a) 48000 /\ Forall2 (piece (khz 48)) [s1; s2] [[m8 1; m8 2]; [m8 3]] /\ piece (khz 48) s [m8 1; m8 2; m8 3] /\
  codes_ext (extend 2 (fst (extend 3 a s1)) s2) = [[9]; [1]; [2]; [3]] /\ codes_ext (extend 4 a s) = [[9]; [1]; [2]; [3]].
Proof.
  cbv zeta. destruct (flit_Z 53 1024 48000 ltac:(lia)). split; [repeat split; try assumption; lia|].
  split; [|split; [split; [apply audio_yields|split; [reflexivity|now left]]|split; vm_compute; reflexivity]].
  constructor; [split; [apply audio_yields|split; [reflexivity|now left]]|]. constructor; [|constructor].
  split; [exact (take_yields _ _ (SAudio (khz 48) [m8 3; m8 4]) _ 1 (audio_yields _ _ _ _))|split; [reflexivity|now left]].
Qed.

(** ** C66 *)
(** Only the ratio of the two rates matters, not the rates themselves. *)
Theorem C66_ratio : forall l k l1 k1 l2 k2 (a1 a2 : audio l k) (s1 : stream l1 k1) (s2 : stream l2 k2) src1 src2 R1 S1 R2 S2 n all1 all2 (fs : list (frame l k)),
  whole_rate (s_rate a1) R1 -> sample_rate s1 = Some src1 -> whole_rate src1 S1 -> S1 <= 2 ^ 51 -> R1 * Z.of_N n <= 2 ^ 51 ->
  whole_rate (s_rate a2) R2 -> sample_rate s2 = Some src2 -> whole_rate src2 S2 -> S2 <= 2 ^ 51 -> R2 * Z.of_N n <= 2 ^ 51 ->
  R1 * S2 = R2 * S1 ->
  slen s1 = Some n -> slen s2 = Some n -> honest s1 -> honest s2 ->
  yields s1 all1 -> yields s2 all2 -> converted all1 fs -> converted all2 fs ->
  let d := (R1 * Z.of_N n + S1 - 1) / S1 in
  allocatable l k (Z.of_nat (audio_len a1) + d) -> allocatable l k (Z.of_nat (audio_len a2) + d) ->
  (snd (extend (S (N.to_nat n)) a1 s1) = Panic IndexOutOfBounds /\ snd (extend (S (N.to_nat n)) a2 s2) = Panic IndexOutOfBounds) \/
  (exists added it1 it2, extend (S (N.to_nat n)) a1 s1 = (mkAudio (s_rate a1) (frames a1 ++ added), Ok it1) /\
     extend (S (N.to_nat n)) a2 s2 = (mkAudio (s_rate a2) (frames a2 ++ added), Ok it2)).
Proof. exact extend_ratio. Qed.
Print Assumptions C66_ratio.
(** 32 to 48 kHz is 2 to 3 Hz. *)
Example C66_case : 48000 * 2 = 3 * 32000 /\ whole_rate (flit 3 0) 3 /\
  codes_ext (extend 4 (none8 (khz 48)) (SAudio (khz 32) [m8 10; m8 20; m8 30])) = [[10]; [20]; [9]; [30]; [0]] /\
  codes_ext (extend 4 (none8 (flit 3 0)) (SAudio (flit 2 0) [m8 10; m8 20; m8 30])) = [[10]; [20]; [9]; [30]; [0]].
Proof.
  split; [reflexivity|]. destruct (flit_Z 53 1024 3 ltac:(lia)). split; [repeat split; try assumption; lia|]. split; vm_compute; reflexivity.
Qed.

(** ** C67 *)
(** What comes later in a stream does not change the frames that end before. *)
Theorem C67_prefix : forall l k ls ks (a a1 a2 : audio l k) (s1 s2 it1 it2 : stream ls ks) src R S n1 n2 xs ys p,
  whole_rate (s_rate a) R -> sample_rate s1 = Some src -> sample_rate s2 = Some src -> whole_rate src S -> S <= 2 ^ 51 ->
  honest s1 -> honest s2 -> slen s1 = Some n1 -> slen s2 = Some n2 -> R * Z.of_N n2 <= 2 ^ 51 ->
  yields s1 xs -> yields s2 (xs ++ ys) ->
  extend (Datatypes.S (N.to_nat n1)) a s1 = (a1, Ok it1) -> extend (Datatypes.S (N.to_nat n2)) a s2 = (a2, Ok it2) ->
  (Z.of_nat p + 1) * S < R * Z.of_N n1 ->
  exists b, audio_get a1 (audio_len a + p) = Some b /\ audio_get a2 (audio_len a + p) = Some b.
Proof. exact extend_prefix. Qed.
Print Assumptions C67_prefix.
(** Five of seven frames from 48 to 32 kHz: the first three of four frames stay. *)
Example C67_case : (2 + 1) * 48000 < 32000 * 5 /\
  codes_ext (extend 6 (none8 (khz 32)) (SAudio (khz 48) [m8 90; m8 60; m8 30; m8 90; m8 60])) = [[60]; [49]; [69]; [39]] /\
  codes_ext (extend 8 (none8 (khz 32)) (SAudio (khz 48) [m8 90; m8 60; m8 30; m8 90; m8 60; m8 90; m8 90])) = [[60]; [49]; [69]; [68]; [0]].
Proof. split; [reflexivity|]. split; vm_compute; reflexivity. Qed.

(** ** C68 *)
(** Sinks over separate ranges of a buffer may be used in either order. *)
Theorem C68_commute : forall l k (a b c : audio l k) r1 r2 sk1 sk1' sk2 sk2',
  Z.of_nat (audio_len a) <= 2 ^ 64 - 1 -> apart a r1 r2 ->
  through a r1 sk1 sk1' b -> through b r2 sk2 sk2' c ->
  exists b', through a r2 sk2 sk2' b' /\ through b' r1 sk1 sk1' c.
Proof. exact sinks_commute. Qed.
Print Assumptions C68_commute.
Example C68_case : let a := mkAudio (khz 48) [m8 1; m8 2; m8 3; m8 4] in
  apart a (RTo 2) (RFrom 2) /\
  let fill := fun (a : audio Mono K8) r x => match audio_sink a r with
    | Ok (pre, sk, post) => match sink_stream 9 sk (SFrame (m8 x)) with Ok (sk, _) => audio_unsink a pre sk post | _ => a end
    | _ => a end in
  codes (frames (fill (fill a (RTo 2) 7) (RFrom 2) 8)) = [[7]; [7]; [8]; [8]] /\
  codes (frames (fill (fill a (RFrom 2) 8) (RTo 2) 7)) = [[7]; [7]; [8]; [8]].
Proof.
  cbv zeta. split; [exists 0%N, 2%N, 2%N, 4%N; unfold region; cbn; lia|]. split; vm_compute; reflexivity.
Qed.

(** ** C69 *)
(** Streams that behave the same can replace each other. *)
Theorem C69_sink : forall l k lk kk fuel (sk sk' : sink lk kk) (s t it : stream l k), alike s t ->
  sink_stream fuel sk s = Ok (sk', it) -> exists it', sink_stream fuel sk t = Ok (sk', it').
Proof. exact alike_sink. Qed.
Print Assumptions C69_sink.
Theorem C69_extend : forall l k lk kk fuel (a a' : audio lk kk) (s t it : stream l k), alike s t ->
  extend fuel a s = (a', Ok it) -> exists it', extend fuel a t = (a', Ok it').
Proof. exact alike_extend. Qed.
Print Assumptions C69_extend.
Theorem C69_take : forall l k (s t : stream l k) n, alike s t -> alike (take s n) (take t n).
Proof. exact take_alike. Qed.
Print Assumptions C69_take.
Theorem C69_blend : forall l k l' k' (a a' : stream l k) (b b' : stream l' k') op t, alike a a' -> alike b b' ->
  sample_rate a <> None \/ sample_rate b = None -> blend a b op = Ok t -> exists t', blend a' b' op = Ok t' /\ alike t t'.
Proof. exact blend_alike. Qed.
Print Assumptions C69_blend.
(** Laws. *)
Theorem C69_take_take : forall l k (s : stream l k) n m, alike (take (take s n) m) (take s (N.min n m)).
Proof. exact take_take. Qed.
Print Assumptions C69_take_take.
Theorem C69_take_all : forall l k (s : stream l k) n m, honest s -> slen s = Some m -> (m <= n)%N -> alike (take s n) s.
Proof. exact take_more. Qed.
Print Assumptions C69_take_all.
Theorem C69_take_blend : forall l k l' k' (a : stream l k) (b : stream l' k') op n t, total_op op l k -> honest a -> honest b ->
  blend a b op = Ok t ->
  (exists t', blend (take a n) b op = Ok t' /\ alike (take t n) t') /\
  (exists t', blend a (take b n) op = Ok t' /\ alike (take t n) t').
Proof.
  intros l k l' k' a b op n t H1 H2 H3 H4.
  exact (conj (take_blend_left l k l' k' a b op n t H1 H2 H3 H4) (take_blend_right l k l' k' a b op n t H1 H2 H3 H4)).
Qed.
Print Assumptions C69_take_blend.
Theorem C69_blend_swap : forall l k (a b t : stream l k) op, op = Plus \/ op = Amplify -> honest a -> honest b ->
  sample_rate a = sample_rate b -> blend a b op = Ok t -> exists t', blend b a op = Ok t' /\ alike t t'.
Proof. exact blend_swap. Qed.
Print Assumptions C69_blend_swap.
Theorem C69_blend_dest : forall l k l' k' (a : stream l k) (b : stream l' k') t, honest a -> honest b ->
  sample_rate a <> None \/ (sample_rate b = None /\ configurable b) -> blend a b Dest = Ok t -> alike t (limit a (slen b)).
Proof. exact blend_dest. Qed.
Print Assumptions C69_blend_dest.
Theorem C69_blend_silence : forall l k l' (a t : stream l k), is_int k -> honest a ->
  blend a (SFrame (frame_default l' k)) Plus = Ok t -> alike t a.
Proof. exact blend_silence. Qed.
Print Assumptions C69_blend_silence.
Example C69_case : let a := SAudio (khz 48) [m8 1; m8 2; m8 3] in let b := SAudio (khz 48) [m8 10; m8 20] in
  honest a /\ honest b /\ sample_rate a = sample_rate b /\ sample_rate a <> None /\ slen a = Some 3%N /\
  match blend a b Plus, blend (SFrame (m8 5)) a Plus with
  | Ok t, Ok u => (exists x y, yields t [x; y] /\ codes [x; y] = [[11]; [22]]) /\ sample_rate u <> Some (khz 48) | _, _ => False end.
Proof.
  cbv zeta. split; [apply well_formed_honest; exact I|]. split; [apply well_formed_honest; exact I|].
  repeat (split; [try reflexivity; discriminate|]).
  destruct (proj1 (blend_rates Mono K8 Mono K8 (SAudio (khz 48) [m8 1; m8 2; m8 3]) (SAudio (khz 48) [m8 10; m8 20]) Plus) ltac:(vm_compute; reflexivity)) as (t & E & _).
  rewrite E. cbn. split; [|discriminate]. do 2 eexists. split; [apply (blend_right _ _ _ _ _ _ _ _ [m8 1; m8 2] (m8 3) [m8 10; m8 20] _ E)|].
  - apply yields_starts, audio_yields.
  - apply audio_yields.
  - apply (@mixes_cons Mono K8 Mono K8); [|apply (@mixes_cons Mono K8 Mono K8); [|apply (@mixes_nil Mono K8 Mono K8)]].
    + exists (m8 10). split; [apply FrameProofs.convert_self|reflexivity].
    + exists (m8 20). split; [apply FrameProofs.convert_self|reflexivity].
  - vm_compute. reflexivity.
Qed.
