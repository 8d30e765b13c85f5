(** * PropRaise.v -- property theorems C85 *)
From Coq Require Import ZArith NArith Reals Bool List Lia Lra.
From Flocq Require Import Core.Core IEEE754.BinarySingleNaN.
From Verif Require Import Rust Float Chan Frame Ops Stream Audio SpecChan SpecFrame SpecStream SpecSink SpecAudio SpecMore SpecRaise.
From Verif Require Import FloatProofs IntProofs SinkProofs StreamProofs FloorProofs WholeProofs AudioProofs RaiseProofs.
Import ListNotations.
Open Scope R_scope.

(** ** C85 *)
(** Raising the rate from [S] to [R] Hz.  Destination frame [p] is made of at most two source
    frames: [i], the first at or after its position, and the one before. *)
Theorem C85_frames : forall rate src R S, whole_rate rate R -> whole_rate src S -> (S <= 2 ^ 51)%Z -> (S < R)%Z ->
  forall l k ls ks (a a' : audio l k) (s it : stream ls ks) n all (fs : list (frame l k)) p i c v v' b y,
  s_rate a = rate -> sample_rate s = Some src -> honest s -> slen s = Some n -> yields s all -> converted all fs ->
  (R * Z.of_N n <= 2 ^ 51)%Z -> aligned rate src R S n -> extend (Datatypes.S (N.to_nat n)) a s = (a', Ok it) ->
  ((Z.of_nat p + 1) * S <= R * Z.of_N n)%Z -> first_at R S p i ->
  level_at fs i c v -> level_at fs (i - 1) c v' ->
  audio_get a' (audio_len a + p) = Some b -> nth_error (channels b) c = Some y ->
  Rabs (level y - limited k (gain_before R S p i * v' + gain_after k R S p i * v))
    <= 6 * applied k (IZR R / IZR S) * step k + (IZR R / IZR S + INR p + 6) * bpow radix2 (-49).
Proof. exact raise_frame. Qed.
Print Assumptions C85_frames.
(** The last frame, when the new length is not a whole number of frames, has the share of the
    last source frame that hangs over. *)
Theorem C85_last : forall rate src R S, whole_rate rate R -> whole_rate src S -> (S <= 2 ^ 51)%Z -> (S < R)%Z ->
  forall l k ls ks (a a' : audio l k) (s it : stream ls ks) n all (fs : list (frame l k)) p c v' b y, (S < 2 ^ 50)%Z ->
  s_rate a = rate -> sample_rate s = Some src -> honest s -> slen s = Some n -> yields s all -> converted all fs ->
  (R * Z.of_N n <= 2 ^ 51)%Z -> aligned rate src R S n -> extend (Datatypes.S (N.to_nat n)) a s = (a', Ok it) ->
  (S * Z.of_nat p < R * Z.of_N n < S * (Z.of_nat p + 1))%Z ->
  level_at fs (N.to_nat n - 1) c v' ->
  audio_get a' (audio_len a + p) = Some b -> nth_error (channels b) c = Some y ->
  Rabs (level y - gain_before R S p (N.to_nat n) * v') <= 5 * step k + (INR p + 6) * bpow radix2 (-49).
Proof. exact raise_last. Qed.
Print Assumptions C85_last.
(** Where both reach it (or, in integer formats, where [i] does) a steady level is kept. *)
Theorem C85_kept : forall rate src R S, whole_rate rate R -> whole_rate src S -> (S <= 2 ^ 51)%Z -> (S < R)%Z ->
  forall l k ls ks (a a' : audio l k) (s it : stream ls ks) n all (fs : list (frame l k)) p i c v b y,
  s_rate a = rate -> sample_rate s = Some src -> honest s -> slen s = Some n -> yields s all -> converted all fs ->
  (R * Z.of_N n <= 2 ^ 51)%Z -> aligned rate src R S n -> extend (Datatypes.S (N.to_nat n)) a s = (a', Ok it) ->
  ((Z.of_nat p + 1) * S <= R * Z.of_N n)%Z -> first_at R S p i ->
  (R * Z.of_nat i < S * Z.of_nat p + S)%Z -> is_int k \/ (S * Z.of_nat p + R <= R * Z.of_nat i + S)%Z ->
  level_at fs i c v -> level_at fs (i - 1) c v -> bottom k <= v <= 1 ->
  audio_get a' (audio_len a + p) = Some b -> nth_error (channels b) c = Some y ->
  Rabs (level y - v) <= 6 * applied k (IZR R / IZR S) * step k + (IZR R / IZR S + INR p + 6) * bpow radix2 (-49).
Proof. exact raise_kept. Qed.
Print Assumptions C85_kept.
(** No frame is louder than the loudest source sample times the ratio; times 1 in integer formats. *)
Theorem C85_peak : forall rate src R S, whole_rate rate R -> whole_rate src S -> (S <= 2 ^ 51)%Z -> (S < R)%Z ->
  forall l k ls ks (a a' : audio l k) (s it : stream ls ks) n all (fs : list (frame l k)) p c pk b y, (S < 2 ^ 50)%Z ->
  s_rate a = rate -> sample_rate s = Some src -> honest s -> slen s = Some n -> yields s all -> converted all fs ->
  (R * Z.of_N n <= 2 ^ 51)%Z -> aligned rate src R S n -> extend (Datatypes.S (N.to_nat n)) a s = (a', Ok it) ->
  (forall i f x, nth_error fs i = Some f -> nth_error (channels f) c = Some x -> valid x /\ Rabs (level x) <= pk) ->
  audio_get a' (audio_len a + p) = Some b -> nth_error (channels b) c = Some y ->
  Rabs (level y) <= applied k (IZR R / IZR S) * pk + 6 * applied k (IZR R / IZR S) * step k + (IZR R / IZR S + INR p + 6) * bpow radix2 (-49).
Proof. exact raise_peak_all. Qed.
Print Assumptions C85_peak.
(** Raising the rate is linear where nothing is limited: if the levels of a third source are
    [al] times those of the first plus [be] times those of the second (up to [t]), so are the
    levels of what is made of them. *)
Theorem C85_linear : forall rate src R S, whole_rate rate R -> whole_rate src S -> (S <= 2 ^ 51)%Z -> (S < R)%Z ->
  forall l k l1 k1 l2 k2 l3 k3 (a1 a1' a2 a2' a3 a3' : audio l k) (s1 it1 : stream l1 k1) (s2 it2 : stream l2 k2) (s3 it3 : stream l3 k3)
    n all1 all2 all3 (f1 f2 f3 : list (frame l k)) p i c al be t v1 v2 v3 v1' v2' v3' b1 b2 b3 y1 y2 y3,
  s_rate a1 = rate -> s_rate a2 = rate -> s_rate a3 = rate ->
  sample_rate s1 = Some src -> honest s1 -> slen s1 = Some n -> yields s1 all1 -> converted all1 f1 ->
  sample_rate s2 = Some src -> honest s2 -> slen s2 = Some n -> yields s2 all2 -> converted all2 f2 ->
  sample_rate s3 = Some src -> honest s3 -> slen s3 = Some n -> yields s3 all3 -> converted all3 f3 ->
  (R * Z.of_N n <= 2 ^ 51)%Z -> aligned rate src R S n -> ((Z.of_nat p + 1) * S <= R * Z.of_N n)%Z -> first_at R S p i ->
  extend (Datatypes.S (N.to_nat n)) a1 s1 = (a1', Ok it1) -> extend (Datatypes.S (N.to_nat n)) a2 s2 = (a2', Ok it2) ->
  extend (Datatypes.S (N.to_nat n)) a3 s3 = (a3', Ok it3) ->
  level_at f1 i c v1 -> level_at f2 i c v2 -> level_at f3 i c v3 ->
  level_at f1 (i - 1) c v1' -> level_at f2 (i - 1) c v2' -> level_at f3 (i - 1) c v3' ->
  Rabs (v3 - (al * v1 + be * v2)) <= t -> Rabs (v3' - (al * v1' + be * v2')) <= t ->
  let mixed v' v := gain_before R S p i * v' + gain_after k R S p i * v in
  bottom k <= mixed v1' v1 <= 1 -> bottom k <= mixed v2' v2 <= 1 -> bottom k <= mixed v3' v3 <= 1 ->
  audio_get a1' (audio_len a1 + p) = Some b1 -> audio_get a2' (audio_len a2 + p) = Some b2 -> audio_get a3' (audio_len a3 + p) = Some b3 ->
  nth_error (channels b1) c = Some y1 -> nth_error (channels b2) c = Some y2 -> nth_error (channels b3) c = Some y3 ->
  Rabs (level y3 - (al * level y1 + be * level y2)) <=
    (1 + Rabs al + Rabs be) * (6 * applied k (IZR R / IZR S) * step k + (IZR R / IZR S + INR p + 6) * bpow radix2 (-49)) + applied k (IZR R / IZR S) * t.
Proof. exact raise_linear. Qed.
Print Assumptions C85_linear.
(** A frame further than one frame from every source frame is silent. *)
Theorem C85_gaps : forall rate src R S, whole_rate rate R -> whole_rate src S -> (S <= 2 ^ 51)%Z ->
  forall l k ls ks (a a' : audio l k) (s it : stream ls ks) n all (fs : list (frame l k)) p b,
  s_rate a = rate -> sample_rate s = Some src -> honest s -> slen s = Some n -> yields s all -> converted all fs ->
  (R * Z.of_N n <= 2 ^ 51)%Z -> extend (Datatypes.S (N.to_nat n)) a s = (a', Ok it) ->
  ((Z.of_nat p + 1) * S < R * Z.of_N n)%Z ->
  (forall i, (S < Z.abs (R * Z.of_nat i - S * Z.of_nat p))%Z) ->
  audio_get a' (audio_len a + p) = Some b -> b = frame_default l k.
Proof. exact raise_gaps. Qed.
Print Assumptions C85_gaps.
(** When whole positions are met: the computed ratio is not more than 2^-54 (relatively) below R/S. *)
Theorem C85_aligned : forall (rate src : f64) (R S : Z) n, whole_rate rate R -> whole_rate src S -> (S <= 2 ^ 51)%Z ->
  (R * Z.of_N n <= 2 ^ 51)%Z -> IZR R / IZR S * (1 - bpow radix2 (-54)) <= B2R (fdiv rate src) -> aligned rate src R S n.
Proof. exact aligned_criterion. Qed.
Print Assumptions C85_aligned.
Theorem C85_usual_rates : forall R S n, In R usual_rates -> In S usual_rates -> (S < R)%Z -> (R * Z.of_N n <= 2 ^ 51)%Z ->
  aligned (flit R 0) (flit S 0) R S n.
Proof. exact usual_aligned. Qed.
Print Assumptions C85_usual_rates.
(** Not for all rates: frame 45 from 5 to 7 kHz. *)
Theorem C85_all_aligned_refuted : ~ forall (rate src : f64) (R S : Z) n, whole_rate rate R -> whole_rate src S -> (S < R)%Z ->
  (R * Z.of_N n <= 2 ^ 51)%Z -> aligned rate src R S n.
Proof.
  intros H. destruct (flit_Z 53 1024 7000 ltac:(lia)), (flit_Z 53 1024 5000 ltac:(lia)).
  specialize (H (flit 7000 0) (flit 5000 0) 7000%Z 5000%Z 50%N ltac:(repeat split; try assumption; lia) ltac:(repeat split; try assumption; lia) ltac:(lia) ltac:(lia) 45%nat ltac:(lia) eq_refl).
  assert (F : is_finite (fmul (fdiv (flit 7000 0 : f64) (flit 5000 0)) (fofZ (Z.of_nat 45))) = true) by (vm_compute; reflexivity).
  rewrite floor_index_finite in H by exact F. rewrite clampZ_maxmin in H by lia. rewrite <- (fcast_finite 53 1024) in H by (try exact F; lia).
  revert H. clear. vm_compute. discriminate.
Qed.
Print Assumptions C85_all_aligned_refuted.
(** A steady 32 kHz sound at 48 kHz. *)
Definition raised {k} (x : chan k) : list (chan k) :=
  match with_stream Mono k 9 (flit 48000 0) (SAudio (flit 32000 0) (repeat ((x, tt) : frame Mono k) 8)) with
  | Ok (a, _) => map (fun f : frame Mono k => fst f) (frames a)
  | _ => []
  end.
Theorem C85_level_kept_refuted : ~ forall (x : chan K16) p y, nth_error (raised x) p = Some y -> (Z.abs (sv y - sv x) <= 5000)%Z.
Proof.
  intros H. specialize (H (as_sint W16 16000) 2%nat).
  assert (V : option_map sv (nth_error (raised (as_sint W16 16000 : chan K16)) 2) = Some 7999%Z) by (vm_compute; reflexivity).
  destruct (nth_error (raised (as_sint W16 16000 : chan K16)) 2) as [y|]; [|discriminate]. injection V as V.
  specialize (H y eq_refl). rewrite V, sv_as16 in H by lia. lia.
Qed.
Print Assumptions C85_level_kept_refuted.
Theorem C85_never_louder_refuted : ~ forall (x : chan K32) p y, nth_error (raised x) p = Some y -> fle y x = true.
Proof.
  intros H. specialize (H (flit 1 (-1)) 0%nat).
  assert (V : option_map (fun y : f32 => fle y (flit 1 (-1))) (nth_error (raised (flit 1 (-1) : chan K32)) 0) = Some false) by (vm_compute; reflexivity).
  destruct (nth_error (raised (flit 1 (-1) : chan K32)) 0) as [y|]; [|discriminate]. injection V as V.
  specialize (H y eq_refl). change (fle y (flit 1 (-1)) = false) in V. congruence.
Qed.
Print Assumptions C85_never_louder_refuted.
(** 16000 becomes 16000, 16000, 8000, and so on (rounded); 0.5 becomes 0.75, 0.5, 0.25.  At 8 to
    48 kHz frames 2 to 4 of each 6 are silent. *)
Example C85_case : map sv (raised (as_sint W16 16000 : chan K16)) = [16000; 16000; 7999; 16000; 16000; 7999; 16000; 16000; 7999; 16000; 16000; 7999]%Z /\
  map (fun y : f32 => feq y (flit 3 (-2))) (firstn 6 (raised (flit 1 (-1) : chan K32))) = [true; false; false; true; false; false] /\
  map (fun y : f32 => feq y (flit 1 (-1))) (firstn 6 (raised (flit 1 (-1) : chan K32))) = [false; true; false; false; true; false] /\
  map (fun y : f32 => feq y (flit 1 (-2))) (firstn 6 (raised (flit 1 (-1) : chan K32))) = [false; false; true; false; false; true] /\
  first_at 48000 32000 2 2 /\ first_at 48000 32000 1 1 /\ In 48000%Z usual_rates /\ In 32000%Z usual_rates /\
  ((Z.of_nat 2 + 1) * 32000 <= 48000 * 8)%Z /\ (32000 * Z.of_nat 10 < 48000 * 7 < 32000 * (Z.of_nat 10 + 1))%Z /\ (48000 * 8 <= 2 ^ 51)%Z /\
  gain_before 48000 32000 2 2 = / 2 /\ gain_after K32 48000 32000 2 2 = 0 /\ gain_after K32 48000 32000 1 1 = 1 /\
  (forall i, (8000 < Z.abs (48000 * Z.of_nat i - 8000 * Z.of_nat 3))%Z).
Proof.
  split; [vm_compute; reflexivity|]. split; [vm_compute; reflexivity|]. split; [vm_compute; reflexivity|]. split; [vm_compute; reflexivity|].
  split; [unfold first_at; lia|]. split; [unfold first_at; lia|]. split; [cbn [usual_rates In]; tauto|]. split; [cbn [usual_rates In]; tauto|]. split; [lia|]. split; [lia|]. split; [lia|].
  unfold gain_before, gain_after. cbv zeta. cbn [INR applied].
  split; [rewrite Rmax_right; lra|]. split; [destruct (Rlt_dec _ _); lra|]. split; [destruct (Rlt_dec _ _); lra|]. lia.
Qed.
