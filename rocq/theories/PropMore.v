(** * PropMore.v -- further property theorems (C56 and later) *)
From Coq Require Import ZArith NArith Reals Bool List Lia Lra.
From Flocq Require Import Core.Core IEEE754.BinarySingleNaN.
From Verif Require Import Rust Float Math Chan Frame Ops Stream Audio Heap SpecChan SpecFrame SpecStream SpecSink SpecAudio SpecMore
  FloatProofs StreamProofs SinkProofs SinkTerm AudioProofs DrainProofs ResampleProofs WholeProofs MoreProofs DriftProofs RoundTripProofs MixedProofs DirectProofs LevelProofs StreamMore.
Import ListNotations.
Open Scope Z_scope.

Notation "'s8' z" := (as_sint W8 z : chan K8) (at level 9, only parsing).
Notation "'s16' z" := (as_sint W16 z : chan K16) (at level 9, only parsing).
Notation "'m8' z" := ((as_sint W8 z, tt) : frame Mono K8) (at level 9, z at next level, only parsing).
Notation "'khz' z" := (flit (1000 * z) 0 : f64) (at level 9, z at next level, only parsing).
(** The sample values of the frames of a buffer; of a result. *)
Definition codes_in {l} (a : audio l K8) : list (list Z) := map (fun f : frame l K8 => map sv (channels f)) (frames a).
Definition codes_of {l T} (r : res (audio l K8 * T)) : list (list Z) :=
  match r with Ok (a, _) => codes_in a | _ => [] end.

(** ** C56 *)
Theorem C56_whole_rates : forall l k ls ks (a : audio l k) (s : stream ls ks) n src R S,
  sample_rate s = Some src -> whole_rate src S -> whole_rate (s_rate a) R -> S <= 2 ^ 51 -> R * Z.of_N n <= 2 ^ 51 ->
  honest s -> slen s = Some n ->
  let d := (R * Z.of_N n + S - 1) / S in
  allocatable l k (Z.of_nat (audio_len a) + d) ->
  (overshoots (s_rate a) src R S n -> snd (extend (Datatypes.S (N.to_nat n)) a s) = Panic IndexOutOfBounds) /\
  (~ overshoots (s_rate a) src R S n -> exists a' it, extend (Datatypes.S (N.to_nat n)) a s = (a', Ok it) /\
     audio_sample_rate a' = audio_sample_rate a /\ exists added, frames a' = frames a ++ added /\ Z.of_nat (length added) = d).
Proof. exact extend_whole. Qed.
Print Assumptions C56_whole_rates.
(** In particular it returns if the ratio of the rates is not rounded up, or if
    the result does not last a whole number of frames. *)
Theorem C56_safe : forall l k ls ks (a : audio l k) (s : stream ls ks) n src R S,
  sample_rate s = Some src -> whole_rate src S -> whole_rate (s_rate a) R -> S <= 2 ^ 51 -> R * Z.of_N n <= 2 ^ 51 ->
  honest s -> slen s = Some n ->
  let d := (R * Z.of_N n + S - 1) / S in
  allocatable l k (Z.of_nat (audio_len a) + d) ->
  (B2R (fdiv (s_rate a) src) * IZR S <= IZR R)%R \/ (R * Z.of_N n) mod S <> 0 ->
  exists a' it, extend (Datatypes.S (N.to_nat n)) a s = (a', Ok it) /\
     audio_sample_rate a' = audio_sample_rate a /\ exists added, frames a' = frames a ++ added /\ Z.of_nat (length added) = d.
Proof. exact extend_rounded_down. Qed.
Print Assumptions C56_safe.
(** 48 to 44.1 kHz is rounded down; 147 frames from 44.1 to 48 kHz overshoot;
    256 frames do not last a whole number of frames. *)
Example C56_case : (B2R (fdiv (flit 44100 0) (khz 48)) * IZR 48000 <= IZR 44100)%R /\
  overshoots (khz 48) (flit 44100 0) 48000 44100 147 /\ (48000 * 256) mod 44100 <> 0 /\
  whole_rate (khz 48) 48000 /\ whole_rate (flit 44100 0) 44100 /\
  length (codes_of (with_stream Mono K8 257 (khz 48) (SAudio (flit 44100 0) (repeat (m8 5) 256)))) = 279%nat.
Proof.
  split; [exact down_48_441|]. split; [exact over_441_48|]. split; [vm_compute; discriminate|].
  destruct (flit_Z 53 1024 48000 ltac:(lia)), (flit_Z 53 1024 44100 ltac:(lia)).
  split; [|split]; [repeat split; try assumption; lia..|]. vm_compute. reflexivity.
Qed.

(** ** C57 *)
Theorem C57_values : forall l k ls ks (a a' : audio l k) (s it : stream ls ks) n all (fs : list (frame l k)),
  sinkable s -> honest s -> slen s = Some n -> yields s all -> converted all fs ->
  extend (S (N.to_nat n)) a s = (a', Ok it) ->
  let d := frames_for (s_rate a) (sample_rate s) n in
  let ratio := ratio_for (s_rate a) (sample_rate s) in
  let e := Z.min (floor_index (fmul ratio (fofZ (Z.of_N n)))) d in
  exists m, (m <= N.to_nat n)%nat /\ leaves ratio e m /\
    (exists s', (s' = s \/ set_sample_rate s (s_rate a) = Ok s') /\ pulls s' (firstn m all) it) /\
    forall p b, nth_error (frames a') (length (frames a) + p) = Some b -> appended ratio e m fs p b.
Proof. exact extend_values. Qed.
Print Assumptions C57_values.
(** At whole-number rates a frame depends only on the source frames at most one
    destination frame away. *)
Theorem C57_local : forall l k ls ks (a a1 a2 : audio l k) (s1 s2 it1 it2 : stream ls ks) n all1 all2 src R S p,
  sample_rate s1 = Some src -> sample_rate s2 = Some src -> whole_rate src S -> whole_rate (s_rate a) R ->
  S <= 2 ^ 51 -> R * Z.of_N n <= 2 ^ 51 -> honest s1 -> honest s2 -> slen s1 = Some n -> slen s2 = Some n ->
  yields s1 all1 -> yields s2 all2 ->
  extend (Datatypes.S (N.to_nat n)) a s1 = (a1, Ok it1) -> extend (Datatypes.S (N.to_nat n)) a s2 = (a2, Ok it2) ->
  (forall i, Z.abs (R * Z.of_nat i - S * Z.of_nat p) <= S -> nth_error all1 i = nth_error all2 i) ->
  audio_get a1 (audio_len a + p) = audio_get a2 (audio_len a + p).
Proof. exact extend_local. Qed.
Print Assumptions C57_local.
(** 32 to 24 kHz: positions 0, 0.75, 1.5, 2.25; each frame has weight 0.75, and a
    quarter of the last frame is lost.  Changing the first source frame changes only the first frame. *)
Example C57_case :
  codes_of (with_stream Mono K8 5 (khz 24) (SAudio (khz 32) [m8 40; m8 80; m8 20; m8 60])) = [[29]; [63]; [38]] /\
  codes_of (with_stream Mono K8 5 (khz 24) (SAudio (khz 32) [m8 100; m8 80; m8 20; m8 60])) = [[74]; [63]; [38]] /\
  (forall i, Z.abs (24000 * Z.of_nat i - 32000 * 2) <= 32000 ->
     nth_error [m8 40; m8 80; m8 20; m8 60] i = nth_error [m8 100; m8 80; m8 20; m8 60] i) .
Proof.
  split; [vm_compute; reflexivity|]. split; [vm_compute; reflexivity|]. intros [|i] H; [lia|reflexivity].
Qed.

(** ** C58 *)
Theorem C58_sink : forall l k l1 k1 l2 k2 fuel (sk sk' : sink l k) (s1 it1 : stream l1 k1) (s2 : stream l2 k2),
  sink_stream fuel sk s1 = Ok (sk', it1) -> sample_rate s2 = sample_rate s1 -> slen s2 = slen s1 ->
  (sample_rate s1 = None -> configurable s1 -> configurable s2) -> follows l k s1 s2 -> exists it2, sink_stream fuel sk s2 = Ok (sk', it2).
Proof. exact sink_follows. Qed.
Print Assumptions C58_sink.
Theorem C58_extend : forall l k l1 k1 l2 k2 fuel (a a' : audio l k) (s1 it1 : stream l1 k1) (s2 : stream l2 k2),
  extend fuel a s1 = (a', Ok it1) -> sample_rate s2 = sample_rate s1 -> slen s2 = slen s1 ->
  (sample_rate s1 = None -> configurable s1 -> configurable s2) -> follows l k s1 s2 -> exists it2, extend fuel a s2 = (a', Ok it2).
Proof. exact extend_follows. Qed.
Print Assumptions C58_extend.
(** A finite stream and the buffer of its frames are interchangeable. *)
Theorem C58_buffer : forall l k l1 k1 (s : stream l1 k1) r all,
  yields s all -> follows l k s (SAudio r all) /\ follows l k (SAudio r all) s.
Proof. exact follows_audio. Qed.
Print Assumptions C58_buffer.
(** The frames of a user's stream are those it returns, call by call. *)
Theorem C58_user : forall l k (u : user_stream l k) fs, starts (SUser u) fs <->
  forall i, (i < length fs)%nat -> u_item u (u_pos u + i) = Ok (nth_error fs i).
Proof. exact StreamMore.user_starts. Qed.
Print Assumptions C58_user.
Example C58_case : let s := STake (SAudio (khz 32) [m8 10; m8 20; m8 30; m8 40]) 3 in
  yields s [m8 10; m8 20; m8 30] /\
  codes_of (with_stream Mono K8 5 (khz 48) s) = [[10]; [20]; [9]; [30]; [0]] /\
  codes_of (with_stream Mono K8 5 (khz 48) (SAudio (khz 32) [m8 10; m8 20; m8 30])) = [[10]; [20]; [9]; [30]; [0]].
Proof.
  cbv zeta. split; [|split; vm_compute; reflexivity].
  exists (STake (SAudio (khz 32) [m8 40]) 0), (STake (SAudio (khz 32) [m8 40]) 0). split; [|reflexivity].
  repeat (econstructor; [reflexivity|]). constructor.
Qed.

(** ** C59 *)
Theorem C59_drained : forall l k lb kb (a a' : audio l k) (b : audio lb kb) it,
  let n := N.of_nat (length (frames b)) in
  extend (S (length (frames b))) a (audio_drain b) = (a', Ok it) ->
  let d := frames_for (s_rate a) (Some (s_rate b)) n in
  let ratio := fdiv (s_rate a) (s_rate b) in
  exists m, leaves ratio (Z.min (floor_index (fmul ratio (fofZ (Z.of_N n)))) d) m /\
    drop_stream it = [pack (mkAudio (s_rate b) (skipn m (frames b)))].
Proof. exact extend_drain. Qed.
Print Assumptions C59_drained.
Theorem C59_equal_rate : forall l k lb kb (a a' : audio l k) (b : audio lb kb) it z,
  s_rate a = s_rate b -> whole_rate (s_rate b) z -> z * Z.of_nat (audio_len b) <= 2 ^ 53 ->
  extend (S (audio_len b)) a (audio_drain b) = (a', Ok it) ->
  drop_stream it = [pack (mkAudio (s_rate b) ([] : list (frame lb kb)))].
Proof. exact drain_all. Qed.
Print Assumptions C59_equal_rate.
(** Halving the rate of five frames uses four of them: the fifth stays behind. *)
Example C59_case :
  match extend 6 (with_silence Mono K8 (khz 24) 1) (audio_drain (mkAudio (khz 48) [m8 1; m8 2; m8 3; m8 4; m8 5])) with
  | (a, Ok it) => length (frames a) = 4%nat /\
      match drop_stream it with [existT _ (Mono, K8) b] => codes_in b = [[5]] | _ => False end
  | _ => False
  end.
Proof. vm_compute. split; reflexivity. Qed.

(** ** C60 *)
Theorem C60_there_and_back : forall l1 k1 l2 k2 (a : audio l1 k1) rate z,
  holds k1 k2 -> (nchan l1 <= nchan l2)%nat -> Forall frame_valid (frames a) ->
  audio_sample_rate a = rate -> whole_rate rate z -> z * Z.of_nat (audio_len a) <= 2 ^ 53 ->
  allocatable l1 k1 (Z.of_nat (audio_len a)) -> allocatable l2 k2 (Z.of_nat (audio_len a)) ->
  exists b c it1 it2, with_stream l2 k2 (S (audio_len a)) rate (audio_stream a) = Ok (b, it1) /\
    with_stream l1 k1 (S (audio_len a)) rate (audio_stream b) = Ok (c, it2) /\
    audio_sample_rate c = rate /\ audio_len c = audio_len a /\
    Forall2 frame_eqv (frames c) (frames a) /\ (is_int k1 -> c = a).
Proof. exact buffer_there_back. Qed.
Print Assumptions C60_there_and_back.
Example C60_case : holds K8 K32 /\ (nchan Mono <= nchan Stereo)%nat /\
  match with_stream Stereo K32 4 (khz 48) (SAudio (khz 48) [m8 (-128); m8 77; m8 127]) with
  | Ok (b, _) => codes_of (with_stream Mono K8 4 (khz 48) (audio_stream b)) = [[-128]; [77]; [127]]
  | _ => False
  end.
Proof. split; [exact I|]. split; [cbn; lia|]. vm_compute. reflexivity. Qed.

(** ** C61 *)
Theorem C61_integers :
  (forall (a : chan K16) (b : chan K8),
     sv (op_add a (OChan K8 b)) = clampZ (-32768) 32767 (sv a + (257 * sv b + 128)) /\
     sv (op_sub a (OChan K8 b)) = clampZ (-32768) 32767 (sv a - (257 * sv b + 128)) /\
     exists c, op_mul a (OChan K8 b) = Ok c /\ sv c = clampZ (-32768) 32767 (Z.quot (sv a * (257 * sv b + 128)) 32767)) /\
  (forall (a : chan K8) (b : chan K16),
     sv (op_add a (OChan K16 b)) = clampZ (-128) 127 (sv a + sv b / 256) /\
     sv (op_sub a (OChan K16 b)) = clampZ (-128) 127 (sv a - sv b / 256) /\
     exists c, op_mul a (OChan K16 b) = Ok c /\ sv c = clampZ (-128) 127 (Z.quot (sv a * (sv b / 256)) 127)).
Proof. exact int_mixed. Qed.
Print Assumptions C61_integers.
(** Division by the other integer type never panics. *)
Theorem C61_division :
  (forall (a : chan K16) (b : chan K8), exists c, op_div a (OChan K8 b) = Ok c /\
     sv c = clampZ (-32768) 32767 (Z.quot (65536 * sv a) (257 * sv b + 128))) /\
  (forall (a : chan K8) (b : chan K16), exists c, op_div a (OChan K16 b) = Ok c /\
     sv c = if sv b / 256 =? 0 then 127 else clampZ (-128) 127 (Z.quot (256 * sv a) (sv b / 256))).
Proof. exact div_mixed. Qed.
Print Assumptions C61_division.
Theorem C61_float_and_integer : forall k h (a : chan k) (b : chan h), is_float k -> is_int h -> valid a ->
  (Rabs (rval (op_add a (OChan h b)) - clampR (rval a + meaning b)) <= bpow radix2 (2 - prec_k k) /\
   Rabs (rval (op_sub a (OChan h b)) - clampR (rval a - meaning b)) <= bpow radix2 (2 - prec_k k))%R.
Proof. exact float_int_mixed. Qed.
Print Assumptions C61_float_and_integer.
(** An integer channel with a float operand: the operation on a code next to the operand. *)
Theorem C61_integer_and_float : forall h, is_float h ->
  (forall (a : chan K8) (b : chan h), valid b -> exists c, (-128 <= c <= 127)%Z /\
     (Rabs (code_value 8 c - rval b) <= (1 + bpow radix2 (16 - prec_k h)) / 255)%R /\
     sv (op_add a (OChan h b)) = clampZ (-128) 127 (sv a + c) /\ sv (op_sub a (OChan h b)) = clampZ (-128) 127 (sv a - c) /\
     (exists m, op_mul a (OChan h b) = Ok m /\ sv m = clampZ (-128) 127 (Z.quot (sv a * c) 127)) /\
     (exists q, op_div a (OChan h b) = Ok q /\ sv q = if (c =? 0)%Z then 127%Z else clampZ (-128) 127 (Z.quot (256 * sv a) c))) /\
  (forall (a : chan K16) (b : chan h), valid b -> exists c, (-32768 <= c <= 32767)%Z /\
     (Rabs (code_value 16 c - rval b) <= (1 + bpow radix2 (16 - prec_k h)) / 65535)%R /\
     sv (op_add a (OChan h b)) = clampZ (-32768) 32767 (sv a + c) /\ sv (op_sub a (OChan h b)) = clampZ (-32768) 32767 (sv a - c) /\
     (exists m, op_mul a (OChan h b) = Ok m /\ sv m = clampZ (-32768) 32767 (Z.quot (sv a * c) 32767)) /\
     (~ (sv a = -32768 /\ c = -1)%Z -> exists q, op_div a (OChan h b) = Ok q /\
        sv q = if (c =? 0)%Z then 32767%Z else clampZ (-32768) 32767 (Z.quot (65536 * sv a) c))).
Proof. exact int_float_mixed. Qed.
Print Assumptions C61_integer_and_float.
Example C61_integer_and_float_case : is_float K32 /\ valid (MAX K32) /\ sv (op_add (s8 3) (OChan K32 (flit 1 (-2)))) = 34.
Proof. split; [now left|]. split; [split; [reflexivity|cbn; unfold F2R; cbn; lra]|vm_compute; reflexivity]. Qed.
(** Full scale of any type is neutral for [*]; float silence is neutral for [+]
    and [-]. *)
Theorem C61_full_scale : forall h k (a : chan k), fin a = true -> op_mul a (OChan h (MAX h)) = Ok a.
Proof. exact mul_full. Qed.
Print Assumptions C61_full_scale.
Theorem C61_silence : forall h k (a : chan k), is_float h -> valid a ->
  rval (op_add a (OChan h (MID h))) = rval a /\ rval (op_sub a (OChan h (MID h))) = rval a.
Proof. exact add_silence. Qed.
Print Assumptions C61_silence.
(** Integer silence is not. *)
Theorem C61_silence_refuted : exists a : chan K16, op_add a (OChan K8 (MID K8)) <> a.
Proof. exists (s16 0). intros H. apply (f_equal (fun c : chan K16 => sv c)) in H. vm_compute in H. discriminate. Qed.
Print Assumptions C61_silence_refuted.
(** A raw [f32] operand is clamped before the operation, not only after it. *)
Theorem C61_raw : forall (a : chan K32) (v : f32), valid a -> is_finite v = true ->
  rval (op_add a (ORaw (v : raw_operand K32))) = clampR (round32 (rval a + clampR (B2R v))) /\
  rval (op_sub a (ORaw (v : raw_operand K32))) = clampR (round32 (rval a - clampR (B2R v))) /\
  exists c, op_mul a (ORaw (v : raw_operand K32)) = Ok c /\ rval c = round32 (rval a * clampR (B2R v)).
Proof. exact raw_mixed. Qed.
Print Assumptions C61_raw.
Example C61_case : sv (op_add (s16 1000) (OChan K8 (s8 3))) = 1899 /\ sv (op_sub (s8 3) (OChan K16 (s16 (-1)))) = 4 /\
  B2SF (op_add (MIN K32) (ORaw (flit 3 0 : raw_operand K32)) : f32) = B2SF (flit 0 0 : f32) /\ valid (MIN K32).
Proof.
  split; [reflexivity|]. split; [reflexivity|]. split; [vm_compute; reflexivity|]. split; [reflexivity|].
  cbn. unfold F2R. cbn. lra.
Qed.

(** A raw integer operand counts as its number. *)
Theorem C61_raw_int :
  (forall (a : chan K8) (v : i8),
     sv (op_add a (ORaw (v : raw_operand K8))) = clampZ (-128) 127 (sv a + sv v) /\
     sv (op_sub a (ORaw (v : raw_operand K8))) = clampZ (-128) 127 (sv a - sv v) /\
     (exists c, op_mul a (ORaw (v : raw_operand K8)) = Ok c /\ sv c = clampZ (-128) 127 (Z.quot (sv a * sv v) 127)) /\
     (exists c, op_div a (ORaw (v : raw_operand K8)) = Ok c /\
        sv c = if sv v =? 0 then 127 else clampZ (-128) 127 (Z.quot (256 * sv a) (sv v)))) /\
  (forall (a : chan K16) (v : i16),
     sv (op_add a (ORaw (v : raw_operand K16))) = clampZ (-32768) 32767 (sv a + sv v) /\
     sv (op_sub a (ORaw (v : raw_operand K16))) = clampZ (-32768) 32767 (sv a - sv v) /\
     (exists c, op_mul a (ORaw (v : raw_operand K16)) = Ok c /\ sv c = clampZ (-32768) 32767 (Z.quot (sv a * sv v) 32767)) /\
     (~ (sv a = -32768 /\ sv v = -1) -> exists c, op_div a (ORaw (v : raw_operand K16)) = Ok c /\
        sv c = if sv v =? 0 then 32767 else clampZ (-32768) 32767 (Z.quot (65536 * sv a) (sv v)))).
Proof. exact raw_int. Qed.
Print Assumptions C61_raw_int.
Example C61_raw_int_case : sv (op_add (s8 100) (ORaw (as_sint W8 50 : raw_operand K8))) = 127 /\
  sv (op_sub (s16 100) (ORaw (as_sint W16 300 : raw_operand K16))) = -200 /\ ~ (sv (s16 100) = -32768 /\ sv (s16 (-1)) = -1).
Proof. split; [reflexivity|]. split; [reflexivity|]. intros [H _]. vm_compute in H. discriminate. Qed.

(** ** C10 and C11 for the direct conversions [Ch8::from(Ch32)] and the like *)
Theorem C10_direct_monotone : forall h k, is_float h -> is_int k -> forall a b : chan h, valid a -> valid b ->
  c_leb a b = true -> c_leb (chan_from h k a) (chan_from h k b) = true.
Proof. exact direct_mono. Qed.
Print Assumptions C10_direct_monotone.
Theorem C10_direct_ends : forall h k, is_float h -> is_int k ->
  chan_from h k (MAX h) = MAX k /\ chan_from h k (MIN h) = MIN k /\ chan_from h k (MID h) = MID k.
Proof. exact direct_ends. Qed.
Print Assumptions C10_direct_ends.
Theorem C11_direct_error : forall h k, is_float h -> is_int k -> forall a : chan h, valid a ->
  (Rabs (meaning (chan_from h k a) - rval a) <= (1 + bpow radix2 (16 - prec_k h)) / IZR (2 ^ int_bits k - 1))%R.
Proof. exact direct_error. Qed.
Print Assumptions C11_direct_error.
Example C11_direct_case : valid (MAX K32) /\ valid (MIN K32) /\ c_leb (MIN K32) (MAX K32) = true /\
  sv (chan_from K32 K16 (flit 1 (-1) : chan K32)) = 16383.
Proof.
  split; [|split; [|split]]; try (vm_compute; reflexivity); (split; [reflexivity|]; cbn; unfold F2R; cbn; lra).
Qed.

(** ** C62 *)
Theorem C62_monotone : forall k (a b t u x y : chan k), valid a -> valid b -> valid t -> valid u ->
  c_lerp a b t = Ok x -> c_lerp a b u = Ok y -> c_leb t u = true ->
  (c_leb a b = true -> c_leb x y = true) /\ (c_leb b a = true -> c_leb y x = true).
Proof. exact lerp_monotone. Qed.
Print Assumptions C62_monotone.
Theorem C62_between : forall k (a b t : chan k), is_int k -> c_leb (MID k) t = true -> exists x, c_lerp a b t = Ok x /\
  ((c_leb a b = true -> c_leb a x = true /\ c_leb x b = true) /\ (c_leb b a = true -> c_leb b x = true /\ c_leb x a = true)).
Proof. exact lerp_between. Qed.
Print Assumptions C62_between.
Theorem C62_between_float : forall k (a b t : chan k), is_float k -> valid a -> valid b -> valid t -> c_leb (MID k) t = true ->
  exists x, c_lerp a b t = Ok x /\ valid x /\
  ((c_leb a b = true -> c_leb a x = true /\ rval x <= rval b + bpow radix2 (1 - prec_k k)) /\
   (c_leb b a = true -> c_leb x a = true /\ rval b - bpow radix2 (1 - prec_k k) <= rval x))%R.
Proof. exact lerp_between_float. Qed.
Print Assumptions C62_between_float.
(** Frames interpolate channel by channel, without panicking. *)
Theorem C62_frames : forall l k (a b t : frame l k), exists z, frame_lerp a b t = Ok z /\
  forall i x y w, nth_error (channels a) i = Some x -> nth_error (channels b) i = Some y -> nth_error (channels t) i = Some w ->
    exists c, c_lerp x y w = Ok c /\ nth_error (channels z) i = Some c.
Proof. exact frame_lerp_channelwise. Qed.
Print Assumptions C62_frames.
Example C62_case : c_leb (MID K8) (s8 64) = true /\ c_leb (s8 (-100)) (s8 100) = true /\
  match c_lerp (s8 (-100)) (s8 100) (s8 64), c_lerp (s8 (-100)) (s8 100) (s8 90) with
  | Ok x, Ok y => sv x = -36 /\ sv y = -10 | _, _ => False end.
Proof. repeat split. Qed.

(** ** C63 *)
Theorem C63_no_drift : forall l k ls ks fuel (sk sk' : sink l k) (s it : stream ls ks) src R S,
  sink_stream fuel sk s = Ok (sk', it) -> fresh sk -> sample_rate s = Some src ->
  whole_rate src S -> whole_rate (sk_rate sk) R -> S <= 2 ^ 51 ->
  exists srcs n, ((pulls s srcs it /\ n = N.of_nat (length srcs)) \/ (exists t, pulls s srcs t /\ next t = Ok (None, it) /\ slen s = Some n)) /\
    (R * Z.of_N n <= 2 ^ 51 ->
     (Rabs (B2R (resampler_index (sk_res sk')) - IZR (R * Z.of_N n) / IZR S) <= 3 / 4 / IZR S)%R).
Proof. exact index_no_drift. Qed.
Print Assumptions C63_no_drift.
(** Seven frames from 44.1 to 48 kHz end at 7 * 160 / 147 = 7.619..., rounded once. *)
Example C63_case : match sink_stream 10 (mkSink (khz 48) (repeat (m8 9) 9) (resampler_default Mono K8)) (SAudio (flit 44100 0) (repeat (m8 5) 7)) with
  | Ok (sk, _) => B2SF (resampler_index (sk_res sk)) = SpecFloat.S754_finite false 8578285004515231 (-50) | _ => False end.
Proof. vm_compute. reflexivity. Qed.

(** ** C64 *)
(** Lowering the rate from [S] to [R] Hz keeps the level: a frame lies between the
    lowest and the highest level of the source frames around it, up to the
    rounding of at most S/R + 6 additions.  Only the first frame is quieter, by
    the factor R/S. *)
Theorem C64_level : forall rate src R S, whole_rate rate R -> whole_rate src S -> S <= 2 ^ 50 -> R <= S ->
  forall l k ls ks (a a' : audio l k) (s it : stream ls ks) n all (fs : list (frame l k)) p c lo hi b y,
  s_rate a = rate -> sample_rate s = Some src -> honest s -> slen s = Some n -> yields s all -> converted all fs ->
  R * Z.of_N n <= 2 ^ 51 -> extend (Datatypes.S (N.to_nat n)) a s = (a', Ok it) ->
  (Z.of_nat p + 1) * S < R * Z.of_N n ->
  (forall i f x, nth_error fs i = Some f -> Z.abs (R * Z.of_nat i - S * Z.of_nat p) <= S ->
     nth_error (channels f) c = Some x -> valid x /\ (lo <= level x <= hi)%R) ->
  audio_get a' (audio_len a + p) = Some b -> nth_error (channels b) c = Some y ->
  (let gain := if Nat.eqb p 0 then IZR R / IZR S else 1 in
   let tolerance := (IZR S / IZR R + 6) * step k + (INR p + 6) * bpow radix2 (-49) in
   lo * gain - tolerance <= level y <= hi * gain + tolerance)%R.
Proof. exact extend_level. Qed.
Print Assumptions C64_level.
(** A constant level is not kept by the first frame. *)
Theorem C64_first_frame_refuted :
  ~ (forall l k ls ks (a a' : audio l k) (s it : stream ls ks) n x,
       whole_rate (s_rate a) 24000 -> sample_rate s = Some (khz 48) -> slen s = Some n -> (4 <= n)%N ->
       yields s (repeat x (N.to_nat n)) -> extend (Datatypes.S (N.to_nat n)) a s = (a', Ok it) ->
       exists f, convert l k x = Ok f /\ audio_get a' (audio_len a) = Some f).
Proof. exact first_frame_quiet. Qed.
Print Assumptions C64_first_frame_refuted.
(** 48 kHz to 32 kHz at level 100/127, with 2.5 units per addition allowed: the frames after the first
    lose one unit, and the first has two thirds. *)
Example C64_case :
  codes_of (with_stream Mono K8 7 (khz 32) (SAudio (khz 48) (repeat (m8 100) 6))) = [[66]; [99]; [99]; [99]] /\
  whole_rate (khz 32) 32000 /\ whole_rate (khz 48) 48000 /\ (1 + 1) * 48000 < 32000 * 6 /\
  (forall i f x, nth_error (repeat (m8 100) 6) i = Some f -> nth_error (channels f) 0 = Some x ->
     valid x /\ (100 / 127 <= level x <= 100 / 127)%R) /\
  ((48000 / 32000 + 6) * step K8 < 19 / 127)%R.
Proof.
  split; [vm_compute; reflexivity|]. destruct (flit_Z 53 1024 32000 ltac:(lia)), (flit_Z 53 1024 48000 ltac:(lia)).
  split; [repeat split; try assumption; lia|]. split; [repeat split; try assumption; lia|]. split; [lia|]. split.
  - intros i f x Hf Hx. apply nth_error_In, repeat_spec in Hf. subst f. injection Hx as <-.
    split; [exact I|]. cbn [level]. change (sv (as_sint W8 100)) with 100. lra.
  - cbn [step]. lra.
Qed.
