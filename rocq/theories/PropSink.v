(** * PropSink.v -- the property theorems about [Sink] and the resampler
    (C32 - C42, C54, C55) *)
From Coq Require Import ZArith NArith Reals Bool List Lia Lra.
From Flocq Require Import Core.Core IEEE754.BinarySingleNaN.
From Verif Require Import Rust Float Math Chan Frame Ops Stream Audio SpecChan SpecFrame SpecStream SpecSink
  StreamProofs SinkProofs PlaceProofs EqualProofs WeightProofs SinkMore SinkTerm.
Import ListNotations.
Open Scope Z_scope.

Notation "'m8' z" := ((as_sint W8 z, tt) : frame Mono K8) (at level 9, z at next level, only parsing).
Notation "'m16' z" := ((as_sint W16 z, tt) : frame Mono K16) (at level 9, z at next level, only parsing).
Notation "'khz' z" := (flit (1000 * z) 0 : f64) (at level 9, z at next level, only parsing).
Notation fresh8 r b := (mkSink r b (resampler_default Mono K8)) (only parsing).
(** The sample values in a sink. *)
Definition samples (sk : sink Mono K8) : list (list Z) := map (fun f : frame Mono K8 => map sv (channels f)) (sk_buf sk).
Definition samples_of {T} (r : res (sink Mono K8 * T)) : list (list Z) :=
  match r with Ok (sk, _) => samples sk | _ => [] end.

(** ** C32 *)
Theorem C32_frame_fills_sink : forall l k ls ks (sk : sink l k) (x : frame ls ks), fresh sk ->
  Z.of_nat (length (sk_buf sk)) <= 2 ^ 53 ->
  exists f sk', convert l k x = Ok f /\
    (forall fuel, (length (sk_buf sk) < fuel)%nat -> sink_stream fuel sk (SFrame x) = Ok (sk', SFrame x)) /\
    length (sk_buf sk') = length (sk_buf sk) /\
    (forall p b, nth_error (sk_buf sk') p = Some b -> copied f b).
Proof. exact frame_fills. Qed.
Print Assumptions C32_frame_fills_sink.
Example C32_case : let sk := fresh8 (khz 48) [m8 1; m8 2; m8 3] in
  fresh sk /\ samples_of (sink_stream 10 sk (SFrame (m16 25700))) = [[100]; [100]; [100]].
Proof. split; [reflexivity|vm_compute; reflexivity]. Qed.

(** ** C33 *)
(** Termination within length + 1 iterations, bounds, locality; at most [n]
    frames are pulled out of the source. *)
Theorem C33_finite_stream : forall l k ls ks (sk : sink l k) (s : stream ls ks) n,
  sinkable s -> honest s -> slen s = Some n ->
  let e := covered (ratio_for (sk_rate sk) (sample_rate s)) (Some n) (length (sk_buf sk)) in
  exists sk' it s' srcs t, sink_stream (S (N.to_nat n)) sk s = Ok (sk', it) /\
    length (sk_buf sk') = length (sk_buf sk) /\
    (forall p, e <= Z.of_nat p -> p <> 0%nat -> nth_error (sk_buf sk') p = nth_error (sk_buf sk) p) /\
    negotiated sk s (ratio_for (sk_rate sk) (sample_rate s)) s' /\
    pulls s' srcs t /\ (it = t \/ next t = Ok (None, it)) /\ (length srcs <= N.to_nat n)%nat.
Proof. exact finite_stream. Qed.
Print Assumptions C33_finite_stream.
(** The remaining case is the panic in rate negotiation. *)
Theorem C33_finite_or_panic : forall l k ls ks (sk : sink l k) (s : stream ls ks) n, honest s -> slen s = Some n ->
  (sinkable s -> exists sk' it, sink_stream (S (N.to_nat n)) sk s = Ok (sk', it)) /\
  (~ sinkable s -> forall fuel, sink_stream fuel sk s = Panic ExplicitPanic).
Proof. exact finite_or_panic. Qed.
Print Assumptions C33_finite_or_panic.
(** The bound on the number of iterations does not change the result. *)
Theorem C33_fuel : forall l k ls ks fuel (sk sk' : sink l k) (s it : stream ls ks), sink_stream fuel sk s = Ok (sk', it) ->
  forall fuel', (fuel <= fuel')%nat -> sink_stream fuel' sk s = Ok (sk', it).
Proof. exact stream_fuel. Qed.
Print Assumptions C33_fuel.
Example C33_case : let s := SAudio B754_nan [m8 5; m8 6] in
  sinkable s /\ honest s /\ slen s = Some 2%N /\
  covered (ratio_for (khz 48) (sample_rate s)) (Some 2%N) 3 = 0 /\
  samples_of (sink_stream 3 (fresh8 (khz 48) [m8 1; m8 2; m8 3]) s) = [[1]; [2]; [3]] /\
  samples_of (sink_stream 3 (fresh8 (khz 48) [m8 1; m8 2; m8 3]) (SAudio (khz 48) [m8 5; m8 6])) = [[5]; [6]; [3]].
Proof.
  split; [left; discriminate|]. split; [apply well_formed_honest; exact I|]. repeat split; vm_compute; reflexivity.
Qed.

(** ** C34 *)
(** [srcs]: as many of the first frames of the stream as there are slots, or
    all.  They are all that is pulled. *)
Theorem C34_equal_rate_copy : forall l k ls ks (sk : sink l k) (s : stream ls ks) srcs, equal_rate sk s -> fresh sk ->
  Z.of_nat (length (sk_buf sk)) <= 2 ^ 53 -> starts s srcs -> length srcs = available (slen s) (length (sk_buf sk)) ->
  exists sk' s' it, negotiated sk s (flit 1 0) s' /\ pulls s' srcs it /\
    (forall fuel, (length srcs < fuel)%nat -> sink_stream fuel sk s = Ok (sk', it)) /\
    length (sk_buf sk') = length (sk_buf sk) /\
    (forall i src, nth_error srcs i = Some src -> exists f b, convert l k src = Ok f /\
       nth_error (sk_buf sk') i = Some b /\ copied f b) /\
    (forall p, (length srcs <= p)%nat -> p <> 0%nat -> nth_error (sk_buf sk') p = nth_error (sk_buf sk) p) /\
    (forall b, srcs = [] -> nth_error (sk_buf sk) 0 = Some b ->
       nth_error (sk_buf sk') 0 = Some (frame_add b (frame_default l k))) /\
    sk_res sk' = mkResampler (frame_default l k) (fofZ (Z.of_nat (length srcs))).
Proof. exact fresh_copy. Qed.
Print Assumptions C34_equal_rate_copy.
Example C34_case : let sk := fresh8 (khz 48) [m8 1; m8 2; m8 3] in let s := SAudio (khz 48) [m8 (-128); m8 127] in
  equal_rate sk s /\ fresh sk /\ starts s [m8 (-128); m8 127] /\ available (slen s) 3 = 2%nat /\
  samples_of (sink_stream 10 sk s) = [[-128]; [127]; [3]].
Proof.
  cbv zeta. split; [|split; [reflexivity|split; [|split; vm_compute; reflexivity]]].
  - unfold equal_rate. cbn [sample_rate sk_rate]. destruct (fofZ53 (1000 * 48) ltac:(lia)) as [E F].
    split; [exact F|]. split; [|reflexivity]. change (B2R (khz 48)) with (B2R (fofZ (1000 * 48) : f64)). rewrite E. intros X. apply (eq_IZR _ 0) in X. lia.
  - exists (SAudio (khz 48) []). apply (audio_pulls Mono K8 (khz 48) [m8 (-128); m8 127] []).
Qed.

(** ** C35 *)
(** Whenever [stream] returns, there are source frames [srcs], pulled as
    described by [reads], and the sink is related to them as described by
    [streamed]: each covered destination frame is the weighted sum of what
    falls on it. *)
Theorem C35_returned : forall l k ls ks fuel (sk sk' : sink l k) (s it : stream ls ks),
  sink_stream fuel sk s = Ok (sk', it) ->
  exists ratio s' srcs fs n, negotiated sk s ratio s' /\
    reads s' ratio (resampler_index (sk_res sk)) (covered ratio (slen s') (length (sk_buf sk))) srcs n it /\
    converted srcs fs /\ streamed sk ratio (covered ratio (slen s') (length (sk_buf sk))) fs n sk' /\
    (length srcs < fuel)%nat.
Proof. exact stream_backward. Qed.
Print Assumptions C35_returned.
(** And it does return when the source can be read that way. *)
Theorem C35_returns : forall l k ls ks (sk : sink l k) (s s' it : stream ls ks) ratio srcs fs n,
  negotiated sk s ratio s' ->
  reads s' ratio (resampler_index (sk_res sk)) (covered ratio (slen s') (length (sk_buf sk))) srcs n it ->
  converted srcs fs ->
  exists sk', streamed sk ratio (covered ratio (slen s') (length (sk_buf sk))) fs n sk' /\
    forall fuel, (length srcs < fuel)%nat -> sink_stream fuel sk s = Ok (sk', it).
Proof. exact stream_forward. Qed.
Print Assumptions C35_returns.
(** Weighted sums always exist and are unique. *)
Theorem C35_sum_unique : forall l k acc (r : list (frame l k * f64)),
  exists x, weighted_sum acc r x /\ forall y, weighted_sum acc r y -> y = x.
Proof. exact weighted_sum_unique. Qed.
Print Assumptions C35_sum_unique.
(** 32 kHz to 48 kHz, ratio 1.5: positions 0, 1.5, 3; the second frame goes to
    frames 1 and 2 with weights 1 and 0.5 (in 8 bits, a weight above 1 is 1, and
    half of 20 is 9). *)
Example C35_case :
  samples_of (sink_stream 10 (fresh8 (khz 48) (repeat (m8 9) 6)) (SAudio (khz 32) [m8 10; m8 20; m8 30])) =
  [[10]; [20]; [9]; [30]; [9]; [9]].
Proof. vm_compute. reflexivity. Qed.

(** ** C36 *)
Theorem C36_index_and_frame : forall l k ls ks fuel (sk sk' : sink l k) (s it : stream ls ks),
  sink_stream fuel sk s = Ok (sk', it) ->
  let ratio := ratio_for (sk_rate sk) (sample_rate s) in
  exists s' srcs fs n, negotiated sk s ratio s' /\ converted srcs fs /\
    ((pulls s' srcs it /\ n = N.of_nat (length srcs) /\
        covered ratio (slen s) (length (sk_buf sk)) <= floor_index (place ratio (resampler_index (sk_res sk)) (length srcs))) \/
     (exists t, pulls s' srcs t /\ next t = Ok (None, it) /\ slen s = Some n)) /\
    resampler_index (sk_res sk') = fadd (resampler_index (sk_res sk)) (fmul ratio (fofZ (Z.of_N n))) /\
    weighted_sum (resampler_frame (sk_res sk))
      (overhang (covered ratio (slen s) (length (sk_buf sk))) ratio (resampler_index (sk_res sk)) 0 fs)
      (resampler_frame (sk_res sk')).
Proof. exact stream_books. Qed.
Print Assumptions C36_index_and_frame.
(** Two frames from 32 kHz to 24 kHz: the index becomes 1.5, and 0.75 of the
    second frame hangs over. *)
Example C36_case :
  match sink_stream 10 (fresh8 (khz 24) (repeat (m8 9) 6)) (SAudio (khz 32) [m8 10; m8 20]) with
  | Ok (sk, _) => B2SF (resampler_index (sk_res sk)) = B2SF (flit 3 (-1) : f64) /\ map sv (channels (resampler_frame (sk_res sk))) = [14]
  | _ => False
  end.
Proof. vm_compute. split; reflexivity. Qed.

(** ** C37 *)
Theorem C37_output_in_range : forall l k ls ks fuel (sk sk' : sink l k) (s it : stream ls ks),
  sink_stream fuel sk s = Ok (sk', it) ->
  forall p b, nth_error (sk_buf sk') p = Some b -> frame_valid b \/ nth_error (sk_buf sk) p = Some b.
Proof. exact stream_valid. Qed.
Print Assumptions C37_output_in_range.
Example C37_case : match sink_stream 10 (mkSink (khz 48) [frame_default Mono K64] (resampler_default Mono K64))
    (SAudio (khz 48) [((B754_nan : f64), tt) : frame Mono K64]) with
  | Ok (sk, _) => map (fun f : frame Mono K64 => map (fun c => B2SF c) (channels f)) (sk_buf sk) = [[B2SF (flit 1 0 : f64)]]
  | _ => False
  end.
Proof. vm_compute. reflexivity. Qed.

(** ** C38 *)
Theorem C38_weights : forall ratio j : f64, is_finite ratio = true -> is_finite j = true ->
  (0 <= B2R ratio)%R -> (0 <= B2R j)%R ->
  (is_finite (ceil_w ratio j) = true /\ B2R (ceil_w ratio j) = Rmin (frac j) (B2R ratio)) /\
  (is_finite (floor_w ratio j) = true /\
     B2R (floor_w ratio j) = round64 (B2R ratio - B2R (ceil_w ratio j))) /\
  (0 <= B2R (ceil_w ratio j) <= B2R ratio)%R /\ (0 <= B2R (floor_w ratio j) <= B2R ratio)%R /\
  (Rabs (B2R (floor_w ratio j) + B2R (ceil_w ratio j) - B2R ratio) <=
     / 2 * ulp radix2 (FLT_exp (3 - 1024 - 53) 53) (B2R ratio))%R.
Proof. exact weights_real. Qed.
Print Assumptions C38_weights.
Example C38_case : let ratio := flit 3 (-1) : f64 in let j := flit 9 (-1) : f64 in
  is_finite ratio = true /\ is_finite j = true /\ Bsign ratio = false /\ Bsign j = false /\
  B2SF (ceil_w ratio j) = B2SF (flit 1 (-1) : f64) /\ B2SF (floor_w ratio j) = B2SF (flit 1 0 : f64).
Proof. repeat split; vm_compute; reflexivity. Qed.

(** ** C39 *)
Theorem C39_silence : forall l k ls ks fuel (sk sk' : sink l k) (s it : stream ls ks),
  sink_stream fuel sk s = Ok (sk', it) ->
  is_float ks \/ ks = k \/ (ks = K16 /\ k = K8) ->
  (forall src fs t, pulls s fs t -> In src fs -> src = frame_default ls ks) ->
  let ratio := ratio_for (sk_rate sk) (sample_rate s) in
  (forall i, let j := place ratio (resampler_index (sk_res sk)) i in
     fin (from_f64 k (lower_weight ratio j)) = true /\ fin (from_f64 k (upper_weight ratio j)) = true) ->
  forall p b, Z.of_nat p < covered ratio (slen s) (length (sk_buf sk)) -> nth_error (sk_buf sk') p = Some b ->
    b = frame_default l k.
Proof. exact stream_silence. Qed.
Print Assumptions C39_silence.
(** The weights are finite for all ratios up to 2^126. *)
Theorem C39_silence_ratio : forall l k ls ks fuel (sk sk' : sink l k) (s it : stream ls ks),
  sink_stream fuel sk s = Ok (sk', it) ->
  is_float ks \/ ks = k \/ (ks = K16 /\ k = K8) ->
  (forall src fs t, pulls s fs t -> In src fs -> src = frame_default ls ks) ->
  let ratio := ratio_for (sk_rate sk) (sample_rate s) in
  is_finite ratio = true -> (Rabs (B2R ratio) <= bpow radix2 126)%R ->
  forall p b, Z.of_nat p < covered ratio (slen s) (length (sk_buf sk)) -> nth_error (sk_buf sk') p = Some b ->
    b = frame_default l k.
Proof. exact stream_silence_ratio. Qed.
Print Assumptions C39_silence_ratio.
(** With an infinite ratio silence becomes full scale. *)
Theorem C39_infinite_ratio_refuted : exists (sk sk' : sink Mono K32) (s it : stream Mono K32) b,
  sink_stream 10 sk s = Ok (sk', it) /\ (forall src fs t, pulls s fs t -> In src fs -> src = frame_default Mono K32) /\
  nth_error (sk_buf sk') 0 = Some b /\ b <> frame_default Mono K32.
Proof. exact silence_infinite. Qed.
Print Assumptions C39_infinite_ratio_refuted.
Example C39_case : let s := SAudio (khz 32) [frame_default Mono K8; frame_default Mono K8] in
  (forall src fs t, pulls s fs t -> In src fs -> src = frame_default Mono K8) /\
  covered (ratio_for (khz 48) (sample_rate s)) (slen s) 5 = 3 /\
  samples_of (sink_stream 10 (fresh8 (khz 48) (repeat (m8 9) 5)) s) = [[0]; [0]; [0]; [9]; [9]].
Proof.
  cbv zeta. split; [|split; [rewrite covered_compute|]; vm_compute; reflexivity]. intros src fs t P Hin.
  pose proof (audio_pulled_in Mono K8 (khz 32) _ fs t P) as Q.
  apply Q in Hin as [<-|[<-|[]]]; reflexivity.
Qed.

(** ** C40 *)
(** Streaming at the sink's rate when the index stands at [c] (as it does after
    [c] frames at equal rate). *)
Theorem C40_second_stream : forall l k ls ks (sk : sink l k) (s : stream ls ks) c srcs, equal_rate sk s ->
  resampler_index (sk_res sk) = fofZ (Z.of_nat c) -> Z.of_nat c <= 2 ^ 53 -> Z.of_nat (length (sk_buf sk)) <= 2 ^ 53 ->
  let e := available (slen s) (length (sk_buf sk)) in
  starts s srcs -> length srcs = (e - c)%nat ->
  exists sk' s' it, negotiated sk s (flit 1 0) s' /\ pulls s' srcs it /\
    (forall fuel, (length srcs < fuel)%nat -> sink_stream fuel sk s = Ok (sk', it)) /\
    sk_rate sk' = sk_rate sk /\
    length (sk_buf sk') = length (sk_buf sk) /\
    (forall p, (p < e)%nat -> (p < c)%nat -> nth_error (sk_buf sk') p = Some (frame_default l k)) /\
    (forall i src, nth_error srcs i = Some src -> exists f b, convert l k src = Ok f /\
       nth_error (sk_buf sk') (c + i) = Some b /\ copied f b) /\
    (forall p, (e <= p)%nat -> p <> 0%nat -> nth_error (sk_buf sk') p = nth_error (sk_buf sk) p) /\
    (e = 0%nat -> forall b, nth_error (sk_buf sk) 0 = Some b ->
       nth_error (sk_buf sk') 0 = Some (frame_add b (resampler_frame (sk_res sk)))) /\
    resampler_frame (sk_res sk') = resampler_frame (sk_res sk) /\
    resampler_index (sk_res sk') = fofZ (Z.of_nat (c + length srcs)).
Proof. exact equal_copy. Qed.
Print Assumptions C40_second_stream.
(** Two equal-rate streams of [xs] and [ys], one after the other, into a fresh
    sink. *)
Theorem C40_two_streams : forall l k l1 k1 l2 k2 (sk : sink l k) (s1 : stream l1 k1) (s2 : stream l2 k2) xs ys n m,
  fresh sk -> equal_rate sk s1 -> equal_rate sk s2 -> yields s1 xs -> yields s2 ys ->
  slen s1 = Some n -> slen s2 = Some m -> N.of_nat (length xs) = n -> N.of_nat (length ys) = m ->
  (length xs <= length (sk_buf sk))%nat -> (1 <= length ys <= length (sk_buf sk))%nat -> Z.of_nat (length (sk_buf sk)) <= 2 ^ 53 ->
  let fuel := S (length xs + length ys) in
  exists sk1 it1 sk2 s2' it2, sink_stream fuel sk s1 = Ok (sk1, it1) /\ sink_stream fuel sk1 s2 = Ok (sk2, it2) /\
    negotiated sk1 s2 (flit 1 0) s2' /\ pulls s2' (firstn (length ys - length xs) ys) it2 /\
    length (sk_buf sk2) = length (sk_buf sk) /\
    (forall p, (p < length xs)%nat -> (p < length ys)%nat -> nth_error (sk_buf sk2) p = Some (frame_default l k)) /\
    (forall p x, (length ys <= p)%nat -> nth_error xs p = Some x ->
       exists f b, convert l k x = Ok f /\ nth_error (sk_buf sk2) p = Some b /\ copied f b) /\
    (forall i y, (length xs + i < length ys)%nat -> nth_error ys i = Some y ->
       exists f b, convert l k y = Ok f /\ nth_error (sk_buf sk2) (length xs + i) = Some b /\ copied f b) /\
    (forall p, (length xs <= p)%nat -> (length ys <= p)%nat -> nth_error (sk_buf sk2) p = nth_error (sk_buf sk) p).
Proof. exact chunks. Qed.
Print Assumptions C40_two_streams.
(** [1] then [2; 3], against [1; 2; 3]. *)
Theorem C40_concatenation_refuted :
  let sk := fresh8 (khz 48) (repeat (m8 9) 4) in
  samples_of (sink_stream 10 sk (SAudio (khz 48) [m8 1; m8 2; m8 3])) = [[1]; [2]; [3]; [9]] /\
  match sink_stream 10 sk (SAudio (khz 48) [m8 1]) with
  | Ok (sk1, _) => samples_of (sink_stream 10 sk1 (SAudio (khz 48) [m8 2; m8 3])) = [[0]; [2]; [9]; [9]]
  | _ => False
  end.
Proof. vm_compute. split; reflexivity. Qed.
Print Assumptions C40_concatenation_refuted.

(** ** C41 *)
Theorem C41_partial_lost : forall l k ls ks fuel (sk1 sk2 sk1' : sink l k) (s it : stream ls ks),
  sk_rate sk2 = sk_rate sk1 -> sk_buf sk2 = sk_buf sk1 -> resampler_index (sk_res sk2) = resampler_index (sk_res sk1) ->
  1 <= covered (ratio_for (sk_rate sk1) (sample_rate s)) (slen s) (length (sk_buf sk1)) ->
  sink_stream fuel sk1 s = Ok (sk1', it) ->
  exists sk2', sink_stream fuel sk2 s = Ok (sk2', it) /\
    sk_buf sk2' = sk_buf sk1' /\ resampler_index (sk_res sk2') = resampler_index (sk_res sk1').
Proof. exact partial_irrelevant. Qed.
Print Assumptions C41_partial_lost.
Example C41_case : let s := SAudio (khz 48) [m8 5] in
  let sk p := mkSink (khz 48) [m8 1; m8 2] (mkResampler (m8 p) (flit 0 0)) in
  covered (ratio_for (khz 48) (sample_rate s)) (slen s) 2 = 1 /\
  samples_of (sink_stream 10 (sk 0) s) = [[5]; [2]] /\ samples_of (sink_stream 10 (sk 77) s) = [[5]; [2]].
Proof. cbv zeta. split; [rewrite covered_compute|split]; vm_compute; reflexivity. Qed.

(** ** C42 *)
Theorem C42_flush : forall l k (sk : sink l k), let j := resampler_index (sk_res sk) in
  ((Rabs (frac j) <= bpow radix2 (-52))%R -> flush sk = Ok sk) /\
  ((bpow radix2 (-52) < Rabs (frac j))%R -> floor_index j < Z.of_nat (length (sk_buf sk)) ->
     exists sk', flush sk = Ok sk' /\ sk_rate sk' = sk_rate sk /\ sk_res sk' = sk_res sk /\
       length (sk_buf sk') = length (sk_buf sk) /\
       nth_error (sk_buf sk') (Z.to_nat (floor_index j)) = Some (resampler_frame (sk_res sk)) /\
       forall p, Z.of_nat p <> floor_index j -> nth_error (sk_buf sk') p = nth_error (sk_buf sk) p) /\
  ((bpow radix2 (-52) < Rabs (frac j))%R -> Z.of_nat (length (sk_buf sk)) <= floor_index j ->
     flush sk = Panic IndexOutOfBounds).
Proof. exact flush_spec. Qed.
Print Assumptions C42_flush.
Example C42_case : let sk m e := mkSink (khz 48) [m8 1; m8 2] (mkResampler (m8 77) (flit m e)) in
  match flush (sk 3 (-1)) with Ok sk => samples sk | _ => [] end = [[1]; [77]] /\
  match flush (sk 1 0) with Ok sk => samples sk | _ => [] end = [[1]; [2]] /\
  flush (sk 5 (-1)) = Panic IndexOutOfBounds.
Proof. vm_compute. repeat split; reflexivity. Qed.

(** ** C54 *)
Theorem C54_indices : forall j : f64, ceil_usize j = Ok (ceil_index j) /\ f64_as_usize j = floor_index j /\
  ((frac j <= bpow radix2 (-52))%R -> ceil_index j = floor_index j) /\
  ((bpow radix2 (-52) < frac j)%R -> ceil_index j = floor_index j + 1) /\ 0 <= floor_index j /\ ceil_index j <= 2 ^ 64 - 1.
Proof. exact ceil_index_def. Qed.
Print Assumptions C54_indices.
Example C54_case : map ceil_usize [flit 5 (-1); flit 3 0; flit (-5) (-1); B754_nan; B754_infinity false] =
  [Ok 3; Ok 3; Ok 0; Ok 0; Ok (2 ^ 64 - 1)].
Proof. vm_compute. reflexivity. Qed.

(** ** C55 *)
(** An infinite stream into a buffer of [length (sk_buf sk)] frames: any number
    of source frames that is enough in exact arithmetic is enough. *)
Theorem C55_infinite_stream_fills : forall l k ls ks (sk : sink l k) (s : stream ls ks) fs,
  sinkable s -> slen s = None -> starts s fs ->
  let ratio := ratio_for (sk_rate sk) (sample_rate s) in let index := resampler_index (sk_res sk) in
  is_finite ratio = true -> is_finite index = true -> (0 <= B2R index)%R ->
  Z.of_nat (length (sk_buf sk)) <= 2 ^ 53 -> Z.of_nat (length fs) <= 2 ^ 53 ->
  (INR (length (sk_buf sk)) <= B2R ratio * INR (length fs))%R ->
  exists sk' it s' srcs rest, fs = srcs ++ rest /\ negotiated sk s ratio s' /\ pulls s' srcs it /\
    forall fuel, (length fs < fuel)%nat -> sink_stream fuel sk s = Ok (sk', it).
Proof. exact infinite_fills_prop. Qed.
Print Assumptions C55_infinite_stream_fills.
(** It never returns when the ratio is zero, negative or NaN. *)
Theorem C55_infinite_stream_hangs : forall l k ls ks (sk : sink l k) (s : stream ls ks) fuel,
  sinkable s -> slen s = None -> honest s -> fresh sk ->
  sk_buf sk <> [] -> ~ positive (ratio_for (sk_rate sk) (sample_rate s)) -> sink_stream fuel sk s = OutOfFuel.
Proof. exact infinite_hangs. Qed.
Print Assumptions C55_infinite_stream_hangs.
(** A stream that repeats one frame at a given rate. *)
Definition tone (r : f64) : stream Mono K8 := SUser (mkUser (Some r) false None (fun _ => Ok (Some (m8 5))) 0).
Example C55_case : honest (tone (khz 32)) /\ slen (tone (khz 32)) = None /\ sinkable (tone (khz 32)) /\
  samples_of (sink_stream 3 (fresh8 (khz 48) (repeat (m8 9) 3)) (tone (khz 32))) = [[5]; [5]; [2]] /\
  sink_stream 100 (fresh8 (khz 0) (repeat (m8 9) 3)) (tone (khz 32)) = OutOfFuel /\
  ~ positive (ratio_for (khz 0) (sample_rate (tone (khz 32)))).
Proof.
  split; [intros n; exists (repeat (m8 5) n); split; [apply user_constant_starts|apply repeat_length]|].
  split; [reflexivity|]. split; [left; discriminate|]. split; [vm_compute; reflexivity|]. split; [vm_compute; reflexivity|].
  assert (E : ratio_for (khz 0) (sample_rate (tone (khz 32))) = B754_zero false) by (apply B2SF_inj; vm_compute; reflexivity).
  rewrite E. cbn. lra.
Qed.
