(** * PropAudio.v -- the property theorems about [Audio] (C43 - C53) *)
From Coq Require Import ZArith NArith Reals Bool List Lia Lra.
From Flocq Require Import Core.Core IEEE754.BinarySingleNaN.
From Verif Require Import Rust Float Math Chan Frame Ops Stream Audio Heap SpecChan SpecFrame SpecStream SpecSink SpecAudio
  FloatProofs StreamProofs SinkProofs SinkTerm AudioProofs DrainProofs RawProofs ResampleProofs PanicProofs RoundTripProofs.
Import ListNotations.
Open Scope Z_scope.

Notation "'m8' z" := ((as_sint W8 z, tt) : frame Mono K8) (at level 9, z at next level, only parsing).
Notation "'khz' z" := (flit (1000 * z) 0 : f64) (at level 9, z at next level, only parsing).
(** The sample values of some frames; of an audio buffer; of a result. *)
Definition codes (fs : list (frame Mono K8)) : list (list Z) := map (fun f : frame Mono K8 => map sv (channels f)) fs.
Definition codes_of {T} (r : res (audio Mono K8 * T)) : list (list Z) :=
  match r with Ok (a, _) => codes (frames a) | _ => [] end.
Definition panics {T} (r : res T) : option panic := match r with Panic p => Some p | _ => None end.
Definition any_codes (a : any_audio) : list (list Z) :=
  match a with existT _ (Mono, K8) b => codes (frames b) | _ => [] end.



(** ** C43 *)
Theorem C43_with_frame : forall l k r n (f : frame l k),
  audio_len (with_frame r n f) = n /\ audio_sample_rate (with_frame r n f) = r /\
  (forall i, (i < n)%nat -> audio_get (with_frame r n f) i = Some f) /\
  (forall i, (n <= i)%nat -> audio_get (with_frame r n f) i = None).
Proof. exact with_frame_spec. Qed.
Print Assumptions C43_with_frame.
Theorem C43_with_silence : forall l k r n,
  audio_len (with_silence l k r n) = n /\ audio_sample_rate (with_silence l k r n) = r /\
  (forall i, (i < n)%nat -> audio_get (with_silence l k r n) i = Some (frame_default l k)) /\
  (forall i, (n <= i)%nat -> audio_get (with_silence l k r n) i = None).
Proof. exact with_silence_spec. Qed.
Print Assumptions C43_with_silence.
Theorem C43_with_frames : forall l k r (fs : list (frame l k)),
  into_frames (with_frames r fs) = fs /\ audio_sample_rate (with_frames r fs) = r /\
  audio_len (with_frames r fs) = length fs /\ (forall i, audio_get (with_frames r fs) i = nth_error fs i) /\
  audio_iter (with_frames r fs) = fs /\ audio_as_slice (with_frames r fs) = fs.
Proof. exact with_frames_spec. Qed.
Print Assumptions C43_with_frames.
Theorem C43_get : forall l k (a : audio l k) i,
  (exists f, audio_get a i = Some f) <-> (i < audio_len a)%nat.
Proof. exact get_some. Qed.
Print Assumptions C43_get.
Theorem C43_get_mut : forall l k (a : audio l k) i v,
  audio_len (audio_set a i v) = audio_len a /\
  audio_sample_rate (audio_set a i v) = audio_sample_rate a /\
  ((i < audio_len a)%nat -> audio_get (audio_set a i v) i = Some v) /\
  (forall j, j <> i -> audio_get (audio_set a i v) j = audio_get a j) /\
  ((audio_len a <= i)%nat -> audio_set a i v = a).
Proof. exact set_spec. Qed.
Print Assumptions C43_get_mut.
Theorem C43_iter_mut : forall l k g (a : audio l k),
  audio_len (audio_iter_mut g a) = audio_len a /\
  audio_sample_rate (audio_iter_mut g a) = audio_sample_rate a /\
  forall i, audio_get (audio_iter_mut g a) i = option_map (g i) (audio_get a i).
Proof. exact iter_mut_spec. Qed.
Print Assumptions C43_iter_mut.
Theorem C43_is_empty : forall l k (a : audio l k),
  audio_is_empty a = true <-> audio_len a = 0%nat.
Proof. exact is_empty_spec. Qed.
Print Assumptions C43_is_empty.
Example C43_case : let a := with_frames (khz 48) [m8 1; m8 2; m8 3] in
  codes (frames (audio_set a 1 (m8 9))) = [[1]; [9]; [3]] /\
  codes (into_frames (audio_iter_mut (fun i f => if Nat.eqb i 2 then m8 7 else f) a)) = [[1]; [2]; [7]] /\
  codes (frames (with_silence Mono K8 (khz 48) 2)) = [[0]; [0]].
Proof. vm_compute. auto. Qed.

(** ** C44 *)
Theorem C44_extend_appends : forall l k ls ks fuel (a a' : audio l k) (s it : stream ls ks),
  extend fuel a s = (a', Ok it) ->
  exists n added, slen s = Some n /\ frames a' = frames a ++ added /\ s_rate a' = s_rate a /\
    Z.of_nat (length added) = frames_for (s_rate a) (sample_rate s) n.
Proof. exact extend_appends. Qed.
Print Assumptions C44_extend_appends.
(** What is added is in range whatever the source holds (NaN, infinities). *)
Theorem C44_added_valid : forall l k ls ks fuel (a a' : audio l k) (s it : stream ls ks),
  extend fuel a s = (a', Ok it) ->
  forall p f, (audio_len a <= p)%nat -> audio_get a' p = Some f -> frame_valid f.
Proof. exact extend_valid. Qed.
Print Assumptions C44_added_valid.
Example C44_case : let a := with_frames (khz 48) [m8 1; m8 2] in
  let s := SAudio (khz 32) [m8 20; m8 40; m8 60] in
  exists a' it, extend 4 a s = (a', Ok it) /\ codes (frames a') = [[1]; [2]; [20]; [40]; [19]; [60]; [0]] /\
  frames_for (khz 48) (sample_rate s) 3 = 5.
Proof.
  intros a s.
  assert (V : match extend 4 a s with (a', Ok _) => Some (codes (frames a')) | _ => None end = Some [[1]; [2]; [20]; [40]; [19]; [60]; [0]]) by (vm_compute; reflexivity).
  destruct (extend 4 a s) as [a' [it|p|]]; try discriminate. exists a', it. injection V as V.
  split; [reflexivity|]. split; [exact V|]. change (sample_rate s) with (Some (khz 32)). rewrite <- frames_forb_ok. vm_compute. reflexivity.
Qed.

(** ** C45 *)
(** Every outcome of [extend] on an honest finite stream that can be sunk. *)
Theorem C45_outcome : forall l k ls ks (a : audio l k) (s : stream ls ks) n,
  sinkable s -> honest s -> slen s = Some n ->
  let d := frames_for (s_rate a) (sample_rate s) n in
  let ratio := ratio_for (s_rate a) (sample_rate s) in
  let result := extend (S (N.to_nat n)) a s in
  (~ allocatable l k (Z.of_nat (length (frames a)) + d) ->
     exists p, snd result = Panic p /\ (p = CapacityOverflow \/ p = ArithOverflow)) /\
  (allocatable l k (Z.of_nat (length (frames a)) + d) ->
   exists m, (m <= N.to_nat n)%nat /\ leaves ratio (Z.min (floor_index (fmul ratio (fofZ (Z.of_N n)))) d) m /\
     let index := place ratio (flit 0 0) m in
     ((bpow radix2 (-52) < Rabs (frac index))%R /\ d <= floor_index index -> snd result = Panic IndexOutOfBounds) /\
     (~ ((bpow radix2 (-52) < Rabs (frac index))%R /\ d <= floor_index index) -> exists it, snd result = Ok it)).
Proof. exact extend_outcome. Qed.
Print Assumptions C45_outcome.
(** The others panic (rate negotiation or length). *)
Theorem C45_unsinkable : forall l k ls ks fuel (a : audio l k) (s : stream ls ks) n,
  ~ sinkable s -> slen s = Some n ->
  exists p, snd (extend fuel a s) = Panic p.
Proof. exact extend_unsinkable. Qed.
Print Assumptions C45_unsinkable.
(** 147 frames from 44.1 kHz to 48 kHz panic, whatever they hold and whatever the formats are. *)
Theorem C45_no_panic_refuted : forall l k ls ks (a : audio l k) (s : stream ls ks),
  audio_sample_rate a = khz 48 -> sample_rate s = Some (flit 44100 0) -> honest s -> slen s = Some 147%N ->
  allocatable l k (Z.of_nat (length (frames a)) + 160) ->
  snd (extend 148 a s) = Panic IndexOutOfBounds.
Proof. exact cd_to_dat_147_panics. Qed.
Print Assumptions C45_no_panic_refuted.
(** So does one second. *)
Theorem C45_one_second_refuted : forall l k ls ks (a : audio l k) (s : stream ls ks),
  audio_sample_rate a = khz 48 -> sample_rate s = Some (flit 44100 0) -> honest s -> slen s = Some 44100%N ->
  allocatable l k (Z.of_nat (length (frames a)) + 48000) ->
  snd (extend (S (N.to_nat 44100)) a s) = Panic IndexOutOfBounds.
Proof. exact cd_to_dat_second_panics. Qed.
Print Assumptions C45_one_second_refuted.
Example C45_case : let s := SAudio (flit 44100 0) (repeat (m8 5) 147) in
  honest s /\ slen s = Some 147%N /\ allocatable Mono K8 (0 + 160) /\
  panics (snd (extend 148 (with_frames (khz 48) [] : audio Mono K8) s)) = Some IndexOutOfBounds /\
  length (codes_of (with_stream Mono K8 147 (khz 48) (SAudio (flit 44100 0) (repeat (m8 5) 146)))) = 159%nat.
Proof.
  intros s. split; [apply well_formed_honest; exact I|]. split; [reflexivity|]. split; [discriminate|]. split; vm_compute; reflexivity.
Qed.

(** ** C46 *)
Theorem C46_sink_panics_iff : forall l k (a : audio l k) r,
  Z.of_nat (length (frames a)) <= 2 ^ 64 - 1 ->
  ((exists x y, region r (N.of_nat (audio_len a)) x y) -> exists pre sk post, audio_sink a r = Ok (pre, sk, post)) /\
  (~ (exists x y, region r (N.of_nat (audio_len a)) x y) -> audio_sink a r = Panic IndexOutOfBounds).
Proof. exact audio_sink_spec. Qed.
Print Assumptions C46_sink_panics_iff.
Theorem C46_confined : forall l k (a : audio l k) r pre (sk sk' : sink l k) post,
  Z.of_nat (length (frames a)) <= 2 ^ 64 - 1 ->
  audio_sink a r = Ok (pre, sk, post) -> used sk sk' ->
  exists x y, region r (N.of_nat (audio_len a)) x y /\
    (fresh sk /\ sk_rate sk = audio_sample_rate a /\ length (sk_buf sk) = N.to_nat (y - x) /\
     forall i, (i < N.to_nat (y - x))%nat -> nth_error (sk_buf sk) i = audio_get a (N.to_nat x + i)) /\
    let a' := audio_unsink a pre sk' post in
    audio_len a' = audio_len a /\ audio_sample_rate a' = audio_sample_rate a /\
    (forall p, (p < N.to_nat x)%nat \/ (N.to_nat y <= p)%nat -> audio_get a' p = audio_get a p) /\
    (forall i, (i < N.to_nat (y - x))%nat -> audio_get a' (N.to_nat x + i) = nth_error (sk_buf sk') i).
Proof. exact audio_sink_confined. Qed.
Print Assumptions C46_confined.
Example C46_case : let a := with_frames (khz 48) [m8 1; m8 2; m8 3; m8 4] in
  match audio_sink a (RIncl 1 2) with
  | Ok (pre, sk, post) =>
      match sink_stream 9 sk (SFrame (m8 7)) with
      | Ok (sk, _) => codes (frames (audio_unsink a pre sk post))
      | _ => []
      end
  | _ => []
  end = [[1]; [7]; [7]; [4]] /\
  panics (audio_sink a (RIncl 1 4)) = Some IndexOutOfBounds /\ panics (audio_sink a (RRange 3 2)) = Some IndexOutOfBounds.
Proof. vm_compute. auto. Qed.

(** ** C47 *)
(** The frames pulled are the first ones; the rest stays. *)
Theorem C47_drain : forall l k (a : audio l k) fs t,
  pulls (audio_drain a) fs t ->
  fs = firstn (length fs) (frames a) /\ (length fs <= length (frames a))%nat /\
  drop_stream t = [pack (mkAudio (s_rate a) (skipn (length fs) (frames a)))].
Proof. exact drain_dropped. Qed.
Print Assumptions C47_drain.
Theorem C47_take : forall l k (a : audio l k) n fs t,
  pulls (take (audio_drain a) n) fs t ->
  fs = firstn (length fs) (frames a) /\ (length fs <= length (frames a))%nat /\ (N.of_nat (length fs) <= n)%N /\
  drop_stream t = [pack (mkAudio (s_rate a) (skipn (length fs) (frames a)))].
Proof. exact take_drain_dropped. Qed.
Print Assumptions C47_take.
Theorem C47_blend : forall l k l' k' (a : audio l k) (b : audio l' k') op t ms u,
  blend (audio_drain a) (audio_drain b) op = Ok t -> pulls t ms u ->
  (length ms <= length (frames a))%nat /\ (length ms <= length (frames b))%nat /\
  drop_stream u = [pack (mkAudio (s_rate a) (skipn (length ms) (frames a)));
                   pack (mkAudio (s_rate b) (skipn (length ms) (frames b)))].
Proof. exact blend_drains_dropped. Qed.
Print Assumptions C47_blend.
(** When the right side of a blend ends first, one more frame of the left side is gone. *)
Theorem C47_blend_ended : forall l k l' k' (a : audio l k) (b : stream l' k') op ms t u,
  pulls (SBlend (audio_drain a) b op) ms t -> next t = Ok (None, u) -> (length ms < length (frames a))%nat ->
  exists rest, drop_stream u = pack (mkAudio (s_rate a) (skipn (S (length ms)) (frames a))) :: rest.
Proof. exact blend_extra. Qed.
Print Assumptions C47_blend_ended.
(** Any nesting of adapters: each drained buffer has lost frames at its front only. *)
Theorem C47_any_stream : forall l k (s t : stream l k),
  advanced s t -> Forall2 front_removed (drop_stream s) (drop_stream t).
Proof. exact removed_advanced. Qed.
Print Assumptions C47_any_stream.
Theorem C47_sink : forall l k la ka fuel (sk sk' : sink l k) (a : audio la ka) it,
  sink_stream fuel sk (audio_drain a) = Ok (sk', it) ->
  exists m n fs, (m <= length (frames a))%nat /\ converted (firstn m (frames a)) fs /\
    streamed sk (fdiv (sk_rate sk) (s_rate a)) (covered (fdiv (sk_rate sk) (s_rate a)) (Some (N.of_nat (length (frames a)))) (length (sk_buf sk))) fs n sk' /\
    drop_stream it = [pack (mkAudio (s_rate a) (skipn m (frames a)))].
Proof. exact sink_drain. Qed.
Print Assumptions C47_sink.
Theorem C47_sink_any : forall l k ls ks fuel (sk sk' : sink l k) (s it : stream ls ks),
  sink_stream fuel sk s = Ok (sk', it) ->
  Forall2 front_removed (drop_stream s) (drop_stream it).
Proof. exact sink_removed. Qed.
Print Assumptions C47_sink_any.
Theorem C47_sink_equal_rate : forall l k la ka (sk : sink l k) (a : audio la ka),
  is_finite (s_rate a) = true -> B2R (s_rate a) <> 0%R ->
  sk_rate sk = s_rate a -> fresh sk -> Z.of_nat (length (sk_buf sk)) <= 2 ^ 53 ->
  let m := Nat.min (length (frames a)) (length (sk_buf sk)) in
  exists sk' it, sink_stream (S m) sk (audio_drain a) = Ok (sk', it) /\
    (forall i src, nth_error (firstn m (frames a)) i = Some src ->
       exists f b, convert l k src = Ok f /\ nth_error (sk_buf sk') i = Some b /\ copied f b) /\
    drop_stream it = [pack (mkAudio (s_rate a) (skipn m (frames a)))].
Proof. exact sink_drain_equal. Qed.
Print Assumptions C47_sink_equal_rate.
(** Nothing is removed by a drain that is not used. *)
Theorem C47_unused : forall l k (a : audio l k), drop_stream (audio_drain a) = [pack a].
Proof. exact drain_unused. Qed.
Print Assumptions C47_unused.
Example C47_case : let a := with_frames (khz 48) [m8 1; m8 2; m8 3; m8 4] in
  let b := with_frames (khz 48) [m8 10; m8 20] in
  match sink_stream 9 (mkSink (khz 48) [m8 0; m8 0; m8 0] (resampler_default Mono K8)) (audio_drain a) with
  | Ok (sk, it) => (codes (sk_buf sk), map any_codes (drop_stream it))
  | _ => ([], [])
  end = ([[1]; [2]; [3]], [[[4]]]) /\
  match sink_stream 9 (mkSink (khz 48) [m8 0; m8 0; m8 0] (resampler_default Mono K8)) (SBlend (audio_drain a) (audio_drain b) Plus) with
  | Ok (sk, it) => (codes (sk_buf sk), map any_codes (drop_stream it))
  | _ => ([], [])
  end = ([[11]; [22]; [0]], [[[3]; [4]]; []]).
Proof. vm_compute. auto. Qed.

(** ** C48 *)
Open Scope nat_scope.
Theorem C48_with_buffer : forall l k rate (buf : list (chan k)),
  (length buf mod channel_count l <> 0 -> with_buffer l k rate buf = Panic AssertFailed) /\
  (length buf mod channel_count l = 0 -> exists a, with_buffer l k rate buf = Ok a /\
     audio_sample_rate a = rate /\ audio_len a * channel_count l = length buf /\
     (forall i f c, audio_get a i = Some f -> c < channel_count l ->
        nth_error (channels f) c = nth_error buf (i * channel_count l + c)) /\
     as_raw_slice a = buf /\ into_raw a = buf).
Proof. exact with_buffer_spec. Qed.
Print Assumptions C48_with_buffer.
Theorem C48_raw_slice : forall l k (a : audio l k),
  length (as_raw_slice a) = audio_len a * channel_count l /\
  (forall i f c, audio_get a i = Some f -> c < channel_count l ->
     nth_error (as_raw_slice a) (i * channel_count l + c) = nth_error (channels f) c) /\
  with_buffer l k (audio_sample_rate a) (as_raw_slice a) = Ok a.
Proof. exact raw_slice_spec. Qed.
Print Assumptions C48_raw_slice.
Theorem C48_write : forall l k (a : audio l k) raw,
  length raw = length (as_raw_slice a) ->
  exists a', write_raw_slice a raw = Ok a' /\ audio_sample_rate a' = audio_sample_rate a /\ audio_len a' = audio_len a /\
    as_raw_slice a' = raw /\
    forall i f c, audio_get a' i = Some f -> c < channel_count l ->
      nth_error (channels f) c = nth_error raw (i * channel_count l + c).
Proof. exact write_raw_spec. Qed.
Print Assumptions C48_write.
Open Scope Z_scope.
Example C48_case : let buf := map (as_sint W8) [1; 2; 3; 4; 5; 6] in
  match with_buffer Stereo K8 (khz 48) buf with
  | Ok a => (map (fun f : frame Stereo K8 => map sv (channels f)) (frames a), map sv (into_raw a))
  | _ => ([], [])
  end = ([[1; 2]; [3; 4]; [5; 6]], [1; 2; 3; 4; 5; 6]) /\
  panics (with_buffer Stereo K8 (khz 48) (firstn 5 buf)) = Some AssertFailed.
Proof. vm_compute. auto. Qed.

(** ** C49 *)
Open Scope nat_scope.
Theorem C49_with_buffer : forall l k (h : heap k) b data,
  owns_raw h b data ->
  (length data mod channel_count l = 0 ->
     exists v, heap_with_buffer l k h b = HOk v h /\ fv_ptr v = rb_ptr b /\ owns_frames l h v data) /\
  (length data mod channel_count l <> 0 ->
     exists h', heap_with_buffer l k h b = HPanic AssertFailed h' /\ freed h (rb_ptr b) h').
Proof. exact heap_with_buffer_spec. Qed.
Print Assumptions C49_with_buffer.
Theorem C49_drop : forall l k (h : heap k) v data,
  owns_frames l h v data ->
  exists h', drop_frame_vec l k h v = HOk tt h' /\ freed h (fv_ptr v) h'.
Proof. exact drop_frames_ok. Qed.
Print Assumptions C49_drop.
Theorem C49_read : forall l k (h : heap k) v data,
  owns_frames l h v data -> read_frame_vec l h v = HOk data h.
Proof. exact read_frames_ok. Qed.
Print Assumptions C49_read.
Theorem C49_into_raw : forall l k (h : heap k) v data,
  owns_frames l h v data ->
  (data = [] -> exists b, heap_into_raw l k h v = HOk b h /\ owns_raw h b []) /\
  (data <> [] -> exists b h', heap_into_raw l k h v = HOk b h' /\ rb_len b = length data /\ rb_ptr b = fv_ptr v /\
     freed h (fv_ptr v) h' /\ read_raw_box h' b = HUb UseAfterFree /\ drop_raw_box k h' b = HUb DoubleFree).
Proof. exact heap_into_raw_spec. Qed.
Print Assumptions C49_into_raw.
Open Scope Z_scope.
(** "Get ownership of the sample data back" does not hold for any non-empty buffer. *)
Theorem C49_into_raw_ownership_refuted : forall l k (h : heap k) v data, owns_frames l h v data -> data <> [] ->
  ~ exists b h', heap_into_raw l k h v = HOk b h' /\ owns_raw h' b data.
Proof. exact into_raw_not_owned. Qed.
Print Assumptions C49_into_raw_ownership_refuted.
Example C49_case : let data := map (as_sint W8) [1; 2; 3; 4] in
  let '(p, h) := alloc (k := K8) [] 1 data in
  owns_raw h (mkRawBox p 4) data /\
  match heap_with_buffer Stereo K8 h (mkRawBox p 4) with
  | HOk v h => owns_frames Stereo h v data /\
      match heap_into_raw Stereo K8 h v with
      | HOk b h => match read_raw_box h b with HUb UseAfterFree => True | _ => False end /\
                   match drop_raw_box K8 h b with HUb DoubleFree => True | _ => False end
      | _ => False
      end
  | _ => False
  end.
Proof. cbn. repeat split. Qed.

(** ** C50 *)
Theorem C50_whole_factor : forall l k ls ks (s : stream ls ks) rate src r m n all,
  sample_rate s = Some src -> whole_rate src r ->
  whole_rate rate (m * r) -> 1 <= m -> (k = K32 -> m <= 2 ^ 24) -> m * r * Z.of_N n <= 2 ^ 53 ->
  honest s -> slen s = Some n -> allocatable l k (m * Z.of_N n) -> yields s all ->
  exists a it, with_stream l k (S (N.to_nat n)) rate s = Ok (a, it) /\ audio_sample_rate a = rate /\
    Z.of_nat (audio_len a) = m * Z.of_N n /\
    (forall i x, nth_error all i = Some x -> exists f b, convert l k x = Ok f /\
       audio_get a (Z.to_nat m * i) = Some b /\ scaled m f b) /\
    (forall p, (p < audio_len a)%nat -> Z.of_nat p mod m <> 0 -> audio_get a p = Some (frame_default l k)).
Proof. exact with_stream_up. Qed.
Print Assumptions C50_whole_factor.
Example C50_case : codes_of (with_stream Mono K8 3 (khz 48) (SAudio (khz 16) [m8 20; m8 (-7)])) = [[20]; [0]; [0]; [-7]; [0]; [0]] /\
  whole_rate (khz 16) 16000 /\ whole_rate (khz 48) (3 * 16000).
Proof.
  split; [vm_compute; reflexivity|].
  destruct (flit_Z 53 1024 16000 ltac:(lia)), (flit_Z 53 1024 48000 ltac:(lia)). repeat split; try assumption; try lia.
Qed.

(** ** C51 *)
Theorem C51_half_rate : forall l k ls ks (s : stream ls ks) rate src r n all (fs : list (frame l k)),
  sample_rate s = Some src -> whole_rate src (2 * r) -> whole_rate rate r -> r * Z.of_N n <= 2 ^ 53 ->
  honest s -> slen s = Some n -> allocatable l k ((Z.of_N n + 1) / 2) -> yields s all -> converted all fs ->
  (is_float k -> Forall frame_valid fs) ->
  exists a it, with_stream l k (S (N.to_nat n)) rate s = Ok (a, it) /\ audio_sample_rate a = rate /\
    Z.of_nat (audio_len a) = (Z.of_N n + 1) / 2 /\
    (forall p f x, nth_error fs (2 * p) = Some f -> nth_error fs (2 * p + 1) = Some x ->
       exists out b, weighted_sum (frame_default l k) (before fs p ++ [(f, half)]) out /\ audio_get a p = Some b /\ copied out b) /\
    (forall p, Z.of_N n = 2 * Z.of_nat p + 1 -> audio_get a p = Some (frame_default l k)).
Proof. exact with_stream_half. Qed.
Print Assumptions C51_half_rate.
Example C51_case : codes_of (with_stream Mono K8 6 (khz 24) (SAudio (khz 48) [m8 20; m8 40; m8 60; m8 80; m8 100])) = [[9]; [48]; [0]] /\
  whole_rate (khz 48) (2 * 24000) /\ whole_rate (khz 24) 24000 /\
  map (fun fw => sv (from_f64 K8 (snd fw))) (before [m8 20; m8 40; m8 60] 1) = [63].
Proof.
  split; [vm_compute; reflexivity|].
  destruct (flit_Z 53 1024 24000 ltac:(lia)), (flit_Z 53 1024 48000 ltac:(lia)). repeat split; try assumption; try lia.
Qed.

(** ** C52 *)
Theorem C52_equal_rate : forall l k ls ks (s : stream ls ks) rate n all,
  match sample_rate s with Some r => is_finite r = true /\ B2R r <> 0%R /\ rate = r | None => configurable s end ->
  honest s -> slen s = Some n -> Z.of_N n <= 2 ^ 53 ->
  let d := frames_for rate (sample_rate s) n in
  allocatable l k d -> yields s all ->
  exists a it, with_stream l k (S (N.to_nat n)) rate s = Ok (a, it) /\ audio_sample_rate a = rate /\
    Z.of_nat (audio_len a) = d /\
    (forall i x, (i < audio_len a)%nat -> nth_error all i = Some x -> exists f b, convert l k x = Ok f /\
       audio_get a i = Some b /\ copied f b) /\
    (forall p, (length all <= p < audio_len a)%nat -> audio_get a p = Some (frame_default l k)).
Proof. exact with_stream_equal. Qed.
Print Assumptions C52_equal_rate.
(** The number of frames is unchanged for whole rates. *)
Theorem C52_length : forall l k l1 k1 (a : audio l1 k1) rate z,
  audio_sample_rate a = rate -> whole_rate rate z -> z * Z.of_nat (audio_len a) <= 2 ^ 53 ->
  allocatable l k (Z.of_nat (audio_len a)) ->
  exists b it, with_stream l k (S (audio_len a)) rate (audio_stream a) = Ok (b, it) /\ audio_sample_rate b = rate /\
    audio_len b = audio_len a /\
    (forall i x, audio_get a i = Some x -> exists f y, convert l k x = Ok f /\ audio_get b i = Some y /\ copied f y).
Proof. exact with_stream_whole. Qed.
Print Assumptions C52_length.
(** For fractional rates it can change: any three frames at 44100*1000/1001 Hz become four, the last one silent. *)
Theorem C52_length_refuted : forall l k l1 k1 (a : audio l1 k1),
  audio_sample_rate a = fdiv (flit 44100000 0) (flit 1001 0) -> audio_len a = 3%nat ->
  exists b it, with_stream l k 4 (audio_sample_rate a) (audio_stream a) = Ok (b, it) /\ audio_len b = 4%nat /\
    audio_get b 3 = Some (frame_default l k).
Proof. exact pulldown_lengthens. Qed.
Print Assumptions C52_length_refuted.
Example C52_case : codes_of (with_stream Mono K8 3 (khz 48) (SAudio (khz 48) [m8 20; m8 (-7)])) = [[20]; [-7]] /\
  codes_of (with_stream Mono K8 4 (fdiv (flit 44100000 0) (flit 1001 0)) (SAudio (fdiv (flit 44100000 0) (flit 1001 0)) [m8 1; m8 2; m8 3]))
  = [[1]; [2]; [3]; [0]].
Proof. vm_compute. auto. Qed.

(** ** C53 *)
Theorem C53_panic_loses_audio : forall l k ls ks fuel (a a' : audio l k) (s : stream ls ks) p,
  extend fuel a s = (a', Panic p) ->
  audio_len a' = 0%nat /\ audio_sample_rate a' = flit 0 0.
Proof. exact extend_panic. Qed.
Print Assumptions C53_panic_loses_audio.
Theorem C53_infinite_panics : forall l k ls ks fuel (a : audio l k) (s : stream ls ks),
  slen s = None ->
  exists a', extend fuel a s = (a', Panic UnwrapNone).
Proof. exact extend_infinite. Qed.
Print Assumptions C53_infinite_panics.
Example C53_case : let a := with_frames (khz 48) [m8 1; m8 2] in
  let '(a', r) := extend 9 a (SFrame (m8 1)) in codes (frames a') = [] /\ panics r = Some UnwrapNone.
Proof. vm_compute. auto. Qed.
