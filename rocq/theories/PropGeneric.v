(** * PropGeneric.v -- property theorems about other implementors of the traits (C72) *)
From Coq Require Import ZArith NArith Reals Bool List Lia.
From Flocq Require Import Core.Core IEEE754.BinarySingleNaN.
From Verif Require Import Rust Float Math Chan Frame Ops Stream Audio Unwind Generic SpecChan SpecFrame SpecStream SpecSink SpecAudio SpecGeneric
  GenericProofs.
Import ListNotations.
Open Scope Z_scope.

Notation "'m8' z" := ((as_sint W8 z, tt) : frame Mono K8) (at level 9, z at next level, only parsing).
Notation "'khz' z" := (flit (1000 * z) 0 : f64) (at level 9, z at next level, only parsing).
(** The sample values of a list of frames. *)
Definition codes (fs : list (frame Mono K8)) : list (list Z) := map (fun f : frame Mono K8 => map sv (channels f)) fs.

(** A sink with a name, which keeps its samples in reverse order. *)
Definition named : sink_type (frame Mono K8) :=
  mkSinkType (frame Mono K8) (sink_state (frame Mono K8) * nat)
    (fun s => ss_rate (fst s)) (fun s => ss_partial (fst s)) (fun s => ss_off (fst s))
    (fun s p => (mkState (ss_rate (fst s)) (ss_buf (fst s)) p (ss_off (fst s)), snd s))
    (fun s o => (mkState (ss_rate (fst s)) (ss_buf (fst s)) (ss_partial (fst s)) o, snd s))
    (fun s => rev (ss_buf (fst s)))
    (fun s b => (mkState (ss_rate (fst s)) (rev b) (ss_partial (fst s)) (ss_off (fst s)), snd s)).
Example named_lawful : lawful named /\ other named snd.
Proof. split; [constructor; intros; try reflexivity; apply rev_involutive|repeat split]. Qed.
Definition mine : si named := (mkState (khz 1) (repeat (m8 7) 3) (m8 0) (flit 0 0), 42%nat).
(** A stream that counts down, and keeps the rate it is told. *)
Definition countdown : stream_type (frame Mono K8) :=
  mkStreamType (frame Mono K8) (nat * option f64) snd (fun s => Some (N.of_nat (fst s))) (fun s r => ((fst s, Some r), Ok tt))
    (fun s => match fst s with O => (s, Ok None) | S n => ((n, snd s), Ok (Some (m8 (Z.of_nat (S n))))) end).
(** A frame type with three whole-number channels. *)
Definition triple : frame_type :=
  mkFrameType (Z * Z * Z) (0, 0, 0) (fun w => (f64_as_usize w, f64_as_usize w, f64_as_usize w))
    (fun '(a, b, c) '(x, y, z) => Ok (a + x, b + y, c + z)) (fun '(a, b, c) '(x, y, z) => Ok (a * x, b * y, c * z)).
Example triple_units : adds triple /\ unit_weights triple.
Proof.
  assert (H1 : fr_from_f64 triple (flit 1 0) = (1, 1, 1)) by (vm_compute; reflexivity).
  assert (H0 : fr_from_f64 triple (B754_zero false) = (0, 0, 0)) by (vm_compute; reflexivity).
  unfold unit_weights. rewrite H1, H0. split; [intros [[a b] c] [[x y] z]; eexists; reflexivity|].
  split; [intros [[a b] c]; reflexivity|]. split.
  - intros [[a b] c]. cbn. now rewrite !Z.mul_1_r.
  - intros [[a b] c]. exists (0, 0, 0). cbn. rewrite !Z.mul_0_r. split; [reflexivity|]. intros [[x y] z]. now rewrite !Z.add_0_r.
Qed.
(** Two such frames. *)
Definition triples : stream_type (Z * Z * Z) :=
  mkStreamType (Z * Z * Z) (list (Z * Z * Z)) (fun _ => None) (fun s => Some (N.of_nat (length s))) (fun s _ => (s, Ok tt))
    (fun s => match s with [] => (s, Ok None) | x :: s => (s, Ok (Some x)) end).

(** ** C72 *)
(** Every lawful sink behaves as a sink of the crate over the same values. *)
Theorem C72_any_sink : forall l k (K : sink_type (frame l k)), lawful K ->
  (forall ls ks fuel (sk : si K) (s : stream ls ks),
     sink_stream_st fuel (view K sk) s =
     (let '((sk', it'), r) := g_stream (std_frame l k) K (std_stream ls ks) (convert l k) fuel sk s in ((view K sk', it'), r))) /\
  (forall sk : si K,
     flush (view K sk) = (let '(sk', r) := g_flush (std_frame l k) K sk in _ <- r ;; Ok (view K sk'))).
Proof. exact any_sink. Qed.
Print Assumptions C72_any_sink.
Example C72_any_sink_case :
  let '((sk, _), _) := g_stream (std_frame Mono K8) named (std_stream Mono K8) (convert Mono K8) 9 mine (SAudio (khz 1) [m8 1; m8 2]) in
  codes (si_buffer named sk) = [[1]; [2]; [7]] /\ codes (ss_buf (fst sk)) = [[7]; [2]; [1]] /\ snd sk = 42%nat.
Proof. vm_compute. repeat split; reflexivity. Qed.

(** What the methods do not give access to stays as it is, even when streaming
    panics. *)
Theorem C72_untouched : forall T (K : sink_type (fr T)) O (ob : si K -> O), other K ob ->
  (forall X (M : stream_type X) conv fuel sk s, ob (fst (fst (g_stream T K M conv fuel sk s))) = ob sk) /\
  (forall sk, ob (fst (g_flush T K sk)) = ob sk).
Proof. exact untouched. Qed.
Print Assumptions C72_untouched.

(** Every stream of frames of the crate behaves as the list of its frames. *)
Theorem C72_any_stream : forall T (K : sink_type (fr T)) ls ks (M : stream_type (frame ls ks)) conv fuel sk s,
  (so_rate M s = None -> plain_set_rate M s (si_rate K sk)) ->
  let '((sk1, _), r1) := g_stream T K M conv fuel sk s in
  let '((sk2, _), r2) := g_stream T K (std_stream ls ks) conv fuel sk (listed M s (si_rate K sk)) in
  sk1 = sk2 /\ r1 = r2.
Proof. exact any_stream. Qed.
Print Assumptions C72_any_stream.
Example C72_any_stream_case : plain_set_rate countdown (2%nat, None) (khz 1) /\
  let '((sk, it), _) := g_stream (std_frame Mono K8) named countdown (convert Mono K8) 9 mine (2%nat, None) in
  codes (si_buffer named sk) = [[2]; [1]; [7]] /\ fst it = 0%nat.
Proof. split; [left; reflexivity|]. vm_compute. repeat split; reflexivity. Qed.

(** Frames of a type that is not the crate's are refused by the provided
    [convert]: [stream] panics at the first frame, which is lost; the covered part
    of the buffer is cleared. *)
Theorem C72_custom_frames : forall a b (K : sink_type (fr (impl b))) (M : stream_type (fr (impl a))),
  foreign a b -> lawful K -> adds (impl b) ->
  forall fuel sk s ratio s' x s1, started K M sk s ratio s' -> so_next M s' = (s1, Ok (Some x)) ->
  let e := covered ratio (so_len M s') (length (si_buffer K sk)) in
  floor_index (place ratio (si_offseti K sk) 0) < e ->
  exists sk', g_stream (impl b) K M (convert_any a b) (S fuel) sk s = ((sk', s1), Panic ExplicitPanic) /\
    si_rate K sk' = si_rate K sk /\ si_partial K sk' = si_partial K sk /\ si_offseti K sk' = si_offseti K sk /\
    si_buffer K sk' = repeat (fr_default (impl b)) (Z.to_nat e) ++ skipn (Z.to_nat e) (si_buffer K sk).
Proof. exact custom_frames. Qed.
Print Assumptions C72_custom_frames.
(** Even into a sink of the same type. *)
Example C72_custom_frames_case : foreign (Custom triple) (Custom triple) /\
  let '((sk, it), r) := g_stream triple (audio_sink_type (Z * Z * Z)) triples (convert_any (Custom triple) (Custom triple)) 9
    (mkState (khz 1) (repeat (7, 7, 7) 3) (0, 0, 0) (flit 0 0)) [(1, 2, 3); (4, 5, 6)] in
  ss_buf sk = [(0, 0, 0); (0, 0, 0); (7, 7, 7)] /\ it = [(4, 5, 6)] /\ r = Panic ExplicitPanic.
Proof. split; [left; eexists; reflexivity|]. vm_compute. repeat split; reflexivity. Qed.

(** [extend] then loses the buffer. *)
Theorem C72_custom_extend : forall a b bytes (M : stream_type (fr (impl a))), foreign a b -> adds (impl b) ->
  forall fuel (self : any_buffer (impl b)) s n r s' x s1, so_len M s = Some n -> so_rate M s = r ->
  let d := frames_for (b_rate self) r n in
  let ratio := match r with Some r => fdiv (b_rate self) r | None => flit 1 0 end in
  (r = None /\ so_set_rate M s (b_rate self) = (s', Ok tt) \/ r <> None /\ s' = s) ->
  0 < bytes -> (Z.of_nat (length (b_frames self)) + d) * bytes <= 2 ^ 63 - 1 ->
  0 < covered ratio (so_len M s') (Z.to_nat d) ->
  so_next M s' = (s1, Ok (Some x)) ->
  g_extend (impl b) bytes M (convert_any a b) (S fuel) self s = ((mkBuffer (flit 0 0) [], s1), Panic ExplicitPanic).
Proof. exact custom_extend. Qed.
Print Assumptions C72_custom_extend.
Example C72_custom_extend_case :
  let '((b, it), r) := g_extend triple 24 triples (convert_any (Custom triple) (Custom triple)) 9
    (@mkBuffer triple (khz 1) [(9, 9, 9)]) [(1, 2, 3); (4, 5, 6)] in
  b_frames b = [] /\ it = [(4, 5, 6)] /\ r = Panic ExplicitPanic.
Proof. vm_compute. repeat split; reflexivity. Qed.
(** For the crate's types it is the [extend] of the other theorems. *)
Theorem C72_extend : forall l k ls ks fuel (a : audio l k) (s : stream ls ks),
  extend_st fuel a s =
  (let '((b, it), r) := g_extend (std_frame l k) (Z.of_nat (frame_size l k)) (std_stream ls ks) (convert l k) fuel
     (@mkBuffer (std_frame l k) (s_rate a) (frames a)) s in ((@mkAudio l k (b_rate b) (b_frames b), it), r)).
Proof. exact std_extend. Qed.
Print Assumptions C72_extend.

(** A frame type with its own [convert] is copied at equal rates, when weights 1
    and 0 keep and drop a frame. *)
Theorem C72_copy : forall T (K : sink_type (fr T)) X (M : stream_type X) conv, lawful K -> adds T -> unit_weights T ->
  forall sk s s' srcs fs fuel, started K M sk s (flit 1 0) s' -> si_offseti K sk = flit 0 0 -> srcs <> [] ->
  (forall i x, nth_error srcs i = Some x -> item M s' i = Ok (Some x)) ->
  Forall2 (fun x f => conv x = Ok f) srcs fs -> Z.of_nat (length (si_buffer K sk)) <= 2 ^ 53 ->
  length srcs = available (so_len M s') (length (si_buffer K sk)) -> (length srcs < fuel)%nat ->
  exists sk', g_stream T K M conv fuel sk s = ((sk', after M (length srcs) s'), Ok tt) /\
    si_buffer K sk' = fs ++ skipn (length srcs) (si_buffer K sk) /\ si_partial K sk' = si_partial K sk /\
    si_offseti K sk' = fofZ (Z.of_nat (length srcs)) /\ si_rate K sk' = si_rate K sk.
Proof. exact any_copy. Qed.
Print Assumptions C72_copy.
Example C72_copy_case :
  let '((sk, it), r) := g_stream triple (audio_sink_type (Z * Z * Z)) triples Ok 9
    (mkState (khz 1) (repeat (7, 7, 7) 3) (0, 0, 0) (flit 0 0)) [(1, 2, 3); (4, 5, 6)] in
  ss_buf sk = [(1, 2, 3); (4, 5, 6); (7, 7, 7)] /\ it = [] /\ r = Ok tt.
Proof. vm_compute. repeat split; reflexivity. Qed.
