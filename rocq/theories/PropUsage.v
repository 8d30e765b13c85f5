(** * PropUsage.v -- property theorems C93 *)
From Coq Require Import ZArith NArith Reals Bool List Lia Lra.
From Flocq Require Import Core.Core IEEE754.BinarySingleNaN.
From Verif Require Import Rust Float Chan Frame Ops Stream Audio SpecChan SpecFrame SpecStream SpecSink SpecAudio SpecMore SpecRaise SpecUsage.
From Verif Require Import FloatProofs AudioProofs RaiseProofs LowerProofs UsageProofs.
Import ListNotations.
Open Scope Z_scope.

(** ** C93 *)
(** A new sink at [R] Hz and a stream at [S] Hz, of which [e] destination frames are to be made:
    exactly as many source frames are pulled as begin before the end of destination frame [e - 1], and no more. *)
Theorem C93_used : forall rate src R S, whole_rate rate R -> whole_rate src S -> S <= 2 ^ 51 ->
  forall l k ls ks (sk : sink l k) (s : stream ls ks) m e u, fresh sk -> sk_rate sk = rate -> sample_rate s = Some src -> honest s ->
  (forall n, slen s = Some n -> (n <= m)%N) -> R * Z.of_N m <= 2 ^ 51 -> aligned rate src R S m ->
  Z.of_nat e = fills R S (slen s) (length (sk_buf sk)) -> first_at R S e u -> Z.of_nat u <= Z.of_N m ->
  exists srcs sk' it, pulls s srcs it /\ length srcs = u /\ forall fuel, (u < fuel)%nat -> sink_stream fuel sk s = Ok (sk', it).
Proof. exact used. Qed.
Print Assumptions C93_used.
(** At any whole rates an endless stream loses that many frames or, if one of them begins exactly at
    the end of the buffer, possibly that one too. *)
Theorem C93_endless : forall rate src R S, whole_rate rate R -> whole_rate src S -> S <= 2 ^ 51 ->
  forall l k ls ks (sk : sink l k) (s : stream ls ks) u, fresh sk -> sk_rate sk = rate -> sample_rate s = Some src -> honest s -> slen s = None ->
  R * (Z.of_nat u + 1) <= 2 ^ 51 -> first_at R S (length (sk_buf sk)) u ->
  exists srcs sk' it, pulls s srcs it /\ (length srcs = u \/ length srcs = Datatypes.S u /\ R * Z.of_nat u = S * Z.of_nat (length (sk_buf sk))) /\
    forall fuel, (Datatypes.S u < fuel)%nat -> sink_stream fuel sk s = Ok (sk', it).
Proof. exact used_any. Qed.
Print Assumptions C93_endless.
(** A buffer that is drained into one new sink after the other loses [u] frames each time... *)
Theorem C93_blocks : forall rate src R S, whole_rate rate R -> whole_rate src S -> S <= 2 ^ 51 ->
  forall lb kb l k slots m u c (b b' : audio lb kb), played l k rate slots c b b' -> s_rate b = src ->
  Z.of_nat (audio_len b) <= Z.of_N m -> R * Z.of_N m <= 2 ^ 51 -> aligned rate src R S m -> first_at R S slots u -> (c * u <= audio_len b)%nat ->
  b' = mkAudio src (skipn (c * u) (frames b)).
Proof. exact used_blocks. Qed.
Print Assumptions C93_blocks.
(** ... and this is always possible. *)
Theorem C93_blocks_played : forall rate src R S, whole_rate rate R -> whole_rate src S -> S <= 2 ^ 51 ->
  forall lb kb l k slots m u c (b : audio lb kb), s_rate b = src ->
  Z.of_nat (audio_len b) <= Z.of_N m -> R * Z.of_N m <= 2 ^ 51 -> aligned rate src R S m -> first_at R S slots u -> (c * u <= audio_len b)%nat ->
  played l k rate slots c b (mkAudio src (skipn (c * u) (frames b))).
Proof. exact blocks_exist. Qed.
Print Assumptions C93_blocks_played.
(** So playing in blocks does not keep time: blocks of 512 at 48 kHz use 471 frames at 44.1 kHz
    each, although 470.4 last as long. *)
Theorem C93_keeps_time_refuted : ~ forall c (b b' : audio Mono K16), s_rate b = flit 44100 0 -> played Mono K16 (flit 48000 0) 512 c b b' ->
  48000 * (Z.of_nat (audio_len b) - Z.of_nat (audio_len b')) <= 44100 * (512 * Z.of_nat c) + 48000.
Proof.
  intros H. destruct (flit_Z 53 1024 48000 ltac:(lia)) as [F1 V1], (flit_Z 53 1024 44100 ltac:(lia)) as [F2 V2].
  assert (W1 : whole_rate (flit 48000 0) 48000) by (repeat split; try assumption; lia). assert (W2 : whole_rate (flit 44100 0) 44100) by (repeat split; try assumption; lia).
  assert (Al : aligned (flit 48000 0) (flit 44100 0) 48000 44100 942) by (apply usual_aligned; try (cbn [usual_rates In]; tauto); lia).
  set (b := mkAudio (flit 44100 0) (repeat (frame_default Mono K16) 942) : audio Mono K16).
  assert (Lb : audio_len b = 942%nat) by apply repeat_length.
  assert (Fi : first_at 48000 44100 512 471) by (unfold first_at; lia).
  pose proof (blocks_exist (flit 48000 0) (flit 44100 0) 48000 44100 W1 W2 ltac:(lia) Mono K16 Mono K16 512 942 471 2 b eq_refl ltac:(rewrite Lb; lia) ltac:(lia) Al Fi ltac:(rewrite Lb; lia)) as P.
  specialize (H 2%nat b _ eq_refl P). revert H. rewrite Lb. unfold audio_len at 1. cbn [frames]. rewrite skipn_length. fold (audio_len b). rewrite Lb. lia.
Qed.
Print Assumptions C93_keeps_time_refuted.
(** Not at all rates: from 5 to 7 kHz 63 slots take 46 frames, not 45. *)
Definition left_over (rate src : Z) (slots n : nat) : option nat :=
  match sink_stream (Datatypes.S n) (mkSink (flit rate 0) (repeat (frame_default Mono K8) slots) (resampler_default Mono K8))
          (audio_drain (with_silence Mono K8 (flit src 0) n)) with
  | Ok (_, SDrain _ fs c) => Some (length fs - c)%nat
  | _ => None
  end.
Theorem C93_all_rates_refuted : ~ forall R S slots n u, 0 < S < R -> R < 10000 -> first_at R S slots u -> (u <= n)%nat -> (n < 100)%nat ->
  left_over R S slots n = Some (n - u)%nat.
Proof.
  intros H. specialize (H 7000 5000 63%nat 50%nat 45%nat ltac:(lia) ltac:(lia) ltac:(unfold first_at; lia) ltac:(lia) ltac:(lia)). revert H. vm_compute. discriminate.
Qed.
Print Assumptions C93_all_rates_refuted.
(** 12 slots at 48 kHz take 8 of 10 frames at 32 kHz, 13 take 9; 10 frames at 48 kHz make 6 frames
    at 32 kHz, for which 9 are taken; a second takes a second. *)
Example C93_case :
  left_over 48000 32000 12 10 = Some 2%nat /\ left_over 48000 32000 13 10 = Some 1%nat /\ left_over 32000 48000 20 10 = Some 1%nat /\ left_over 7000 5000 63 50 = Some 4%nat /\
  first_at 48000 32000 12 8 /\ first_at 48000 32000 13 9 /\ first_at 32000 48000 6 9 /\ fills 32000 48000 (Some 10%N) 20 = 6 /\ fills 48000 32000 (Some 10%N) 12 = 12 /\
  (forall R S, 0 < R -> 0 < S -> first_at R S (Z.to_nat R) (Z.to_nat S)).
Proof.
  do 4 (split; [vm_compute; reflexivity|]). do 3 (split; [unfold first_at; lia|]). do 2 (split; [reflexivity|]). unfold first_at. intros. rewrite !Z2Nat.id by lia. lia.
Qed.
