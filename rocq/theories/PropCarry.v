(** * PropCarry.v -- property theorems C94 *)
From Coq Require Import ZArith NArith Reals Bool List Lia Lra.
From Flocq Require Import Core.Core IEEE754.BinarySingleNaN.
From Verif Require Import Rust Float Chan Frame Ops Stream Audio SpecChan SpecFrame SpecStream SpecSink SpecAudio SpecCarry.
From Verif Require Import StreamProofs SinkTerm CarryProofs.
Import ListNotations.
Open Scope Z_scope.

Notation "'m8' z" := ((as_sint W8 z, tt) : frame Mono K8) (at level 9, z at next level, only parsing).
(** The sample values of a list of frames. *)
Definition codes (fs : list (frame Mono K8)) : list (list Z) := map (fun f : frame Mono K8 => map sv (channels f)) fs.

(** ** C94 *)
(** A [stream] call either runs its source to the end or leaves the resampler behind the frames
    it covered... *)
Theorem C94_left_behind : forall l k ls ks fuel (sk sk' : sink l k) (s it : stream ls ks) ratio s', negotiated sk s ratio s' ->
  sink_stream fuel sk s = Ok (sk', it) ->
  (exists t, next t = Ok (None, it)) \/ covered ratio (slen s) (length (sk_buf sk)) <= floor_index (resampler_index (sk_res sk')).
Proof. exact left_behind. Qed.
Print Assumptions C94_left_behind.
(** ... so an endless stream leaves it behind the buffer, whatever the rates. *)
Theorem C94_filled : forall l k ls ks fuel (sk sk' : sink l k) (s it : stream ls ks), slen s = None ->
  sink_stream fuel sk s = Ok (sk', it) -> behind (length (sk_buf sk)) (sk_res sk').
Proof. exact filled. Qed.
Print Assumptions C94_filled.
(** From then on that resampler makes nothing of any stream: no frame is pulled, the frames the call
    covers are silenced, and the resampler stays where it is. *)
Theorem C94_nothing : forall l k ls ks (sk : sink l k) (s s' : stream ls ks) ratio n, negotiated sk s ratio s' -> is_finite ratio = true ->
  behind n (sk_res sk) -> (length (sk_buf sk) <= n)%nat ->
  let e := covered ratio (slen s) (length (sk_buf sk)) in
  exists sk', (forall fuel, (0 < fuel)%nat -> sink_stream fuel sk s = Ok (sk', s')) /\ length (sk_buf sk') = length (sk_buf sk) /\
    (forall p, (p < length (sk_buf sk))%nat -> Z.of_nat p < e -> nth_error (sk_buf sk') p = Some (frame_default l k)) /\
    (forall p, p <> 0%nat -> e <= Z.of_nat p -> nth_error (sk_buf sk') p = nth_error (sk_buf sk) p) /\
    resampler_frame (sk_res sk') = resampler_frame (sk_res sk) /\ behind n (sk_res sk').
Proof. exact nothing. Qed.
Print Assumptions C94_nothing.
(** So a player that hands its resampler on plays one block, and silence ever after. *)
Theorem C94_one_block : forall l k rate slots (r r' : resampler l k) b bs, handed_on rate slots r (b :: bs) r' ->
  Forall (fun b => b = repeat (frame_default l k) slots) bs.
Proof. exact one_block. Qed.
Print Assumptions C94_one_block.
(** It can go on like that for as long as one likes. *)
Theorem C94_played_on : forall l k ls ks rate fuel (buf : list (frame l k)) r (s it : stream ls ks) sk' c,
  slen s = None -> is_finite (ratio_for rate (sample_rate s)) = true -> sink_stream fuel (mkSink rate buf r) s = Ok (sk', it) ->
  exists r', handed_on rate (length buf) r (sk_buf sk' :: repeat (repeat (frame_default l k) (length buf)) c) r'.
Proof. exact played_on. Qed.
Print Assumptions C94_played_on.
(** A tone at 44.1 kHz in blocks of [n] at 48 kHz. *)
Definition hum : stream Mono K8 := SUser (mkUser (Some (flit 44100 0)) false None (fun _ => Ok (Some (m8 50))) 0).
Fixpoint blocks (n c : nat) (r : resampler Mono K8) (s : stream Mono K8) : list (list (list Z)) :=
  match c with
  | O => []
  | S c => match sink_stream (S (S n)) (mkSink (flit 48000 0) (repeat (m8 99) n) r) s with
           | Ok (sk, it) => codes (sk_buf sk) :: blocks n c (sk_res sk) it
           | _ => []
           end
  end.
(** The blocks together are not what one large block would be. *)
Theorem C94_goes_on_refuted : ~ forall n c, (0 < n < 100)%nat -> (0 < c < 100)%nat ->
  concat (blocks n c (resampler_default Mono K8) hum) = concat (blocks (n * c) 1 (resampler_default Mono K8) hum).
Proof. intros H. specialize (H 4%nat 2%nat ltac:(lia) ltac:(lia)). revert H. vm_compute. discriminate. Qed.
Print Assumptions C94_goes_on_refuted.
(** One block of it, then silence. *)
Example C94_case : blocks 4 3 (resampler_default Mono K8) hum = [[[50]; [50]; [49]; [48]]; [[0]; [0]; [0]; [0]]; [[0]; [0]; [0]; [0]]] /\
  slen hum = None /\ is_finite (ratio_for (flit 48000 0) (sample_rate hum)) = true.
Proof. repeat split; vm_compute; reflexivity. Qed.
