(** * PropMany.v -- property theorems C77 and C78 *)
From Coq Require Import ZArith NArith Reals Bool List Lia Lra.
From Flocq Require Import Core.Core IEEE754.BinarySingleNaN.
From Verif Require Import Rust Float Chan Frame Stream Audio SpecChan SpecFrame SpecStream SpecSink SpecAudio SpecMany Programs ManyProofs ProgramProofs.
Import ListNotations.
Open Scope Z_scope.

Notation "'m8' z" := ((as_sint W8 z, tt) : frame Mono K8) (at level 9, z at next level, only parsing).
Notation "'khz' z" := (flit (1000 * z) 0 : f64) (at level 9, z at next level, only parsing).

(** ** C77 *)
(** Equal-rate streams of any formats sent to a sink one after the other. *)
Theorem C77_many_streams : forall l k (sk : sink l k) cs, fresh sk -> Z.of_nat (length (sk_buf sk)) <= 2 ^ 53 -> (forall c, In c cs -> sends sk c) ->
  exists sk', (forall fuel, (longest cs < fuel)%nat -> stream_each fuel sk cs = Ok sk') /\
    sk_rate sk' = sk_rate sk /\ length (sk_buf sk') = length (sk_buf sk) /\
    sk_res sk' = mkResampler (frame_default l k) (fofZ (Z.of_nat (Nat.min (longest cs) (length (sk_buf sk))))) /\
    forall p, (p < length (sk_buf sk))%nat ->
      ((forall c, In c cs -> (size c <= p)%nat) -> nth_error (sk_buf sk') p = nth_error (sk_buf sk) p) /\
      (forall before c after, cs = before ++ c :: after -> (forall d, In d (before ++ after) -> (size d <= p)%nat) -> (p < size c)%nat ->
         holds (nth_error (sk_buf sk') p) c (p - longest before)) /\
      (forall before c mid d after, cs = before ++ c :: mid ++ d :: after -> (p < size c)%nat -> (p < size d)%nat ->
         nth_error (sk_buf sk') p = Some (frame_default l k)).
Proof. exact many. Qed.
Print Assumptions C77_many_streams.
(** [1], then [2; 3], then [4; 5; 6]. *)
Definition three : list source :=
  [mkSource Mono K8 (SAudio (khz 48) [m8 1]) [m8 1];
   mkSource Mono K8 (STake (SAudio (khz 48) [m8 2; m8 3; m8 7]) 2) [m8 2; m8 3];
   mkSource Mono K8 (SAudio (khz 48) [m8 4; m8 5; m8 6]) [m8 4; m8 5; m8 6]].
Example C77_case : let sk := mkSink (khz 48) (repeat (m8 9) 4) (resampler_default Mono K8) in
  fresh sk /\ (forall c, In c three -> sends sk c) /\
  match stream_each 9 sk three with Ok sk' => map (fun f : frame Mono K8 => map sv (channels f)) (sk_buf sk') = [[0]; [0]; [4]; [9]] | _ => False end.
Proof.
  cbv zeta. split; [reflexivity|]. split; [|vm_compute; reflexivity].
  assert (R : forall ls ks (s : stream ls ks), sample_rate s = Some (khz 48) ->
    equal_rate (mkSink (khz 48) (repeat (m8 9) 4) (resampler_default Mono K8)) s).
  { intros ls ks s E. unfold equal_rate. rewrite E. split; [reflexivity|]. split; [|reflexivity].
    cbn. unfold F2R. cbn. lra. }
  intros c [<-|[<-|[<-|[]]]]; (split; [apply R; reflexivity|]; split; [|split; [reflexivity|discriminate]]);
    eexists; eexists; (split; [cbn [so_stream so_frames so_layout so_chan]; repeat (econstructor; [reflexivity|]); constructor|reflexivity]).
Qed.

(** ** C78 *)
(** Sending the frames of a buffer one by one, as streams of length one: the first
    frame of the region ends up silent and nothing else changes. *)
Theorem C78_frame_by_frame : forall l k ls ks (sk : sink l k) (a : audio ls ks) rate, fresh sk ->
  Z.of_nat (length (sk_buf sk)) <= 2 ^ 53 -> (2 <= audio_len a)%nat ->
  exists sk', (forall fuel, (1 < fuel)%nat -> overwrite fuel sk a rate (seq 0 (audio_len a)) = Ok sk') /\
    sk_buf sk' = match sk_buf sk with [] => [] | _ :: fs => frame_default l k :: fs end.
Proof. exact overwrite_first. Qed.
Print Assumptions C78_frame_by_frame.
(** examples/resampler.rs: the output is that of [with_stream] with the first
    frame silenced. *)
Theorem C78_resampler : forall fuel samples a output it, with_i16_buffer Stereo (flit 44100 0) samples = Ok a ->
  with_stream Stereo K32 fuel (flit 48000 0) (audio_stream a) = Ok (output, it) ->
  (1 < fuel)%nat -> (2 <= audio_len a)%nat -> Z.of_nat (audio_len output) <= 2 ^ 53 ->
  resampler_program fuel samples = Ok (match as_raw_slice output with _ :: _ :: rest => MID K32 :: MID K32 :: rest | _ => [] end).
Proof. exact program_output. Qed.
Print Assumptions C78_resampler.
(** Four input frames. *)
Definition input : list (chan K16) := map (as_sint W16) [16384; -16384; 8192; 4096; 0; 0; 32767; -32768].
Definition bits32 (r : res (list (chan K32))) : list SpecFloat.spec_float :=
  match r with Ok xs => map (fun c : f32 => B2SF c) xs | _ => [] end.
Definition converted_only : res (list (chan K32)) :=
  a <- with_i16_buffer Stereo (flit 44100 0) input ;;
  '(output, _) <- with_stream Stereo K32 9 (flit 48000 0) (audio_stream a) ;; Ok (as_raw_slice output).
(** The loop is not a no-op on top of the conversion. *)
Theorem C78_resampler_refuted : bits32 (resampler_program 9 input) <> bits32 converted_only.
Proof. vm_compute. discriminate. Qed.
Print Assumptions C78_resampler_refuted.
Example C78_resampler_case : length (bits32 converted_only) = 10%nat /\
  firstn 2 (bits32 (resampler_program 9 input)) = [SpecFloat.S754_zero false; SpecFloat.S754_zero false] /\
  skipn 2 (bits32 (resampler_program 9 input)) = skipn 2 (bits32 converted_only).
Proof. vm_compute. auto. Qed.
(** examples/sawtooth.rs and the example in the documentation of the crate, for any
    256 samples: 279 frames, left and right equal. *)
Theorem C78_sawtooth : forall wave, exists left : list (chan K16), length left = 279%nat /\
  sawtooth 257 wave = Ok (flat_map (fun x => [x; x]) left).
Proof. exact sawtooth_output. Qed.
Print Assumptions C78_sawtooth.
(** The 256 samples the two programs write: one step up for every sample, from the
    lowest to the highest code, and the same with the upper half wrapped round. *)
Theorem C78_waves : forall i, (i < 256)%nat ->
  sv (wave_example i) = Z.of_nat i - 128 /\
  sv (wave_doc i) = if (i <? 128)%nat then Z.of_nat i else Z.of_nat i - 256.
Proof. exact waves. Qed.
Print Assumptions C78_waves.
Definition codes16 (r : res (list (chan K16))) : list Z := match r with Ok xs => map sv xs | _ => [] end.
Example C78_sawtooth_case : firstn 8 (codes16 (sawtooth 257 wave_example)) = [-32768; -32768; -32511; -32511; -32275; -32275; -32041; -32041].
Proof. vm_compute. reflexivity. Qed.
(** A wave that only rises does not stay so: frame 12 of what examples/sawtooth.rs
    writes lies above frame 13, and the last of the 279 frames is far below the one before. *)
Theorem C78_rising_refuted : (forall i j, (i < j < 256)%nat -> sv (wave_example i) < sv (wave_example j)) /\
  exists left : list Z, codes16 (sawtooth 257 wave_example) = flat_map (fun x => [x; x]) left /\ length left = 279%nat /\
    nth 12 left 0 = -29125 /\ nth 13 left 0 = -29684 /\ nth 277 left 0 = 32647 /\ nth 278 left 0 = 18055.
Proof. split; [exact wave_rises|]. exists (evens (codes16 (sawtooth 257 wave_example))). vm_compute. repeat split. Qed.
Print Assumptions C78_rising_refuted.
