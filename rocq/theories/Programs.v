(** * Programs.v -- the example programs of the crate, without file access and printing *)
From Coq Require Import ZArith NArith List.
From Verif Require Import Rust Float Chan Frame Stream Audio.
Import ListNotations.
Open Scope Z_scope.

Notation hz44100 := (flit 44100 0 : f64).
Notation hz48000 := (flit 48000 0 : f64).

(** examples/sawtooth.rs:7-16 (and src/lib.rs:37-42, with another [wave]): 256 mono
    frames written through [iter_mut], converted to stereo at 48 kHz, read as samples. *)
Definition sawtooth (fuel : nat) (wave : nat -> ch8) : res (list (chan K16)) :=
  let a := with_silence Mono K8 hz44100 256 in
  let a := audio_iter_mut (fun i (_ : frame Mono K8) => ((wave i, tt) : frame Mono K8)) a in
  '(a, _) <- with_stream Stereo K16 fuel hz48000 (audio_stream a) ;;
  Ok (as_raw_slice a).
(** examples/sawtooth.rs:9: [(i as i16 - 128) as i8]; src/lib.rs:39: [i as i8]. *)
Definition wave_example (i : nat) : ch8 := as_sint W8 (Z.of_nat i - 128).
Definition wave_doc (i : nat) : ch8 := as_sint W8 (Z.of_nat i).

(** examples/resampler.rs:40-44: every frame of [a] as a stream of one frame,
    which is told its rate and sent to the sink. *)
Fixpoint overwrite {l k ls ks} (fuel : nat) (sk : sink l k) (a : audio ls ks) (rate : f64) (is : list nat) : res (sink l k) :=
  match is with
  | [] => Ok sk
  | i :: is =>
      x <- of_opt UnwrapNone (audio_get a i) ;;
      thing <- set_sample_rate (take (SFrame x) 1) rate ;;
      '(sk, _) <- sink_stream fuel sk thing ;;
      overwrite fuel sk a rate is
  end.
(** examples/resampler.rs:32-51: from the samples of the input file to those of
    the output file. *)
Definition resampler_program (fuel : nat) (samples : list (chan K16)) : res (list (chan K32)) :=
  a <- with_i16_buffer Stereo hz44100 samples ;;
  '(output, _) <- with_stream Stereo K32 fuel hz48000 (audio_stream a) ;;
  '(pre, sk, post) <- audio_sink output RFull ;;
  sk <- overwrite fuel sk a hz44100 (seq 0 (audio_len a)) ;;
  Ok (as_raw_slice (audio_unsink output pre sk post)).
