(** * SpecArith.v -- vocabulary for C88: arithmetic on the numbers that samples stand for *)
From Coq Require Import ZArith NArith Reals List.
From Flocq Require Import Core.Core IEEE754.BinarySingleNaN.
From Verif Require Import Rust Float Chan Frame Ops Stream Audio SpecChan SpecFrame SpecStream SpecSink SpecAudio SpecMix.
Import ListNotations.
Open Scope R_scope.

(** The number in [-1, 1] that a sample stands for. *)
Definition amplitude {k} : chan k -> R :=
  match k with
  | K8 => fun c => code_value 8 (sv c) | K16 => fun c => code_value 16 (sv c)
  | K32 => fun c => B2R (c : f32) | K64 => fun c => B2R (c : f64)
  end.
(** Two roads from one channel type to another: [Into], and the one of [Frame::convert]. *)
Inductive road := ByInto | ByFrame.
Definition to_kind (w : road) {k} (k2 : ck) (c : chan k) : chan k2 :=
  match w with ByInto => chan_from k k2 c | ByFrame => from_f64 k2 (to_f64 c) end.
(** How far + and - are from exact, how far * is: half a code or half an ulp of the sums
    below 2; two codes or half an ulp of the numbers below 1. *)
Definition sum_error (k : ck) : R :=
  match k with K8 => / 255 | K16 => / 65535 | K32 => bpow radix2 (-24) | K64 => bpow radix2 (-53) end.
Definition product_error (k : ck) : R :=
  match k with K8 => 4 / 255 | K16 => 4 / 65535 | K32 => bpow radix2 (-25) | K64 => bpow radix2 (-54) end.
(** How far a conversion is: nothing where the wider type holds the number; for narrowing
    to integers half a code and a little, one code from 16 bits to 8. *)
Definition conversion_error (k k2 : ck) : R :=
  match k, k2 with
  | K8, (K8 | K16) | K16, K16 | K32, (K32 | K64) | K64, K64 => 0
  | (K8 | K16), K32 => 3 * bpow radix2 (-24)
  | (K8 | K16), K64 => 3 * bpow radix2 (-53)
  | K16, K8 => 2 / 255
  | K64, K32 => bpow radix2 (-25)
  | _, K8 => (1 + bpow radix2 (-8)) / 255
  | _, K16 => (1 + bpow radix2 (-8)) / 65535
  end.
(** Mixing in the first format and converting the mix, against converting every track:
    two conversions and one per added track, and one addition per added track on each side. *)
Definition mix_error (k k2 : ck) (others : nat) : R :=
  (INR others + 2) * conversion_error k k2 + INR others * (sum_error k + sum_error k2).
(** [Audio::with_stream] applied to every track. *)
Inductive each_converted {l k l2 k2} (rate : f64) : list (audio l k) -> list (audio l2 k2) -> Prop :=
| ec_nil : each_converted rate [] []
| ec_cons a as_ b bs it : with_stream l2 k2 (S (audio_len a)) rate (audio_stream a) = Ok (b, it) ->
    each_converted rate as_ bs -> each_converted rate (a :: as_) (b :: bs).
(** A track at rate [rate] = [z] Hz that fits in memory and stays within full scale. *)
Definition fit_track {l k} (k2 : ck) (rate : f64) (z : Z) (a : audio l k) : Prop :=
  s_rate a = rate /\ (z * Z.of_nat (audio_len a) <= 2 ^ 53)%Z /\ allocatable l k2 (Z.of_nat (audio_len a)) /\ Forall frame_valid (frames a).
