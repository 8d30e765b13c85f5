(** * SpecCarry.v -- C94: a resampler that is handed from one sink to the next.

    No model code here: the vocabulary of property C94. *)
From Coq Require Import ZArith List.
From Flocq Require Import IEEE754.BinarySingleNaN.
From Verif Require Import Rust Float Chan Frame Stream SpecSink.
Import ListNotations.
Open Scope Z_scope.

(** The position at which a resampler goes on lies behind the end of a buffer of [n] frames. *)
Definition behind {l k} (n : nat) (r : resampler l k) : Prop := Z.of_nat n <= floor_index (resampler_index r).

(** A program that plays endless streams in blocks of [slots] frames: each block is streamed into a
    buffer through a sink that is given the resampler the sink before it left behind. *)
Inductive handed_on {l k} (rate : f64) (slots : nat) : resampler l k -> list (list (frame l k)) -> resampler l k -> Prop :=
| handed_none r : handed_on rate slots r [] r
| handed_block r buf fuel ls ks (s it : stream ls ks) sk' bs r' :
    length buf = slots -> slen s = None -> is_finite (ratio_for rate (sample_rate s)) = true ->
    sink_stream fuel (mkSink rate buf r) s = Ok (sk', it) -> handed_on rate slots (sk_res sk') bs r' ->
    handed_on rate slots r (sk_buf sk' :: bs) r'.
