(** * SpecUsage.v -- vocabulary for C93: how much of a source is used up *)
From Coq Require Import ZArith NArith List.
From Verif Require Import Rust Float Chan Frame Stream Audio SpecSink.
Import ListNotations.
Open Scope Z_scope.

(** The number of destination frames that a source of length [len] at [S] Hz has for
    [slots] slots at [R] Hz. *)
Definition fills (R S : Z) (len : option N) (slots : nat) : Z :=
  match len with Some n => Z.min (R * Z.of_N n / S) (Z.of_nat slots) | None => Z.of_nat slots end.

(** [b'] is left of [b] after [b.drain()] was streamed [c] times into new sinks of
    [slots] frames at rate [rate]: a player that fills one block after the other. *)
Inductive played {lb kb} (l : layout) (k : ck) (rate : f64) (slots : nat) : nat -> audio lb kb -> audio lb kb -> Prop :=
| played_none b : played l k rate slots 0 b b
| played_block c b b' b'' (sk sk' : sink l k) it :
    fresh sk -> sk_rate sk = rate -> length (sk_buf sk) = slots ->
    sink_stream (Datatypes.S (audio_len b)) sk (audio_drain b) = Ok (sk', it) -> drop_stream it = [pack b'] ->
    played l k rate slots c b' b'' -> played l k rate slots (Datatypes.S c) b b''.
