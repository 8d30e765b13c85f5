(** * SpecLaw.v -- vocabulary for the properties C65 and later *)
From Coq Require Import ZArith NArith Reals List.
From Flocq Require Import Core.Core IEEE754.BinarySingleNaN.
From Verif Require Import Rust Float Chan Frame Ops Stream Audio SpecChan SpecFrame SpecStream SpecSink SpecAudio.
Import ListNotations.
Open Scope Z_scope.

(** ** Extending in pieces *)

(** [s] gives the frames [xs], says so, and runs at rate [rate] (or takes it over). *)
Definition piece {l k} (rate : f64) (s : stream l k) (xs : list (frame l k)) : Prop :=
  yields s xs /\ slen s = Some (N.of_nat (length xs)) /\
  (sample_rate s = Some rate \/ (sample_rate s = None /\ configurable s)).

(** [a] becomes [b] by successive successful calls of [extend] with the streams [ss]. *)
Inductive extended {l k ls ks} : audio l k -> list (stream ls ks) -> audio l k -> Prop :=
| extended_nil a : extended a [] a
| extended_cons a s n a' it ss b : slen s = Some n -> extend (S (N.to_nat n)) a s = (a', Ok it) ->
    extended a' ss b -> extended a (s :: ss) b.

(** ** Several sinks *)

(** The sink over the range [r] of [a] was [sk] at first and [sk'] when it was
    dropped, and left the buffer [b]. *)
Definition through {l k} (a : audio l k) (r : range) (sk sk' : sink l k) (b : audio l k) : Prop :=
  exists pre post, audio_sink a r = Ok (pre, sk, post) /\ used sk sk' /\ b = audio_unsink a pre sk' post.

(** The ranges are within the buffer and do not overlap. *)
Definition apart {l k} (a : audio l k) (r1 r2 : range) : Prop :=
  exists x1 y1 x2 y2, region r1 (N.of_nat (audio_len a)) x1 y1 /\ region r2 (N.of_nat (audio_len a)) x2 y2 /\
    (y1 <= x2 \/ y2 <= x1)%N.

(** ** Streams that behave the same *)

(** [s] and [t] give the same frames, end at the same point, and report the same
    rate and length; if they have no rate, it can be set for both or for none. *)
Definition alike {l k} (s t : stream l k) : Prop :=
  sample_rate s = sample_rate t /\ slen s = slen t /\ (sample_rate s = None -> (configurable s <-> configurable t)) /\
  (forall xs, starts s xs <-> starts t xs) /\ (forall xs, yields s xs <-> yields t xs).

(** At most as many frames of [s] as the length [n] allows. *)
Definition limit {l k} (s : stream l k) (n : option N) : stream l k := match n with Some n => take s n | None => s end.
