(** * SpecMany.v -- several streams into one sink (C77) *)
From Coq Require Import ZArith NArith List.
From Verif Require Import Rust Float Chan Frame Stream SpecStream SpecSink.
Import ListNotations.

(** A stream of any format together with the frames it gives. *)
Record source : Type := mkSource {
  so_layout : layout; so_chan : ck; so_stream : stream so_layout so_chan; so_frames : list (frame so_layout so_chan) }.
(** It gives at least one frame, knows how many, and has or adopts the rate of the sink. *)
Definition sends {l k} (sk : sink l k) (c : source) : Prop :=
  equal_rate sk (so_stream c) /\ yields (so_stream c) (so_frames c) /\
  slen (so_stream c) = Some (N.of_nat (length (so_frames c))) /\ so_frames c <> [].
Definition size (c : source) : nat := length (so_frames c).
Fixpoint longest (cs : list source) : nat := match cs with [] => 0 | c :: cs => Nat.max (size c) (longest cs) end.

(** One call of [Sink::stream] after the other. *)
Fixpoint stream_each {l k} (fuel : nat) (sk : sink l k) (cs : list source) : res (sink l k) :=
  match cs with
  | [] => Ok sk
  | c :: cs => '(sk, _) <- sink_stream fuel sk (so_stream c) ;; stream_each fuel sk cs
  end.
(** Frame [i] of the source arrived in the slot. *)
Definition holds {l k} (slot : option (frame l k)) (c : source) (i : nat) : Prop :=
  exists x f b, nth_error (so_frames c) i = Some x /\ convert l k x = Ok f /\ slot = Some b /\ copied f b.
