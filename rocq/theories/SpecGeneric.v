(** * SpecGeneric.v -- vocabulary for other implementors of the traits *)
From Coq Require Import ZArith NArith List.
From Flocq Require Import IEEE754.BinarySingleNaN.
From Verif Require Import Rust Float Chan Frame Ops Stream Audio Unwind Generic SpecSink.
Import ListNotations.
Open Scope Z_scope.

(** The methods of a sink give access to three stored values: what is written
    through [buffer] or [resampler] is read back (a slice keeps its length), and
    nothing else changes. *)
Record lawful {F} (K : sink_type F) : Prop := {
  law_rate_p : forall s p, si_rate K (si_set_partial K s p) = si_rate K s;
  law_rate_o : forall s o, si_rate K (si_set_offseti K s o) = si_rate K s;
  law_rate_b : forall s b, si_rate K (si_set_buffer K s b) = si_rate K s;
  law_p_p : forall s p, si_partial K (si_set_partial K s p) = p;
  law_p_o : forall s o, si_partial K (si_set_offseti K s o) = si_partial K s;
  law_p_b : forall s b, si_partial K (si_set_buffer K s b) = si_partial K s;
  law_o_p : forall s p, si_offseti K (si_set_partial K s p) = si_offseti K s;
  law_o_o : forall s o, si_offseti K (si_set_offseti K s o) = o;
  law_o_b : forall s b, si_offseti K (si_set_buffer K s b) = si_offseti K s;
  law_b_p : forall s p, si_buffer K (si_set_partial K s p) = si_buffer K s;
  law_b_o : forall s o, si_buffer K (si_set_offseti K s o) = si_buffer K s;
  law_b_b : forall s b, length b = length (si_buffer K s) -> si_buffer K (si_set_buffer K s b) = b
}.

(** Something else about a sink, which these methods do not write. *)
Definition other {F O} (K : sink_type F) (ob : si K -> O) : Prop :=
  (forall s p, ob (si_set_partial K s p) = ob s) /\ (forall s o, ob (si_set_offseti K s o) = ob s) /\
  (forall s b, ob (si_set_buffer K s b) = ob s).

(** The three values, as in Stream.v. *)
Definition view {l k} (K : sink_type (frame l k)) (s : si K) : sink l k :=
  mkSink (si_rate K s) (si_buffer K s) (mkResampler (si_partial K s) (si_offseti K s)).

(** The iterator after [n] calls of [next], and what the call after that returns. *)
Fixpoint after {X} (M : stream_type X) (n : nat) (s : so M) : so M :=
  match n with O => s | S n => after M n (fst (so_next M s)) end.
Definition item {X} (M : stream_type X) (s : so M) (n : nat) : res (option X) := snd (so_next M (after M n s)).

(** The stream as a user stream of Stream.v, for a sink of rate [sr]: its frames
    (which may depend on the rate it was told) are listed. *)
Definition listed {l k} (M : stream_type (frame l k)) (s : so M) (sr : f64) : stream l k :=
  match so_rate M s with
  | Some r => SUser (mkUser (Some r) false (so_len M s) (item M s) 0)
  | None =>
      let '(s', r) := so_set_rate M s sr in
      SUser (mkUser None (match r with Ok _ => true | _ => false end) (so_len M s') (item M s') 0)
  end.

(** [set_sample_rate] succeeds or panics like the provided method. *)
Definition plain_set_rate {X} (M : stream_type X) (s : so M) (sr : f64) : Prop :=
  snd (so_set_rate M s sr) = Ok tt \/ snd (so_set_rate M s sr) = Panic ExplicitPanic.

(** The stream is ready to be read with this ratio. *)
Definition started {F X} (K : sink_type F) (M : stream_type X) (sk : si K) (s : so M) (ratio : f64) (s' : so M) : Prop :=
  (exists r, so_rate M s = Some r /\ ratio = fdiv (si_rate K sk) r /\ s' = s) \/
  (so_rate M s = None /\ so_set_rate M s (si_rate K sk) = (s', Ok tt) /\ ratio = flit 1 0).

(** Adding frames and writing weights never panics. *)
Definition adds (T : frame_type) : Prop := forall x y, exists z, fr_add T x y = Ok z.

(** One of the two types is not one of the crate's. *)
Definition foreign (a b : any_frame) : Prop := (exists T, a = Custom T) \/ (exists T, b = Custom T).

(** Weights 1 and 0 keep and drop a frame, and the default frame is neutral. *)
Definition unit_weights (T : frame_type) : Prop :=
  (forall x, fr_add T (fr_default T) x = Ok x) /\
  (forall x, fr_mul T x (fr_from_f64 T (flit 1 0)) = Ok x) /\
  (forall x, exists z, fr_mul T x (fr_from_f64 T (B754_zero false)) = Ok z /\ forall y, fr_add T y z = Ok y).
