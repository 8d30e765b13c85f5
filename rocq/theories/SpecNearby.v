(** * SpecNearby.v -- two sources that differ little (C97) *)
From Coq Require Import ZArith NArith Reals List.
From Flocq Require Import Core.Core IEEE754.BinarySingleNaN.
From Verif Require Import Rust Float Chan Frame Stream Audio SpecChan SpecFrame SpecStream SpecSink SpecAudio SpecMore.
Open Scope R_scope.

(** In channel [c] the first [n] frames of both are samples within full scale, at most [e] apart. *)
Definition nearby {l k} (n c : nat) (e : R) (fs gs : list (frame l k)) : Prop :=
  forall i, (i < n)%nat -> exists f g x y, nth_error fs i = Some f /\ nth_error gs i = Some g /\
    nth_error (channels f) c = Some x /\ nth_error (channels g) c = Some y /\ valid x /\ valid y /\ Rabs (level x - level y) <= e.

(** [s], a stream of rate [src] and [n] frames which become [fs], extends [a] to [a']. *)
Record extends {l k ls ks} (src : f64) (n : N) (fs : list (frame l k)) (a a' : audio l k) (s : stream ls ks) : Prop := {
  ex_rate : sample_rate s = Some src;
  ex_honest : honest s;
  ex_len : slen s = Some n;
  ex_frames : exists all, yields s all /\ converted all fs;
  ex_run : exists it, extend (S (N.to_nat n)) a s = (a', Ok it)
}.

(** Channel [c] of the [p]-th frame added. *)
Definition added {l k} (a a' : audio l k) (p c : nat) (y : chan k) : Prop :=
  exists b, audio_get a' (audio_len a + p) = Some b /\ nth_error (channels b) c = Some y.
