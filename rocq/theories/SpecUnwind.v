(** * SpecUnwind.v -- vocabulary for what a caught panic leaves behind *)
From Coq Require Import ZArith NArith Reals List.
From Flocq Require Import Core.Core IEEE754.BinarySingleNaN.
From Verif Require Import Rust Float Chan Frame Ops Stream Audio Unwind SpecChan SpecFrame SpecStream SpecSink SpecAudio.
Import ListNotations.
Open Scope Z_scope.

(** [s] gives the frames [fs], and the call of [next] after that panics with [p];
    [t] is the iterator then. *)
Definition breaks {l k} (s : stream l k) (fs : list (frame l k)) (p : panic) (t : stream l k) : Prop :=
  exists s', pulls s fs s' /\ next_st s' = (t, Panic p).

(** The source of a call of [stream] that covers [e] frames fails after the frames
    [srcs], before its positions leave the covered range: by a panic [p] of its
    own, or because it claims to be endless and ends. *)
Definition fails {l k} (s : stream l k) (ratio off : f64) (e : Z) (srcs : list (frame l k)) (p : panic)
  (it : stream l k) : Prop :=
  (forall i, (i <= length srcs)%nat -> floor_index (place ratio off i) < e) /\
  (breaks s srcs p it \/
   (exists t, pulls s srcs t /\ next t = Ok (None, it) /\ slen s = None /\ p = UnwrapNone)).

(** The sink is as it is after [fs] were streamed into it (see [streamed]), but
    its index has not moved. *)
Record interrupted {l k} (sk : sink l k) (ratio : f64) (e : Z) (fs : list (frame l k)) (sk' : sink l k) : Prop := {
  in_rate : sk_rate sk' = sk_rate sk;
  in_length : length (sk_buf sk') = length (sk_buf sk);
  in_covered : forall p b, Z.of_nat p < e -> nth_error (sk_buf sk') p = Some b ->
    weighted_sum (frame_default l k) (contributions (Z.of_nat p) ratio (resampler_index (sk_res sk)) 0 fs) b;
  in_rest : forall p, e <= Z.of_nat p -> nth_error (sk_buf sk') p = nth_error (sk_buf sk) p;
  in_frame : weighted_sum (resampler_frame (sk_res sk)) (overhang e ratio (resampler_index (sk_res sk)) 0 fs)
    (resampler_frame (sk_res sk'));
  in_index : resampler_index (sk_res sk') = resampler_index (sk_res sk)
}.

(** The outcome of the [i]th call of [next], panics included: the caller catches
    them and calls again. *)
Fixpoint call {l k} (s : stream l k) (i : nat) : res (option (frame l k)) :=
  match i with O => snd (next_st s) | S i => call (fst (next_st s)) i end.
(** Mixing two sequences of outcomes: [m]th outcome from positions [i] and [j] on.  The right one is called only
    if the left one gave a frame. *)
Definition mix_calls {l k l' k'} (op : blend_op) (a : res (option (frame l k))) (b : res (option (frame l' k'))) : res (option (frame l k)) :=
  match a, b with
  | Ok (Some x), Ok (Some y) => z <- convert l k y ;; m <- mix_frames op x z ;; Ok (Some m)
  | Ok (Some _), Ok None => Ok None
  | Ok (Some _), Panic p => Panic p
  | Ok (Some _), OutOfFuel => OutOfFuel
  | o, _ => o
  end.
(** How many of the first [i] calls gave a frame. *)
Fixpoint frames_given {l k} (s : stream l k) (i : nat) : nat :=
  match i with
  | O => O
  | S i => (frames_given s i + match call s i with Ok (Some _) => 1 | _ => 0 end)%nat
  end.
