(** * SpecFrame.v -- vocabulary for the frame and blend properties.

    A frame is looked at only through the list of its channels. *)
From Coq Require Import ZArith Reals List.
From Flocq Require Import Core.Core IEEE754.BinarySingleNaN.
From Verif Require Import Rust Float Chan Frame SpecChan.
Import ListNotations.

(** Every channel of a frame is in range. *)
Definition frame_valid {l k} (f : frame l k) : Prop := Forall valid (channels f).
(** Every channel of a frame is finite. *)
Definition frame_fin {l k} (f : frame l k) : Prop := Forall (fun c => fin c = true) (channels f).

(** Rust's [==] on frames (derived [PartialEq] on the channel array). *)
Definition frame_eqv {l k} (f g : frame l k) : Prop :=
  Forall2 (fun a b => c_eqb a b = true) (channels f) (channels g).

(** The frame whose channels are all [c]. *)
Definition all_channels {l k} (c : chan k) (f : frame l k) : Prop :=
  channels f = repeat c (nchan l).

(** ** The documented channel map of [Frame::convert] (src/frame.rs:101-196,
    channel order of src/surround.rs): which source channels, or which average of
    source channels, each target channel is made from. *)
Inductive source : Set := Silent | Chan (i : nat) | Average (i j : nat).
Definition channel_map (l1 l2 : layout) : list source :=
  match l1, l2 with
  | Mono, Mono => [Chan 0]
  | Mono, Stereo => [Chan 0; Chan 0]
  | Mono, Surround => [Silent; Chan 0; Silent; Chan 0; Silent; Silent]
  | Stereo, Mono => [Average 0 1]
  | Stereo, Stereo => [Chan 0; Chan 1]
  | Stereo, Surround => [Silent; Chan 0; Silent; Chan 1; Silent; Silent]
  | Surround, Mono => [Average 1 3]
  | Surround, Stereo => [Chan 1; Chan 3]
  | Surround, Surround => [Chan 0; Chan 1; Chan 2; Chan 3; Chan 4; Chan 5]
  end.

(** The IEEE computation of the mean of two numbers. *)
Definition average (x y : f64) : f64 := fmul (fadd x y) (flit 1 (-1)).

(** [c] is what target channel type [k2] makes of source [s] of frame [f]. *)
Definition from_source {l1 k1} (f : frame l1 k1) {k2} (s : source) (c : chan k2) : Prop :=
  match s with
  | Silent => c = MID k2
  | Chan i => exists a, nth_error (channels f) i = Some a /\ c = from_f64 k2 (to_f64 a)
  | Average i j => exists a b, nth_error (channels f) i = Some a /\ nth_error (channels f) j = Some b /\
      c = from_f64 k2 (average (to_f64 a) (to_f64 b))
  end.

(** ** Panning *)

(** [acc'] is [acc] after adding the products of the pairs, in order. *)
Inductive accum {k} : chan k -> list (chan k * chan k) -> chan k -> Prop :=
| accum_nil c : accum c [] c
| accum_cons c a b p ps c' : c_mul a b = Ok p -> accum (c_add c p) ps c' -> accum c ((a, b) :: ps) c'.

(** pi/2 as an f64. *)
Definition half_pi : f64 := flit 7074237752028440 (-52).

(** For a pan position [s]: the two speakers the channel goes to, and the
    panning angle.  (Only the first location is ever consulted: 0 for mono,
    -1/2 for stereo, -2/3 for 5.1.) *)
Definition pan_plan (l : layout) (s : f64) : nat * nat * f64 :=
  match l with
  | Mono => (0, 0, fmul (fdiv (fsub s (flit 0 0)) (fsub (flit 0 0) (flit 0 0))) half_pi)%nat
  | Stereo =>
      let left := flit (-1) (-1) in let right := flit 1 (-1) in
      if fle left s
      then (0, 1, fmul (fdiv (fsub s left) (fsub right left)) half_pi)%nat
      else (1, 0, fmul (fdiv (fsub s left) (fsub (flit 2 0) (fsub left right))) half_pi)%nat
  | Surround =>
      let rear_left := fdiv (flit (-2) 0) (flit 3 0) in
      let front_left := fdiv (flit (-1) 0) (flit 3 0) in
      let rear_right := fdiv (flit 2 0) (flit 3 0) in
      if fle rear_left s
      then (0, 1, fmul (fdiv (fsub s rear_left) (fsub front_left rear_left)) half_pi)%nat
      else (4, 0, fmul (fdiv (fsub s rear_left) (fsub (flit 2 0) (fsub rear_left rear_right))) half_pi)%nat
  end.

(** The products that reach speaker [i] when the channels [ds] are panned to the
    positions [ss], in order. *)
Fixpoint pan_reaches (l : layout) {k} (cos sin : f64 -> f64) (i : nat) (ds ss : list (chan k))
  : list (chan k * chan k) :=
  match ds, ss with
  | d :: ds, s :: ss =>
      let '(a, b, angle) := pan_plan l (to_f64 s) in
      (if Nat.eqb a i then [(d, from_f64 k (cos angle))] else []) ++
      (if Nat.eqb b i then [(d, from_f64 k (sin angle))] else []) ++
      pan_reaches l cos sin i ds ss
  | _, _ => []
  end.
