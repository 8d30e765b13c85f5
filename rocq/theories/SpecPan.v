(** * SpecPan.v -- trigonometric functions good enough to speak of levels (C79) *)
From Coq Require Import ZArith Reals List.
From Flocq Require Import Core.Core IEEE754.BinarySingleNaN.
From Verif Require Import Rust Float Chan Frame Ops SpecChan SpecFrame.
Import ListNotations.
Open Scope R_scope.

(** [f64::cos] and [f64::sin] are within [e] of the cosine and sine of every finite
    angle and within [-1, 1]. *)
Definition accurate (t : trig) (e : R) : Prop := 0 <= e /\ forall a : f64, is_finite a = true ->
  in_range (t_cos t a) /\ in_range (t_sin t a) /\
  Rabs (B2R (t_cos t a) - cos (B2R a)) <= e /\ Rabs (B2R (t_sin t a) - sin (B2R a)) <= e.

(** The largest magnitude of a sample, in the unit of [rval] (codes for the integer formats). *)
Definition full_scale (k : ck) : R := match k with K8 => 128 | K16 => 32768 | _ => 1 end.
(** How far a panned sample may be from the ideal one. *)
Definition tolerance (k : ck) (e : R) : R :=
  match k with K8 => 3 + 128 * e | K16 => 3 + 32768 * e | K32 => e + bpow radix2 (-24) | K64 => e + bpow radix2 (-54) end.

(** Channel [j] of the frame is [x] and all others are silent. *)
Definition only {l k} (d : frame l k) (j : nat) (x : chan k) : Prop :=
  nth_error (channels d) j = Some x /\ forall i y, i <> j -> nth_error (channels d) i = Some y -> rval y = 0.

(** Total power of a frame: the sum of the squares of its samples. *)
Definition power {l k} (f : frame l k) : R := fold_right (fun c a => rval c * rval c + a) 0 (channels f).

(** The panning law that src/ops.rs:102-137 amounts to, in exact arithmetic: position [s]
    sends a channel to speaker [a] with gain cos [th] and to speaker [b] with gain sin [th]. *)
Definition pan_law (l : layout) (s : R) (a b : nat) (th : R) : Prop :=
  match l with
  | Mono => False
  | Stereo => (-1/2 <= s /\ a = 0%nat /\ b = 1%nat /\ th = (s + 1/2) * (PI / 2)) \/
              (s < -1/2 /\ a = 1%nat /\ b = 0%nat /\ th = (s + 1/2) / 3 * (PI / 2))
  | Surround => (-2/3 <= s /\ a = 0%nat /\ b = 1%nat /\ th = (s + 2/3) * 3 * (PI / 2)) \/
                (s < -2/3 /\ a = 4%nat /\ b = 0%nat /\ th = (s + 2/3) * (3/10) * (PI / 2))
  end.
(** Error of the panning angle. *)
Definition angle_error : R := bpow radix2 (-45).
