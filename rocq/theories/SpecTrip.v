(** * SpecTrip.v -- what is left of a signal after its rate was doubled and halved again (C76) *)
From Coq Require Import ZArith Reals List.
From Flocq Require Import Core.Core IEEE754.BinarySingleNaN.
From Verif Require Import Rust Float Chan Frame SpecChan.
Open Scope Z_scope.

(** [y] is what became of the sample [x]: about half of it in the integer
    formats; [x] itself cut off at half of full scale in the float formats. *)
Definition trip {k} : chan k -> chan k -> Prop :=
  match k with
  | K8 => fun x y => sv y = Z.quot (63 * sv x) 127
  | K16 => fun x y => sv y = Z.quot (16383 * sv x) 32767
  | K32 => fun x y => B2R (y : f32) = Rmax (- / 2) (Rmin (/ 2) (B2R (x : f32)))
  | K64 => fun x y => B2R (y : f64) = Rmax (- / 2) (Rmin (/ 2) (B2R (x : f64)))
  end.
Definition frame_trip {l k} (f b : frame l k) : Prop :=
  forall c x y, nth_error (channels f) c = Some x -> nth_error (channels b) c = Some y -> trip x y.
