(** * SpecRaise.v -- raising the sample rate (C85) *)
From Coq Require Import ZArith NArith Reals List.
From Flocq Require Import Core.Core IEEE754.BinarySingleNaN.
From Verif Require Import Rust Float Chan Frame SpecChan SpecFrame SpecSink SpecMore.
Import ListNotations.
Open Scope R_scope.

(** A weight as a channel format applies it: integer formats cannot amplify. *)
Definition applied (k : ck) (w : R) : R := match k with K8 | K16 => Rmin 1 w | _ => w end.
(** A level limited to the range of the format. *)
Definition limited (k : ck) (v : R) : R := Rmax (bottom k) (Rmin 1 v).

(** Source frame [i] is the first one at or after destination frame [p], for rates S and R. *)
Definition first_at (R S : Z) (p i : nat) : Prop := (S * Z.of_nat p <= R * Z.of_nat i < S * Z.of_nat p + R)%Z.

(** Source frames whose exact position is a whole number are placed there by the
    computed ratio, and not one destination frame lower. *)
Definition aligned (rate src : f64) (R S : Z) (n : N) : Prop :=
  forall i, (Z.of_nat i <= Z.of_N n)%Z -> ((R * Z.of_nat i) mod S = 0)%Z ->
    floor_index (fmul (fdiv rate src) (fofZ (Z.of_nat i))) = (R * Z.of_nat i / S)%Z.

(** What destination frame [p] gets of source frame [i], the first at or after
    it, and of the one before. *)
Definition gain_after (k : ck) (R S : Z) (p i : nat) : Rdefinitions.R :=
  let t := IZR R * INR i / IZR S - INR p in
  if Rlt_dec t 1 then applied k (IZR R / IZR S - t) else 0.
Definition gain_before (R S : Z) (p i : nat) : Rdefinitions.R :=
  let t := IZR R * INR i / IZR S - INR p in
  Rmax 0 (1 + t - IZR R / IZR S).

(** [v] is the level of channel [c] of frame [i] of [fs], when there is one. *)
Definition level_at {l k} (fs : list (frame l k)) (i c : nat) (v : R) : Prop :=
  forall f x, nth_error fs i = Some f -> nth_error (channels f) c = Some x -> valid x /\ v = level x.

(** The sample rates audio hardware and files commonly use. *)
Definition usual_rates : list Z :=
  [8000; 11025; 12000; 16000; 22050; 24000; 32000; 44100; 48000; 64000; 88200; 96000; 176400; 192000; 352800; 384000]%Z.
