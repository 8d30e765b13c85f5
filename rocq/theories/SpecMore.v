(** * SpecMore.v -- vocabulary for the properties C56 and later *)
From Coq Require Import ZArith NArith Reals List.
From Flocq Require Import Core.Core IEEE754.BinarySingleNaN.
From Verif Require Import Rust Float Chan Frame Ops Stream Audio SpecChan SpecFrame SpecStream SpecSink SpecAudio.
Import ListNotations.
Open Scope Z_scope.

(** ** Whole-number rates *)

(** [n] source frames at [S] Hz last exactly R * n / S >= 2 frames at [R] Hz, but
    f64 arithmetic on the rounded ratio gives more than that. *)
Definition overshoots (rate src : f64) (R S : Z) (n : N) : Prop :=
  (R * Z.of_N n) mod S = 0 /\ 2 <= R * Z.of_N n / S /\
  (IZR (R * Z.of_N n / S) < B2R (fmul (fdiv rate src) (fofZ (Z.of_N n))))%R.

(** ** Values *)

(** The frame [b] that [extend] appends at offset [p], for source frames that
    convert to [fs].  [e] frames are covered, [m] source frames were used.
    Covered frames are the weighted sums of what reaches them.  Behind them, one
    frame may hold what hangs over; the others are silent. *)
Definition appended {l k} (ratio : f64) (e : Z) (m : nat) (fs : list (frame l k)) (p : nat) (b : frame l k) : Prop :=
  let off := flit 0 0 in
  let index := place ratio off m in
  let used := firstn m fs in
  (Z.of_nat p < e -> weighted_sum (frame_default l k) (contributions (Z.of_nat p) ratio off 0 used) b) /\
  (e <= Z.of_nat p -> Z.of_nat p = floor_index index -> (bpow radix2 (-52) < Rabs (frac index))%R ->
     weighted_sum (frame_default l k) (overhang e ratio off 0 used) b) /\
  (e <= Z.of_nat p -> Z.of_nat p <> floor_index index \/ (Rabs (frac index) <= bpow radix2 (-52))%R ->
     b = frame_default l k).

(** ** Interchangeable sources *)

(** As seen in format (l, k), [s2] gives the frames that [s1] gives, and ends
    when [s1] ends. *)
Definition follows (l : layout) (k : ck) {l1 k1 l2 k2} (s1 : stream l1 k1) (s2 : stream l2 k2) : Prop :=
  (forall xs, starts s1 xs -> exists ys (fs : list (frame l k)), starts s2 ys /\ converted xs fs /\ converted ys fs) /\
  (forall xs, yields s1 xs -> exists ys (fs : list (frame l k)), yields s2 ys /\ converted xs fs /\ converted ys fs).

(** ** Lossless formats *)

(** Samples of type [k1] survive in type [k2]. *)
Definition holds (k1 k2 : ck) : Prop :=
  match k1, k2 with
  | K8, _ | K16, (K16 | K32 | K64) | K32, (K32 | K64) | K64, K64 => True
  | _, _ => False
  end.

(** ** Operands of other types *)

(** The real number an integer code stands for. *)
Definition meaning {h} (c : chan h) : R :=
  match h as h return chan h -> R with
  | K8 => fun c => code_value 8 (sv c) | K16 => fun c => code_value 16 (sv c)
  | K32 => fun c => B2R (c : f32) | K64 => fun c => B2R (c : f64)
  end c.

(** ** Level *)

(** The level of a sample: its value as a fraction of the largest one. *)
Definition level {k} (c : chan k) : R :=
  match k as k return chan k -> R with
  | K8 => fun c => IZR (sv c) / 127 | K16 => fun c => IZR (sv c) / 32767
  | K32 => fun c => B2R (c : f32) | K64 => fun c => B2R (c : f64)
  end%R c.
(** The lowest level. *)
Definition bottom (k : ck) : R :=
  match k with K8 => - (128) / 127 | K16 => - (32768) / 32767 | _ => -1 end%R.
(** How precisely one source frame is weighted and added: two and a half units
    in the integer formats, 2^-23 and 2^-52 in the float formats. *)
Definition step (k : ck) : R :=
  match k with K8 => 5 / 2 / 127 | K16 => 5 / 2 / 32767 | K32 => bpow radix2 (-23) | K64 => bpow radix2 (-52) end%R.
