(** * SpecWord.v -- vocabulary for targets of any pointer width *)
From Coq Require Import ZArith NArith Reals List.
From Flocq Require Import Core.Core IEEE754.BinarySingleNaN.
From Verif Require Import Rust Float Chan Frame Ops Stream Audio Word SpecChan SpecFrame SpecStream SpecSink SpecAudio.
Import ListNotations.
Open Scope Z_scope.

(** The largest [usize] and [isize] of a target. *)
Definition bits (t : target) : Z := match t_pointer t with P16 => 16 | P32 => 32 | P64 => 64 end.
Definition umax (t : target) : Z := 2 ^ bits t - 1.
Definition imax (t : target) : Z := 2 ^ (bits t - 1) - 1.
Definition debug (t : target) : Prop := t_checks t = true.
Definition release (t : target) : Prop := t_checks t = false.
(** The target of the rest of the model. *)
Definition x86_64_debug : target := mkTarget P64 true.
Definition wasm32 (checks : bool) : target := mkTarget P32 checks.

(** A position that is past the largest index and has a fraction. *)
Definition beyond (t : target) (j : f64) : Prop :=
  (bpow radix2 (-52) < frac j)%R /\ umax t <= Ztrunc (B2R j).

(** A buffer of [n] frames is within the size the target allows. *)
Definition fits (t : target) (l : layout) (k : ck) (n : Z) : Prop := n * bytes_per_frame l k <= imax t.

(** The only other outcome on [t]: a debug build stops with an arithmetic
    overflow, at the first source frame that is not within the sink, if the
    position of that frame is beyond the largest index. *)
Definition stops_beyond (t : target) {l k ls ks} {A} (fuel : nat) (sk : sink l k) (s : stream ls ks) (r : res A) : Prop :=
  debug t /\ r = Panic ArithOverflow /\
  exists ratio s' i, negotiated sk s ratio s' /\ (i < fuel)%nat /\
    (forall a, (a < i)%nat -> floor_index (place ratio (resampler_index (sk_res sk)) a) < Z.of_nat (length (sk_buf sk))) /\
    beyond t (place ratio (resampler_index (sk_res sk)) i).

(** The sink is so short, and the ratio of the rates so small, that this
    cannot happen. *)
Definition roomy (t : target) {l k ls ks} (sk : sink l k) (s : stream ls ks) : Prop :=
  let ratio := ratio_for (sk_rate sk) (sample_rate s) in let off := resampler_index (sk_res sk) in
  is_finite ratio = true /\ (0 <= B2R ratio)%R /\ is_finite off = true /\ (0 <= B2R off < IZR (umax t))%R /\
  (2 * IZR (Z.of_nat (length (sk_buf sk))) + B2R ratio + 1 <= IZR (umax t))%R.

(** The sink [extend] writes to: [d] new frames. *)
Definition new_frames (l : layout) (k : ck) (rate : f64) (d : Z) : sink l k :=
  mkSink rate (repeat (frame_default l k) (Z.to_nat d)) (resampler_default l k).
