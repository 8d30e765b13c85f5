(** * SpecRel.v -- vocabulary for comparing two runs *)
From Coq Require Import ZArith NArith Reals List.
From Flocq Require Import Core.Core IEEE754.BinarySingleNaN.
From Verif Require Import Rust Float Chan Frame Ops Stream Audio SpecChan SpecFrame SpecStream SpecSink SpecAudio.
Import ListNotations.
Open Scope Z_scope.

(** The same outcome, with related results. *)
Definition both {A B} (P : A -> B -> Prop) (x : res A) (y : res B) : Prop :=
  match x, y with
  | Ok a, Ok b => P a b
  | Panic p, Panic q => p = q
  | OutOfFuel, OutOfFuel => True
  | _, _ => False
  end.
Definition both_some {A B} (P : A -> B -> Prop) (x : option A) (y : option B) : Prop :=
  match x, y with Some a, Some b => P a b | None, None => True | _, _ => False end.

(** Two streams of the same shape with related frames. *)
Inductive paired : forall {l k l2 k2}, (frame l k -> frame l2 k2 -> Prop) -> stream l k -> stream l2 k2 -> Prop :=
| pa_frame l k l2 k2 (R : frame l k -> frame l2 k2 -> Prop) f f2 : R f f2 -> paired R (SFrame f) (SFrame f2)
| pa_audio l k l2 k2 (R : frame l k -> frame l2 k2 -> Prop) r fs fs2 : Forall2 R fs fs2 ->
    paired R (SAudio r fs) (SAudio r fs2)
| pa_drain l k l2 k2 (R : frame l k -> frame l2 k2 -> Prop) r fs fs2 c : Forall2 R fs fs2 ->
    paired R (SDrain r fs c) (SDrain r fs2 c)
| pa_take l k l2 k2 (R : frame l k -> frame l2 k2 -> Prop) s s2 n : paired R s s2 -> paired R (STake s n) (STake s2 n)
| pa_blend l k l2 k2 (R : frame l k -> frame l2 k2 -> Prop) la ka la2 ka2 (Q : frame la ka -> frame la2 ka2 -> Prop)
    a a2 b b2 op op2 : paired R a a2 -> paired Q b b2 ->
    (forall x x2 y y2, R x x2 -> Q y y2 ->
       both R (z <- convert l k y ;; mix_frames op x z) (z2 <- convert l2 k2 y2 ;; mix_frames op2 x2 z2)) ->
    paired R (SBlend a b op) (SBlend a2 b2 op2)
| pa_user l k l2 k2 (R : frame l k -> frame l2 k2 -> Prop) r c n f f2 i : (forall j, both (both_some R) (f j) (f2 j)) ->
    paired R (SUser (mkUser r c n f i)) (SUser (mkUser r c n f2 i)).

(** Two sinks with related frames. *)
Record sinks_alike {l k l2 k2} (R : frame l k -> frame l2 k2 -> Prop) (sk : sink l k) (sk2 : sink l2 k2) : Prop := {
  sa_rate : sk_rate sk2 = sk_rate sk;
  sa_buf : Forall2 R (sk_buf sk) (sk_buf sk2);
  sa_frame : R (resampler_frame (sk_res sk)) (resampler_frame (sk_res sk2));
  sa_index : resampler_index (sk_res sk2) = resampler_index (sk_res sk)
}.

(** What the resampler does with frames keeps the relations: [Rs] between source
    frames, [Rc] between converted ones, [R] between those of the sink.  [W] are
    the weights. *)
Record kept {l k l2 k2 ls ks ls2 ks2} (W : f64 -> Prop) (R Rc : frame l k -> frame l2 k2 -> Prop)
  (Rs : frame ls ks -> frame ls2 ks2 -> Prop) : Prop := {
  ke_default : R (frame_default l k) (frame_default l2 k2);
  ke_add : forall x x2 y y2, R x x2 -> R y y2 -> R (frame_add x y) (frame_add x2 y2);
  ke_mul : forall x x2 w, Rc x x2 -> W w ->
    both R (frame_mul x (frame_from_f64 l k w)) (frame_mul x2 (frame_from_f64 l2 k2 w));
  ke_convert : forall x x2, Rs x x2 -> both Rc (convert l k x) (convert l2 k2 x2)
}.

(** A sink and the rest of its stream after a run. *)
Definition run_alike {l k l2 k2 ls ks ls2 ks2} (R : frame l k -> frame l2 k2 -> Prop) (Rs : frame ls ks -> frame ls2 ks2 -> Prop)
  (x : sink l k * stream ls ks) (y : sink l2 k2 * stream ls2 ks2) : Prop :=
  sinks_alike R (fst x) (fst y) /\ paired Rs (snd x) (snd y).

(** All weights of a run. *)
Definition weights_in (W : f64 -> Prop) (ratio off : f64) : Prop :=
  forall i, W (upper_weight ratio (place ratio off i)) /\ W (lower_weight ratio (place ratio off i)).

(** ** Channels *)

(** [g] has, at each of its places [i], the channel [p i] of [f]. *)
Definition routed {l k l2} (p : nat -> nat) (f : frame l k) (g : frame l2 k) : Prop :=
  forall i c, nth_error (channels g) i = Some c -> nth_error (channels f) (p i) = Some c.

(** Front left and front right of a surround frame. *)
Definition front (i : nat) : nat := match i with O => 1%nat | _ => 3%nat end.

(** ** Polarity *)

(** The value of a sample as a real number. *)
Definition amplitude {k} (c : chan k) : R := B2R (to_f64 c).
Definition finite_chan {k} (c : chan k) : Prop := is_finite (to_f64 c) = true.
(** Opposite amplitudes (neither NaN nor infinite). *)
Definition mirrored {l k l2 k2} (f : frame l k) (g : frame l2 k2) : Prop :=
  Forall2 (fun c d => finite_chan c /\ finite_chan d /\ amplitude d = (- amplitude c)%R) (channels f) (channels g).
(** ... of ordinary amplitudes, from -1 to 1. *)
Definition flipped {l k} (f g : frame l k) : Prop := mirrored f g /\ frame_valid f /\ frame_valid g.
(** Rates whose ratio is not astronomical. *)
Definition moderate (ratio : f64) : Prop := is_finite ratio = true /\ (Rabs (B2R ratio) <= bpow radix2 100)%R.
