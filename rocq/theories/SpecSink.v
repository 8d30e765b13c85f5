(** * SpecSink.v -- vocabulary for the resampling properties *)
From Coq Require Import ZArith NArith Reals List.
From Flocq Require Import Core.Core IEEE754.BinarySingleNaN.
From Verif Require Import Rust Float Chan Frame Ops Stream SpecChan SpecFrame SpecStream.
Import ListNotations.
Open Scope Z_scope.

(** ** Indices *)

(** Fractional part of a position (0 when it is not finite); it has the sign of
    the position. *)
Definition frac (j : f64) : R := (B2R j - IZR (Ztrunc (B2R j)))%R.

(** The destination index a position falls on: its integer part, limited to
    what a 64-bit unsigned integer holds; 0 for NaN. *)
Definition floor_index (j : f64) : Z :=
  match j with
  | B754_nan => 0
  | B754_infinity s => if s then 0 else 2 ^ 64 - 1
  | _ => clampZ 0 (2 ^ 64 - 1) (Ztrunc (B2R j))
  end.

(** The next index, when the fractional part exceeds epsilon = 2^-52. *)
Definition ceil_index (j : f64) : Z :=
  if Rlt_dec (bpow radix2 (-52)) (frac j) then floor_index j + 1 else floor_index j.

(** Position of source frame [i]: ratio * i + offset, in f64 arithmetic. *)
Definition place (ratio off : f64) (i : nat) : f64 :=
  fadd (fmul ratio (fofZ (Z.of_nat i))) off.

(** ** Ratio and range of a [stream] call *)

(** [ratio] is the number of destination frames per source frame, and [s'] is
    the stream after it was told the sink's rate if it had none. *)
Definition negotiated {l k ls ks} (sk : sink l k) (s : stream ls ks) (ratio : f64) (s' : stream ls ks) : Prop :=
  (exists r, sample_rate s = Some r /\ ratio = fdiv (sk_rate sk) r /\ s' = s) \/
  (sample_rate s = None /\ ratio = flit 1 0 /\ set_sample_rate s (sk_rate sk) = Ok s').

(** The number of destination frames the call covers. *)
Definition covered (ratio : f64) (len : option N) (buflen : nat) : Z :=
  match len with
  | Some n => Z.min (floor_index (fmul ratio (fofZ (Z.of_N n)))) (Z.of_nat buflen)
  | None => Z.of_nat buflen
  end.

(** ** Weighted sums *)

(** A source frame at position [j] is split over two destination frames.  The
    upper one gets the fractional part of [j] (f64 remainder by 1), but at most
    the ratio; the lower one gets what is left of the ratio. *)
Definition upper_weight (ratio j : f64) : f64 := fmin (frem1 j) ratio.
Definition lower_weight (ratio j : f64) : f64 := fsub ratio (upper_weight ratio j).

(** [out] is [acc] after adding frame * weight for each pair, in order, with the
    channel type's own arithmetic. *)
Inductive weighted_sum {l k} : frame l k -> list (frame l k * f64) -> frame l k -> Prop :=
| ws_nil acc : weighted_sum acc [] acc
| ws_cons acc f w p r out : frame_mul f (frame_from_f64 l k w) = Ok p ->
    weighted_sum (frame_add acc p) r out -> weighted_sum acc ((f, w) :: r) out.

(** What destination frame [p] receives from the source frames [fs], numbered
    from [i]: each source frame with the lower weight at its floor index and
    with the upper weight at its ceiling index. *)
Fixpoint contributions {l k} (p : Z) (ratio off : f64) (i : nat) (fs : list (frame l k)) : list (frame l k * f64) :=
  match fs with
  | [] => []
  | f :: fs =>
      let j := place ratio off i in
      (if floor_index j =? p then [(f, lower_weight ratio j)] else []) ++
      (if ceil_index j =? p then [(f, upper_weight ratio j)] else []) ++
      contributions p ratio off (S i) fs
  end.

(** What hangs over the end [e] of the covered range. *)
Fixpoint overhang {l k} (e : Z) (ratio off : f64) (i : nat) (fs : list (frame l k)) : list (frame l k * f64) :=
  match fs with
  | [] => []
  | f :: fs =>
      let j := place ratio off i in
      (if e <=? ceil_index j then [(f, upper_weight ratio j)] else []) ++ overhang e ratio off (S i) fs
  end.

(** [fs] are the frames [srcs] converted to the sink's format. *)
Definition converted {l k ls ks} (srcs : list (frame ls ks)) (fs : list (frame l k)) : Prop :=
  Forall2 (fun s f => convert l k s = Ok f) srcs fs.

(** ** One [stream] call *)

(** How a call of [stream] with [e] covered frames reads its source [s]: it
    pulls the frames [srcs], as long as the position of the next frame is
    covered.  It stops before the first frame that is not covered (then [n], the
    length used to advance the index, is the number of frames pulled), or
    because the source ended (then [n] is the length the source reported).
    [it] is the iterator afterwards. *)
Definition reads {ls ks} (s : stream ls ks) (ratio off : f64) (e : Z) (srcs : list (frame ls ks)) (n : N)
  (it : stream ls ks) : Prop :=
  (forall i, (i < length srcs)%nat -> floor_index (place ratio off i) < e) /\
  ((pulls s srcs it /\ e <= floor_index (place ratio off (length srcs)) /\ n = N.of_nat (length srcs)) \/
   (exists t, pulls s srcs t /\ next t = Ok (None, it) /\
      floor_index (place ratio off (length srcs)) < e /\ slen s = Some n)).

(** The effect of such a call on the sink: covered frames are the weighted sums
    of what reaches them, the others are unchanged (but the left-over frame is
    added to the first frame if that is not covered). *)
Record streamed {l k} (sk : sink l k) (ratio : f64) (e : Z) (fs : list (frame l k)) (n : N) (sk' : sink l k) : Prop := {
  st_rate : sk_rate sk' = sk_rate sk;
  st_length : length (sk_buf sk') = length (sk_buf sk);
  st_covered : forall p b, Z.of_nat p < e -> nth_error (sk_buf sk') p = Some b ->
    weighted_sum (frame_default l k) (contributions (Z.of_nat p) ratio (resampler_index (sk_res sk)) 0 fs) b;
  st_first : e = 0 -> forall b, nth_error (sk_buf sk) 0 = Some b ->
    nth_error (sk_buf sk') 0 = Some (frame_add b (resampler_frame (sk_res sk)));
  st_rest : forall p, e <= Z.of_nat p -> p <> 0%nat -> nth_error (sk_buf sk') p = nth_error (sk_buf sk) p;
  st_frame : weighted_sum (resampler_frame (sk_res sk)) (overhang e ratio (resampler_index (sk_res sk)) 0 fs)
    (resampler_frame (sk_res sk'));
  st_index : resampler_index (sk_res sk') =
    fadd (resampler_index (sk_res sk)) (fmul ratio (fofZ (Z.of_N n)))
}.

(** ** Equal rates *)

(** A sink nothing has been streamed into yet. *)
Definition fresh {l k} (sk : sink l k) : Prop := sk_res sk = resampler_default l k.

(** The stream has the sink's (usable) rate, or adopts it. *)
Definition equal_rate {l k ls ks} (sk : sink l k) (s : stream ls ks) : Prop :=
  match sample_rate s with
  | Some r => is_finite r = true /\ B2R r <> 0%R /\ sk_rate sk = r
  | None => configurable s
  end.

(** The number of frames a stream of length [len] has for [n] slots. *)
Definition available (len : option N) (n : nat) : nat :=
  match len with Some m => Nat.min (N.to_nat m) n | None => n end.

(** [b] is a copy of [f]: identical for integer formats, equal (Rust's ==, which
    identifies the two zeros) for float formats when [f] is in range. *)
Definition copied {l k} (f b : frame l k) : Prop :=
  (is_int k -> b = f) /\ (frame_valid f -> frame_eqv b f).

(** ** Rates in general *)

(** Destination frames per source frame, for a source rate that may be unset. *)
Definition ratio_for (rate : f64) (src : option f64) : f64 :=
  match src with Some r => fdiv rate r | None => flit 1 0 end.

(** The stream has a rate, or lets its rate be set. *)
Definition sinkable {l k} (s : stream l k) : Prop := sample_rate s <> None \/ configurable s.

(** ** Sinking streams that never end *)

(** A float that is greater than 0. *)
Definition positive (x : f64) : Prop :=
  match x with B754_infinity s => s = false | B754_nan => False | _ => (0 < B2R x)%R end.
