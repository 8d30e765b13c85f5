(** * Ops.v -- model of src/ops.rs *)
From Coq Require Import ZArith List Bool.
From Verif Require Import Rust Float Chan Frame.
Import ListNotations.
Open Scope Z_scope.

(** [f64::cos] and [f64::sin] come from the platform's libm.  They are not
    modelled: the Pan operator carries them as arbitrary functions, so every
    theorem about Pan quantifies over them. *)
Record trig : Type := mkTrig { t_cos : f64 -> f64; t_sin : f64 -> f64 }.

(** The blend operators of src/ops.rs:34-58, plus any user implementation of
    the public [Blend] trait: one that defines [mix] and keeps the provided
    [mix_frames], or one that also overrides [mix_frames]. *)
Inductive blend_op : Type :=
| Src | Dest | Clear | Amplify | Plus | Compress
| Pan_ (t : trig)
| UserOp (mix : forall k, chan k -> chan k -> res (chan k))
| UserFrames (mix : forall k, chan k -> chan k -> res (chan k))
    (mix_frames : forall l k, frame l k -> frame l k -> res (frame l k)).

(** [Blend::mix]: src/ops.rs:60-65 Src, 67-72 Dest, 74-79 Clear, 81-86
    Amplify, 88-93 Plus, 95-100 Compress, 102-106 Pan.  Returns the new value
    of [*dst]. *)
Definition mix (op : blend_op) {k : ck} (dst src : chan k) : res (chan k) :=
  match op with
  | Src => Ok src
  | Dest => Ok dst
  | Clear => Ok (chan_default k)
  | Amplify => c_mul src dst
  | Plus => Ok (c_add src dst)
  | Compress => Panic NotImplemented
  | Pan_ _ => Panic ExplicitPanic
  | UserOp f => f k dst src
  | UserFrames f _ => f k dst src
  end.

(** src/ops.rs:114-121: index of the first location with [s >= location],
    initially (and if none matches) [CONFIG.len() - 1]. *)
Fixpoint pan_search (s : f64) (i : nat) (locs : list f64) (dflt : nat) : nat :=
  match locs with
  | [] => dflt
  | loc :: locs => if fle loc s then i else pan_search s (S i) locs dflt
  end.

(** [core::f64::consts::FRAC_PI_2] = 0x3FF921FB54442D18. *)
Definition frac_pi_2 : f64 := flit 7074237752028440 (-52).

(** src/ops.rs:114-122: the two speaker indices for pan position [s]. *)
Definition pan_route (l : layout) (s : f64) : nat * nat :=
  let n := length (config l) in
  let start := pan_search s 0 (config l) (n - 1) in
  (start, Nat.modulo (start + 1) n).

(** src/ops.rs:123-131: the panning angle. *)
Definition pan_angle (l : layout) (s : f64) : res f64 :=
  let '(start, end_) := pan_route l s in
  cs <- of_opt IndexOutOfBounds (nth_error (config l) start) ;;
  ce <- of_opt IndexOutOfBounds (nth_error (config l) end_) ;;
  let dist := fsub ce cs in
  let dist := if flt dist (flit 0 0) then fsub (flit 2 0) dist else dist in
  let closeness := fdiv (fsub s (fmin ce cs)) dist in
  Ok (fmul closeness frac_pi_2).

(** [out.channels_mut()[i] += d * x] (src/ops.rs:132-133). *)
Definition pan_put {l k} (i : nat) (d x : chan k) (out : frame l k) : res (frame l k) :=
  p <- c_mul d x ;; vupdate i (fun c => Ok (c_add_assign c p)) out.

(** src/ops.rs:109-136: one iteration of the loop over the channels, then the
    loop (over [dst.channels().zip(src.channels())]). *)
Definition pan_step {l k} (t : trig) (out : frame l k) (d s : chan k) : res (frame l k) :=
  let s := to_f64 s in
  angle <- pan_angle l s ;;
  let '(start, end_) := pan_route l s in
  out <- pan_put start d (from_f64 k (t_cos t angle)) out ;;
  pan_put end_ d (from_f64 k (t_sin t angle)) out.

Fixpoint pan_loop {l k} (t : trig) (out : frame l k) (ds ss : list (chan k)) : res (frame l k) :=
  match ds, ss with
  | d :: ds, s :: ss => out <- pan_step t out d s ;; pan_loop t out ds ss
  | _, _ => Ok out
  end.

(** [Blend::mix_frames]: the provided method src/ops.rs:23-31 and Pan's
    override src/ops.rs:109-136 (or a user's). *)
Definition mix_frames (op : blend_op) {l k} (dst src : frame l k) : res (frame l k) :=
  match op with
  | Pan_ t => pan_loop t (frame_default l k) (channels dst) (channels src)
  | UserFrames _ f => f l k dst src
  | _ => vmap2M (mix op) dst src
  end.
