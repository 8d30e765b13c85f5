(** * UserPan.v -- Pan on a user's frame type

    [Frame] is a public trait: a user's type brings its own speaker configuration
    [CONFIG] and its own number of channels.  (Its channel type is one of the
    crate's: [Channel] is sealed, src/private.rs.)  Here src/ops.rs:109-136 is modelled
    over any configuration and any lists of channels; [channels] and [channels_mut]
    are taken to show the same channels. *)
From Coq Require Import ZArith List Bool.
From Verif Require Import Rust Float Chan Frame Ops.
Import ListNotations.
Open Scope Z_scope.

(** src/ops.rs:114-131: the two speakers and the angle.  [F::CONFIG.len() - 1] on an
    empty configuration overflows. *)
Definition u_route (conf : list f64) (s : f64) : res (nat * nat * f64) :=
  let n := length conf in
  if Nat.eqb n 0 then Panic ArithOverflow else
  let start := pan_search s 0 conf (n - 1) in
  let end_ := Nat.modulo (start + 1) n in
  ce <- of_opt IndexOutOfBounds (nth_error conf end_) ;;
  cs <- of_opt IndexOutOfBounds (nth_error conf start) ;;
  let dist := fsub ce cs in
  let dist := if flt dist (flit 0 0) then fsub (flit 2 0) dist else dist in
  let closeness := fdiv (fsub s (fmin ce cs)) dist in
  Ok (start, end_, fmul closeness frac_pi_2).

(** [out.channels_mut()[i] += d * x] (src/ops.rs:132-133). *)
Fixpoint u_add {k} (i : nat) (p : chan k) (out : list (chan k)) : res (list (chan k)) :=
  match out, i with
  | [], _ => Panic IndexOutOfBounds
  | c :: cs, O => Ok (c_add_assign c p :: cs)
  | c :: cs, S i => cs <- u_add i p cs ;; Ok (c :: cs)
  end.
Definition u_put {k} (i : nat) (d x : chan k) (out : list (chan k)) : res (list (chan k)) :=
  p <- c_mul d x ;; u_add i p out.

(** src/ops.rs:109-136; [out] are the channels of [F::default()]. *)
Fixpoint u_pan {k} (conf : list f64) (t : trig) (out ds ss : list (chan k)) : res (list (chan k)) :=
  match ds, ss with
  | d :: ds, s :: ss =>
      '(start, end_, angle) <- u_route conf (to_f64 s) ;;
      out <- u_put start d (from_f64 k (t_cos t angle)) out ;;
      out <- u_put end_ d (from_f64 k (t_sin t angle)) out ;;
      u_pan conf t out ds ss
  | _, _ => Ok out
  end.
