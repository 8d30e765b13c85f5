(** * PropMinChoice.v -- property C91: the sign of a zero minimum has no effect *)
From Coq Require Import ZArith NArith Reals Bool List.
From Flocq Require Import Core.Core IEEE754.BinarySingleNaN.
From Verif Require Import Rust Float Math Chan Frame Ops Stream Audio MinChoice SpecMinChoice MinChoiceProofs.
Import ListNotations.
Open Scope Z_scope.

(** Whatever [f64::min] returns for two zeros in each iteration, the sink and the stream end up bit for bit the same,
    or the call panics in the same way. *)
Theorem C91_stream : forall (mins : nat -> f64 -> f64 -> f64), (forall i x y, is_min x y (mins i x y)) ->
  forall l k ls ks fuel (sk : sink l k) (s : stream ls ks), m_sink_stream mins fuel sk s = sink_stream fuel sk s.
Proof. exact (fun mins M l k ls ks fuel sk s => m_stream_same mins fuel sk s M). Qed.
Print Assumptions C91_stream.
Theorem C91_extend : forall (mins : nat -> f64 -> f64 -> f64), (forall i x y, is_min x y (mins i x y)) ->
  forall l k ls ks fuel (a : audio l k) (s : stream ls ks), m_extend mins fuel a s = extend fuel a s.
Proof. exact (fun mins M l k ls ks fuel a s => m_extend_same mins fuel a s M). Qed.
Print Assumptions C91_extend.
(** Nor does it matter where channels are clamped to -1 .. 1. *)
Theorem C91_clamp32 : forall x m r : f32, is_min x (flit 1 0) m -> is_max m (flit (-1) 0) r -> r = clamp32 x.
Proof. exact (clamp_choice _ _). Qed.
Print Assumptions C91_clamp32.
Theorem C91_clamp64 : forall x m r : f64, is_min x (flit 1 0) m -> is_max m (flit (-1) 0) r -> r = clamp64 x.
Proof. exact (clamp_choice _ _). Qed.
Print Assumptions C91_clamp64.

(** The other choice is allowed, differs from the one of Float.v, and the weights then differ. *)
Definition other (i : nat) (x y : f64) : f64 := match x, y with B754_zero _, B754_zero _ => y | _, _ => fmin x y end.
Example C91_other : forall i x y, is_min x y (other i x y).
Proof.
  intros i x y. destruct x as [s|s| |s m e b], y as [s'|s'| |s' m' e' b']; try apply (is_min_fmin 53 1024). cbn [other]. unfold is_min. right. reflexivity.
Qed.
Example C91_differs : other 0 (B754_zero false) (B754_zero true) <> fmin (B754_zero false) (B754_zero true) /\
  fsub (B754_zero true) (other 0 (B754_zero false) (B754_zero true)) <> floor_w (B754_zero true) (B754_zero false).
Proof. split; intros E; apply (f_equal Bsign) in E; vm_compute in E; discriminate. Qed.
(** A sink at 0 Hz and an endless stream at -1 Hz get there: the ratio is -0 and every position is +0. *)
Example C91_case : B2SF (fdiv (flit 0 0) (flit (-1) 0) : f64) = SpecFloat.S754_zero true /\
  B2SF (dst_pos (fdiv (flit 0 0) (flit (-1) 0)) (flit 0 0) 3) = SpecFloat.S754_zero false.
Proof. vm_compute. auto. Qed.
