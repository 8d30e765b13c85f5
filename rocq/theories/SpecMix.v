(** * SpecMix.v -- mixing several tracks (C81) *)
From Coq Require Import ZArith NArith Reals List.
From Flocq Require Import Core.Core IEEE754.BinarySingleNaN.
From Verif Require Import Rust Float Chan Frame Ops Stream SpecChan SpecStream.
Import ListNotations.
Open Scope R_scope.

(** [first.blend(b1, Plus).blend(b2, Plus)...] *)
Fixpoint mixdown {l k} (first : stream l k) (others : list (stream l k)) : res (stream l k) :=
  match others with
  | [] => Ok first
  | b :: bs => t <- blend first b Plus ;; mixdown t bs
  end.

(** Channel [j] of frame [n] of the stream is [c]. *)
Definition given {l k} (s : stream l k) (n j : nat) (c : chan k) : Prop :=
  exists xs x, starts s xs /\ nth_error xs n = Some x /\ nth_error (channels x) j = Some c.
(** Channel [j] of frame [n] of the tracks. *)
Definition together {l k} (tracks : list (stream l k)) (n j : nat) (cs : list (chan k)) : Prop :=
  Forall2 (fun s c => given s n j c) tracks cs.
(** Saturating sum, first to last. *)
Definition sum_up {k} (c : chan k) (cs : list (chan k)) : chan k := fold_left c_add cs c.
(** The shortest of the lengths; [None] is endless. *)
Fixpoint shortest {l k} (tracks : list (stream l k)) : option N :=
  match tracks with [] => None | s :: ss => shorter (slen s) (shortest ss) end.
(** Sum of samples, and of their magnitudes. *)
Definition total {k} (cs : list (chan k)) : R := fold_right (fun c a => rval c + a) 0 cs.
Definition loudness {k} (cs : list (chan k)) : R := fold_right (fun c a => Rabs (rval c) + a) 0 cs.
Definition top (k : ck) : R := match k with K8 => 127 | K16 => 32767 | _ => 1 end.
(** The tracks cannot drive the mix into saturation. *)
Definition quiet {l k} (tracks : list (stream l k)) : Prop :=
  forall n j cs, together tracks n j cs -> loudness cs <= top k.
(** All tracks are at rate [r] and tell the truth about their length. *)
Definition tracks_at {l k} (r : f64) (tracks : list (stream l k)) : Prop :=
  feq r r = true /\ Forall (fun s => sample_rate s = Some r /\ honest s) tracks.
(** Rounding error of one addition. *)
Definition add_error (k : ck) : R := match k with K32 => bpow radix2 (-24) | _ => bpow radix2 (-53) end.
