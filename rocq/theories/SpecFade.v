(** * SpecFade.v -- vocabulary for C82 *)
From Coq Require Import ZArith NArith Reals List.
From Flocq Require Import Core.Core IEEE754.BinarySingleNaN.
From Verif Require Import Rust Float Chan Frame Ops Stream SpecChan SpecStream SpecMix.
Open Scope R_scope.

(** A sample between -MAX and MAX (every sample but the integers' MIN). *)
Definition within {k} (c : chan k) : Prop := valid c /\ Rabs (rval c) <= top k.
(** The step of the format: one code, or the spacing of the floats below 1. *)
Definition step (k : ck) : R := match k with K8 | K16 => 1 | K32 => bpow radix2 (-24) | K64 => bpow radix2 (-53) end.
(** One code for the integers, [n] steps for the floats. *)
Definition slack (k : ck) (n : R) : R := match k with K8 | K16 => 1 | _ => n * step k end.
(** A gain applied to a mix, and to the tracks before mixing. *)
Definition mix_then_fade {l k} (a b g : stream l k) : res (stream l k) := t <- blend a b Plus ;; blend t g Amplify.
Definition fade_then_mix {l k} (a b g : stream l k) : res (stream l k) := x <- blend a g Amplify ;; y <- blend b g Amplify ;; blend x y Plus.
(** Two gains one after the other, and at once. *)
Definition fade_twice {l k} (a g h : stream l k) : res (stream l k) := t <- blend a g Amplify ;; blend t h Amplify.
Definition fade_once {l k} (a g h : stream l k) : res (stream l k) := t <- blend g h Amplify ;; blend a t Amplify.
(** Streams of rate [r] and length [n] that keep the contract. *)
Definition regular {l k} (r : f64) (n : option N) (t : stream l k) : Prop := sample_rate t = Some r /\ slen t = n /\ honest t.
