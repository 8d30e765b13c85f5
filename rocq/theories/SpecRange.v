(** * SpecRange.v -- vocabulary for signals that stay within full scale *)
From Coq Require Import ZArith NArith Reals List.
From Verif Require Import Rust Float Chan Frame Ops Stream Audio SpecChan SpecFrame SpecStream SpecSink.
Import ListNotations.

(** Mixing frames within full scale gives frames within full scale. *)
Definition keeps_range (op : blend_op) : Prop := forall l k (x y z : frame l k),
  frame_valid x -> frame_valid y -> mix_frames op x y = Ok z -> frame_valid z.
(** The operators the crate has. *)
Definition builtin (op : blend_op) : Prop := match op with UserOp _ | UserFrames _ _ => False | _ => True end.

(** Everything a stream is made of is within full scale. *)
Inductive ranged : forall {l k}, stream l k -> Prop :=
| ra_frame l k (f : frame l k) : frame_valid f -> ranged (SFrame f)
| ra_audio l k r (fs : list (frame l k)) : Forall frame_valid fs -> ranged (SAudio r fs)
| ra_drain l k r (fs : list (frame l k)) c : Forall frame_valid fs -> ranged (SDrain r fs c)
| ra_take l k (s : stream l k) n : ranged s -> ranged (STake s n)
| ra_blend l k l2 k2 (a : stream l k) (b : stream l2 k2) op : ranged a -> ranged b -> keeps_range op -> ranged (SBlend a b op)
| ra_user l k r c n (f : nat -> res (option (frame l k))) i : (forall j x, f j = Ok (Some x) -> frame_valid x) ->
    ranged (SUser (mkUser r c n f i)).

(** So is everything in a sink. *)
Definition sink_ranged {l k} (sk : sink l k) : Prop :=
  Forall frame_valid (sk_buf sk) /\ frame_valid (resampler_frame (sk_res sk)).
