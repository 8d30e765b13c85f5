(** * SpecStream.v -- vocabulary for the stream properties.

    A stream is looked at only through what successive calls of [next] return. *)
From Coq Require Import ZArith NArith Reals List.
From Flocq Require Import Core.Core IEEE754.BinarySingleNaN.
From Verif Require Import Rust Float Chan Frame Ops Stream.
Import ListNotations.

(** Successive calls of [next] on [s] return exactly the frames [fs], and leave
    the iterator in state [s']. *)
Inductive pulls {l k} : stream l k -> list (frame l k) -> stream l k -> Prop :=
| pulls_nil s : pulls s [] s
| pulls_cons s f s' fs s'' : next s = Ok (Some f, s') -> pulls s' fs s'' -> pulls s (f :: fs) s''.

(** The stream gives the frames [fs] and then ends. *)
Definition yields {l k} (s : stream l k) (fs : list (frame l k)) : Prop :=
  exists s' s'', pulls s fs s' /\ next s' = Ok (None, s'').

(** The stream gives [fs] first. *)
Definition starts {l k} (s : stream l k) (fs : list (frame l k)) : Prop := exists s', pulls s fs s'.

(** The reported length is the truth: a stream of length [n] gives [n] frames
    and ends; a stream without length never ends. *)
Definition honest {l k} (s : stream l k) : Prop :=
  match slen s with
  | Some n => exists fs, yields s fs /\ N.of_nat (length fs) = n
  | None => forall n, exists fs, starts s fs /\ length fs = n
  end.

(** A blend operator that does not panic on a format. *)
Definition total_op (op : blend_op) (l : layout) (k : ck) : Prop :=
  forall d s : frame l k, exists z, mix_frames op d s = Ok z.

(** Stream expressions made of the crate's own streams (with fresh drains) and
    honest user streams, blended with operators that do not panic. *)
Fixpoint well_formed {l k} (s : stream l k) : Prop :=
  match s with
  | SFrame _ | SAudio _ _ => True
  | SDrain _ _ c => c = 0%nat
  | STake s _ => well_formed s
  | @SBlend l k l' k' a b op => well_formed a /\ well_formed b /\ total_op op l k
  | SUser u => honest (SUser u)
  end.

(** The streams whose rate can be set: constant frames, user streams that
    override [set_sample_rate], and adapters of those only. *)
Fixpoint configurable {l k} (s : stream l k) : Prop :=
  match s with
  | SFrame _ => True
  | SAudio _ _ | SDrain _ _ _ => False
  | STake s _ => configurable s
  | SBlend a b _ => configurable a /\ configurable b
  | SUser u => u_configurable u = true
  end.

(** [m] is the mix of [x] with the converted [y]. *)
Definition mixed {l k l' k'} (op : blend_op) (x : frame l k) (y : frame l' k') (m : frame l k) : Prop :=
  exists y', convert l k y = Ok y' /\ mix_frames op x y' = Ok m.
(** The same for lists of the same length, element by element. *)
Inductive mixes {l k l' k'} (op : blend_op) :
  list (frame l k) -> list (frame l' k') -> list (frame l k) -> Prop :=
| mixes_nil : mixes op [] [] []
| mixes_cons x y m xs ys ms : mixed op x y m -> mixes op xs ys ms -> mixes op (x :: xs) (y :: ys) (m :: ms).

(** The length both lengths allow ([None]: unlimited). *)
Definition shorter (a b : option N) : option N :=
  match a, b with
  | Some x, Some y => Some (N.min x y)
  | Some x, None => Some x
  | None, o => o
  end.

(** A stream whose rate comes from something that remembers it (not from a single
    frame). *)
Fixpoint remembers {l k} (s : stream l k) : Prop :=
  match s with
  | SFrame _ => False
  | STake s _ => remembers s
  | SBlend a _ _ => remembers a
  | SAudio _ _ | SDrain _ _ _ | SUser _ => True
  end.
