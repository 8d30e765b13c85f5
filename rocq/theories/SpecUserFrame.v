(** * SpecUserFrame.v -- vocabulary for C86 *)
From Coq Require Import ZArith NArith List.
From Verif Require Import Rust Float Chan Frame Ops Stream Generic UserFrame SpecGeneric.
Import ListNotations.

(** [channels] and [channels_mut] show the same channels, what is written is read
    back, and writing back what was there changes nothing. *)
Record faithful {k} (F : chan_frame k) : Prop := {
  same_channels : forall x, cf_mut F x = cf_channels F x;
  read_back : forall x cs, length cs = length (cf_channels F x) -> cf_channels F (cf_put F x cs) = cs;
  put_same : forall x, cf_put F x (cf_channels F x) = x
}.

(** Channel [i] of a frame. *)
Definition ch {k} (F : chan_frame k) (x : cf F) (i : nat) : option (chan k) := nth_error (cf_channels F x) i.

(** The outcome of computing each channel: [op i] is the computation of channel [i],
    when there is one, and the other channels are those of [base].  A panic is the first
    one met. *)
Definition each_channel {k} (F : chan_frame k) (base : cf F) (op : nat -> option (res (chan k))) (r : res (cf F)) : Prop :=
  match r with
  | Ok out => length (cf_channels F out) = length (cf_channels F base) /\
      forall i c, ch F base i = Some c ->
        exists y, ch F out i = Some y /\ match op i with Some v => v = Ok y | None => y = c end
  | Panic p => exists i c, ch F base i = Some c /\ op i = Some (Panic p) /\
      forall j, (j < i)%nat -> exists y, op j = Some (Ok y)
  | OutOfFuel => exists i c, ch F base i = Some c /\ op i = Some OutOfFuel /\
      forall j, (j < i)%nat -> exists y, op j = Some (Ok y)
  end.

(** The computations of [lerp] and [mix_frames] on channel [i]. *)
Definition lerp_at {k} (F : chan_frame k) (x y t : cf F) (i : nat) : option (res (chan k)) :=
  match ch F x i, ch F y i, ch F t i with Some a, Some b, Some c => Some (c_lerp a b c) | _, _, _ => None end.
Definition mix_at {k} (F : chan_frame k) (mix : chan k -> chan k -> res (chan k)) (d s : cf F) (i : nat) : option (res (chan k)) :=
  match ch F d i, ch F s i with Some a, Some b => Some (mix a b) | _, _ => None end.

(** The operators that keep the provided [mix_frames]. *)
Definition keeps_mix_frames (op : blend_op) : Prop := match op with Pan_ _ | UserFrames _ _ => False | _ => True end.

(** The stream gives as many frames as it says, and then ends. *)
Definition true_len {X} (M : stream_type X) (s : so M) : Prop :=
  match so_len M s with
  | Some n => (forall i, (N.of_nat i < n)%N -> exists x, item M s i = Ok (Some x)) /\ item M s (N.to_nat n) = Ok None
  | None => forall i, exists x, item M s i = Ok (Some x)
  end.
