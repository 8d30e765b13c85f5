(** * SpecRing.v -- the histories of C90 on lists of samples *)
From Coq Require Import ZArith List Bool Arith.
From Verif Require Import Rust Float Chan Frame Audio Heap Ring.
Import ListNotations.
Open Scope nat_scope.

(** What each variable holds, without any memory: its type and its samples. *)
Definition contents (k : ck) : Type := list (option (kind * list (chan k))).
Fixpoint put_at {A} (i : nat) (x : A) (xs : list A) : list A :=
  match xs, i with [], _ => [] | _ :: xs, O => x :: xs | y :: xs, S i => y :: put_at i x xs end.
Definition spec_call {k} (st : contents k) (o : op k) : contents k :=
  let on i (f : kind -> list (chan k) -> option (kind * list (chan k))) :=
    match nth_error st i with Some (Some (kd, d)) => put_at i (f kd d) st | _ => st end in
  match o with
  | ONewRaw data => st ++ [Some (KRaw, data)]
  | ONewFrames l fs => st ++ [Some (KVec l, raw_samples fs)]
  | OWithBuffer i l _ => on i (fun kd d => match kd with KRaw => if Nat.eqb (Nat.modulo (length d) (nchan l)) 0 then Some (KAudio l, d) else None | _ => Some (kd, d) end)
  | OWithFrames i _ => on i (fun kd d => match kd with KVec l => Some (KAudio l, d) | _ => Some (kd, d) end)
  | OLoad _ _ | OContiguous _ _ => st
  | OStore i j x => on i (fun kd d => Some (kd, put_at j x d))
  | ODrain i n => on i (fun kd d => match kd with KAudio l => Some (kd, skipn (n * nchan l) d) | _ => Some (kd, d) end)
  | OExtend i l fs _ _ _ _ => on i (fun kd d => match kd with KAudio l' => if layout_eqb l l' then Some (kd, d ++ raw_samples fs) else Some (kd, d) | _ => Some (kd, d) end)
  | OExtendPanics i => on i (fun kd d => match kd with KAudio l => Some (kd, []) | _ => Some (kd, d) end)
  | OIntoFrames i _ _ => on i (fun kd d => match kd with KAudio l => Some (KVec l, d) | _ => Some (kd, d) end)
  | OIntoRaw i _ => on i (fun kd d => match kd with KAudio l => Some (KRaw, d) | _ => Some (kd, d) end)
  | ODrop i => on i (fun _ _ => None)
  end.
Definition spec_ops {k} (st : contents k) (os : list (op k)) : contents k := fold_left spec_call os st.

(** [o] does not turn an audio that has samples into a raw buffer. *)
Definition sound {k} (st : contents k) (o : op k) : Prop :=
  match o with
  | OIntoRaw i _ => match nth_error st i with Some (Some (KAudio _, d)) => d = [] | _ => True end
  | _ => True
  end.
Fixpoint all_sound {k} (st : contents k) (os : list (op k)) : Prop :=
  match os with [] => True | o :: os => sound st o /\ all_sound (spec_call st o) os end.

(** The memory holds the contents: variables and contents agree, every sample can be read. *)
Definition reads {k} (h : mem k) (vs : vars) (st : contents k) : Prop :=
  length vs = length st /\ forall i,
  match nth_error vs i, nth_error st i with
  | Some (Some (kd, v)), Some (Some (kd', d)) => kd = kd' /\ length d = o_len v * o_width v /\ forall j c, nth_error d j = Some c -> load h v j = MOk c
  | Some None, Some None | None, None => True
  | _, _ => False
  end.
(** Live allocations and owners match: no leak, nothing owned twice. *)
Definition holds_area (v : option (kind * own)) (b : nat) : Prop :=
  match v with Some (_, o) => o_ptr o = Some b /\ o_cap o * o_width o <> 0 | None => False end.
Definition live_at {k} (h : mem k) (b : nat) : Prop := match nth_error h b with Some a => a_live a = true | None => False end.
Definition accounted {k} (h : mem k) (vs : vars) : Prop :=
  (forall b, live_at h b <-> exists i v, nth_error vs i = Some v /\ holds_area v b) /\
  (forall i j v w b, nth_error vs i = Some v -> nth_error vs j = Some w -> holds_area v b -> holds_area w b -> i = j).

(** [o] is a call on variable [i]. *)
Definition about {k} (i : nat) (o : op k) : bool :=
  match o with
  | ONewRaw _ | ONewFrames _ _ => false
  | OWithBuffer n _ _ | OWithFrames n _ | OLoad n _ | OStore n _ _ | OContiguous n _ | ODrain n _ | OExtend n _ _ _ _ _ _ | OExtendPanics n
  | OIntoFrames n _ _ | OIntoRaw n _ | ODrop n => Nat.eqb i n
  end.
(** Every variable goes out of scope. *)
Definition drop_all {k} (n : nat) : list (op k) := map ODrop (seq 0 n).
