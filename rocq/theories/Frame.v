(** * Frame.v -- model of src/frame.rs, src/mono.rs, src/stereo.rs and
    src/surround.rs.

    [Mono], [Stereo] and [Surround] are arrays of 1, 2 and 6 channels; the
    operator impls of the three files are the same text with a different array
    length, so each is modelled once, for a layout [l].  For user-defined frame
    types see Generic.v. *)
From Coq Require Import ZArith List Bool.
From Verif Require Import Rust Float Chan.
Import ListNotations.
Open Scope Z_scope.

(** ** Fixed-length arrays [[A; n]] *)
Fixpoint vec (A : Type) (n : nat) : Type :=
  match n with O => unit | S n => (A * vec A n)%type end.

Fixpoint vconst {A} (n : nat) (a : A) : vec A n :=
  match n with O => tt | S n => (a, vconst n a) end.
(** The array as a slice. *)
Fixpoint vlist {A} {n : nat} : vec A n -> list A :=
  match n with O => fun _ => [] | S n => fun v => fst v :: vlist (snd v) end.
(** [for (x, y) in xs.iter_mut().zip(ys) { *x = f(x, y) }]. *)
Fixpoint vmap2 {A B} {n : nat} (f : A -> B -> A) : vec A n -> vec B n -> vec A n :=
  match n with
  | O => fun _ _ => tt
  | S n => fun v w => (f (fst v) (fst w), vmap2 f (snd v) (snd w))
  end.
(** The same when [f] may panic. *)
Fixpoint vmap2M {A B} {n : nat} (f : A -> B -> res A) : vec A n -> vec B n -> res (vec A n) :=
  match n with
  | O => fun _ _ => Ok tt
  | S n => fun v w =>
      x <- f (fst v) (fst w) ;; r <- vmap2M f (snd v) (snd w) ;; Ok (x, r)
  end.
Fixpoint vmapM {A} {n : nat} (f : A -> res A) : vec A n -> res (vec A n) :=
  match n with
  | O => fun _ => Ok tt
  | S n => fun v => x <- f (fst v) ;; r <- vmapM f (snd v) ;; Ok (x, r)
  end.
(** [[ch[0], ch[1], .., ch[n-1]]]: panics when the slice is too short. *)
Fixpoint vof_list {A} (n : nat) (l : list A) : res (vec A n) :=
  match n with
  | O => Ok tt
  | S n => match l with
           | [] => Panic IndexOutOfBounds
           | x :: l => r <- vof_list n l ;; Ok (x, r)
           end
  end.
(** [v[i] = f(v[i])] through [channels_mut()]. *)
Fixpoint vupdate {A} {n : nat} (i : nat) (f : A -> res A) : vec A n -> res (vec A n) :=
  match n with
  | O => fun _ => Panic IndexOutOfBounds
  | S n => fun v =>
      match i with
      | O => x <- f (fst v) ;; Ok (x, snd v)
      | S i => r <- vupdate i f (snd v) ;; Ok (fst v, r)
      end
  end.

(** ** Layouts *)

(** src/mono.rs:25-27, src/stereo.rs:25-27, src/surround.rs:26-28. *)
Inductive layout : Set := Mono | Stereo | Surround.
Definition nchan (l : layout) : nat :=
  match l with Mono => 1 | Stereo => 2 | Surround => 6 end.
Definition frame (l : layout) (k : ck) : Type := vec (chan k) (nchan l).

(** src/mono.rs:41, src/stereo.rs:41, src/surround.rs:49-55 [CONFIG]. *)
Definition config (l : layout) : list f64 :=
  match l with
  | Mono => [flit 0 0]
  | Stereo => [flit (-1) (-1); flit 1 (-1)]
  | Surround =>
      [ fdiv (flit (-2) 0) (flit 3 0); fdiv (flit (-1) 0) (flit 3 0);
        fdiv (flit 0 0) (flit 3 0);
        fdiv (flit 1 0) (flit 3 0); fdiv (flit 2 0) (flit 3 0) ]
  end.

(** [Frame::channels] (src/frame.rs:58; src/mono.rs:45-47, src/stereo.rs:45-47,
    src/surround.rs:59-61). *)
Definition channels {l k} (f : frame l k) : list (chan k) := vlist f.

(** The derived [Default]: every channel default (src/mono.rs:23,
    src/stereo.rs:23, src/surround.rs:24). *)
Definition frame_default (l : layout) (k : ck) : frame l k :=
  vconst (nchan l) (chan_default k).

(** [Frame::from_channels] (src/mono.rs:53-55, src/stereo.rs:53-55,
    src/surround.rs:67-69): [Self::new::<C>(ch[0], ..)]; [C::from] is the
    identity on [C]. *)
Definition from_channels (l : layout) (k : ck) (ch : list (chan k)) : res (frame l k) :=
  vof_list (nchan l) ch.

(** [Mono::new], [Stereo::new], [Surround::new] (src/mono.rs:31-37,
    src/stereo.rs:31-37, src/surround.rs:32-45) from channels of type [h]. *)
Definition frame_new (l : layout) (k h : ck) (v : vec (chan h) (nchan l)) : frame l k :=
  vmap2 (fun _ c => chan_from h k c) (frame_default l k) v.

(** src/frame.rs:64-70 [Frame::from_f64]. *)
Definition frame_from_f64 (l : layout) (k : ck) (value : f64) : frame l k :=
  vmap2 (fun _ _ => from_f64 k value) (frame_default l k) (frame_default l k).

(** src/frame.rs:73-79 [Frame::from_channel]. *)
Definition from_channel (l : layout) (k : ck) (ch : chan k) : frame l k :=
  vmap2 (fun _ _ => ch) (frame_default l k) (frame_default l k).

(** src/frame.rs:85-87 [Frame::from_mono]. *)
Definition from_mono (l : layout) (k : ck) (f : frame Mono k) : res (frame l k) :=
  c <- of_opt IndexOutOfBounds (nth_error (channels f) 0) ;; Ok (from_channel l k c).

(** ** Operators: src/mono.rs:58-136, src/stereo.rs:58-136,
    src/surround.rs:72-150. *)
Definition frame_add {l k} (x y : frame l k) : frame l k := vmap2 c_add_assign x y.
Definition frame_sub {l k} (x y : frame l k) : frame l k := vmap2 c_sub_assign x y.
Definition frame_mul {l k} (x y : frame l k) : res (frame l k) := vmap2M c_mul_assign x y.
Definition frame_div {l k} (x y : frame l k) : res (frame l k) := vmap2M c_div_assign x y.
Definition frame_neg {l k} (x : frame l k) : res (frame l k) := vmapM c_neg x.

(** src/frame.rs:91-99 [Frame::lerp]: the zipped iterators over [out], [self],
    [rhs] and [t] have the same length, so they are one simultaneous pass. *)
Fixpoint vlerp {k} {n : nat} : vec (chan k) n -> vec (chan k) n -> vec (chan k) n -> res (vec (chan k) n) :=
  match n with
  | O => fun _ _ _ => Ok tt
  | S n => fun this rhs t =>
      x <- c_lerp (fst this) (fst rhs) (fst t) ;;
      r <- vlerp (snd this) (snd rhs) (snd t) ;; Ok (x, r)
  end.
Definition frame_lerp {l k} (self rhs t : frame l k) : res (frame l k) := vlerp self rhs t.

(** ** Conversion *)

(** [channels()[i].to_f64()]. *)
Definition chan_f64 {l k} (f : frame l k) (i : nat) : res f64 :=
  c <- of_opt IndexOutOfBounds (nth_error (channels f) i) ;; Ok (to_f64 c).

(** [for (src, dst) in self.channels().iter().zip(out.iter_mut())
     { *dst = D::Chan::from_f64(src.to_f64()) }]. *)
Fixpoint convert_into {k1 k2} (src : list (chan k1)) (out : list (chan k2)) : list (chan k2) :=
  match src, out with
  | s :: src, _ :: out => from_f64 k2 (to_f64 s) :: convert_into src out
  | _, out => out
  end.

(** src/frame.rs:103-196 [Frame::convert].  The [TypeId] dispatch is a match
    on the two layouts; the final [panic!] arm is only reachable with
    user-defined frame types ([convert_any] in Generic.v). *)
Definition convert {l1 k1} (l2 : layout) (k2 : ck) (self : frame l1 k1) : res (frame l2 k2) :=
  match l1, l2 with
  | Mono, Mono | Stereo, Stereo | Surround, Surround =>
      (* src/frame.rs:105-120 *)
      let out := repeat (MID k2) 6 in
      from_channels l2 k2 (convert_into (channels self) out)
  | Mono, Stereo =>
      (* src/frame.rs:121-131 *)
      a <- chan_f64 self 0 ;; b <- chan_f64 self 0 ;;
      from_channels l2 k2 [from_f64 k2 a; from_f64 k2 b]
  | Mono, Surround =>
      (* src/frame.rs:132-142 *)
      a <- chan_f64 self 0 ;; b <- chan_f64 self 0 ;;
      from_channels l2 k2
        [MID k2; from_f64 k2 a; MID k2; from_f64 k2 b; MID k2; MID k2]
  | Stereo, Surround =>
      (* src/frame.rs:143-153 *)
      a <- chan_f64 self 0 ;; b <- chan_f64 self 1 ;;
      from_channels l2 k2
        [MID k2; from_f64 k2 a; MID k2; from_f64 k2 b; MID k2; MID k2]
  | Surround, Stereo =>
      (* src/frame.rs:154-164 *)
      a <- chan_f64 self 1 ;; b <- chan_f64 self 3 ;;
      from_channels l2 k2 [from_f64 k2 a; from_f64 k2 b]
  | Surround, Mono =>
      (* src/frame.rs:165-177 *)
      a <- chan_f64 self 1 ;; b <- chan_f64 self 3 ;;
      from_channels l2 k2 [from_f64 k2 (fmul (fadd a b) (flit 1 (-1)))]
  | Stereo, Mono =>
      (* src/frame.rs:178-190 *)
      a <- chan_f64 self 0 ;; b <- chan_f64 self 1 ;;
      from_channels l2 k2 [from_f64 k2 (fmul (fadd a b) (flit 1 (-1)))]
  end.
