(** * PropUserFrame.v -- property theorems C86 *)
From Coq Require Import ZArith NArith Reals Bool List Lia.
From Flocq Require Import IEEE754.BinarySingleNaN.
From Verif Require Import Rust Float Chan Frame Ops Stream Unwind Generic UserFrame SpecGeneric SpecUserFrame UserFrameProofs.
Import ListNotations.

(** A frame type with three channels and a mark. *)
Notation "'s8' z" := (as_sint W8 z : chan K8) (at level 9, z at next level, only parsing).
Definition marked : chan_frame K8 :=
  mkChanFrame K8 (nat * (chan K8 * chan K8 * chan K8)) (0%nat, (s8 0, s8 0, s8 0))
    (fun x => let '(a, b, c) := snd x in [a; b; c]) (fun x => let '(a, b, c) := snd x in [a; b; c])
    (fun x cs => match cs with [a; b; c] => (fst x, (a, b, c)) | _ => x end).
Example marked_faithful : faithful marked.
Proof.
  split.
  - reflexivity.
  - intros [m [[a b] c]] [|x [|y [|z [|? ?]]]] H; try discriminate. reflexivity.
  - intros [m [[a b] c]]. reflexivity.
Qed.
Definition codes (x : cf marked) : nat * list Z := (fst x, map sv (cf_channels marked x)).
(** A stream of such frames, without a rate. *)
Definition some_marked : stream_type (cf marked) :=
  mkStreamType (cf marked) (list (cf marked)) (fun _ => None) (fun s => Some (N.of_nat (length s))) (fun s _ => (s, Ok tt))
    (fun s => match s with [] => (s, Ok None) | x :: s => (s, Ok (Some x)) end).
(** The same type as [Sink::stream] sees it. *)
Definition marked_type : frame_type :=
  mkFrameType (cf marked) (cf_default marked) (p_from_f64 marked) (p_mix_frames marked (mix Plus)) (p_mix_frames marked (mix Amplify)).

(** ** C86 *)
(** [from_f64], [from_channel] and [from_mono] fill every channel. *)
Theorem C86_constants : forall k (F : chan_frame k), faithful F -> forall c v,
  cf_channels F (p_from_channel F c) = repeat c (length (cf_channels F (cf_default F))) /\
  p_from_f64 F v = p_from_channel F (from_f64 k v) /\
  p_from_mono F ((c, tt) : frame Mono k) = Ok (p_from_channel F c).
Proof. exact (fun k F Fa c v => conj (const_channels F Fa c) (conj (from_f64_channel F v) (from_mono_channel F c))). Qed.
Print Assumptions C86_constants.

(** [lerp] is channelwise as far as all three frames have channels; further channels are
    those of the default frame. *)
Theorem C86_lerp : forall k (F : chan_frame k), faithful F -> forall x y t, each_channel F (cf_default F) (lerp_at F x y t) (p_lerp F x y t).
Proof. exact (fun k F Fa => p_lerp_each F Fa). Qed.
Print Assumptions C86_lerp.

(** [mix_frames] is channelwise as far as both frames have channels; further channels are
    those of the destination. *)
Theorem C86_mix_frames : forall k (F : chan_frame k), faithful F -> forall mix d s, each_channel F d (mix_at F mix d s) (p_mix_frames F mix d s).
Proof. exact (fun k F Fa => p_mix_each F Fa). Qed.
Print Assumptions C86_mix_frames.

(** Whatever else the type stores comes from the destination, or from the default frame. *)
Theorem C86_rest : forall k (F : chan_frame k) O (ob : cf F -> O), (forall x cs, ob (cf_put F x cs) = ob x) ->
  (forall mix d s m, p_mix_frames F mix d s = Ok m -> ob m = ob d) /\ (forall x y t m, p_lerp F x y t = Ok m -> ob m = ob (cf_default F)) /\
  (forall c, ob (p_from_channel F c) = ob (cf_default F)).
Proof. exact (fun k F O => rest_kept F). Qed.
Print Assumptions C86_rest.
Example C86_rest_case : forall (x : cf marked) cs, fst (cf_put marked x cs) = fst x.
Proof. intros [m v] [|a [|b [|c [|? ?]]]]; reflexivity. Qed.

(** Src, Dest and Clear. *)
Theorem C86_operators : forall k (F : chan_frame k), faithful F -> forall d s,
  p_mix_frames F (mix Dest) d s = Ok d /\
  (length (cf_channels F s) = length (cf_channels F d) ->
    (exists m, p_mix_frames F (mix Src) d s = Ok m /\ cf_channels F m = cf_channels F s) /\
    (exists m, p_mix_frames F (mix Clear) d s = Ok m /\ cf_channels F m = repeat (chan_default k) (length (cf_channels F d)))).
Proof. exact (fun k F Fa d s => conj (ops_dest F Fa d s) (fun H => conj (ops_src F Fa d s H) (ops_clear F Fa d s H))). Qed.
Print Assumptions C86_operators.

(** On the crate's frame types these are the functions of Frame.v and Ops.v. *)
Theorem C86_crate_frames : forall l k, faithful (crate_frame l k) /\
  (forall v, p_from_f64 (crate_frame l k) v = frame_from_f64 l k v) /\
  (forall c, p_from_channel (crate_frame l k) c = from_channel l k c) /\
  (forall f, p_from_mono (crate_frame l k) f = from_mono l k f) /\
  (forall x y t, p_lerp (crate_frame l k) x y t = frame_lerp x y t) /\
  (forall op d s, keeps_mix_frames op -> p_mix_frames (crate_frame l k) (mix op) d s = mix_frames op d s).
Proof. exact (fun l k => conj (crate_faithful l k) (crate_same l k)). Qed.
Print Assumptions C86_crate_frames.

Example C86_frames_case :
  codes (p_from_f64 marked (flit 1 0)) = (0%nat, [127; 127; 127]%Z) /\
  option_map codes (match p_mix_frames marked (mix Plus) (5%nat, (s8 100, s8 (-3), s8 4)) (6%nat, (s8 100, s8 5, s8 6)) with Ok m => Some m | _ => None end)
    = Some (5%nat, [127; 2; 10]%Z) /\
  option_map codes (match p_lerp marked (5%nat, (s8 10, s8 20, s8 30)) (6%nat, (s8 40, s8 50, s8 60)) (7%nat, (s8 0, s8 127, s8 0)) with Ok m => Some m | _ => None end)
    = Some (0%nat, [10; 50; 30]%Z) /\
  p_mix_frames marked (mix Compress) (cf_default marked) (cf_default marked) = Panic NotImplemented.
Proof. repeat split; vm_compute; reflexivity. Qed.

(** [take] of any stream: its first [n] calls, then the end, without calling it again. *)
Theorem C86_take : forall X (M : stream_type X) s n i,
  item (g_take M) (s, n) i = (if (N.of_nat i <? n)%N then item M s i else Ok None) /\
  fst (after (g_take M) i (s, n)) = after M (Nat.min i (N.to_nat n)) s.
Proof. exact (fun X M s n i => conj (take_item M n s i) (f_equal fst (take_after M n i s))). Qed.
Print Assumptions C86_take.

(** [blend] of any streams: as long as the first one goes on, the mix of both; and it
    ends with either. *)
Theorem C86_blend : forall X Y (A : stream_type X) (B : stream_type Y) conv mixf n a b,
  (forall i, (i < n)%nat -> exists x, item A a i = Ok (Some x)) ->
  item (g_blend A B conv mixf) (a, b) n = (oa <- item A a n ;;
    match oa with
    | None => Ok None
    | Some x => ob <- item B b n ;; match ob with None => Ok None | Some y => z <- conv y ;; m <- mixf x z ;; Ok (Some m) end
    end) /\
  after (g_blend A B conv mixf) n (a, b) = (after A n a, after B n b) /\
  ((forall x, item A a n <> Ok (Some x)) -> after (g_blend A B conv mixf) (S n) (a, b) = (after A (S n) a, after B n b)).
Proof. exact (fun X Y A B conv mixf n a b H => conj (blend_item A B conv mixf n a b H) (conj (blend_after A B conv mixf n a b H) (blend_left A B conv mixf n a b H))). Qed.
Print Assumptions C86_blend.

(** Lengths stay true. *)
Theorem C86_lengths : forall X Y (A : stream_type X) (B : stream_type Y) conv mixf a b n,
  (true_len A a -> true_len (g_take A) (a, n)) /\
  ((forall y, exists z, conv y = Ok z) -> (forall x z, exists m, mixf x z = Ok m) -> true_len A a -> true_len B b ->
    true_len (g_blend A B conv mixf) (a, b)).
Proof. exact (fun X Y A B conv mixf a b n => conj (take_len A a n) (blend_len A B conv mixf a b)). Qed.
Print Assumptions C86_lengths.

(** Which rates [blend] accepts, and which stream it tells. *)
Theorem C86_blend_rates : forall X Y (A : stream_type X) (B : stream_type Y) a b,
  match so_rate A a, so_rate B b with
  | Some x, Some y => g_blend_new A B a b = ((a, b), if feq x y then Ok tt else Panic AssertFailed)
  | None, Some y => g_blend_new A B a b = ((fst (so_set_rate A a y), b), snd (so_set_rate A a y))
  | Some x, None => g_blend_new A B a b = ((a, fst (so_set_rate B b x)), snd (so_set_rate B b x))
  | None, None => g_blend_new A B a b = ((a, b), Ok tt)
  end.
Proof. exact (fun X Y A B => blend_rates A B). Qed.
Print Assumptions C86_blend_rates.

(** The adaptors of Stream.v are these. *)
Theorem C86_crate_streams : forall l k l' k' (a : stream l k) (b : stream l' k') op n i,
  item (std_stream l k) (STake a n) i = item (g_take (std_stream l k)) (a, n) i /\
  item (std_stream l k) (SBlend a b op) i = item (g_blend (std_stream l k) (std_stream l' k') (@convert l' k' l k) (mix_frames op)) (a, b) i.
Proof. exact (fun l k l' k' a b op n i => conj (std_take l k a n i) (std_blend l k l' k' a b op i)). Qed.
Print Assumptions C86_crate_streams.

Theorem C86_crate_info : forall l k l' k' (a : stream l k) (b : stream l' k') op n,
  (sample_rate (STake a n) = so_rate (g_take (std_stream l k)) (a, n) /\
   slen (STake a n) = so_len (g_take (std_stream l k)) (a, n) /\
   (forall sr, set_rate_st (STake a n) sr = (let '(s', m) := fst (so_set_rate (g_take (std_stream l k)) (a, n) sr) in STake s' m, snd (so_set_rate (g_take (std_stream l k)) (a, n) sr)))) /\
  let B := g_blend (std_stream l k) (std_stream l' k') (@convert l' k' l k) (mix_frames op) in
  sample_rate (SBlend a b op) = so_rate B (a, b) /\ slen (SBlend a b op) = so_len B (a, b) /\
  (forall sr, set_rate_st (SBlend a b op) sr = (let '(a', b') := fst (so_set_rate B (a, b) sr) in SBlend a' b' op, snd (so_set_rate B (a, b) sr))).
Proof. exact (fun l k l' k' a b op n => conj (std_take_info l k a n) (std_blend_info l k l' k' a b op)). Qed.
Print Assumptions C86_crate_info.

(** With the provided [convert], a blend that involves a user's frame type panics at
    the first pair of frames. *)
Theorem C86_foreign : forall a b (A : stream_type (fr (impl a))) (B : stream_type (fr (impl b))) mixf s t x y n, foreign b a ->
  (forall i, (i < n)%nat -> exists x, item A s i = Ok (Some x)) -> item A s n = Ok (Some x) -> item B t n = Ok (Some y) ->
  item (g_blend A B (convert_any b a) mixf) (s, t) n = Panic ExplicitPanic.
Proof. exact blend_foreign. Qed.
Print Assumptions C86_foreign.
Notation two := [(1%nat, (s8 1, s8 2, s8 3)); (2%nat, (s8 4, s8 5, s8 6))] (only parsing).
Theorem C86_same_type_refuted : ~ forall a (A B : stream_type (fr (impl a))) op s t, (forall x y, exists m, op x y = Ok m) ->
  (exists x, item A s 0 = Ok (Some x)) -> (exists y, item B t 0 = Ok (Some y)) -> exists m, item (g_blend A B (convert_any a a) op) (s, t) 0 = Ok (Some m).
Proof.
  intros H. destruct (H (Custom marked_type) some_marked some_marked (fun x _ => Ok x) two two) as (m & E).
  - intros x y. now exists x.
  - eexists. reflexivity.
  - eexists. reflexivity.
  - vm_compute in E. discriminate.
Qed.
Print Assumptions C86_same_type_refuted.

(** A user's [convert] makes it work. *)
Example C86_streams_case :
  map (fun i => match item (g_blend some_marked (g_take some_marked) (fun x => Ok x) (p_mix_frames marked (mix Plus))) (two, (two, 1%N)) i with
    Ok (Some m) => Some (codes m) | _ => None end) [0; 1]%nat = [Some (1%nat, [2; 4; 6]%Z); None] /\
  foreign (Custom marked_type) (Custom marked_type) /\
  (forall i, (i < 2)%nat -> exists x, item some_marked two i = Ok (Some x)) /\ item some_marked two 2 = Ok None /\ true_len some_marked two /\
  so_len (g_blend some_marked (g_take some_marked) (fun x => Ok x) (p_mix_frames marked (mix Plus))) (two, (two, 1%N)) = Some 1%N.
Proof.
  split; [vm_compute; reflexivity|]. split; [left; eexists; reflexivity|]. split; [|split; [vm_compute; reflexivity|]; split; [|vm_compute; reflexivity]].
  { intros [|[|i]] Hi; [eexists; vm_compute; reflexivity|eexists; vm_compute; reflexivity|lia]. }
  split; [|reflexivity]. intros [|[|i]] Hi; [eexists; vm_compute; reflexivity|eexists; vm_compute; reflexivity|]. cbn [length] in Hi. lia.
Qed.
