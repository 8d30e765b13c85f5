(** * UserFrameProofs.v -- user frame types and adaptors of any streams (C86) *)
From Coq Require Import ZArith NArith List Bool Lia.
From Flocq Require Import IEEE754.BinarySingleNaN.
From Verif Require Import Rust Float Chan Frame Ops Stream Unwind Generic UserFrame SpecGeneric SpecUserFrame FrameProofs.
Import ListNotations.

Section F.
Context {k : ck} (F : chan_frame k) (Fa : faithful F).

Lemma const_channels c : cf_channels F (p_from_channel F c) = repeat c (length (cf_channels F (cf_default F))).
Proof.
  unfold p_from_channel. cbv zeta. rewrite (same_channels F Fa), (read_back F Fa) by apply map_length.
  induction (cf_channels F (cf_default F)) as [|x l IH]; [reflexivity|]. cbn [map length repeat]. now rewrite IH.
Qed.
Lemma from_f64_channel v : p_from_f64 F v = p_from_channel F (from_f64 k v).
Proof. reflexivity. Qed.
Lemma from_mono_channel c : p_from_mono F ((c, tt) : frame Mono k) = Ok (p_from_channel F c).
Proof. reflexivity. Qed.

(** The list version of [each_channel]. *)
Definition first_stop (base : list (chan k)) (op : nat -> option (res (chan k))) (v : res (chan k)) : Prop :=
  exists i c, nth_error base i = Some c /\ op i = Some v /\ forall j, (j < i)%nat -> exists y, op j = Some (Ok y).
Definition each_list (base : list (chan k)) (op : nat -> option (res (chan k))) (r : res (list (chan k))) : Prop :=
  match r with
  | Ok out => length out = length base /\
      forall i c, nth_error base i = Some c -> exists y, nth_error out i = Some y /\ match op i with Some v => v = Ok y | None => y = c end
  | Panic p => first_stop base op (Panic p)
  | OutOfFuel => first_stop base op OutOfFuel
  end.
Lemma each_none base op : (forall i, op i = None) -> each_list base op (Ok base).
Proof. intros H. split; [reflexivity|]. intros i c E. exists c. rewrite H. now split. Qed.
Lemma each_cons b base op v r : op O = Some v -> each_list base (fun i => op (S i)) r ->
  each_list (b :: base) op (x <- v ;; out <- r ;; Ok (x :: out)).
Proof.
  intros O1 E. destruct v as [x|p|]; cbn [bind].
  - destruct r as [out|p|]; cbn [bind each_list] in *.
    + destruct E as [L E]. split; [cbn; lia|]. intros [|i] c Hc.
      * exists x. split; [reflexivity|]. now rewrite O1.
      * cbn [nth_error] in *. destruct (E i c Hc) as (y & Hy & Q). now exists y.
    + destruct E as (i & c & Hc & Ho & B). exists (S i), c. split; [exact Hc|]. split; [exact Ho|].
      intros [|j] Hj; [now exists x|]. apply B. lia.
    + destruct E as (i & c & Hc & Ho & B). exists (S i), c. split; [exact Hc|]. split; [exact Ho|].
      intros [|j] Hj; [now exists x|]. apply B. lia.
  - exists 0%nat, b. split; [reflexivity|]. split; [exact O1|]. intros j Hj. lia.
  - exists 0%nat, b. split; [reflexivity|]. split; [exact O1|]. intros j Hj. lia.
Qed.
Lemma each_nil op : each_list [] op (Ok []).
Proof. split; [reflexivity|]. intros [|i] c E; discriminate. Qed.

Lemma lerp_zip_each : forall out this rhs t,
  each_list out (fun i => match nth_error this i, nth_error rhs i, nth_error t i with Some a, Some b, Some c => Some (c_lerp a b c) | _, _, _ => None end) (lerp_zip out this rhs t).
Proof.
  induction out as [|o out IH]; intros this rhs t; [apply each_nil|].
  destruct this as [|a this]; [apply each_none; now intros [|i]|]. destruct rhs as [|b rhs]; [apply each_none; intros [|i]; cbn [nth_error]; [reflexivity|now destruct (nth_error this i)]|].
  destruct t as [|c t]; [apply each_none; intros [|i]; cbn [nth_error]; [reflexivity|now destruct (nth_error this i), (nth_error rhs i)]|].
  cbn [lerp_zip]. apply each_cons; [reflexivity|]. apply IH.
Qed.
Lemma mix_zip_each mix : forall dst src,
  each_list dst (fun i => match nth_error dst i, nth_error src i with Some a, Some b => Some (mix a b) | _, _ => None end) (mix_zip mix dst src).
Proof.
  induction dst as [|d dst IH]; intros src; [apply each_nil|].
  destruct src as [|s src]; [apply each_none; intros [|i]; cbn [nth_error]; [reflexivity|now destruct (nth_error dst i)]|].
  cbn [mix_zip]. apply each_cons; [reflexivity|]. apply IH.
Qed.
Lemma put_each base op r : each_list (cf_channels F base) op r -> each_channel F base op (cs <- r ;; Ok (cf_put F base cs)).
Proof.
  intros E. destruct r as [cs|p|]; cbn [bind each_list each_channel] in *; [|exact E|exact E].
  destruct E as [L E]. unfold ch. rewrite (read_back F Fa) by exact L. split; [exact L|exact E].
Qed.
Lemma p_lerp_each x y t : each_channel F (cf_default F) (lerp_at F x y t) (p_lerp F x y t).
Proof. unfold p_lerp. cbv zeta. rewrite (same_channels F Fa). apply put_each. apply lerp_zip_each. Qed.
Lemma p_mix_each mix d s : each_channel F d (mix_at F mix d s) (p_mix_frames F mix d s).
Proof. unfold p_mix_frames. rewrite (same_channels F Fa). apply put_each. apply mix_zip_each. Qed.

Lemma rest_kept {O} (ob : cf F -> O) : (forall x cs, ob (cf_put F x cs) = ob x) ->
  (forall mix d s m, p_mix_frames F mix d s = Ok m -> ob m = ob d) /\ (forall x y t m, p_lerp F x y t = Ok m -> ob m = ob (cf_default F)) /\
  (forall c, ob (p_from_channel F c) = ob (cf_default F)).
Proof.
  clear Fa. intros H. split; [|split].
  - intros mix d s m E. unfold p_mix_frames in E. destruct (mix_zip mix (cf_mut F d) (cf_channels F s)); try discriminate. injection E as <-. apply H.
  - intros x y t m E. unfold p_lerp in E. destruct (lerp_zip (cf_mut F (cf_default F)) (cf_channels F x) (cf_channels F y) (cf_channels F t)); try discriminate. injection E as <-. apply H.
  - intros c. apply H.
Qed.
(** The crate's operators on frames with as many channels. *)
Lemma mix_zip_src (dst : list (chan k)) : forall src, length src = length dst -> mix_zip (fun _ s => Ok s) dst src = Ok src.
Proof. induction dst as [|d dst IH]; intros [|s src] H; try discriminate; [reflexivity|]. cbn [mix_zip bind]. rewrite IH by (cbn in H; lia). reflexivity. Qed.
Lemma mix_zip_dest (dst : list (chan k)) : forall src, mix_zip (fun d _ => Ok d) dst src = Ok dst.
Proof. induction dst as [|d dst IH]; intros [|s src]; try reflexivity. cbn [mix_zip bind]. now rewrite IH. Qed.
Lemma mix_zip_clear (c : chan k) dst : forall src, length src = length dst -> mix_zip (fun _ _ => Ok c) dst src = Ok (repeat c (length dst)).
Proof. induction dst as [|d dst IH]; intros [|s src] H; try discriminate; [reflexivity|]. cbn [mix_zip bind]. rewrite IH by (cbn in H; lia). reflexivity. Qed.
Lemma ops_src d s : length (cf_channels F s) = length (cf_channels F d) ->
  exists m, p_mix_frames F (mix Src) d s = Ok m /\ cf_channels F m = cf_channels F s.
Proof.
  intros H. exists (cf_put F d (cf_channels F s)). split; [|now apply (read_back F Fa)].
  unfold p_mix_frames. rewrite (same_channels F Fa). change (@mix Src k) with (fun _ s : chan k => Ok s). now rewrite mix_zip_src.
Qed.
Lemma ops_dest d s : p_mix_frames F (mix Dest) d s = Ok d.
Proof.
  unfold p_mix_frames. rewrite (same_channels F Fa). change (@mix Dest k) with (fun d _ : chan k => Ok d). rewrite mix_zip_dest. cbn [bind].
  now rewrite (put_same F Fa).
Qed.
Lemma ops_clear d s : length (cf_channels F s) = length (cf_channels F d) ->
  exists m, p_mix_frames F (mix Clear) d s = Ok m /\ cf_channels F m = repeat (chan_default k) (length (cf_channels F d)).
Proof.
  intros H. exists (cf_put F d (repeat (chan_default k) (length (cf_channels F d)))). split; [|apply (read_back F Fa); apply repeat_length].
  unfold p_mix_frames. rewrite (same_channels F Fa). change (@mix Clear k) with (fun _ _ : chan k => Ok (chan_default k)). now rewrite mix_zip_clear.
Qed.
End F.

(** The crate's frame types. *)
Lemma vof_vlist {A} n : forall v : vec A n, vof_list n (vlist v) = Ok v.
Proof. induction n as [|n IH]; [now intros []|]. intros [x v]. cbn [vlist vof_list fst snd]. rewrite IH. reflexivity. Qed.
Lemma vlist_vof {A} n : forall (l : list A), length l = n -> exists v, vof_list n l = Ok v /\ vlist v = l.
Proof.
  induction n as [|n IH]; intros [|x l] H; try discriminate; [now exists tt|]. destruct (IH l ltac:(cbn in H; lia)) as (v & E1 & E2).
  exists (x, v). cbn [vof_list]. rewrite E1. cbn [bind vlist fst snd]. split; [reflexivity|]. now rewrite E2.
Qed.
Lemma crate_faithful l k : faithful (crate_frame l k).
Proof.
  split; cbn [cf cf_mut cf_channels cf_put crate_frame].
  - reflexivity.
  - intros x cs H. unfold channels in *. rewrite vlist_length in H. destruct (vlist_vof (nchan l) cs H) as (v & E1 & E2). rewrite E1. exact E2.
  - intros x. unfold channels. now rewrite vof_vlist.
Qed.
Lemma crate_put l k (x v : frame l k) : cf_put (crate_frame l k) x (vlist v) = v.
Proof. cbn [cf_put crate_frame]. now rewrite vof_vlist. Qed.
Lemma vlerp_zip {k} n : forall o a b c : vec (chan k) n, lerp_zip (vlist o) (vlist a) (vlist b) (vlist c) = (r <- vlerp a b c ;; Ok (vlist r)).
Proof.
  induction n as [|n IH]; [reflexivity|]. intros [xo o] [xa a] [xb b] [xc c]. cbn [vlist lerp_zip vlerp fst snd]. rewrite IH.
  destruct (c_lerp xa xb xc); cbn [bind]; [|reflexivity|reflexivity]. destruct (vlerp a b c); reflexivity.
Qed.
Lemma vmap2M_zip {k} (f : chan k -> chan k -> res (chan k)) n : forall d s : vec (chan k) n, mix_zip f (vlist d) (vlist s) = (r <- vmap2M f d s ;; Ok (vlist r)).
Proof.
  induction n as [|n IH]; [reflexivity|]. intros [xd d] [xs s]. cbn [vlist mix_zip vmap2M fst snd]. rewrite IH.
  destruct (f xd xs); cbn [bind]; [|reflexivity|reflexivity]. destruct (vmap2M f d s); reflexivity.
Qed.
Lemma const_map {k} (c : chan k) n : forall v : vec (chan k) n, map (fun _ => c) (vlist v) = vlist (vmap2 (fun _ _ => c) v v).
Proof. induction n as [|n IH]; [reflexivity|]. intros [x v]. cbn [vlist map vmap2 fst snd]. now rewrite IH. Qed.
Lemma crate_same l k :
  (forall v, p_from_f64 (crate_frame l k) v = frame_from_f64 l k v) /\
  (forall c, p_from_channel (crate_frame l k) c = from_channel l k c) /\
  (forall f, p_from_mono (crate_frame l k) f = from_mono l k f) /\
  (forall x y t, p_lerp (crate_frame l k) x y t = frame_lerp x y t) /\
  (forall op d s, keeps_mix_frames op -> p_mix_frames (crate_frame l k) (mix op) d s = mix_frames op d s).
Proof.
  assert (C : forall c, p_from_channel (crate_frame l k) c = from_channel l k c).
  { intros c. unfold p_from_channel, from_channel. cbv zeta. change (cf_mut (crate_frame l k)) with (@channels l k). change (cf_default (crate_frame l k)) with (frame_default l k).
    unfold channels. rewrite const_map. apply crate_put. }
  split; [intros v; rewrite from_f64_channel, C; reflexivity|]. split; [exact C|]. split; [|split].
  - intros [c []]. rewrite from_mono_channel, C. reflexivity.
  - intros x y t. unfold p_lerp, frame_lerp. cbv zeta. change (cf_mut (crate_frame l k)) with (@channels l k). change (cf_channels (crate_frame l k)) with (@channels l k).
    unfold channels. rewrite vlerp_zip. destruct (vlerp x y t); cbn [bind]; [|reflexivity|reflexivity]. f_equal. apply crate_put.
  - intros op d s K. unfold p_mix_frames. change (cf_mut (crate_frame l k)) with (@channels l k). change (cf_channels (crate_frame l k)) with (@channels l k).
    unfold channels. rewrite vmap2M_zip.
    assert (E : mix_frames op d s = vmap2M (mix op) d s) by (destruct op; try contradiction; reflexivity). rewrite E.
    destruct (vmap2M (mix op) d s); cbn [bind]; [|reflexivity|reflexivity]. f_equal. apply crate_put.
Qed.

(** ** Adaptors *)
Section Take.
Context {X : Type} (M : stream_type X).
Lemma after_end {Y} (K : stream_type Y) n : forall s, after K (S n) s = fst (so_next K (after K n s)).
Proof. induction n as [|n IH]; [reflexivity|]. intros s. exact (IH (fst (so_next K s))). Qed.
Lemma take_after n i : forall s, after (g_take M) i (s, n) = (after M (Nat.min i (N.to_nat n)) s, (n - N.of_nat i)%N).
Proof.
  revert n. induction i as [|i IH]; intros n s; [cbn; now rewrite N.sub_0_r|].
  cbn [after g_take so_next fst snd]. destruct (N.eqb_spec n 0) as [->|N0]; cbn [fst].
  - specialize (IH 0%N s). rewrite IH. cbn. now rewrite Nat.min_0_r.
  - specialize (IH (N.pred n) (fst (so_next M s))). destruct (so_next M s) as [s' o] eqn:E. cbn [fst] in *. rewrite IH.
    replace (Nat.min (S i) (N.to_nat n)) with (S (Nat.min i (N.to_nat (N.pred n)))) by lia. cbn [after]. rewrite E. f_equal. lia.
Qed.
Lemma take_item n s i : item (g_take M) (s, n) i = if (N.of_nat i <? n)%N then item M s i else Ok None.
Proof.
  unfold item. rewrite take_after. cbn [g_take so_next fst snd].
  destruct (N.ltb_spec (N.of_nat i) n) as [L|L].
  - destruct (N.eqb_spec (n - N.of_nat i) 0) as [E|_]; [lia|]. rewrite Nat.min_l by lia. now destruct (so_next M (after M i s)).
  - destruct (N.eqb_spec (n - N.of_nat i) 0) as [_|E]; [reflexivity|lia].
Qed.
End Take.
Section Blend.
Context {X Y : Type} (A : stream_type X) (B : stream_type Y) (conv : Y -> res X) (mixf : X -> X -> res X).
Notation Bl := (g_blend A B conv mixf).
Lemma blend_step a b x : snd (so_next A a) = Ok (Some x) -> fst (so_next Bl (a, b)) = (fst (so_next A a), fst (so_next B b)).
Proof.
  intros H. cbn [g_blend so_next fst snd]. destruct (so_next A a) as [a' oa]. cbn [snd] in H. subst oa. cbn [run].
  destruct (so_next B b) as [b' ob]. destruct ob as [[y|]|p|]; cbn [run]; try reflexivity.
  destruct (conv y) as [z|p|]; cbn [run]; try reflexivity. destruct (mixf x z); reflexivity.
Qed.
Lemma blend_after n : forall a b, (forall i, (i < n)%nat -> exists x, item A a i = Ok (Some x)) -> after Bl n (a, b) = (after A n a, after B n b).
Proof.
  induction n as [|n IH]; intros a b H; [reflexivity|]. cbn [after]. destruct (H 0%nat ltac:(lia)) as (x & Hx).
  rewrite (blend_step a b x Hx). apply IH. intros i Hi. destruct (H (S i) ltac:(lia)) as (z & Hz). exists z. exact Hz.
Qed.
Lemma blend_item n a b : (forall i, (i < n)%nat -> exists x, item A a i = Ok (Some x)) ->
  item Bl (a, b) n = (oa <- item A a n ;;
    match oa with
    | None => Ok None
    | Some x => ob <- item B b n ;; match ob with None => Ok None | Some y => z <- conv y ;; m <- mixf x z ;; Ok (Some m) end
    end).
Proof.
  intros H. unfold item. rewrite (blend_after n a b H). cbn [g_blend so_next fst snd].
  destruct (so_next A (after A n a)) as [a' oa]. destruct oa as [[x|]|p|]; cbn [run bind snd]; try reflexivity.
  destruct (so_next B (after B n b)) as [b' ob]. destruct ob as [[y|]|p|]; cbn [run bind snd]; try reflexivity.
  destruct (conv y) as [z|p|]; cbn [run bind snd]; try reflexivity. destruct (mixf x z); reflexivity.
Qed.
(** Where the first stream ends or panics, the second is left alone. *)
Lemma blend_left n a b : (forall i, (i < n)%nat -> exists x, item A a i = Ok (Some x)) -> (forall x, item A a n <> Ok (Some x)) ->
  after Bl (S n) (a, b) = (after A (S n) a, after B n b).
Proof.
  intros H E. rewrite after_end, (blend_after n a b H), after_end. cbn [g_blend so_next fst snd]. unfold item in E.
  destruct (so_next A (after A n a)) as [a' oa]. cbn [fst snd] in *. destruct oa as [[x|]|p|]; cbn [run]; try reflexivity. now contradiction (E x).
Qed.
Lemma blend_rates a b :
  match so_rate A a, so_rate B b with
  | Some x, Some y => g_blend_new A B a b = ((a, b), if feq x y then Ok tt else Panic AssertFailed)
  | None, Some y => g_blend_new A B a b = ((fst (so_set_rate A a y), b), snd (so_set_rate A a y))
  | Some x, None => g_blend_new A B a b = ((a, fst (so_set_rate B b x)), snd (so_set_rate B b x))
  | None, None => g_blend_new A B a b = ((a, b), Ok tt)
  end.
Proof.
  unfold g_blend_new. destruct (so_rate A a) as [x|], (so_rate B b) as [y|]; cbn [opt_feq negb].
  - destruct (feq x y); reflexivity.
  - destruct (so_set_rate B b x); reflexivity.
  - destruct (so_set_rate A a y); reflexivity.
  - reflexivity.
Qed.
End Blend.
(** The adaptors of Stream.v are these. *)
Lemma std_take_after l k i : forall (s : stream l k) n, after (std_stream l k) i (STake s n) =
  let '(s', m) := after (g_take (std_stream l k)) i (s, n) in STake s' m.
Proof.
  induction i as [|i IH]; intros s n; [reflexivity|]. cbn [after std_stream so_next next_st g_take fst snd].
  destruct (N.eqb n 0); [apply IH|]. destruct (next_st s) as [s' o]. cbn [fst]. apply IH.
Qed.
Lemma std_take l k (s : stream l k) n i : item (std_stream l k) (STake s n) i = item (g_take (std_stream l k)) (s, n) i.
Proof.
  unfold item. rewrite std_take_after. destruct (after (g_take (std_stream l k)) i (s, n)) as [s' m]. cbn [std_stream so_next next_st g_take fst snd].
  destruct (N.eqb m 0); [reflexivity|]. now destruct (next_st s').
Qed.
Lemma std_blend_next l k l' k' (a : stream l k) (b : stream l' k') op : next_st (SBlend a b op) =
  (let '(a', b') := fst (so_next (g_blend (std_stream l k) (std_stream l' k') (@convert l' k' l k) (mix_frames op)) (a, b)) in SBlend a' b' op,
   snd (so_next (g_blend (std_stream l k) (std_stream l' k') (@convert l' k' l k) (mix_frames op)) (a, b))).
Proof.
  cbn [next_st g_blend std_stream so_next fst snd]. destruct (next_st a) as [a' oa]. destruct oa as [[x|]|p|]; cbn [run fst snd]; try reflexivity.
  destruct (next_st b) as [b' ob]. destruct ob as [[y|]|p|]; cbn [run fst snd]; try reflexivity.
  destruct (convert l k y) as [z|p|]; cbn [run fst snd]; try reflexivity. destruct (mix_frames op x z); reflexivity.
Qed.
Lemma std_blend_after l k l' k' op i : forall (a : stream l k) (b : stream l' k'), after (std_stream l k) i (SBlend a b op) =
  let '(a', b') := after (g_blend (std_stream l k) (std_stream l' k') (@convert l' k' l k) (mix_frames op)) i (a, b) in SBlend a' b' op.
Proof.
  induction i as [|i IH]; intros a b; [reflexivity|]. cbn [after]. change (so_next (std_stream l k) (SBlend a b op)) with (next_st (SBlend a b op)).
  rewrite std_blend_next. cbn [fst]. destruct (fst (so_next (g_blend (std_stream l k) (std_stream l' k') (@convert l' k' l k) (mix_frames op)) (a, b))) as [a' b']. apply IH.
Qed.
Lemma std_blend l k l' k' (a : stream l k) (b : stream l' k') op i :
  item (std_stream l k) (SBlend a b op) i = item (g_blend (std_stream l k) (std_stream l' k') (@convert l' k' l k) (mix_frames op)) (a, b) i.
Proof.
  unfold item. rewrite std_blend_after. destruct (after (g_blend (std_stream l k) (std_stream l' k') (@convert l' k' l k) (mix_frames op)) i (a, b)) as [a' b']. change (so_next (std_stream l k) (SBlend a' b' op)) with (next_st (SBlend a' b' op)).
  now rewrite std_blend_next.
Qed.
(** With the provided [convert] nothing but the crate's types can be blended. *)
Lemma blend_foreign a b (A : stream_type (fr (impl a))) (B : stream_type (fr (impl b))) mixf s t x y n : foreign b a ->
  (forall i, (i < n)%nat -> exists x, item A s i = Ok (Some x)) -> item A s n = Ok (Some x) -> item B t n = Ok (Some y) ->
  item (g_blend A B (convert_any b a) mixf) (s, t) n = Panic ExplicitPanic.
Proof.
  intros Fo H Ex Ey. rewrite (blend_item A B (convert_any b a) mixf n s t H), Ex. cbn [bind]. rewrite Ey. cbn [bind].
  destruct Fo as [[T ->]|[T ->]]; [reflexivity|]. destruct b; reflexivity.
Qed.

Lemma take_len {X} (M : stream_type X) s n : true_len M s -> true_len (g_take M) (s, n).
Proof.
  unfold true_len. cbn [g_take so_len fst snd]. intros H. change (so_len (g_take M) (s, n)) with (Some (match so_len M s with Some a => N.min a n | None => n end)).
  cbn [so_len g_take fst snd]. destruct (so_len M s) as [a|]; split.
  - intros i Hi. rewrite take_item, (proj2 (N.ltb_lt _ _)) by lia. apply H. lia.
  - rewrite take_item, N2Nat.id. destruct (N.ltb_spec (N.min a n) n) as [L|L]; [|reflexivity]. replace (N.min a n) with a by lia. apply H.
  - intros i Hi. rewrite take_item, (proj2 (N.ltb_lt _ _)) by lia. apply H.
  - rewrite take_item, N2Nat.id, N.ltb_irrefl. reflexivity.
Qed.
Lemma blend_len {X Y} (A : stream_type X) (B : stream_type Y) conv mixf a b :
  (forall y, exists z, conv y = Ok z) -> (forall x z, exists m, mixf x z = Ok m) -> true_len A a -> true_len B b -> true_len (g_blend A B conv mixf) (a, b).
Proof.
  intros Cv Mx HA HB.
  assert (Both : forall n, (forall i, (i <= n)%nat -> exists x, item A a i = Ok (Some x)) -> (exists y, item B b n = Ok (Some y)) ->
    exists m, item (g_blend A B conv mixf) (a, b) n = Ok (Some m)).
  { intros n Ha (y & Hy). rewrite blend_item by (intros i Hi; apply Ha; lia). destruct (Ha n (le_n n)) as (x & ->). cbn [bind]. rewrite Hy. cbn [bind].
    destruct (Cv y) as (z & ->). cbn [bind]. destruct (Mx x z) as (m & ->). now exists m. }
  assert (EndA : forall n, (forall i, (i < n)%nat -> exists x, item A a i = Ok (Some x)) -> item A a n = Ok None ->
    item (g_blend A B conv mixf) (a, b) n = Ok None). { intros n Ha E. rewrite blend_item by exact Ha. now rewrite E. }
  assert (EndB : forall n, (forall i, (i <= n)%nat -> exists x, item A a i = Ok (Some x)) -> item B b n = Ok None ->
    item (g_blend A B conv mixf) (a, b) n = Ok None).
  { intros n Ha E. rewrite blend_item by (intros i Hi; apply Ha; lia). destruct (Ha n (le_n n)) as (x & ->). cbn [bind]. now rewrite E. }
  unfold true_len in *. change (so_len (g_blend A B conv mixf) (a, b)) with (match so_len A a, so_len B b with
     | None, None => None | None, Some n | Some n, None => Some n | Some a, Some b => Some (N.min a b) end).
  destruct (so_len A a) as [na|], (so_len B b) as [nb|].
  - destruct HA as [A1 A2], HB as [B1 B2]. split.
    + intros i Hi. apply Both; [intros j Hj; apply A1; lia|apply B1; lia].
    + destruct (N.le_gt_cases na nb) as [L|L].
      * rewrite N.min_l by exact L. apply EndA; [intros i Hi; apply A1; lia|exact A2].
      * rewrite N.min_r by lia. apply EndB; [intros i Hi; apply A1; lia|exact B2].
  - destruct HA as [A1 A2]. split; [intros i Hi; apply Both; [intros j Hj; apply A1; lia|apply HB]|]. apply EndA; [intros i Hi; apply A1; lia|exact A2].
  - destruct HB as [B1 B2]. split; [intros i Hi; apply Both; [intros j Hj; apply HA|apply B1; lia]|]. apply EndB; [intros i Hi; apply HA|exact B2].
  - intros i. apply Both; [intros j Hj; apply HA|apply HB].
Qed.
Lemma std_take_info l k (s : stream l k) n : sample_rate (STake s n) = so_rate (g_take (std_stream l k)) (s, n) /\
  slen (STake s n) = so_len (g_take (std_stream l k)) (s, n) /\
  (forall sr, set_rate_st (STake s n) sr = (let '(s', m) := fst (so_set_rate (g_take (std_stream l k)) (s, n) sr) in STake s' m, snd (so_set_rate (g_take (std_stream l k)) (s, n) sr))).
Proof.
  split; [reflexivity|]. split; [reflexivity|]. intros sr. cbn [set_rate_st g_take std_stream so_set_rate fst snd]. now destruct (set_rate_st s sr).
Qed.
Lemma std_blend_info l k l' k' (a : stream l k) (b : stream l' k') op : let B := g_blend (std_stream l k) (std_stream l' k') (@convert l' k' l k) (mix_frames op) in
  sample_rate (SBlend a b op) = so_rate B (a, b) /\ slen (SBlend a b op) = so_len B (a, b) /\
  (forall sr, set_rate_st (SBlend a b op) sr = (let '(a', b') := fst (so_set_rate B (a, b) sr) in SBlend a' b' op, snd (so_set_rate B (a, b) sr))).
Proof.
  split; [reflexivity|]. split; [cbn [slen so_len g_blend std_stream fst snd]; now destruct (slen a), (slen b)|]. intros sr.
  cbn [set_rate_st g_blend std_stream so_set_rate fst snd]. destruct (set_rate_st a sr) as [a' [[]|p|]]; cbn [run fst snd]; try reflexivity. now destruct (set_rate_st b sr).
Qed.
