(** * SmoothProofs.v -- proofs for C99 *)
From Coq Require Import ZArith NArith Reals Bool List Lia Lra.
From Flocq Require Import Core.Core IEEE754.BinarySingleNaN.
From Verif Require Import Rust Float Chan Frame Ops Stream Audio SpecChan SpecFrame SpecStream SpecSink SpecAudio SpecMix SpecArith SpecSmooth.
From Verif Require Import FloatProofs FArithProofs FChanProofs IntProofs FrameProofs CopyProofs MixedProofs FadeProofs MixProofs ArithProofs.
Import ListNotations.
Open Scope R_scope.

Lemma distance_pos k (a b : chan k) : 0 <= distance a b. Proof. apply Rabs_pos. Qed.
Lemma clampZ_lip lo hi x y : (lo <= hi)%Z -> (Z.abs (clampZ lo hi x - clampZ lo hi y) <= Z.abs (x - y))%Z.
Proof. unfold clampZ. intros. destruct (x <? lo)%Z eqn:A, (y <? lo)%Z eqn:B, (hi <? x)%Z eqn:C, (hi <? y)%Z eqn:D; lia. Qed.
Lemma distance_int k (a b : chan k) : is_int k -> distance a b = 2 * IZR (Z.abs (code a - code b)) / IZR (full k).
Proof.
  intros I. unfold distance. rewrite !amp_int by exact I. pose proof (full_pos k) as P. apply IZR_lt in P.
  replace (IZR (2 * code a + 1) / IZR (full k) - IZR (2 * code b + 1) / IZR (full k)) with (IZR (code a - code b) * (2 / IZR (full k))).
  - rewrite Rabs_mult, <- abs_IZR, (Rabs_pos_eq (2 / _)) by (apply Rlt_le, Rdiv_lt_0_compat; lra). field. lra.
  - rewrite minus_IZR, !plus_IZR, !mult_IZR. field. lra.
Qed.
Lemma scaled k (x y z : Z) : (x <= y + z)%Z -> 2 * IZR x / IZR (full k) <= 2 * IZR y / IZR (full k) + 2 * IZR z / IZR (full k).
Proof.
  intros H. apply IZR_le in H. rewrite plus_IZR in H. pose proof (full_pos k) as P. apply IZR_lt in P.
  assert (0 < / IZR (full k)) by (apply Rinv_0_lt_compat; lra). unfold Rdiv. nra.
Qed.
Lemma sum_slack_float k : is_float k -> sum_slack k = 2 * sum_error k. Proof. intros [-> | ->]; reflexivity. Qed.
Lemma sum_slack_pos k : 0 <= sum_slack k.
Proof. destruct k; cbn [sum_slack sum_error]; try lra; pose proof (bpow_ge_0 radix2 (-24)); pose proof (bpow_ge_0 radix2 (-53)); lra. Qed.
Lemma smooth_add k (a a' b b' : chan k) : valid a -> valid a' -> valid b -> valid b' ->
  distance (c_add a b) (c_add a' b') <= distance a a' + distance b b' + sum_slack k.
Proof.
  intros A A' B B'. destruct (kind_cases k) as [I|F].
  - rewrite !distance_int, !add_code by exact I. pose proof (sum_slack_pos k).
    pose proof (clampZ_lip (- imax k - 1) (imax k) (code a + code b) (code a' + code b') ltac:(pose proof (imax_pos k); lia)) as L.
    pose proof (scaled k _ (Z.abs (code a - code a')) (Z.abs (code b - code b')) ltac:(etransitivity; [exact L|lia])). lra.
  - rewrite sum_slack_float by exact F. unfold distance. pose proof (add_amp k a b A B) as E. pose proof (near_sym _ _ _ (add_amp k a' b' A' B')) as E'.
    assert (L : Rabs (clampR (amplitude a + amplitude b) - clampR (amplitude a' + amplitude b')) <= Rabs (amplitude a - amplitude a') + Rabs (amplitude b - amplitude b')).
    { apply clampR_lip. replace (_ - _) with ((amplitude a - amplitude a') + (amplitude b - amplitude b')) by ring. apply Rabs_triang. }
    pose proof (near _ _ _ _ _ (near _ _ _ _ _ E L) E'). lra.
Qed.
Lemma smooth_sub k (a a' b b' : chan k) : valid a -> valid a' -> valid b -> valid b' ->
  distance (c_sub a b) (c_sub a' b') <= distance a a' + distance b b' + sum_slack k.
Proof.
  intros A A' B B'. destruct (kind_cases k) as [I|F].
  - rewrite !distance_int, !sub_code by exact I. pose proof (sum_slack_pos k).
    pose proof (clampZ_lip (- imax k - 1) (imax k) (code a - code b) (code a' - code b') ltac:(pose proof (imax_pos k); lia)) as L.
    pose proof (scaled k _ (Z.abs (code a - code a')) (Z.abs (code b - code b')) ltac:(etransitivity; [exact L|lia])). lra.
  - rewrite sum_slack_float by exact F. unfold distance. pose proof (sub_amp k a b A B) as E. pose proof (near_sym _ _ _ (sub_amp k a' b' A' B')) as E'.
    assert (L : Rabs (clampR (amplitude a - amplitude b) - clampR (amplitude a' - amplitude b')) <= Rabs (amplitude a - amplitude a') + Rabs (amplitude b - amplitude b')).
    { apply clampR_lip. replace (_ - _) with ((amplitude a - amplitude a') + - (amplitude b - amplitude b')) by ring. rewrite <- (Rabs_Ropp (amplitude b - amplitude b')). apply Rabs_triang. }
    pose proof (near _ _ _ _ _ (near _ _ _ _ _ E L) E'). lra.
Qed.
Lemma smooth_mul k (a a' b b' : chan k) : valid a -> valid a' -> valid b -> valid b' -> exists c c',
  c_mul a b = Ok c /\ c_mul a' b' = Ok c' /\ distance c c' <= distance a a' + distance b b' + 2 * product_error k.
Proof.
  intros A A' B B'. destruct (mul_amp k a b A B) as (c & E & _ & M). destruct (mul_amp k a' b' A' B') as (c' & E' & _ & M').
  exists c, c'. split; [exact E|]. split; [exact E'|]. unfold distance.
  assert (L : Rabs (amplitude a * amplitude b - amplitude a' * amplitude b') <= Rabs (amplitude a - amplitude a') + Rabs (amplitude b - amplitude b')).
  { replace (_ - _) with ((amplitude a - amplitude a') * amplitude b + amplitude a' * (amplitude b - amplitude b')) by ring.
    apply Rle_trans with (1 := Rabs_triang _ _). rewrite !Rabs_mult. pose proof (amp_range _ _ B) as Rb. pose proof (amp_range _ _ A') as Ra.
    assert (Rabs (amplitude b) <= 1) by (apply Rabs_le; lra). assert (Rabs (amplitude a') <= 1) by (apply Rabs_le; lra).
    pose proof (Rabs_pos (amplitude a - amplitude a')). pose proof (Rabs_pos (amplitude b - amplitude b')). nra. }
  pose proof (near _ _ _ _ _ (near _ _ _ _ _ M L) (near_sym _ _ _ M')). lra.
Qed.
Lemma smooth_neg k (a a' : chan k) : exists c c', c_neg a = Ok c /\ c_neg a' = Ok c' /\ distance c c' = distance a a'.
Proof.
  destruct (neg_amp k a) as (c & E & M & _). destruct (neg_amp k a') as (c' & E' & M' & _). exists c, c'. split; [exact E|]. split; [exact E'|].
  unfold distance. rewrite M, M'. replace (- amplitude a - - amplitude a') with (- (amplitude a - amplitude a')) by ring. apply Rabs_Ropp.
Qed.
Lemma smooth_kind w k k2 (a a' : chan k) : valid a -> valid a' ->
  distance (to_kind w k2 a) (to_kind w k2 a') <= distance a a' + 2 * conversion_error k k2.
Proof.
  intros A A'. destruct (kind_amp w k k2 a A) as [_ E]. destruct (kind_amp w k k2 a' A') as [_ E']. unfold distance.
  pose proof (near _ _ _ _ _ (near _ _ _ _ _ E (Rle_refl _)) (near_sym _ _ _ E')). lra.
Qed.
Lemma mul_is_valid k (a b : chan k) : valid a -> valid b -> exists c, c_mul a b = Ok c /\ valid c.
Proof. intros A B. destruct (mul_amp k a b A B) as (c & E & V & _). eauto. Qed.

(** ** Frames *)
Lemma smooth_mix l k op (f f' g g' : frame l k) e d : op = Src \/ op = Dest \/ op = Clear \/ op = Plus \/ op = Amplify ->
  0 <= e -> 0 <= d -> close e f f' -> close d g g' ->
  exists h h', mix_frames op f g = Ok h /\ mix_frames op f' g' = Ok h' /\ close (e + d + mix_slack op k) h h'.
Proof.
  intros Hop E D. assert (M0 : 0 <= mix_slack op k).
  { destruct op; cbn [mix_slack]; try lra; [|apply sum_slack_pos]. destruct k; cbn [product_error]; try lra; pose proof (bpow_ge_0 radix2 (-25)); pose proof (bpow_ge_0 radix2 (-54)); lra. }
  assert (C : forall a a' b b' : chan k, valid a /\ valid a' /\ distance a a' <= e -> valid b /\ valid b' /\ distance b b' <= d ->
    exists c c', mix op a b = Ok c /\ mix op a' b' = Ok c' /\ valid c /\ valid c' /\ distance c c' <= e + d + mix_slack op k).
  { intros a a' b b' (Va & Va' & Da) (Vb & Vb' & Db). destruct Hop as [-> | [-> | [-> | [-> | ->]]]]; cbn [mix mix_slack] in *.
    - exists b, b'. repeat split; auto; lra.
    - exists a, a'. repeat split; auto; lra.
    - exists (chan_default k), (chan_default k). pose proof (default_valid k) as V. repeat split; auto. unfold distance. rewrite Rminus_diag_eq, Rabs_R0 by reflexivity. lra.
    - exists (c_add b a), (c_add b' a'). repeat split; auto; try apply add_valid. pose proof (smooth_add k b b' a a' Vb Vb' Va Va'). lra.
    - destruct (smooth_mul k b b' a a' Vb Vb' Va Va') as (c & c' & X & X' & L). exists c, c'.
      destruct (mul_is_valid k b a Vb Va) as (u & U & Vu). destruct (mul_is_valid k b' a' Vb' Va') as (u' & U' & Vu'). rewrite U in X. rewrite U' in X'. injection X as <-. injection X' as <-.
      repeat split; auto. lra. }
  assert (P : mix_frames op f g = vmap2M (mix op) f g /\ mix_frames op f' g' = vmap2M (mix op) f' g') by (destruct Hop as [-> | [-> | [-> | [-> | ->]]]]; split; reflexivity).
  destruct P as [-> ->]. unfold close, channels. unfold frame in *. clear Hop. generalize dependent (nchan l). intros n f f' g g'.
  revert f f' g g'. induction n as [|n IH]; intros f f' g g' Hf Hg; [exists tt, tt; repeat split; constructor|].
  destruct f as [a f], f' as [a' f'], g as [b g], g' as [b' g']. cbn [vlist fst snd] in Hf, Hg.
  inversion Hf as [|? ? ? ? Ha Hf']; subst. inversion Hg as [|? ? ? ? Hb Hg']; subst.
  destruct (C a a' b b' Ha Hb) as (c & c' & X & X' & V). destruct (IH f f' g g' Hf' Hg') as (h & h' & Y & Y' & W).
  exists (c, h), (c', h'). cbn [vmap2M fst snd]. rewrite X, X', Y, Y'. cbn [bind]. split; [reflexivity|]. split; [reflexivity|]. cbn [vlist fst snd]. constructor; [exact V|exact W].
Qed.
(** One channel through [f64]. *)
Lemma via_f64 k (a : chan k) : valid a -> in_range (to_f64 a) /\ Rabs (B2R (to_f64 a) - amplitude a) <= conversion_error k K64.
Proof. intros V. split; [apply to_f64_range; exact V|]. exact (proj2 (kind_amp ByFrame k K64 a V)). Qed.
Lemma from_f64_amp k2 (x : f64) : in_range x -> valid (from_f64 k2 x) /\ Rabs (amplitude (from_f64 k2 x) - B2R x) <= conversion_error K64 k2.
Proof. intros V. exact (kind_amp ByFrame K64 k2 (x : chan K64) V). Qed.
Lemma slack_pos k k2 : 0 <= convert_slack k k2 /\ 0 <= conversion_error k K64 /\ 0 <= conversion_error K64 k2.
Proof.
  assert (P : 0 <= conversion_error k K64 /\ 0 <= conversion_error K64 k2).
  { pose proof (bpow_ge_0 radix2 (-53)). pose proof (bpow_ge_0 radix2 (-25)). pose proof (bpow_ge_0 radix2 (-8)). split; [destruct k|destruct k2]; cbn [conversion_error]; lra. }
  unfold convert_slack. pose proof (bpow_ge_0 radix2 (-53)). lra.
Qed.
Lemma smooth_source l k k2 (f g : frame l k) src (c d : chan k2) e : 0 <= e -> close e f g -> from_source f src c -> from_source g src d ->
  valid c /\ valid d /\ distance c d <= e + convert_slack k k2.
Proof.
  intros E H Hc Hd. destruct (slack_pos k k2) as (S0 & S1 & S2). pose proof (bpow_ge_0 radix2 (-53)) as B53.
  assert (N : forall i a b, nth_error (channels f) i = Some a -> nth_error (channels g) i = Some b -> valid a /\ valid b /\ distance a b <= e).
  { unfold close in H. revert H. generalize (channels f) (channels g). intros u w F. induction F as [|x y u w P F IH]; intros [|i] a b Ha Hb; cbn in Ha, Hb; try discriminate.
    - injection Ha as <-. injection Hb as <-. exact P.
    - exact (IH i a b Ha Hb). }
  assert (K : forall x y : f64, in_range x -> in_range y -> valid (from_f64 k2 x) /\ valid (from_f64 k2 y) /\
    distance (from_f64 k2 x) (from_f64 k2 y) <= Rabs (B2R x - B2R y) + 2 * conversion_error K64 k2).
  { intros x y Hx Hy. destruct (from_f64_amp k2 x Hx) as [Vx Ex]. destruct (from_f64_amp k2 y Hy) as [Vy Ey]. split; [exact Vx|]. split; [exact Vy|].
    unfold distance. pose proof (near _ _ _ _ _ (near _ _ _ _ _ Ex (Rle_refl _)) (near_sym _ _ _ Ey)). lra. }
  unfold convert_slack. destruct src as [|i|i j]; cbn [from_source] in Hc, Hd.
  - subst. assert (V : valid (MID k2)) by exact (default_valid k2). repeat split; auto. unfold distance. rewrite Rminus_diag_eq, Rabs_R0 by reflexivity. lra.
  - destruct Hc as (a & Ha & ->). destruct Hd as (b & Hb & ->). destruct (N i a b Ha Hb) as (Va & Vb & D).
    destruct (via_f64 k a Va) as [Ra Ea]. destruct (via_f64 k b Vb) as [Rb Eb]. destruct (K _ _ Ra Rb) as (V1 & V2 & L). split; [exact V1|]. split; [exact V2|].
    pose proof (near _ _ _ _ _ (near _ _ _ _ _ Ea D) (near_sym _ _ _ Eb)). lra.
  - destruct Hc as (a & a2 & Ha & Ha2 & ->). destruct Hd as (b & b2 & Hb & Hb2 & ->).
    destruct (N i a b Ha Hb) as (Va & Vb & D). destruct (N j a2 b2 Ha2 Hb2) as (Va2 & Vb2 & D2).
    destruct (via_f64 k a Va) as [Ra Ea]. destruct (via_f64 k b Vb) as [Rb Eb]. destruct (via_f64 k a2 Va2) as [Ra2 Ea2]. destruct (via_f64 k b2 Vb2) as [Rb2 Eb2].
    destruct (avg_correct _ _ Ra Ra2) as [Rm Em]. destruct (avg_correct _ _ Rb Rb2) as [Rn En].
    destruct (K _ _ Rm Rn) as (V1 & V2 & L). split; [exact V1|]. split; [exact V2|].
    assert (Q : forall x : Rdefinitions.R, Rabs x <= 2 -> Rabs (round64 x - x) <= bpow radix2 (-53)) by exact (fun x Hx => float_sum_error K64 x (or_intror eq_refl) Hx).
    assert (Q1 := Q ((B2R (to_f64 a) + B2R (to_f64 a2)) / 2) ltac:(destruct Ra as [_ Ra], Ra2 as [_ Ra2]; apply Rabs_le; lra)).
    assert (Q2 := Q ((B2R (to_f64 b) + B2R (to_f64 b2)) / 2) ltac:(destruct Rb as [_ Rb], Rb2 as [_ Rb2]; apply Rabs_le; lra)).
    rewrite <- Em in Q1. rewrite <- En in Q2.
    pose proof (near _ _ _ _ _ (near _ _ _ _ _ Ea D) (near_sym _ _ _ Eb)) as X1. pose proof (near _ _ _ _ _ (near _ _ _ _ _ Ea2 D2) (near_sym _ _ _ Eb2)) as X2.
    assert (X3 : Rabs ((B2R (to_f64 a) + B2R (to_f64 a2)) / 2 - (B2R (to_f64 b) + B2R (to_f64 b2)) / 2) <= conversion_error k K64 + e + conversion_error k K64).
    { apply Rabs_le_inv in X1, X2. apply Rabs_le. lra. }
    pose proof (near _ _ _ _ _ (near _ _ _ _ _ Q1 X3) (near_sym _ _ _ Q2)). lra.
Qed.
Lemma smooth_convert l k l2 k2 (f g : frame l k) e : 0 <= e -> close e f g ->
  exists f2 g2, convert l2 k2 f = Ok f2 /\ convert l2 k2 g = Ok g2 /\ close (e + convert_slack k k2) f2 g2.
Proof.
  intros E H. destruct (convert_map l k l2 k2 f) as (f2 & Hf & Mf). destruct (convert_map l k l2 k2 g) as (g2 & Hg & Mg).
  exists f2, g2. split; [exact Hf|]. split; [exact Hg|]. unfold close. revert Mf Mg. generalize (channel_map l l2) (channels f2) (channels g2). clear Hf Hg.
  intros m cs ds Mf. revert ds. induction Mf as [|x c m cs Hx Mf IH]; intros ds Mg; inversion Mg as [|? d ? ? Hy Mg']; subst; [constructor|].
  constructor; [exact (smooth_source l k k2 f g x c d e E H Hx Hy)|apply IH; exact Mg'].
Qed.

(** ** Tracks *)
Lemma smooth_sum k (cs ds : list (chan k)) : Forall valid cs -> Forall valid ds -> length cs = length ds -> forall x y : chan k, valid x -> valid y ->
  distance (sum_up x cs) (sum_up y ds) <= distance x y + distances cs ds + INR (length cs) * sum_slack k.
Proof.
  intros Vc. revert ds. induction Vc as [|c cs Vc Vcs IH]; intros [|d ds] Vd L x y Vx Vy; try discriminate.
  - cbn. lra.
  - inversion Vd as [|? ? Wd Wds]; subst. cbn [sum_up fold_left distances length]. rewrite S_INR.
    pose proof (IH ds Wds ltac:(cbn in L; lia) (c_add x c) (c_add y d) (add_valid _ _ _) (add_valid _ _ _)) as K. unfold sum_up in K.
    pose proof (smooth_add k x y c d Vx Vy Vc Wd). pose proof (sum_slack_pos k). lra.
Qed.
Lemma smooth_mixdown l k (a a' : stream l k) bs bs' t t' n j c c' : length bs = length bs' -> mixdown a bs = Ok t -> mixdown a' bs' = Ok t' ->
  given t n j c -> given t' n j c' ->
  exists cs ds, together (a :: bs) n j cs /\ together (a' :: bs') n j ds /\
    (Forall valid cs -> Forall valid ds -> distance c c' <= distances cs ds + INR (length bs) * sum_slack k).
Proof.
  intros L H H' G G'. apply (mixdown_given l k a bs t n j c H) in G as (x & xs & T & ->). apply (mixdown_given l k a' bs' t' n j c' H') in G' as (y & ys & T' & ->).
  exists (x :: xs), (y :: ys). split; [exact T|]. split; [exact T'|]. intros V V'. inversion V; inversion V'; subst.
  pose proof (F2_length _ _ _ _ _ T) as E. pose proof (F2_length _ _ _ _ _ T') as E'. cbn in E, E'. cbn [distances]. replace (length bs) with (length xs) by lia.
  apply smooth_sum; auto. lia.
Qed.

(** ** Interpolation *)
Lemma smooth_lerp k (a a' b b' t t' : chan k) : valid a -> valid a' -> valid b -> valid b' -> valid t -> valid t' -> exists c c',
  c_lerp a b t = Ok c /\ c_lerp a' b' t' = Ok c' /\ valid c /\ valid c' /\ distance c c' <= 2 * distance a a' + distance b b' + distance t t' + lerp_slack k.
Proof.
  intros A A' B B' T T'. unfold c_lerp, lerp_slack.
  pose proof (sub_valid k b a) as V. pose proof (sub_valid k b' a') as V'.
  destruct (smooth_mul k t t' (c_sub b a) (c_sub b' a') T T' V V') as (p & p' & E & E' & L). rewrite E, E'. cbn [bind].
  destruct (mul_is_valid k t (c_sub b a) T V) as (u & U & Vu). destruct (mul_is_valid k t' (c_sub b' a') T' V') as (u' & U' & Vu').
  rewrite U in E. rewrite U' in E'. injection E as <-. injection E' as <-.
  exists (c_add a u), (c_add a' u'). split; [reflexivity|]. split; [reflexivity|]. split; [apply add_valid; assumption|]. split; [apply add_valid; assumption|].
  pose proof (smooth_sub k b b' a a' B B' A A'). pose proof (smooth_add k a a' u u' A A' Vu Vu'). lra.
Qed.
Lemma smooth_frame_lerp l k (f f' g g' h h' : frame l k) d e r : close d f f' -> close e g g' -> close r h h' ->
  exists u u', frame_lerp f g h = Ok u /\ frame_lerp f' g' h' = Ok u' /\ close (2 * d + e + r + lerp_slack k) u u'.
Proof.
  unfold close, channels, frame_lerp. unfold frame in *. generalize dependent (nchan l). intros n.
  induction n as [|n IH]; intros f f' g g' h h' F G H; [exists tt, tt; repeat split; constructor|].
  destruct f as [a f], f' as [a' f'], g as [b g], g' as [b' g'], h as [t h], h' as [t' h']. cbn [vlist fst snd] in F, G, H.
  inversion F as [|? ? ? ? (Va & Va' & Da) F']; subst. inversion G as [|? ? ? ? (Vb & Vb' & Db) G']; subst. inversion H as [|? ? ? ? (Vt & Vt' & Dt) H']; subst.
  destruct (smooth_lerp k a a' b b' t t' Va Va' Vb Vb' Vt Vt') as (c & c' & X & X' & Vc & Vc' & D).
  destruct (IH f f' g g' h h' F' G' H') as (u & u' & Y & Y' & W).
  exists (c, u), (c', u'). cbn [vlerp fst snd]. rewrite X, X', Y, Y'. cbn [bind]. split; [reflexivity|]. split; [reflexivity|]. cbn [vlist fst snd].
  constructor; [|exact W]. split; [exact Vc|]. split; [exact Vc'|]. lra.
Qed.
