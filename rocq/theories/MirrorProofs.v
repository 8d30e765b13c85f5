(** * MirrorProofs.v -- opposite signals stay opposite (C74) *)
From Coq Require Import ZArith NArith Reals List Bool Lia Lra.
From Flocq Require Import Core.Core IEEE754.BinarySingleNaN.
From Verif Require Import Rust Float Math Chan Frame Ops Stream Audio Unwind FloatProofs SpecChan SpecFrame SpecStream SpecSink SpecAudio SpecRel SpecRange
  IntProofs ChanProofs FChanProofs FrameProofs FArithProofs FloorProofs StreamProofs SinkProofs AudioProofs OpsProofs PlaceProofs RangeProofs RelProofs.
Import ListNotations.
Open Scope R_scope.

Lemma clampR_opp x : clampR (- x) = - clampR x.
Proof. unfold clampR. repeat match goal with |- context [Rlt_dec ?a ?b] => destruct (Rlt_dec a b) end; lra. Qed.

Section G.
  Context (prec emax : Z) {Hp : FLX.Prec_gt_0 prec} {He : Prec_lt_emax prec emax}.
  Notation fl := (binary_float prec emax).
  Notation rnd := (round_to prec emax).
  Definition opp (x y : fl) : Prop := is_finite x = true /\ is_finite y = true /\ B2R y = - B2R x.
  Lemma opp_add x x2 y y2 : opp x x2 -> opp y y2 -> opp (clampf (fadd x y)) (clampf (fadd x2 y2)).
  Proof.
    intros (F1 & F2 & E) (G1 & G2 & D). split; [apply clampf_in_range|]. split; [apply clampf_in_range|].
    rewrite !(clamp_fadd prec emax) by assumption. rewrite E, D, <- clampR_opp, <- (rnd_opp prec emax). do 2 f_equal. lra.
  Qed.
  Lemma mul_small (x w : fl) : in_range x -> is_finite w = true -> Rabs (rnd (B2R x * B2R w)) < bpow radix2 emax.
  Proof.
    intros [Fx Hx] Fw. apply Rle_lt_trans with (Rabs (B2R w)); [|apply (abs_B2R_lt_emax prec emax)].
    apply (rnd_abs_le prec emax).
    - apply generic_format_abs, (fmt_B2R prec emax).
    - rewrite Rabs_mult. assert (Rabs (B2R x) <= 1) by (apply Rabs_le; lra). pose proof (Rabs_pos (B2R w)). nra.
  Qed.
  Lemma opp_mul x x2 (w : fl) : opp x x2 -> in_range x -> in_range x2 -> is_finite w = true -> opp (fmul x w) (fmul x2 w).
  Proof.
    intros (F1 & F2 & E) R1 R2 Fw.
    destruct (fmul_correct prec emax x w F1 Fw (mul_small x w R1 Fw)) as [A1 A2].
    destruct (fmul_correct prec emax x2 w F2 Fw (mul_small x2 w R2 Fw)) as [B1 B2].
    split; [exact A2|]. split; [exact B2|]. rewrite A1, B1, E, <- (rnd_opp prec emax). f_equal. lra.
  Qed.
End G.

(** ** Channels *)
Definition cmirror {k} (c d : chan k) : Prop := finite_chan c /\ finite_chan d /\ amplitude d = - amplitude c.
Lemma narrow_finite (x : f32) : is_finite (f32_as_f64 x) = true -> is_finite x = true.
Proof. destruct x as [[]|[]| |]; cbn; auto. Qed.
Lemma cmirror64 (c d : chan K64) : cmirror c d <-> opp 53 1024 c d.
Proof. reflexivity. Qed.
Lemma cmirror32 (c d : chan K32) : cmirror c d <-> opp 24 128 c d.
Proof.
  unfold cmirror, opp, finite_chan, amplitude. cbn [to_f64]. unfold ch32_to_f64. split; intros (A & B & E).
  - apply narrow_finite in A, B. destruct (f32_as_f64_exact c A) as (E1 & _), (f32_as_f64_exact d B) as (E2 & _). rewrite E1, E2 in E. auto.
  - destruct (f32_as_f64_exact c A) as (E1 & G1 & _), (f32_as_f64_exact d B) as (E2 & G2 & _). rewrite E1, E2. auto.
Qed.
Lemma cmirror_default k : is_float k -> cmirror (chan_default k) (chan_default k).
Proof.
  intros H. unfold cmirror, finite_chan, amplitude. rewrite (to_f64_default k H). split; [reflexivity|]. split; [reflexivity|].
  change (B2R (flit 0 0 : f64)) with 0. lra.
Qed.
Lemma cmirror_add k : is_float k -> forall x x2 y y2 : chan k, cmirror x x2 -> cmirror y y2 -> cmirror (c_add x y) (c_add x2 y2).
Proof.
  intros [-> | ->] x x2 y y2.
  - rewrite !cmirror32. apply (opp_add 24 128).
  - rewrite !cmirror64. apply (opp_add 53 1024).
Qed.
Lemma cmirror_mul k : is_float k -> forall x x2 w : chan k, cmirror x x2 -> valid x -> valid x2 -> fin w = true ->
  exists z z2, c_mul x w = Ok z /\ c_mul x2 w = Ok z2 /\ cmirror z z2.
Proof.
  intros [-> | ->] x x2 w H R1 R2 F; do 2 eexists; (split; [reflexivity|]; split; [reflexivity|]).
  - apply cmirror32. apply cmirror32 in H. exact (opp_mul 24 128 x x2 w H R1 R2 F).
  - apply cmirror64. apply cmirror64 in H. exact (opp_mul 53 1024 x x2 w H R1 R2 F).
Qed.
Lemma narrow_ok (x : f64) : in_range x -> in_range (f64_as_f32 x) /\ B2R (f64_as_f32 x) = round_to 24 128 (B2R x).
Proof.
  intros [F B]. assert (A : Rabs (round_to 24 128 (B2R x)) <= 1).
  { apply (rnd_abs_le 24 128); [exact (fmt_1 24 128)|apply Rabs_le; lra]. }
  destruct (fconv_correct 53 1024 24 128 x F) as (E1 & E2 & _).
  { apply Rle_lt_trans with 1; [exact A|]. change 1 with (bpow radix2 0). apply bpow_lt. lia. }
  split; [|exact E1]. split; [exact E2|]. unfold f64_as_f32. rewrite E1. apply Rabs_le_inv. exact A.
Qed.
(** A mirrored amplitude read by [from_f64]. *)
Lemma cmirror_from k : is_float k -> forall a b : f64, in_range a -> in_range b -> B2R b = - B2R a ->
  cmirror (from_f64 k a) (from_f64 k b) /\ valid (from_f64 k a) /\ valid (from_f64 k b).
Proof.
  intros [-> | ->] a b Ra Rb E.
  - destruct (narrow_ok a Ra) as [A1 A2], (narrow_ok b Rb) as [B1 B2]. split; [|split; assumption].
    apply cmirror32. split; [apply A1|]. split; [apply B1|]. cbn [from_f64]. unfold ch32_from_f64.
    rewrite A2, B2, E. apply (rnd_opp 24 128).
  - split; [|split; assumption]. apply cmirror64. split; [apply Ra|]. split; [apply Rb|exact E].
Qed.
Lemma average_opp (a b c d : f64) : in_range a -> in_range b -> in_range c -> in_range d -> B2R c = - B2R a -> B2R d = - B2R b ->
  in_range (average a b) /\ in_range (average c d) /\ B2R (average c d) = - B2R (average a b).
Proof.
  intros Ra Rb Rc Rd E1 E2. destruct (avg_correct a b Ra Rb) as [A1 A2], (avg_correct c d Rc Rd) as [B1 B2].
  split; [exact A1|]. split; [exact B1|]. rewrite A2, B2, E1, E2. unfold round64. rewrite <- (rnd_opp 53 1024). f_equal. lra.
Qed.

(** ** Frames *)
Lemma mirrored_nth {l k} (f g : frame l k) : mirrored f g <->
  forall i c d, nth_error (channels f) i = Some c -> nth_error (channels g) i = Some d -> cmirror c d.
Proof.
  unfold mirrored. split.
  - intros H i c d Hc Hd. pose proof (Forall2_nth _ _ _ i H) as N. rewrite Hc, Hd in N. exact N.
  - intros H. assert (L : length (channels f) = length (channels g)) by now rewrite !channels_length.
    revert L H. generalize (channels f) (channels g). intros xs. induction xs as [|x xs IH]; intros [|y ys] L H; try discriminate L; constructor.
    + exact (H O x y eq_refl eq_refl).
    + apply IH; [now injection L|]. intros i c d Hc Hd. exact (H (S i) c d Hc Hd).
Qed.
Definition weight_ok (k : ck) (w : f64) : Prop := fin (from_f64 k w) = true.
Lemma valid_nth {l k} (f : frame l k) i c : frame_valid f -> nth_error (channels f) i = Some c -> valid c.
Proof. unfold frame_valid. rewrite Forall_forall. intros H E. apply H. now apply nth_error_In in E. Qed.
Lemma mirrored_add {l k} : is_float k -> forall x x2 y y2 : frame l k, mirrored x x2 -> mirrored y y2 -> mirrored (frame_add x y) (frame_add x2 y2).
Proof.
  intros Hk x x2 y y2 Hx Hy. rewrite mirrored_nth in *. intros i c d Hc Hd.
  pose proof (FrameProofs.nth_some _ _ _ _ _ Hc) as Hi.
  destruct (nth_ex _ _ x i Hi) as (a & Ea), (nth_ex _ _ x2 i Hi) as (a2 & Ea2), (nth_ex _ _ y i Hi) as (b & Eb), (nth_ex _ _ y2 i Hi) as (b2 & Eb2).
  pose proof (proj1 (proj1 (frame_ops_channelwise l k x y) i a b Ea Eb)) as E.
  pose proof (proj1 (proj1 (frame_ops_channelwise l k x2 y2) i a2 b2 Ea2 Eb2)) as E2.
  rewrite Hc in E. rewrite Hd in E2. injection E as ->. injection E2 as ->.
  apply cmirror_add; eauto.
Qed.
Lemma mirrored_mul {l k} : is_float k -> forall (x x2 : frame l k) w, flipped x x2 -> weight_ok k w ->
  both mirrored (frame_mul x (frame_from_f64 l k w)) (frame_mul x2 (frame_from_f64 l k w)).
Proof.
  intros Hk x x2 w (Hx & V1 & V2) Hw.
  destruct (frame_ops_channelwise l k x (frame_from_f64 l k w)) as (_ & (z & Ez & Cz) & _).
  destruct (frame_ops_channelwise l k x2 (frame_from_f64 l k w)) as (_ & (z2 & Ez2 & Cz2) & _).
  rewrite Ez, Ez2. cbn. rewrite mirrored_nth in *. intros i c d Hc Hd. pose proof (FrameProofs.nth_some _ _ _ _ _ Hc) as Hi.
  destruct (nth_ex _ _ x i Hi) as (a & Ea), (nth_ex _ _ x2 i Hi) as (a2 & Ea2).
  assert (Eb : nth_error (channels (frame_from_f64 l k w)) i = Some (from_f64 k w)) by (rewrite from_f64_channels; now apply nth_repeat).
  destruct (Cz i a _ Ea Eb) as (c' & M1 & N1), (Cz2 i a2 _ Ea2 Eb) as (d' & M2 & N2).
  rewrite Hc in N1. rewrite Hd in N2. injection N1 as <-. injection N2 as <-.
  destruct (cmirror_mul k Hk a a2 (from_f64 k w)) as (z' & z2' & P1 & P2 & P); eauto using valid_nth.
  rewrite M1 in P1. rewrite M2 in P2. injection P1 as <-. injection P2 as <-. exact P.
Qed.
Definition cflipped {k} (c d : chan k) : Prop := cmirror c d /\ valid c /\ valid d.
Lemma flipped_list {l k} (f g : frame l k) : flipped f g <-> Forall2 cflipped (channels f) (channels g).
Proof.
  unfold flipped, mirrored, frame_valid. split.
  - intros (H & V1 & V2). revert V1 V2. induction H as [|c d cs ds Hcd H IH]; intros V1 V2; constructor; inversion V1; inversion V2; subst; auto.
    repeat split; auto; apply Hcd.
  - intros H. induction H as [|c d cs ds [Hcd [V1 V2]] H (IH1 & IH2 & IH3)]; repeat split; auto.
Qed.
Lemma cflipped_mid k : is_float k -> cflipped (MID k) (MID k).
Proof.
  intros Hk. pose proof (cmirror_default k Hk) as H. destruct Hk as [-> | ->]; (split; [exact H|]); split; split; try reflexivity;
  cbn; unfold F2R; cbn; lra.
Qed.
Lemma cflipped_from k ks : is_float k -> forall c d : chan ks, cflipped c d -> cflipped (from_f64 k (to_f64 c)) (from_f64 k (to_f64 d)).
Proof. intros Hk c d ((_ & _ & E) & V1 & V2). apply cmirror_from; auto using to_f64_range. Qed.
Lemma cflipped_avg k ks : is_float k -> forall c d a b : chan ks, cflipped c d -> cflipped a b ->
  cflipped (from_f64 k (average (to_f64 c) (to_f64 a))) (from_f64 k (average (to_f64 d) (to_f64 b))).
Proof.
  intros Hk c d a b ((_ & _ & E) & V1 & V2) ((_ & _ & E2) & V3 & V4).
  destruct (average_opp (to_f64 c) (to_f64 a) (to_f64 d) (to_f64 b)) as (A & B & D); auto using to_f64_range.
  apply cmirror_from; auto.
Qed.
Lemma flipped_convert {l k ls ks} : is_float k -> forall x x2 : frame ls ks, flipped x x2 -> both flipped (convert l k x) (convert l k x2).
Proof.
  intros Hk x x2 H. rewrite flipped_list in H.
  assert (H2 : match convert l k x, convert l k x2 with Ok y, Ok y2 => Forall2 cflipped (channels y) (channels y2) | _, _ => False end).
  { pose proof (cflipped_mid k Hk) as Hm.
    destruct ls; frame_cases x; frame_cases x2; cbn in H;
    repeat match goal with H : Forall2 _ (_ :: _) (_ :: _) |- _ => inversion H; clear H; subst | H : Forall2 _ [] [] |- _ => clear H end;
    destruct l; cbn; repeat apply Forall2_cons; try apply Forall2_nil; try exact Hm; try (now apply cflipped_from); now apply cflipped_avg. }
  destruct (convert l k x), (convert l k x2); try contradiction. cbn. now apply flipped_list.
Qed.
Lemma mirrored_kept {l k ls ks} : is_float k ->
  kept (weight_ok k) (@mirrored l k l k) (@flipped l k) (@flipped ls ks).
Proof.
  intros Hk. constructor.
  - apply mirrored_nth. intros i c d Hc Hd. apply nth_default in Hc, Hd. subst. now apply cmirror_default.
  - now apply mirrored_add.
  - now apply mirrored_mul.
  - now apply flipped_convert.
Qed.

(** ** The weights are finite *)
Lemma weight_finite k (w : f64) : is_float k -> is_finite w = true -> Rabs (B2R w) <= bpow radix2 101 -> weight_ok k w.
Proof.
  intros [-> | ->] F B; [|exact F]. unfold weight_ok. cbn [fin from_f64]. unfold ch32_from_f64, f64_as_f32.
  apply (fconv_correct 53 1024 24 128 w F). apply Rle_lt_trans with (bpow radix2 101).
  - apply (rnd_abs_le 24 128); [|exact B]. apply (fmt_bpow 24 128). lia.
  - apply bpow_lt. lia.
Qed.
Lemma weights_finite k ratio off : is_float k -> moderate ratio -> weights_in (weight_ok k) ratio off.
Proof.
  intros Hk [F B] i. set (j := place ratio off i).
  assert (U : is_finite (upper_weight ratio j) = true /\ Rabs (B2R (upper_weight ratio j)) <= bpow radix2 100).
  { unfold upper_weight, fmin. destruct (is_nan (frem1 j)) eqn:En; [split; assumption|].
    rewrite (finite_not_nan 53 1024 ratio F). destruct (flt ratio (frem1 j)); [split; assumption|].
    assert (Fj : is_finite j = true) by (destruct j as [s|s| |s m e H]; cbn in En |- *; congruence).
    destruct (frem1_correct 53 1024 j Fj) as [E G]. split; [exact G|]. rewrite E.
    apply Rle_trans with 1; [|change 1 with (bpow radix2 0); apply bpow_le; lia].
    unfold Ztrunc. destruct (Rlt_bool_spec (B2R j) 0).
    - pose proof (Zceil_ub (B2R j)). pose proof (Zceil_lb (B2R j)). apply Rabs_le. lra.
    - pose proof (Zfloor_lb (B2R j)). pose proof (Zfloor_ub (B2R j)). apply Rabs_le. lra. }
  destruct U as [U1 U2].
  assert (L : Rabs (round_to 53 1024 (B2R ratio - B2R (upper_weight ratio j))) <= bpow radix2 101).
  { apply (rnd_abs_le 53 1024); [apply (fmt_bpow 53 1024); lia|].
    assert (bpow radix2 101 = bpow radix2 100 + bpow radix2 100) by (change 101%Z with (1 + 100)%Z; rewrite bpow_plus; change (bpow radix2 1) with 2; lra).
    apply Rabs_le. apply Rabs_le_inv in B, U2. lra. }
  destruct (fsub_correct 53 1024 ratio (upper_weight ratio j) F U1) as [S1 S2].
  { apply Rle_lt_trans with (1 := L). apply bpow_lt. lia. }
  split; apply weight_finite; auto.
  - apply Rle_trans with (1 := U2). apply bpow_le. lia.
  - unfold lower_weight. now rewrite S1.
Qed.

(** ** Negated frames *)
Lemma neg_flipped {l k} : is_float k -> forall f g : frame l k, frame_neg f = Ok g -> frame_valid f -> flipped f g.
Proof.
  intros Hk f g H V. destruct (frame_ops_channelwise l k f f) as (_ & _ & (g' & E & C)). rewrite H in E. injection E as <-.
  assert (P : forall i c d, nth_error (channels f) i = Some c -> nth_error (channels g) i = Some d -> cflipped c d).
  { intros i c d Hc Hd. destruct (C i c Hc) as (d' & Ed & Nd). rewrite Hd in Nd. injection Nd as <-.
    pose proof (valid_nth f i c V Hc) as Vc. destruct (float_neg k Hk c) as (na & En & _ & Er & Ef & _). rewrite Ed in En. injection En as <-.
    destruct Hk as [-> | ->]; cbn in Er, Ef, Vc; destruct Vc as [Fc Bc].
    - split; [apply cmirror32; repeat split; congruence|]. split; [split; assumption|]. split; [congruence|]. rewrite Er. lra.
    - split; [apply cmirror64; repeat split; congruence|]. split; [split; assumption|]. split; [congruence|]. rewrite Er. lra. }
  split; [|split; [exact V|]].
  - apply mirrored_nth. intros i c d Hc Hd. now apply (P i).
  - unfold frame_valid. apply Forall_forall. intros d Hd. apply In_nth_error in Hd as (i & Hd).
    destruct (nth_ex _ _ f i (FrameProofs.nth_some _ _ _ _ _ Hd)) as (c & Hc). now apply (P i c d).
Qed.

(** ** Blends *)
Lemma flipped_of {l k} (f g : frame l k) : mirrored f g -> frame_valid f -> frame_valid g -> flipped f g.
Proof. unfold flipped. auto. Qed.
Lemma flipped_default l k : is_float k -> flipped (frame_default l k) (frame_default l k).
Proof.
  intros Hk. destruct (@mirrored_kept l k l k Hk) as [K _ _ _]. apply flipped_of; [exact K| |];
  unfold frame_valid; apply Forall_forall; intros c Hc; apply In_nth_error in Hc as (i & Hc); apply nth_default in Hc; subst;
  exact (proj1 (proj2 (cflipped_mid k Hk))).
Qed.
Lemma flipped_mix {l k} op : is_float k -> op = Src \/ op = Dest \/ op = Clear \/ op = Plus ->
  forall x y x2 y2 : frame l k, flipped x x2 -> flipped y y2 -> both flipped (mix_frames op x y) (mix_frames op x2 y2).
Proof.
  intros Hk Hop x y x2 y2 Hx Hy.
  destruct (mix_src_dest_clear l k x y) as (A1 & A2 & A3), (mix_src_dest_clear l k x2 y2) as (B1 & B2 & B3).
  destruct Hop as [-> | [-> | [-> | ->]]].
  - rewrite A1, B1. exact Hy.
  - rewrite A2, B2. exact Hx.
  - rewrite A3, B3. now apply flipped_default.
  - rewrite !mix_plus. cbn. apply flipped_of; try apply frame_add_valid. apply mirrored_add; [exact Hk|apply Hx|apply Hy].
Qed.
Lemma flipped_blend {l k lb kb} op : is_float k -> op = Src \/ op = Dest \/ op = Clear \/ op = Plus ->
  forall (a a2 : stream l k) (b b2 : stream lb kb), paired flipped a a2 -> paired flipped b b2 ->
  paired flipped (SBlend a b op) (SBlend a2 b2 op).
Proof.
  intros Hk Hop a a2 b b2 Ha Hb. apply pa_blend with flipped; auto. intros x x2 y y2 Hx Hy.
  apply (both_bind flipped); [now apply flipped_convert|]. intros z z2 Hz. now apply flipped_mix.
Qed.
(** Amplifying by the same gains. *)
Lemma flipped_amplify {l k lb kb} : is_float k -> forall (a a2 : stream l k) (b : stream lb kb),
  paired flipped a a2 -> paired (fun y y2 => y2 = y /\ frame_valid y) b b -> paired flipped (SBlend a b Amplify) (SBlend a2 b Amplify).
Proof.
  intros Hk a a2 b Ha Hb. apply pa_blend with (fun y y2 => y2 = y /\ frame_valid y); auto. intros x x2 y ? (Hx & V1 & V2) [-> Vy].
  destruct (convert_valid lb kb l k y Vy) as (z & Ez & Vz). rewrite Ez. cbn [bind]. rewrite !mix_amplify.
  destruct (frame_ops_channelwise l k x z) as (_ & (m & Em & Cm) & _), (frame_ops_channelwise l k x2 z) as (_ & (m2 & Em2 & Cm2) & _).
  rewrite Em, Em2. cbn.
  assert (P : forall i c d, nth_error (channels m) i = Some c -> nth_error (channels m2) i = Some d -> cflipped c d).
  { intros i c d Hc Hd. pose proof (FrameProofs.nth_some _ _ _ _ _ Hc) as Hi.
    destruct (nth_ex _ _ x i Hi) as (u & Eu), (nth_ex _ _ x2 i Hi) as (u2 & Eu2), (nth_ex _ _ z i Hi) as (w & Ew).
    destruct (Cm i u w Eu Ew) as (c' & M1 & N1), (Cm2 i u2 w Eu2 Ew) as (d' & M2 & N2).
    rewrite Hc in N1. rewrite Hd in N2. injection N1 as <-. injection N2 as <-.
    pose proof (valid_nth x i u V1 Eu) as Vu. pose proof (valid_nth x2 i u2 V2 Eu2) as Vu2. pose proof (valid_nth z i w Vz Ew) as Vw.
    rewrite mirrored_nth in Hx. assert (Fw : fin w = true) by (destruct Hk as [-> | ->]; apply Vw).
    destruct (cmirror_mul k Hk u u2 w (Hx i _ _ Eu Eu2) Vu Vu2 Fw) as (c2 & d2 & P1 & P2 & P).
    rewrite M1 in P1. rewrite M2 in P2. injection P1 as <-. injection P2 as <-. split; [exact P|].
    split; [exact (c_mul_valid k u w c Vu Vw M1)|exact (c_mul_valid k u2 w d Vu2 Vw M2)]. }
  apply flipped_of.
  - apply mirrored_nth. intros i c d Hc Hd. now apply (P i).
  - apply Forall_nth_valid. intros i c Hc. destruct (nth_ex _ _ m2 i (FrameProofs.nth_some _ _ _ _ _ Hc)) as (d & Hd). apply (P i c d Hc Hd).
  - apply Forall_nth_valid. intros i d Hd. destruct (nth_ex _ _ m i (FrameProofs.nth_some _ _ _ _ _ Hd)) as (c & Hc). apply (P i c d Hc Hd).
Qed.
Lemma ranged_paired {l k} (s : stream l k) : ranged s -> paired (fun y y2 => y2 = y /\ frame_valid y) s s.
Proof.
  assert (F : forall l k (fs : list (frame l k)), Forall frame_valid fs -> Forall2 (fun y y2 => y2 = y /\ frame_valid y) fs fs) by (induction 1; auto).
  induction 1 as [l k f Hf|l k r fs Hf|l k r fs c Hf|l k s n H IH|l k l2 k2 a b op Ha IHa Hb IHb Hop|l k r c n f i Hf]; try (constructor; auto; fail).
  - apply pa_blend with (fun y y2 => y2 = y /\ frame_valid y); auto. intros x ? y ? [-> Vx] [-> Vy].
    destruct (convert_valid l2 k2 l k y Vy) as (z & Ez & Vz). rewrite Ez. cbn [bind].
    destruct (mix_frames op x z) as [m|p|] eqn:Em; cbn; auto. split; [reflexivity|]. exact (Hop l k x z m Vx Vz Em).
  - constructor. intros j. destruct (f j) as [[x|]|p|] eqn:E; cbn; eauto.
Qed.
Lemma flipped_gain {l k lb kb} : is_float k -> forall (a a2 : stream l k) (b : stream lb kb),
  paired flipped a a2 -> ranged b -> paired flipped (SBlend a b Amplify) (SBlend a2 b Amplify).
Proof. intros Hk a a2 b Ha Hb. apply flipped_amplify; auto. now apply ranged_paired. Qed.

(** ** Runs *)
Lemma mirrored_stream {l k ls ks} fuel (sk sk2 : sink l k) (s s2 : stream ls ks) : is_float k -> sinks_alike mirrored sk sk2 ->
  paired flipped s s2 -> moderate (ratio_for (sk_rate sk) (sample_rate s)) ->
  both (run_alike mirrored flipped) (sink_stream fuel sk s) (sink_stream fuel sk2 s2).
Proof. intros Hk Ha Hp Hm. apply (sink_both (weight_ok k) _ flipped); auto using mirrored_kept, weights_finite. Qed.
Lemma mirrored_extend {l k ls ks} fuel (a a2 a' : audio l k) (s s2 it : stream ls ks) : is_float k ->
  s_rate a2 = s_rate a -> Forall2 mirrored (frames a) (frames a2) ->
  paired flipped s s2 -> moderate (ratio_for (s_rate a) (sample_rate s)) -> extend fuel a s = (a', Ok it) ->
  exists a2' it2, extend fuel a2 s2 = (a2', Ok it2) /\ s_rate a2' = s_rate a' /\ Forall2 mirrored (frames a') (frames a2') /\ paired flipped it it2.
Proof.
  intros Hk Hr Hf Hp Hm H. destruct (extend_appends _ _ _ _ _ _ _ _ _ H) as (n & ? & Hn & _).
  apply (extend_both (weight_ok k) _ flipped _ (mirrored_kept Hk) fuel a a2 s s2 a' it n); auto using weights_finite.
  destruct (Z.le_gt_cases ((Z.of_nat (length (frames a)) + frames_for (s_rate a) (sample_rate s) n) * bytes_per_frame l k) (2 ^ 63 - 1)) as [L|L]; [exact L|].
  destruct (extend_too_long l k ls ks fuel a s n Hn) as (p & E & _); [unfold allocatable; lia|].
  unfold extend in H. rewrite E in H. discriminate.
Qed.

Lemma mirrored_flush {l k} (sk sk2 : sink l k) : sinks_alike mirrored sk sk2 -> both (sinks_alike mirrored) (flush sk) (flush sk2).
Proof. apply flush_both. Qed.
Lemma mirrored_extend_outcome {l k ls ks} fuel (a a2 : audio l k) (s s2 : stream ls ks) n : is_float k ->
  s_rate a2 = s_rate a -> Forall2 mirrored (frames a) (frames a2) ->
  paired flipped s s2 -> moderate (ratio_for (s_rate a) (sample_rate s)) -> slen s = Some n ->
  allocatable l k (Z.of_nat (length (frames a)) + frames_for (s_rate a) (sample_rate s) n) ->
  both (paired flipped) (snd (extend fuel a s)) (snd (extend fuel a2 s2)) /\
  s_rate (fst (extend fuel a2 s2)) = s_rate (fst (extend fuel a s)) /\
  Forall2 mirrored (frames (fst (extend fuel a s))) (frames (fst (extend fuel a2 s2))).
Proof.
  intros Hk Hr Hf Hp Hm Hn Al.
  apply (extend_outcome (weight_ok k) _ flipped _ (mirrored_kept Hk) fuel a a2 s s2 n); auto using weights_finite.
Qed.

(** ** Integer buffers: silence has no mirror image *)
Lemma neg_mono8 (f g : frame Mono K8) : frame_neg f = Ok g <-> map sv (channels g) = map (fun c => (-1 - sv c)%Z) (channels f).
Proof.
  destruct f as [c []], g as [d []]. destruct (neg8_spec c) as (n & En & Vn). unfold frame_neg. change (vmapM c_neg ((c, tt) : frame Mono K8)) with (x <- c_neg c ;; r <- Ok tt ;; Ok ((x, r) : frame Mono K8)).
  rewrite En. cbn [bind]. split.
  - intros [= <-]. cbn. now rewrite Vn.
  - change (map sv (channels ((d, tt) : frame Mono K8))) with [sv d]. change (map (fun c => (-1 - sv c)%Z) (channels ((c, tt) : frame Mono K8))) with [(-1 - sv c)%Z].
    intros E. assert (Ed : sv d = (-1 - sv c)%Z) by congruence. assert (n = d) as -> by (apply sint_eq; exact (eq_trans Vn (eq_sym Ed))). reflexivity.
Qed.
Lemma ext_case (a : audio Mono K8) (s : stream Mono K8) (cd : list (frame Mono K8) -> list (list Z)) cs :
  (let '(b, r) := extend 9 a s in (cd (frames b), match r with Ok _ => true | _ => false end)) = (cs, true) ->
  exists b it, extend 9 a s = (b, Ok it) /\ cd (frames b) = cs.
Proof. destruct (extend 9 a s) as [b [it|?|]]; intros V; injection V as V; try discriminate. eauto. Qed.
Lemma int_not_mirrored : exists (a a1 a2 : audio Mono K8) (fs fs2 : list (frame Mono K8)) it1 it2,
  Forall2 (fun f g => frame_neg f = Ok g) fs fs2 /\ frames a = [] /\
  extend 9 a (SAudio (flit 24000 0) fs) = (a1, Ok it1) /\ extend 9 a (SAudio (flit 24000 0) fs2) = (a2, Ok it2) /\
  map (fun f : frame Mono K8 => map sv (channels f)) (frames a1) = [[10]; [0]; [20]; [0]]%Z /\
  map (fun f : frame Mono K8 => map sv (channels f)) (frames a2) = [[-11]; [0]; [-21]; [0]]%Z /\
  ~ Forall2 (fun f g => frame_neg f = Ok g) (frames a1) (frames a2).
Proof.
  pose (a := @mkAudio Mono K8 (flit 48000 0) []).
  pose (fs := [(as_sint W8 10, tt); (as_sint W8 20, tt)] : list (frame Mono K8)).
  pose (fs2 := [(as_sint W8 (-11), tt); (as_sint W8 (-21), tt)] : list (frame Mono K8)).
  pose (cd := map (fun f : frame Mono K8 => map sv (channels f))).
  assert (V1 : exists b it, extend 9 a (SAudio (flit 24000 0) fs) = (b, Ok it) /\ cd (frames b) = [[10]; [0]; [20]; [0]]%Z).
  { apply ext_case. vm_compute. reflexivity. }
  destruct V1 as (b1 & it1 & E1 & V1).
  assert (V2 : exists b it, extend 9 a (SAudio (flit 24000 0) fs2) = (b, Ok it) /\ cd (frames b) = [[-11]; [0]; [-21]; [0]]%Z).
  { apply ext_case. vm_compute. reflexivity. }
  destruct V2 as (b2 & it2 & E2 & V2).
  exists a, b1, b2, fs, fs2, it1, it2. split.
  { repeat apply Forall2_cons; try apply Forall2_nil; apply neg_mono8; vm_compute; reflexivity. }
  split; [reflexivity|]. split; [exact E1|]. split; [exact E2|]. split; [exact V1|]. split; [exact V2|].
  clear E1 E2. intros F. pose proof (Forall2_nth _ _ _ 1 F) as N.
  pose proof (f_equal (fun xs => nth_error xs 1) V1) as N1. pose proof (f_equal (fun xs => nth_error xs 1) V2) as N2.
  unfold cd in N1, N2. rewrite nth_error_map in N1, N2.
  destruct (nth_error (frames b1) 1) as [x|], (nth_error (frames b2) 1) as [y|]; try discriminate.
  cbn [both_some] in N. apply neg_mono8 in N. cbn [option_map nth_error] in N1, N2.
  apply (f_equal (fun o => match o with Some v => v | None => [] end)) in N1, N2. rewrite N2 in N.
  rewrite <- (map_map sv (fun z => (-1 - z)%Z)), N1 in N. discriminate N.
Qed.

(** Integer sources: [to_f64] of the mirrored code can be one rounding off. *)
Lemma int_source_off : exists c d : chan K8, c_neg c = Ok d /\ sv c = (-126)%Z /\ amplitude d <> - amplitude c.
Proof.
  exists (as_sint W8 (-126)). destruct (neg8_spec (as_sint W8 (-126))) as (d & Ed & Vd). exists d. split; [exact Ed|]. split; [reflexivity|].
  assert (E : d = as_sint W8 125) by (apply sint_eq; rewrite Vd; reflexivity). rewrite E. clear d Ed Vd E.
  unfold amplitude. intros H. assert (B : feq (to_f64 (as_sint W8 125 : chan K8)) (fneg (to_f64 (as_sint W8 (-126) : chan K8))) = true).
  { unfold feq. rewrite Beqb_correct by (vm_compute; reflexivity). apply Req_bool_true. rewrite H. unfold fneg. now rewrite B2R_Bopp. }
  assert (C : feq (to_f64 (as_sint W8 125 : chan K8)) (fneg (to_f64 (as_sint W8 (-126) : chan K8))) = false) by (vm_compute; reflexivity).
  congruence.
Qed.
