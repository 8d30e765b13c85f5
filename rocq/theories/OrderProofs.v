(** * OrderProofs.v -- lemmas for C95 *)
From Coq Require Import ZArith NArith Reals Bool List Lia Lra.
From Flocq Require Import Core.Core IEEE754.BinarySingleNaN.
From Verif Require Import Rust Float Math Chan Frame Ops Stream Audio FloatProofs SpecChan SpecFrame SpecStream SpecSink SpecAudio SpecMore SpecRel SpecRange SpecOrder
  IntProofs ChanProofs FChanProofs FrameProofs FArithProofs FloorProofs StreamProofs SinkProofs SinkTerm WeightProofs AudioProofs OpsProofs PlaceProofs RangeProofs RelProofs MirrorProofs.
Import ListNotations.
Open Scope R_scope.

(** ** Channels *)
Definition cunder {k} (c d : chan k) : Prop := fin c = true /\ fin d = true /\ c_leb c d = true.
Lemma leb_fin k (a b : chan k) : fin a = true -> fin b = true -> (c_leb a b = true <-> rval a <= rval b).
Proof.
  intros A B. destruct k; cbn [c_leb rval fin] in *.
  - rewrite Z.leb_le. split; [apply IZR_le|apply le_IZR].
  - rewrite Z.leb_le. split; [apply IZR_le|apply le_IZR].
  - now apply (fle_correct 24 128).
  - now apply (fle_correct 53 1024).
Qed.
Lemma cunder_iff k (a b : chan k) : cunder a b <-> fin a = true /\ fin b = true /\ rval a <= rval b.
Proof. unfold cunder. split; intros (A & B & H); repeat split; auto; now apply leb_fin. Qed.
Lemma cunder_refl k (a : chan k) : fin a = true -> cunder a a.
Proof. intros F. apply cunder_iff. repeat split; auto. lra. Qed.
Lemma valid_fin k (a : chan k) : valid a -> fin a = true.
Proof. destruct k; cbn; auto; intros H; apply H. Qed.
Section G.
  Context (prec emax : Z) {Hp : FLX.Prec_gt_0 prec} {He : Prec_lt_emax prec emax}.
  Notation fl := (binary_float prec emax).
  Lemma le_add (x x2 y y2 : fl) : is_finite x = true -> is_finite x2 = true -> is_finite y = true -> is_finite y2 = true ->
    B2R x <= B2R x2 -> B2R y <= B2R y2 -> B2R (clampf (fadd x y)) <= B2R (clampf (fadd x2 y2)).
  Proof.
    intros. rewrite !(clamp_fadd prec emax) by assumption. apply clampR_mono, (rnd_mono prec emax). lra.
  Qed.
  Lemma le_mul (x x2 w : fl) : in_range x -> in_range x2 -> is_finite w = true -> 0 <= B2R w -> B2R x <= B2R x2 ->
    is_finite (fmul x w) = true /\ is_finite (fmul x2 w) = true /\ B2R (fmul x w) <= B2R (fmul x2 w).
  Proof.
    intros R1 R2 Fw W0 L.
    destruct (fmul_correct prec emax x w (proj1 R1) Fw (mul_small prec emax x w R1 Fw)) as [A1 A2].
    destruct (fmul_correct prec emax x2 w (proj1 R2) Fw (mul_small prec emax x2 w R2 Fw)) as [B1 B2].
    split; [exact A2|]. split; [exact B2|]. rewrite A1, B1. apply (rnd_mono prec emax). nra.
  Qed.
End G.
Lemma clampZ_le lo hi a b : (lo <= hi)%Z -> (a <= b)%Z -> (clampZ lo hi a <= clampZ lo hi b)%Z.
Proof. unfold clampZ. intros. repeat match goal with |- context [(?x <? ?y)%Z] => destruct (Z.ltb_spec x y) end; lia. Qed.
Lemma cunder_add k (x x2 y y2 : chan k) : cunder x x2 -> cunder y y2 -> cunder (c_add x y) (c_add x2 y2).
Proof.
  rewrite !cunder_iff. intros (A & B & C) (D & E & F). split; [apply valid_fin, c_add_valid|]. split; [apply valid_fin, c_add_valid|].
  destruct k; cbn [rval fin] in *.
  - rewrite !add8_spec. apply le_IZR in C, F. apply IZR_le, clampZ_le; [lia|]. exact (Z.add_le_mono _ _ _ _ C F).
  - rewrite !add16_spec. apply le_IZR in C, F. apply IZR_le, clampZ_le; [lia|]. exact (Z.add_le_mono _ _ _ _ C F).
  - exact (le_add 24 128 x x2 y y2 A B D E C F).
  - exact (le_add 53 1024 x x2 y y2 A B D E C F).
Qed.
Lemma quot_mono a b w m : (0 <= w)%Z -> (0 < m)%Z -> (a <= b)%Z -> (Z.quot (a * w) m <= Z.quot (b * w) m)%Z.
Proof. intros. apply Z.quot_le_mono; nia. Qed.
Lemma rval_mid k : rval (MID k) = 0.
Proof. destruct k; try reflexivity. Qed.
Lemma fin_mid k : fin (MID k) = true.
Proof. destruct k; reflexivity. Qed.
Lemma cunder_mul k (x x2 w : chan k) : cunder x x2 -> valid x -> valid x2 -> cunder (MID k) w ->
  exists z z2, c_mul x w = Ok z /\ c_mul x2 w = Ok z2 /\ cunder z z2.
Proof.
  rewrite !cunder_iff. rewrite rval_mid. intros (A & B & C) V1 V2 (_ & Fw & W0). destruct k; cbn [rval fin valid] in *.
  - destruct (mul8_spec x w) as (z & Ez & Vz), (mul8_spec x2 w) as (z2 & Ez2 & Vz2). exists z, z2. split; [exact Ez|]. split; [exact Ez2|].
    apply cunder_iff. repeat split. cbn [rval]. rewrite Vz, Vz2. apply le_IZR in C. apply (le_IZR 0) in W0. apply IZR_le, clampZ_le; [lia|]. exact (quot_mono (sv x) (sv x2) (sv w) 127 W0 ltac:(lia) C).
  - destruct (mul16_spec x w) as (z & Ez & Vz), (mul16_spec x2 w) as (z2 & Ez2 & Vz2). exists z, z2. split; [exact Ez|]. split; [exact Ez2|].
    apply cunder_iff. repeat split. cbn [rval]. rewrite Vz, Vz2. apply le_IZR in C. apply (le_IZR 0) in W0. apply IZR_le, clampZ_le; [lia|]. exact (quot_mono (sv x) (sv x2) (sv w) 32767 W0 ltac:(lia) C).
  - do 2 eexists. split; [reflexivity|]. split; [reflexivity|]. apply cunder_iff. exact (le_mul 24 128 x x2 w V1 V2 Fw W0 C).
  - do 2 eexists. split; [reflexivity|]. split; [reflexivity|]. apply cunder_iff. exact (le_mul 53 1024 x x2 w V1 V2 Fw W0 C).
Qed.
(** Reading amplitudes. *)
Lemma to_f64_le k (c d : chan k) : cunder c d -> valid c -> valid d -> B2R (to_f64 c) <= B2R (to_f64 d).
Proof.
  intros H V1 V2. destruct (kind_cases k) as [I|I].
  - destruct (c_leb d c) eqn:E.
    + assert (c = d) as ->; [|lra]. destruct H as (_ & _ & H). destruct I as [-> | ->]; cbn in H, E; apply sint_eq; lia.
    + pose proof (proj1 (to_float_mono k I c d E)) as L. apply (flt_correct 53 1024) in L; [lra|apply (to_f64_range k c V1)|apply (to_f64_range k d V2)].
  - apply cunder_iff in H as (A & B & H). destruct I as [-> | ->]; [|exact H]. cbn [to_f64]. unfold ch32_to_f64.
    destruct (f32_as_f64_exact c A) as (E1 & _), (f32_as_f64_exact d B) as (E2 & _). rewrite E1, E2. exact H.
Qed.
Lemma from_f64_le k (a b : f64) : in_range a -> in_range b -> B2R a <= B2R b -> cunder (from_f64 k a) (from_f64 k b).
Proof.
  intros Ra Rb L. destruct (kind_cases k) as [I|I].
  - pose proof (from_f64_mono k I a b) as M. split; [apply valid_fin, int_valid, I|]. split; [apply valid_fin, int_valid, I|]. apply M.
    apply (fle_correct 53 1024); [apply Ra|apply Rb|exact L].
  - apply cunder_iff. destruct I as [-> | ->].
    + destruct (narrow_ok a Ra) as [A1 A2], (narrow_ok b Rb) as [B1 B2]. split; [apply A1|]. split; [apply B1|].
      cbn [rval from_f64]. unfold ch32_from_f64. rewrite A2, B2. now apply (rnd_mono 24 128).
    + split; [apply Ra|]. split; [apply Rb|exact L].
Qed.
Definition cunderv {k} (c d : chan k) : Prop := cunder c d /\ valid c /\ valid d.
Lemma cunderv_from k ks (c d : chan ks) : cunderv c d -> cunderv (from_f64 k (to_f64 c)) (from_f64 k (to_f64 d)).
Proof.
  intros (H & V1 & V2). pose proof (to_f64_range ks c V1). pose proof (to_f64_range ks d V2).
  split; [apply from_f64_le; auto using to_f64_le|]. split; now apply from_f64_valid.
Qed.
Lemma cunderv_avg k ks (c d a b : chan ks) : cunderv c d -> cunderv a b ->
  cunderv (from_f64 k (average (to_f64 c) (to_f64 a))) (from_f64 k (average (to_f64 d) (to_f64 b))).
Proof.
  intros (H & V1 & V2) (G & V3 & V4).
  destruct (avg_correct (to_f64 c) (to_f64 a)) as [A1 A2]; auto using to_f64_range.
  destruct (avg_correct (to_f64 d) (to_f64 b)) as [B1 B2]; auto using to_f64_range.
  split; [apply from_f64_le; auto; rewrite A2, B2; apply (rnd_mono 53 1024); pose proof (to_f64_le _ _ _ H V1 V2); pose proof (to_f64_le _ _ _ G V3 V4); lra|].
  split; now apply from_f64_valid.
Qed.
Lemma cunderv_mid k : cunderv (MID k) (MID k).
Proof. split; [apply cunder_refl, fin_mid|]. split; apply mid_valid. Qed.

(** ** Frames *)
Lemma under_nth {l k} (f g : frame l k) : under f g <->
  forall i c d, nth_error (channels f) i = Some c -> nth_error (channels g) i = Some d -> cunder c d.
Proof.
  unfold under. split.
  - intros H i c d Hc Hd. pose proof (Forall2_nth _ _ _ i H) as N. rewrite Hc, Hd in N. exact N.
  - intros H. assert (L : length (channels f) = length (channels g)) by now rewrite !channels_length.
    revert L H. generalize (channels f) (channels g). intros xs. induction xs as [|x xs IH]; intros [|y ys] L H; try discriminate L; constructor.
    + exact (H O x y eq_refl eq_refl).
    + apply IH; [now injection L|]. intros i c d Hc Hd. exact (H (S i) c d Hc Hd).
Qed.
Lemma underv_list {l k} (f g : frame l k) : under_valid f g <-> Forall2 cunderv (channels f) (channels g).
Proof.
  unfold under_valid, under, frame_valid. split.
  - intros (H & V1 & V2). revert V1 V2. induction H as [|c d cs ds Hcd H IH]; intros V1 V2; constructor; inversion V1; inversion V2; subst; auto.
    repeat split; auto; apply Hcd.
  - intros H. induction H as [|c d cs ds [Hcd [V1 V2]] H (IH1 & IH2 & IH3)]; repeat split; auto.
Qed.
Lemma under_add {l k} (x x2 y y2 : frame l k) : under x x2 -> under y y2 -> under (frame_add x y) (frame_add x2 y2).
Proof.
  intros Hx Hy. rewrite under_nth in *. intros i c d Hc Hd.
  pose proof (FrameProofs.nth_some _ _ _ _ _ Hc) as Hi.
  destruct (nth_ex _ _ x i Hi) as (a & Ea), (nth_ex _ _ x2 i Hi) as (a2 & Ea2), (nth_ex _ _ y i Hi) as (b & Eb), (nth_ex _ _ y2 i Hi) as (b2 & Eb2).
  pose proof (proj1 (proj1 (frame_ops_channelwise l k x y) i a b Ea Eb)) as E.
  pose proof (proj1 (proj1 (frame_ops_channelwise l k x2 y2) i a2 b2 Ea2 Eb2)) as E2.
  rewrite Hc in E. rewrite Hd in E2. injection E as ->. injection E2 as ->.
  apply cunder_add; eauto.
Qed.
Lemma under_times {l k} (x x2 w : frame l k) : under_valid x x2 -> Forall (cunder (MID k)) (channels w) ->
  both under (frame_mul x w) (frame_mul x2 w).
Proof.
  intros (Hx & V1 & V2) Hw.
  destruct (frame_ops_channelwise l k x w) as (_ & (z & Ez & Cz) & _).
  destruct (frame_ops_channelwise l k x2 w) as (_ & (z2 & Ez2 & Cz2) & _).
  rewrite Ez, Ez2. cbn. rewrite under_nth in *. intros i c d Hc Hd. pose proof (FrameProofs.nth_some _ _ _ _ _ Hc) as Hi.
  destruct (nth_ex _ _ x i Hi) as (a & Ea), (nth_ex _ _ x2 i Hi) as (a2 & Ea2), (nth_ex _ _ w i Hi) as (b & Eb).
  destruct (Cz i a _ Ea Eb) as (c' & M1 & N1), (Cz2 i a2 _ Ea2 Eb) as (d' & M2 & N2).
  rewrite Hc in N1. rewrite Hd in N2. injection N1 as <-. injection N2 as <-.
  assert (Wb : cunder (MID k) b) by (rewrite Forall_forall in Hw; apply Hw; now apply nth_error_In in Eb).
  destruct (cunder_mul k a a2 b) as (z' & z2' & P1 & P2 & P); eauto using valid_nth.
  rewrite M1 in P1. rewrite M2 in P2. injection P1 as <-. injection P2 as <-. exact P.
Qed.
Definition weight_up (k : ck) (w : f64) : Prop := cunder (MID k) (from_f64 k w).
Lemma under_convert {l k ls ks} (x x2 : frame ls ks) : under_valid x x2 -> both under_valid (convert l k x) (convert l k x2).
Proof.
  intros H. rewrite underv_list in H.
  assert (H2 : match convert l k x, convert l k x2 with Ok y, Ok y2 => Forall2 cunderv (channels y) (channels y2) | _, _ => False end).
  { pose proof (cunderv_mid k) as Hm.
    destruct ls; frame_cases x; frame_cases x2; cbn in H;
    repeat match goal with H : Forall2 _ (_ :: _) (_ :: _) |- _ => inversion H; clear H; subst | H : Forall2 _ [] [] |- _ => clear H end;
    destruct l; cbn; repeat apply Forall2_cons; try apply Forall2_nil; try exact Hm; try (now apply cunderv_from); now apply cunderv_avg. }
  destruct (convert l k x), (convert l k x2); try contradiction. cbn. now apply underv_list.
Qed.
Lemma under_default l k : under (frame_default l k) (frame_default l k).
Proof. apply under_nth. intros i c d Hc Hd. apply nth_default in Hc, Hd. subst. apply cunder_refl. destruct k; reflexivity. Qed.
Lemma under_kept {l k ls ks} : kept (weight_up k) (@under l k) (@under_valid l k) (@under_valid ls ks).
Proof.
  constructor.
  - apply under_default.
  - apply under_add.
  - intros x x2 w H Hw. apply under_times; [exact H|]. rewrite from_f64_channels. apply Forall_forall. intros c Hc. apply repeat_spec in Hc. now subst.
  - apply under_convert.
Qed.

(** ** The weights are not negative *)
Lemma weight_up_of k (w : f64) : is_finite w = true -> 0 <= B2R w <= bpow radix2 100 -> weight_up k w.
Proof.
  intros F B. destruct (kind_cases k) as [I|I].
  - split; [apply fin_mid|]. split; [apply valid_fin, int_valid, I|].
    assert (E : MID k = from_f64 k (flit 0 0)) by (symmetry; apply (from_f64_sat k I (flit 0 0)); reflexivity).
    rewrite E. apply (from_f64_mono k I). apply (fle_correct 53 1024); [reflexivity|exact F|]. change (B2R (flit 0 0 : f64)) with 0. apply B.
  - assert (Fk : fin (from_f64 k w) = true).
    { apply (weight_finite k w I F). rewrite Rabs_pos_eq by apply B. apply Rle_trans with (1 := proj2 B). apply bpow_le. lia. }
    apply cunder_iff. split; [apply fin_mid|]. split; [exact Fk|]. rewrite rval_mid. destruct I as [-> | ->]; [|apply B].
    cbn [rval from_f64]. unfold ch32_from_f64, f64_as_f32. destruct (fconv_correct 53 1024 24 128 w F) as (E & _).
    + apply Rle_lt_trans with (bpow radix2 100); [|apply bpow_lt; lia]. apply (rnd_abs_le 24 128); [apply (fmt_bpow 24 128); lia|].
      rewrite Rabs_pos_eq; apply B.
    + rewrite E. apply (rnd_nonneg 24 128). apply B.
Qed.
Lemma place_finite_pos (ratio off : f64) i : is_finite ratio = true -> 0 <= B2R ratio -> is_finite off = true -> 0 <= B2R off ->
  is_finite (place ratio off i) = true -> 0 <= B2R (place ratio off i).
Proof.
  intros Fr Pr Fo Po Fj. set (n := fofZ (Z.of_nat i) : f64). pose proof (fofZ_above (Z.of_nat i) ltac:(lia)) as An. fold n in An.
  assert (A : is_finite n = true).
  { unfold place in Fj. fold n in Fj. destruct n as [s|s| |s m e H]; try reflexivity; [|destruct An].
    exfalso. destruct ratio as [r|r| |r m e H]; try discriminate Fr; destruct off as [o|o| |o m' e' H']; try discriminate Fo; cbn in Fj; discriminate Fj. }
  assert (Pn : 0 <= B2R n) by (destruct n; try discriminate A; exact An).
  assert (Ab : above 0 (place ratio off i)).
  { unfold place. fold n. apply fadd_above; [lia| |now apply nonneg_above]. apply fmul_above; [lia|exact Fr|exact A|]. change (IZR 0) with 0. nra. }
  destruct (place ratio off i); try discriminate Fj; exact Ab.
Qed.
Lemma weights_up k ratio off : moderate ratio -> 0 <= B2R ratio -> is_finite off = true -> 0 <= B2R off -> weights_in (weight_up k) ratio off.
Proof.
  intros [F B] P Fo Po i. set (j := place ratio off i). rewrite Rabs_pos_eq in B by exact P.
  destruct (is_finite j) eqn:Fj.
  - pose proof (place_finite_pos ratio off i F P Fo Po Fj) as Pj.
    destruct (weights_real ratio j F Fj P Pj) as ((U1 & _) & (L1 & _) & U & L & _).
    split; apply weight_up_of; auto; split; try apply U; try apply L; lra.
  - assert (N : upper_weight ratio j = ratio).
    { unfold upper_weight, fmin. assert (is_nan (frem1 j) = true) as -> by (destruct j; try discriminate Fj; reflexivity). reflexivity. }
    unfold lower_weight. rewrite N. destruct (fsub_correct 53 1024 ratio ratio F F) as [E1 E2].
    { rewrite Rminus_eq_0, (rnd_0 53 1024), Rabs_R0. apply bpow_gt_0. }
    rewrite Rminus_eq_0, (rnd_0 53 1024) in E1.
    split; apply weight_up_of; auto. rewrite E1. split; [lra|apply bpow_ge_0].
Qed.

(** ** Runs *)
Lemma under_stream {l k ls ks} fuel (sk sk2 : sink l k) (s s2 : stream ls ks) : sinks_alike under sk sk2 -> paired under_valid s s2 ->
  moderate (ratio_for (sk_rate sk) (sample_rate s)) -> 0 <= B2R (ratio_for (sk_rate sk) (sample_rate s)) ->
  is_finite (resampler_index (sk_res sk)) = true -> 0 <= B2R (resampler_index (sk_res sk)) ->
  both (run_alike under under_valid) (sink_stream fuel sk s) (sink_stream fuel sk2 s2).
Proof. intros. apply (sink_both (weight_up k) _ under_valid); auto using under_kept, weights_up. Qed.
Lemma under_flush {l k} (sk sk2 : sink l k) : sinks_alike under sk sk2 -> both (sinks_alike under) (flush sk) (flush sk2).
Proof. apply flush_both. Qed.
Lemma under_extend {l k ls ks} fuel (a a2 a' : audio l k) (s s2 it : stream ls ks) :
  s_rate a2 = s_rate a -> Forall2 under (frames a) (frames a2) -> paired under_valid s s2 ->
  moderate (ratio_for (s_rate a) (sample_rate s)) -> 0 <= B2R (ratio_for (s_rate a) (sample_rate s)) -> extend fuel a s = (a', Ok it) ->
  exists a2' it2, extend fuel a2 s2 = (a2', Ok it2) /\ s_rate a2' = s_rate a' /\ Forall2 under (frames a') (frames a2').
Proof.
  intros Hr Hf Hp Hm H0 H. destruct (extend_appends _ _ _ _ _ _ _ _ _ H) as (n & ? & Hn & _).
  destruct (extend_both (weight_up k) _ under_valid _ under_kept fuel a a2 s s2 a' it n) as (a2' & it2 & A & B & C & _); eauto.
  - apply weights_up; auto. change (B2R (flit 0 0 : f64)) with 0. lra.
  - destruct (Z.le_gt_cases ((Z.of_nat (length (frames a)) + frames_for (s_rate a) (sample_rate s) n) * bytes_per_frame l k) (2 ^ 63 - 1)) as [L|L]; [exact L|].
    destruct (extend_too_long l k ls ks fuel a s n Hn) as (p & E & _); [unfold allocatable; lia|].
    unfold extend in H. rewrite E in H. discriminate.
Qed.

(** ** Blends *)
Lemma underv_of {l k} (f g : frame l k) : under f g -> frame_valid f -> frame_valid g -> under_valid f g.
Proof. unfold under_valid. auto. Qed.
Lemma default_valid l k : frame_valid (frame_default l k).
Proof. apply Forall_nth_valid. intros i c H. apply nth_default in H. subst. exact (mid_valid k). Qed.
Lemma under_mix {l k} op : op = Src \/ op = Dest \/ op = Clear \/ op = Plus ->
  forall x y x2 y2 : frame l k, under_valid x x2 -> under_valid y y2 -> both under_valid (mix_frames op x y) (mix_frames op x2 y2).
Proof.
  intros Hop x y x2 y2 Hx Hy.
  destruct (mix_src_dest_clear l k x y) as (A1 & A2 & A3), (mix_src_dest_clear l k x2 y2) as (B1 & B2 & B3).
  destruct Hop as [-> | [-> | [-> | ->]]].
  - rewrite A1, B1. exact Hy.
  - rewrite A2, B2. exact Hx.
  - rewrite A3, B3. cbn. apply underv_of; auto using under_default, default_valid.
  - rewrite !mix_plus. cbn. apply underv_of; try apply frame_add_valid. apply under_add; [apply Hx|apply Hy].
Qed.
Lemma under_blend {l k lb kb} op : op = Src \/ op = Dest \/ op = Clear \/ op = Plus ->
  forall (a a2 : stream l k) (b b2 : stream lb kb), paired under_valid a a2 -> paired under_valid b b2 ->
  paired under_valid (SBlend a b op) (SBlend a2 b2 op).
Proof.
  intros Hop a a2 b b2 Ha Hb. apply pa_blend with under_valid; auto. intros x x2 y y2 Hx Hy.
  apply (both_bind under_valid); [now apply under_convert|]. intros z z2 Hz. now apply under_mix.
Qed.
(** Gains stay gains when converted. *)
Definition cgain {k} (c : chan k) : Prop := valid c /\ cunder (MID k) c.
Lemma amp_mid k : 0 <= B2R (to_f64 (MID k)).
Proof.
  destruct k.
  - assert (fle (flit 0 0 : f64) (to_f64 (MID K8)) = true) as H by (vm_compute; reflexivity). apply (fle_correct 53 1024) in H; [exact H|reflexivity|vm_compute; reflexivity].
  - assert (fle (flit 0 0 : f64) (to_f64 (MID K16)) = true) as H by (vm_compute; reflexivity). apply (fle_correct 53 1024) in H; [exact H|reflexivity|vm_compute; reflexivity].
  - cbn. lra.
  - cbn. lra.
Qed.
Lemma amp_gain k (c : chan k) : cgain c -> in_range (to_f64 c) /\ 0 <= B2R (to_f64 c).
Proof.
  intros [V G]. split; [now apply to_f64_range|]. pose proof (to_f64_le k (MID k) c G (mid_valid k) V). pose proof (amp_mid k). lra.
Qed.
Lemma gain_of k (x : f64) : in_range x -> 0 <= B2R x -> cgain (from_f64 k x).
Proof.
  intros Rx Px. split; [now apply from_f64_valid|]. apply weight_up_of; [apply Rx|]. destruct Rx as [_ [_ U]]. split; [exact Px|].
  apply Rle_trans with (1 := U). change 1 with (bpow radix2 0). apply bpow_le. lia.
Qed.
Lemma gain_mid k : cgain (MID k).
Proof. split; [apply mid_valid|apply cunder_refl, fin_mid]. Qed.
Lemma gain_avg k ks (c a : chan ks) : cgain c -> cgain a -> cgain (from_f64 k (average (to_f64 c) (to_f64 a))).
Proof.
  intros C A. destruct (amp_gain _ _ C) as [R1 P1], (amp_gain _ _ A) as [R2 P2]. destruct (avg_correct (to_f64 c) (to_f64 a) R1 R2) as [R3 E].
  apply gain_of; [exact R3|]. rewrite E. apply (rnd_nonneg 53 1024). lra.
Qed.
Lemma gain_from k ks (c : chan ks) : cgain c -> cgain (from_f64 k (to_f64 c)).
Proof. intros C. destruct (amp_gain _ _ C). now apply gain_of. Qed.
Lemma gain_convert {l k ls ks} (x : frame ls ks) : Forall cgain (channels x) -> exists y, convert l k x = Ok y /\ Forall cgain (channels y).
Proof.
  intros H. assert (H2 : match convert l k x with Ok y => Forall cgain (channels y) | _ => False end).
  { pose proof (gain_mid k) as Hm. destruct ls; frame_cases x; cbn in H;
    repeat match goal with H : Forall _ (_ :: _) |- _ => inversion H; clear H; subst | H : Forall _ [] |- _ => clear H end;
    destruct l; cbn; repeat apply Forall_cons; try apply Forall_nil; try exact Hm; try (now apply gain_from); now apply gain_avg. }
  destruct (convert l k x) as [y| |]; try contradiction. eauto.
Qed.
Lemma mul_frame_valid {l k} (x z m : frame l k) : frame_valid x -> frame_valid z -> frame_mul x z = Ok m -> frame_valid m.
Proof.
  intros V1 V2 E. destruct (frame_ops_channelwise l k x z) as (_ & (m' & Em & Cm) & _). rewrite E in Em. injection Em as <-.
  apply Forall_nth_valid. intros i c Hc. pose proof (FrameProofs.nth_some _ _ _ _ _ Hc) as Hi.
  destruct (nth_ex _ _ x i Hi) as (u & Eu), (nth_ex _ _ z i Hi) as (w & Ew). destruct (Cm i u w Eu Ew) as (c' & M1 & N1).
  rewrite Hc in N1. injection N1 as <-. exact (c_mul_valid k u w c (valid_nth x i u V1 Eu) (valid_nth z i w V2 Ew) M1).
Qed.
Lemma under_gain {l k lb kb} (a a2 : stream l k) (b b2 : stream lb kb) : paired under_valid a a2 -> paired same_gain b b2 ->
  paired under_valid (SBlend a b Amplify) (SBlend a2 b2 Amplify).
Proof.
  intros Ha Hb. apply pa_blend with same_gain; auto. intros x x2 y ? Hx (-> & Vy & Gy).
  assert (Cy : Forall cgain (channels y)).
  { unfold frame_valid in Vy. rewrite Forall_forall in *. intros c Hc. split; [now apply Vy|]. split; [apply fin_mid|]. split; [now apply valid_fin, Vy|now apply Gy]. }
  destruct (gain_convert (l := l) (k := k) y Cy) as (z & Ez & Gz). rewrite Ez. cbn [bind]. rewrite !mix_amplify.
  assert (Wz : Forall (cunder (MID k)) (channels z)) by (revert Gz; apply Forall_impl; intros c H; apply H).
  assert (Vz : frame_valid z) by (revert Gz; apply Forall_impl; intros c H; apply H).
  pose proof (under_times x x2 z Hx Wz) as U.
  destruct (frame_mul x z) as [m| |] eqn:E1, (frame_mul x2 z) as [m2| |] eqn:E2; cbn in U |- *; auto.
  destruct Hx as (_ & V1 & V2). apply underv_of; [exact U| |].
  - exact (mul_frame_valid x z m V1 Vz E1).
  - exact (mul_frame_valid x2 z m2 V2 Vz E2).
Qed.
