(** * CopyProofs.v -- streaming at equal rates *)
From Coq Require Import ZArith NArith Reals List Bool Lia Lra.
From Flocq Require Import Core.Core IEEE754.BinarySingleNaN.
From Verif Require Import Rust Float Math Chan Frame Ops Stream SpecChan SpecFrame SpecStream SpecSink
  IntProofs FloatProofs FloorProofs FArithProofs ChanProofs FChanProofs FrameProofs OpsProofs StreamProofs SinkProofs PlaceProofs.
Import ListNotations.
Open Scope Z_scope.

(** ** Values *)
Lemma int_rval_eq k (a b : chan k) : is_int k -> rval a = rval b -> a = b.
Proof. intros [-> | ->] H; cbn [rval] in H; apply eq_IZR in H; now apply sint_eq. Qed.
Lemma int_valid k (a : chan k) : is_int k -> valid a.
Proof. intros [-> | ->]; exact I. Qed.
Lemma int_frame_valid l k (f : frame l k) : is_int k -> frame_valid f.
Proof. intros H. apply Forall_forall. intros c _. now apply int_valid. Qed.
Lemma kind_cases k : is_int k \/ is_float k.
Proof. destruct k; unfold is_int, is_float; tauto. Qed.

Lemma clampR_round_k k (a : chan k) : is_float k -> valid a -> clampR (round_k k (rval a)) = rval a.
Proof.
  intros [-> | ->] [F H]; cbn [rval round_k].
  - unfold round32. rewrite (rnd_fmt 24 128) by apply (fmt_B2R 24 128). now apply clampR_id.
  - unfold round64. rewrite (rnd_fmt 53 1024) by apply (fmt_B2R 53 1024). now apply clampR_id.
Qed.
Lemma add_zero_all k (a z : chan k) : valid a -> fin z = true -> rval z = 0%R -> rval (c_add a z) = rval a.
Proof.
  destruct (kind_cases k) as [Hk|Hk]; intros Ha Fz Hz.
  - assert (z = MID k) as -> by (apply int_rval_eq; auto; rewrite Hz, MID_default; symmetry; apply rval_default).
    f_equal. exact (proj1 (proj2 (add_int_laws k Hk a a a))).
  - destruct (float_ops_value k Hk a z (valid_fin _ _ Ha) Fz) as (E & _). rewrite E, Hz, Rplus_0_r. now apply clampR_round_k.
Qed.

Definition vals {l k} (f : frame l k) : list R := map rval (channels f).
Definition all_zero {l k} (f : frame l k) : Prop := Forall (fun c => fin c = true /\ rval c = 0%R) (channels f).
Lemma vals_nth l k (f g : frame l k) :
  (forall i a b, nth_error (channels f) i = Some a -> nth_error (channels g) i = Some b -> rval a = rval b) -> vals f = vals g.
Proof.
  intros H. unfold vals. apply list_nth_ext. intros i. rewrite !nth_error_map.
  destruct (nth_error (channels f) i) as [a|] eqn:Ea, (nth_error (channels g) i) as [b|] eqn:Eb; cbn.
  - f_equal. eauto.
  - apply nth_error_None in Eb. pose proof (proj1 (nth_error_Some (channels f) i) ltac:(congruence)). rewrite !channels_length in *. lia.
  - apply nth_error_None in Ea. pose proof (proj1 (nth_error_Some (channels g) i) ltac:(congruence)). rewrite !channels_length in *. lia.
  - reflexivity.
Qed.
Lemma vals_nth_inv l k (f g : frame l k) i a b : vals f = vals g ->
  nth_error (channels f) i = Some a -> nth_error (channels g) i = Some b -> rval a = rval b.
Proof.
  intros H Ha Hb. apply (f_equal (fun x => nth_error x i)) in H. unfold vals in H. rewrite !nth_error_map, Ha, Hb in H. now injection H.
Qed.
Lemma vals_int_eq l k (f g : frame l k) : is_int k -> vals f = vals g -> f = g.
Proof. intros Hk H. apply frame_ext_nth. intros i a b Ha Hb. apply int_rval_eq; auto. eapply vals_nth_inv; eauto. Qed.
Lemma vals_eqv l k (f g : frame l k) : frame_valid f -> frame_valid g -> vals f = vals g -> frame_eqv f g.
Proof.
  intros Hf Hg H. apply Forall2_nth; [now rewrite !channels_length|]. intros i a b Ha Hb.
  apply eqb_rval.
  - apply valid_fin. exact (frame_valid_nth _ _ _ _ _ Hf Ha).
  - apply valid_fin. exact (frame_valid_nth _ _ _ _ _ Hg Hb).
  - exact (vals_nth_inv _ _ _ _ _ _ _ H Ha Hb).
Qed.
Lemma zero_nth l k (z : frame l k) i c : all_zero z -> nth_error (channels z) i = Some c -> fin c = true /\ rval c = 0%R.
Proof. intros H Hc. unfold all_zero in H. rewrite Forall_forall in H. apply H. eapply nth_error_In; eauto. Qed.
Lemma frame_add_zero l k (x z : frame l k) : frame_valid x -> all_zero z -> vals (frame_add x z) = vals x.
Proof.
  intros Hx Hz. apply vals_nth. intros i u v Hu Hv. pose proof (nth_some _ _ _ _ _ Hv) as Hi.
  destruct (nth_ex l k z i Hi) as (c & Hc). rewrite (proj1 (proj1 (frame_ops_channelwise l k x z) i v c Hv Hc)) in Hu.
  injection Hu as <-. destruct (zero_nth _ _ _ _ _ Hz Hc). apply add_zero_all; auto. eapply frame_valid_nth; eauto.
Qed.
Lemma default_zero l k : all_zero (frame_default l k).
Proof.
  apply Forall_forall. intros c Hc. rewrite channels_default in Hc. apply repeat_spec in Hc as ->.
  split; [apply valid_fin, default_valid|apply rval_default].
Qed.
Lemma valid_frame_fin l k (f : frame l k) : frame_valid f -> frame_fin f.
Proof. apply Forall_impl. intros a. apply valid_fin. Qed.
Lemma frame_mul_zero l k (x : frame l k) : frame_fin x -> exists z, frame_mul x (frame_default l k) = Ok z /\ all_zero z.
Proof.
  intros Hx. destruct (proj1 (proj2 (frame_ops_channelwise l k x (frame_default l k)))) as (z & Hz & H). exists z. split; [exact Hz|].
  apply Forall_nth. intros i c Hc. pose proof (nth_some _ _ _ _ _ Hc) as Hi.
  destruct (nth_ex l k x i Hi) as (a & Ha), (nth_ex l k (frame_default l k) i Hi) as (b & Hb).
  destruct (H i a b Ha Hb) as (c' & Hm & Hc'). rewrite Hc in Hc'. injection Hc' as <-.
  apply nth_default in Hb as ->. rewrite <- MID_default in Hm.
  assert (Fa : fin a = true) by (unfold frame_fin in Hx; rewrite Forall_forall in Hx; apply Hx; eapply nth_error_In; eauto).
  destruct (mul_mid_all k a Fa) as (c' & Hm' & E1 & E2). rewrite Hm in Hm'. injection Hm' as ->. auto.
Qed.
Lemma frame_from_f64_1 l k : frame_from_f64 l k (flit 1 0) = from_channel l k (MAX k).
Proof. apply frame_ext. now rewrite frame_from_f64_all, from_channel_all, from_f64_1. Qed.

(** A frame weighted by 1 and then by 0 on silence is the frame. *)
Lemma ws_copy l k (f b : frame l k) : weighted_sum (frame_default l k) [(f, flit 1 0); (f, B754_zero false)] b ->
  frame_valid f -> vals b = vals f /\ frame_valid b.
Proof.
  intros H Hf. apply ws_two in H as (p & q & Hp & Hq & ->).
  rewrite frame_from_f64_1, (frame_mul_max l k f (valid_frame_fin _ _ _ Hf)) in Hp. injection Hp as <-.
  rewrite frame_from_f64_zero in Hq. destruct (frame_mul_zero l k f (valid_frame_fin _ _ _ Hf)) as (z & Hz & Z).
  rewrite Hq in Hz. injection Hz as <-. split; [|apply frame_add_valid].
  rewrite frame_add_zero; [|apply frame_add_valid|exact Z].
  rewrite frame_add_comm. apply frame_add_zero; [exact Hf|apply default_zero].
Qed.

(** ** Covered frames at ratio 1 *)
Lemma floor_big (x : f64) z : 0 <= z <= 2 ^ 64 - 1 -> is_finite x = true -> (IZR z <= B2R x)%R -> z <= floor_index x.
Proof.
  intros Hz F H. assert (Ez : z <= Ztrunc (B2R x)) by (rewrite <- (Ztrunc_IZR z); now apply Ztrunc_le).
  destruct x as [s|s| |s m e He]; try discriminate; unfold floor_index; rewrite clampZ_maxmin by lia; lia.
Qed.
Lemma fofZ_big z : 2 ^ 53 <= z -> 2 ^ 53 <= floor_index (fofZ z).
Proof.
  intros Hz. unfold fofZ. pose proof (binary_normalize_correct 53 1024 _ _ mode_NE z 0 false) as C. cbv zeta in C.
  rewrite F2R_nonneg_exp in C by lia. rewrite Z.pow_0_r, Z.mul_1_r in C.
  destruct (Rlt_bool _ _) in C.
  - destruct C as (C1 & C2 & _). apply floor_big; [lia|exact C2|]. rewrite C1.
    change (round radix2 _ _ (IZR z)) with (round64 (IZR z)).
    rewrite <- (rnd64_Z (2 ^ 53)) by lia. apply (rnd_mono 53 1024). now apply IZR_le.
  - assert (E : Rlt_bool (IZR z) 0 = false) by (apply Rlt_bool_false, IZR_le; lia).
    rewrite E in C. apply (B2SF_inf 53 1024) in C. rewrite C. cbn [floor_index]. lia.
Qed.
Lemma fmul_1_l (x : f64) : fmul (flit 1 0) x = x \/ is_nan x = true.
Proof.
  destruct x as [s|s| |s m e H] eqn:E; [left|left|right; reflexivity|left].
  - rewrite (fmul_comm 53 1024). now apply (fmul_one 53 1024).
  - rewrite (fmul_comm 53 1024). assert (S : Bsign (flit 1 0 : f64) = false) by apply (one_sign 53 1024).
    destruct (flit 1 0 : f64) as [?|?| |s' m' e' H'] eqn:E1; try (apply (f_equal B2SF) in E1; vm_compute in E1; discriminate E1).
    cbn in S. subst s'. cbn. now rewrite xorb_false_r.
  - rewrite (fmul_comm 53 1024). now apply (fmul_one 53 1024).
Qed.
Lemma covered_one len buflen : Z.of_nat buflen <= 2 ^ 53 ->
  covered (flit 1 0) len buflen = match len with Some n => Z.min (Z.of_N n) (Z.of_nat buflen) | None => Z.of_nat buflen end.
Proof.
  intros Hb. destruct len as [n|]; [|reflexivity]. unfold covered.
  assert (E : fmul (flit 1 0) (fofZ (Z.of_N n)) = (fofZ (Z.of_N n) : f64)).
  { destruct (fmul_1_l (fofZ (Z.of_N n))) as [E|N]; [exact E|]. exfalso. unfold fofZ in N.
    now rewrite is_nan_binary_normalize in N. }
  rewrite E. destruct (Z.leb_spec (Z.of_N n) (2 ^ 53)) as [L|L].
  - now rewrite floor_fofZ by lia.
  - pose proof (fofZ_big (Z.of_N n) ltac:(lia)). lia.
Qed.

(** ** Streaming at ratio 1 into a sink at an integer index *)
Section Equal.
Context {l : layout} {k : ck} {ls : layout} {ks : ck}.

Lemma equal_reads (s it : stream ls ks) c e srcs : 0 <= c -> 0 <= e -> c + Z.of_nat (length srcs) <= 2 ^ 53 ->
  Z.of_nat (length srcs) = Z.max 0 (e - c) -> pulls s srcs it ->
  reads s (flit 1 0) (fofZ c) e srcs (N.of_nat (length srcs)) it.
Proof.
  intros Hc He Hb Hl Hp.
  assert (P : forall i, (i <= length srcs)%nat -> floor_index (place (flit 1 0) (fofZ c) i) = Z.of_nat i + c).
  { intros i Hi. unfold place. rewrite flit_fofZ, place_int by lia. rewrite floor_fofZ by lia. lia. }
  split.
  - intros i Hi. rewrite P by lia. lia.
  - left. split; [exact Hp|]. split; [|reflexivity]. rewrite P by lia. lia.
Qed.

(** The effect: frame [c + i] gets source [i]; covered frames below [c] are
    silenced. *)
Lemma equal_streamed (sk sk' : sink l k) c e fs n : 0 <= c -> 0 <= e <= Z.of_nat (length (sk_buf sk)) ->
  c + Z.of_nat (length fs) <= 2 ^ 53 -> Z.of_nat (length fs) = Z.max 0 (e - c) ->
  resampler_index (sk_res sk) = fofZ c -> streamed sk (flit 1 0) e fs n sk' ->
  (forall p, Z.of_nat p < e -> Z.of_nat p < c -> nth_error (sk_buf sk') p = Some (frame_default l k)) /\
  (forall p f, Z.of_nat p < e -> c <= Z.of_nat p -> nth_error fs (p - Z.to_nat c) = Some f -> frame_valid f ->
     exists b, nth_error (sk_buf sk') p = Some b /\ vals b = vals f /\ frame_valid b) /\
  resampler_frame (sk_res sk') = resampler_frame (sk_res sk).
Proof.
  intros Hc He Hb Hl Ho St.
  assert (L : lattice (flit 1 0) (fofZ c) 1 c (flit 1 0) (B754_zero false) 0 (length fs)).
  { rewrite flit_fofZ. apply lattice_int; lia. }
  assert (G : forall p, Z.of_nat p < e -> exists b, nth_error (sk_buf sk') p = Some b).
  { intros p Hp. destruct (nth_error (sk_buf sk') p) as [b|] eqn:E; [eauto|]. apply nth_error_None in E.
    rewrite (st_length _ _ _ _ _ _ St) in E. lia. }
  split; [|split].
  - intros p Hp Hpc. destruct (G p Hp) as (b & Eb). pose proof (st_covered _ _ _ _ _ _ St p b Hp Eb) as W.
    rewrite Ho, (contributions_none _ _ _ _ _ _ _ _ _ L) in W by lia. apply ws_nil_inv in W. now subst.
  - intros p f Hp Hpc Ef Hf. destruct (G p Hp) as (b & Eb). pose proof (st_covered _ _ _ _ _ _ St p b Hp Eb) as W.
    replace (Z.of_nat p) with (c + 1 * Z.of_nat (0 + (p - Z.to_nat c))) in W by lia.
    rewrite Ho, (contributions_at (flit 1 0) (fofZ c) 1 c (flit 1 0) (B754_zero false) fs 0 _ f ltac:(lia) L Ef) in W.
    destruct (ws_copy _ _ _ _ W Hf) as [V1 V2]. eauto.
  - pose proof (st_frame _ _ _ _ _ _ St) as W. rewrite Ho in W.
    rewrite (overhang_none _ _ _ _ _ _ _ _ _ L) in W; [now apply ws_nil_inv in W|]. lia.
Qed.
End Equal.
