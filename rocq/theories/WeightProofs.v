(** * WeightProofs.v -- the resampling weights as real numbers (C38), silence
    (C39) *)
From Coq Require Import ZArith NArith Reals List Bool Lia Lra.
From Flocq Require Import Core.Core IEEE754.BinarySingleNaN.
From Verif Require Import Rust Float Math Chan Frame Ops Stream SpecChan SpecFrame SpecStream SpecSink
  IntProofs FloatProofs FloorProofs FArithProofs ChanProofs FChanProofs FrameProofs OpsProofs StreamProofs SinkProofs PlaceProofs CopyProofs.
Import ListNotations.
Open Scope R_scope.

Lemma fmin_real (x y : f64) : is_finite x = true -> is_finite y = true ->
  B2R (fmin x y) = Rmin (B2R x) (B2R y) /\ is_finite (fmin x y) = true.
Proof.
  intros Fx Fy. unfold fmin. rewrite (finite_not_nan 53 1024 x Fx), (finite_not_nan 53 1024 y Fy).
  destruct (flt y x) eqn:E.
  - apply (flt_correct 53 1024) in E; auto. rewrite Rmin_right by lra. auto.
  - apply (flt_false 53 1024) in E; auto. rewrite Rmin_left by lra. auto.
Qed.
Lemma upper_weight_real (ratio j : f64) : is_finite ratio = true -> is_finite j = true ->
  B2R (upper_weight ratio j) = Rmin (frac j) (B2R ratio) /\ is_finite (upper_weight ratio j) = true.
Proof.
  intros Fr Fj. destruct (frem1_correct 53 1024 j Fj) as [R1 R2]. unfold upper_weight.
  destruct (fmin_real (frem1 j) ratio R2 Fr) as [E F]. rewrite E, R1. auto.
Qed.
Lemma frac_bounds (j : f64) : 0 <= B2R j -> 0 <= frac j < 1.
Proof.
  intros H. unfold frac. rewrite Ztrunc_floor by exact H. pose proof (Zfloor_lb (B2R j)). pose proof (Zfloor_ub (B2R j)). lra.
Qed.
Lemma frac_abs (j : f64) : Rabs (frac j) < 1.
Proof.
  destruct (Rle_or_lt 0 (B2R j)) as [H|H].
  - pose proof (frac_bounds j H). rewrite Rabs_pos_eq; lra.
  - unfold frac. rewrite Ztrunc_ceil by lra. pose proof (Zceil_ub (B2R j)). pose proof (Zceil_lb (B2R j)).
    apply Rabs_def1; lra.
Qed.

Notation ulp64 := (ulp radix2 (FLT_exp (3 - 1024 - 53) 53)).

Lemma weights_real (ratio j : f64) : is_finite ratio = true -> is_finite j = true -> 0 <= B2R ratio -> 0 <= B2R j ->
  (is_finite (upper_weight ratio j) = true /\ B2R (upper_weight ratio j) = Rmin (frac j) (B2R ratio)) /\
  (is_finite (lower_weight ratio j) = true /\ B2R (lower_weight ratio j) = round64 (B2R ratio - B2R (upper_weight ratio j))) /\
  0 <= B2R (upper_weight ratio j) <= B2R ratio /\ 0 <= B2R (lower_weight ratio j) <= B2R ratio /\
  Rabs (B2R (lower_weight ratio j) + B2R (upper_weight ratio j) - B2R ratio) <= / 2 * ulp64 (B2R ratio).
Proof.
  intros Fr Fj Hr Hj. destruct (upper_weight_real ratio j Fr Fj) as [C1 C2].
  pose proof (frac_bounds j Hj) as Fb.
  assert (Cb : 0 <= B2R (upper_weight ratio j) <= B2R ratio).
  { rewrite C1. split; [apply Rmin_glb; lra|apply Rmin_r]. }
  set (c := B2R (upper_weight ratio j)) in *.
  assert (Rb : 0 <= round64 (B2R ratio - c) <= B2R ratio).
  { split; [apply (rnd_nonneg 53 1024); lra|]. apply (rnd_le_fmt 53 1024); [apply (fmt_B2R 53 1024)|lra]. }
  assert (Lt : Rabs (round64 (B2R ratio - c)) < bpow radix2 1024).
  { rewrite Rabs_pos_eq by lra. apply Rle_lt_trans with (B2R ratio); [lra|].
    rewrite <- (Rabs_pos_eq (B2R ratio)) by lra. apply (abs_B2R_lt_emax 53 1024 ratio). }
  destruct (fsub_correct 53 1024 ratio (upper_weight ratio j) Fr C2 Lt) as [D1 D2].
  assert (Ef : B2R (lower_weight ratio j) = round64 (B2R ratio - c)) by exact D1.
  split; [split; assumption|]. split; [split; [exact D2|exact D1]|]. split; [exact Cb|]. split; [now rewrite Ef|].
  rewrite Ef. replace (round64 (B2R ratio - c) + c - B2R ratio) with (round64 (B2R ratio - c) - (B2R ratio - c)) by ring.
  apply Rle_trans with (/ 2 * ulp64 (B2R ratio - c)).
  - apply (error_le_half_ulp radix2 (FLT_exp (3 - 1024 - 53) 53) (fun z => negb (Z.even z))).
  - apply Rmult_le_compat_l; [lra|]. apply (ulp_le radix2 (FLT_exp (3 - 1024 - 53) 53)). rewrite !Rabs_pos_eq; lra.
Qed.

(** Weights of any finite ratio at any position are finite. *)
Lemma weights_finite (ratio j : f64) : is_finite ratio = true -> Rabs (B2R ratio) <= bpow radix2 126 ->
  is_finite (upper_weight ratio j) = true /\ is_finite (lower_weight ratio j) = true /\
  Rabs (B2R (upper_weight ratio j)) <= bpow radix2 127 /\ Rabs (B2R (lower_weight ratio j)) <= bpow radix2 127.
Proof.
  intros Fr Hr.
  assert (B1 : 1 <= bpow radix2 126) by (change 1 with (bpow radix2 0); apply bpow_le; lia).
  assert (B2 : bpow radix2 127 = 2 * bpow radix2 126) by (change 127%Z with (1 + 126)%Z; rewrite bpow_plus; reflexivity).
  assert (C : is_finite (upper_weight ratio j) = true /\ Rabs (B2R (upper_weight ratio j)) <= bpow radix2 126 /\
    Rabs (B2R ratio - B2R (upper_weight ratio j)) <= bpow radix2 127).
  { destruct (is_finite j) eqn:Fj.
    - destruct (upper_weight_real ratio j Fr Fj) as [C1 C2]. pose proof (frac_abs j) as Fa. split; [exact C2|]. rewrite C1.
      apply Rabs_le_inv in Hr. apply Rabs_def2 in Fa. unfold Rmin. destruct (Rle_dec _ _); split; apply Rabs_le; lra.
    - unfold upper_weight. assert (is_nan (frem1 j) = true) as E by (destruct j; try discriminate; reflexivity).
      unfold fmin. rewrite E. split; [exact Fr|]. split; [exact Hr|]. rewrite Rminus_diag_eq, Rabs_R0 by reflexivity. lra. }
  destruct C as (C1 & C2 & C3). split; [exact C1|].
  assert (R : Rabs (round64 (B2R ratio - B2R (upper_weight ratio j))) <= bpow radix2 127).
  { apply (rnd_abs_le 53 1024); [|exact C3]. apply (fmt_bpow 53 1024). lia. }
  destruct (fsub_correct 53 1024 ratio (upper_weight ratio j) Fr C1) as [D1 D2].
  { apply Rle_lt_trans with (1 := R). apply bpow_lt. lia. }
  split; [exact D2|]. split; [lra|]. unfold lower_weight. rewrite D1. exact R.
Qed.
Lemma from_f64_finite k (w : f64) : is_finite w = true -> Rabs (B2R w) <= bpow radix2 127 -> fin (from_f64 k w) = true.
Proof.
  intros F H. destruct k; cbn [fin]; try reflexivity.
  - destruct (proj1 (proj2 from_f64_raw) w F) as [E _]; [|exact E].
    apply Rle_lt_trans with (bpow radix2 127); [|apply bpow_lt; lia].
    apply (rnd_abs_le 24 128); [|exact H]. apply (fmt_bpow 24 128). lia.
  - exact F.
Qed.

(** ** Silence *)
Lemma fmul_pzero prec emax {Hp : FLX.Prec_gt_0 prec} {He : Prec_lt_emax prec emax} (w : binary_float prec emax) :
  is_finite w = true -> exists s, fmul (B754_zero false) w = B754_zero s.
Proof. intros F. destruct w as [s|s| |s m e H]; try discriminate; eexists; reflexivity. Qed.
Lemma zero_plus_zero k (w p : chan k) : is_float k -> fin w = true -> c_mul (chan_default k) w = Ok p ->
  c_add (chan_default k) p = chan_default k.
Proof.
  intros [-> | ->]; cbn [fin c_mul]; intros F H; injection H as <-.
  - assert (Z : chan_default K32 = (B754_zero false : f32)) by (apply B2SF_inj; vm_compute; reflexivity).
    assert (E : exists s, ch32_mul (chan_default K32) w = (B754_zero s : f32)) by (rewrite Z; exact (fmul_pzero 24 128 w F)).
    destruct E as (s & E). match goal with |- c_add _ ?p = _ => change p with (ch32_mul (chan_default K32) w) end. rewrite E, Z. destruct s; apply B2SF_inj; vm_compute; reflexivity.
  - assert (Z : chan_default K64 = (B754_zero false : f64)) by (apply B2SF_inj; vm_compute; reflexivity).
    assert (E : exists s, ch64_mul (chan_default K64) w = (B754_zero s : f64)) by (rewrite Z; exact (fmul_pzero 53 1024 w F)).
    destruct E as (s & E). match goal with |- c_add _ ?p = _ => change p with (ch64_mul (chan_default K64) w) end. rewrite E, Z. destruct s; apply B2SF_inj; vm_compute; reflexivity.
Qed.
Lemma silence_step k (w p : chan k) : fin w = true -> c_mul (chan_default k) w = Ok p ->
  c_add (chan_default k) p = chan_default k.
Proof.
  destruct (kind_cases k) as [Hk|Hk]; intros F H; [|eapply zero_plus_zero; eauto].
  rewrite <- MID_default, mul_comm_all in H. rewrite (proj2 (proj2 (proj2 (mul_int_laws k Hk w w)))) in H. injection H as <-.
  rewrite (MID_default k). now apply add_default_int.
Qed.
Lemma silence_frame l k w (p : frame l k) : fin (from_f64 k w) = true ->
  frame_mul (frame_default l k) (frame_from_f64 l k w) = Ok p -> frame_add (frame_default l k) p = frame_default l k.
Proof.
  intros F H. apply frame_ext_nth. intros i u v Hu Hv. pose proof (nth_some _ _ _ _ _ Hv) as Hi.
  destruct (nth_ex l k p i Hi) as (c & Hc), (nth_ex l k (frame_from_f64 l k w) i Hi) as (x & Hx).
  rewrite (proj1 (proj1 (frame_ops_channelwise l k _ p) i v c Hv Hc)) in Hu. injection Hu as <-.
  destruct (proj1 (vmap2M_ok _ _ _ _ p) H i v x Hv Hx) as (c' & Hm & Hc'). unfold channels in Hc. rewrite Hc in Hc'. injection Hc' as <-.
  apply nth_default in Hv as ->. rewrite frame_from_f64_all in Hx. apply repeat_nth in Hx as ->.
  eapply silence_step; eauto.
Qed.
Lemma ws_silence l k (r : list (frame l k * f64)) b :
  (forall f w, In (f, w) r -> f = frame_default l k /\ fin (from_f64 k w) = true) ->
  weighted_sum (frame_default l k) r b -> b = frame_default l k.
Proof.
  intros H W. remember (frame_default l k) as acc eqn:Ea. revert Ea. induction W as [acc|acc f w p r out Hm W IH]; intros ->; [reflexivity|].
  destruct (H f w (or_introl eq_refl)) as [-> Fw]. pose proof (silence_frame l k w p Fw Hm) as E. rewrite E in *.
  apply IH; [|reflexivity]. intros f' w' Hi. apply H. now right.
Qed.
Lemma contributions_in l k p ratio off (fs : list (frame l k)) : forall i f w, In (f, w) (contributions p ratio off i fs) ->
  In f fs /\ exists a, w = lower_weight ratio (place ratio off a) \/ w = upper_weight ratio (place ratio off a).
Proof.
  induction fs as [|g fs IH]; intros i f w H; [destruct H|]. cbn [contributions] in H. cbv zeta in H.
  apply in_app_or in H as [H|H].
  - destruct (_ =? _)%Z; [|destruct H]. destruct H as [H|[]]. injection H as <- <-. split; [now left|eauto].
  - apply in_app_or in H as [H|H].
    + destruct (_ =? _)%Z; [|destruct H]. destruct H as [H|[]]. injection H as <- <-. split; [now left|eauto].
    + destruct (IH _ _ _ H) as [H1 H2]. split; [now right|exact H2].
Qed.
