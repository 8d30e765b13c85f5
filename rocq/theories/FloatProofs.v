(** * FloatProofs.v -- generic lemmas about the float operations *)
From Coq Require Import ZArith Reals Lia Lra Bool ZifyBool.
From Flocq Require Import Core.Core IEEE754.BinarySingleNaN.
From Verif Require Import Rust Float SpecChan.
Open Scope R_scope.

Section G.
Context (prec emax : Z).
Context {Hp : FLX.Prec_gt_0 prec} {He : Prec_lt_emax prec emax}.
Notation fl := (binary_float prec emax).
Notation rnd := (round_to prec emax).
Notation emin := (3 - emax - prec)%Z.
Notation fexp := (FLT_exp emin prec).
Notation fmt := (generic_format radix2 fexp).

Lemma prec_pos : (0 < prec)%Z. Proof. exact Hp. Qed.
Lemma prec_emax : (prec < emax)%Z. Proof. exact He. Qed.

#[local] Instance valid_fexp : Valid_exp fexp.
Proof. apply FLT_exp_valid, Hp. Qed.

Lemma fmt_B2R (x : fl) : fmt (B2R x).
Proof. exact (generic_format_B2R prec emax x). Qed.

Lemma fmt_F2R m e : (Z.abs m < 2 ^ prec)%Z -> (emin <= e)%Z -> fmt (F2R (Float radix2 m e)).
Proof.
  intros Hm Hle. apply generic_format_FLT. exists (Float radix2 m e); simpl; auto.
Qed.

Lemma fmt_Z n : (Z.abs n <= 2 ^ prec)%Z -> fmt (IZR n).
Proof.
  intros Hn. destruct (Z.eq_dec (Z.abs n) (2 ^ prec)) as [E|E].
  - pose proof prec_emax. pose proof prec_pos.
    assert (Hb : fmt (bpow radix2 prec)).
    { apply generic_format_bpow. unfold FLT_exp. lia. }
    assert (Hz : IZR (2 ^ prec) = bpow radix2 prec).
    { change 2%Z with (radix_val radix2). apply IZR_Zpower. lia. }
    destruct (Zabs_dec n) as [H1|H1]; rewrite H1, E.
    + now rewrite Hz.
    + rewrite opp_IZR, Hz. now apply generic_format_opp.
  - replace (IZR n) with (F2R (Float radix2 n 0)) by (unfold F2R; simpl; ring).
    apply fmt_F2R; [lia|]. pose proof prec_emax. pose proof prec_pos. lia.
Qed.

Lemma fmt_bpow e : (emin + prec - 1 <= e)%Z -> fmt (bpow radix2 e).
Proof. intros H. apply generic_format_bpow. unfold FLT_exp. pose proof prec_pos. lia. Qed.

Lemma rnd_fmt x : fmt x -> rnd x = x.
Proof. intros H. apply round_generic; auto with typeclass_instances. Qed.

Lemma rnd_Z n : (Z.abs n <= 2 ^ prec)%Z -> rnd (IZR n) = IZR n.
Proof. intros H. apply rnd_fmt, fmt_Z, H. Qed.

Lemma fmt_rnd x : fmt (rnd x).
Proof. apply generic_format_round; auto with typeclass_instances. Qed.

Lemma rnd_mono x y : x <= y -> rnd x <= rnd y.
Proof. intros H. apply round_le; auto with typeclass_instances. Qed.

Lemma rnd_opp x : rnd (- x) = - rnd x.
Proof. apply round_NE_opp. Qed.

Lemma rnd_0 : rnd 0 = 0.
Proof. apply round_0; auto with typeclass_instances. Qed.

Lemma rnd_le_fmt x y : fmt y -> x <= y -> rnd x <= y.
Proof. intros Hy H. rewrite <- (rnd_fmt y Hy). now apply rnd_mono. Qed.
Lemma rnd_ge_fmt x y : fmt x -> x <= y -> x <= rnd y.
Proof. intros Hy H. rewrite <- (rnd_fmt x Hy). now apply rnd_mono. Qed.

Lemma rnd_abs_le x y : fmt y -> Rabs x <= y -> Rabs (rnd x) <= y.
Proof. intros Hy H. apply abs_round_le_generic; auto with typeclass_instances. Qed.

Lemma one_lt_emax : 1 < bpow radix2 emax.
Proof. pose proof prec_emax. pose proof prec_pos. change 1 with (bpow radix2 0). apply bpow_lt. lia. Qed.

Lemma fmt_1 : fmt 1.
Proof.
  apply (fmt_Z 1). pose proof prec_pos. change (Z.abs 1) with (2 ^ 0)%Z.
  apply Z.pow_le_mono_r; lia.
Qed.

Lemma rnd_small_lt x : Rabs x <= bpow radix2 (emax - 1) -> Rabs (rnd x) < bpow radix2 emax.
Proof.
  intros H. apply Rle_lt_trans with (bpow radix2 (emax - 1)).
  - apply rnd_abs_le; auto. apply fmt_bpow. pose proof prec_emax. pose proof prec_pos. lia.
  - apply bpow_lt. lia.
Qed.

(** absolute rounding error *)
Lemma rnd_error x e : Rabs x <= bpow radix2 e -> (emin + prec <= e)%Z ->
  Rabs (rnd x - x) <= bpow radix2 (e - prec - 1).
Proof.
  intros Hx Hle. destruct (Rle_lt_or_eq_dec _ _ Hx) as [Hlt|Heq].
  - apply Rle_trans with (/ 2 * ulp radix2 fexp x).
    { apply error_le_half_ulp; auto with typeclass_instances. }
    destruct (Req_dec x 0) as [->|Hx0].
    + rewrite ulp_FLT_0 by exact Hp. replace (e - prec - 1)%Z with (-1 + (e - prec))%Z by ring.
      rewrite bpow_plus. change (bpow radix2 (-1)) with (/ 2).
      apply Rmult_le_compat_l; [lra|]. apply bpow_le. lia.
    + rewrite ulp_neq_0 by exact Hx0. unfold cexp.
      replace (e - prec - 1)%Z with (-1 + (e - prec))%Z by ring.
      rewrite bpow_plus. change (bpow radix2 (-1)) with (/ 2).
      apply Rmult_le_compat_l; [lra|]. apply bpow_le.
      unfold FLT_exp. assert (mag radix2 x <= e)%Z by (now apply mag_le_bpow). lia.
  - rewrite rnd_fmt.
    + rewrite Rminus_diag_eq, Rabs_R0 by reflexivity. apply bpow_ge_0.
    + destruct (Rcase_abs x) as [Hn|Hn].
      * rewrite Rabs_left in Heq by exact Hn. replace x with (- bpow radix2 e) by lra.
        apply generic_format_opp. apply fmt_bpow. lia.
      * rewrite Rabs_pos_eq in Heq by lra. rewrite Heq. apply fmt_bpow. lia.
Qed.

(** ** Operations on finite floats *)

Lemma fadd_correct (x y : fl) : is_finite x = true -> is_finite y = true ->
  Rabs (rnd (B2R x + B2R y)) < bpow radix2 emax ->
  B2R (fadd x y) = rnd (B2R x + B2R y) /\ is_finite (fadd x y) = true.
Proof.
  intros Fx Fy H. pose proof (Bplus_correct prec emax _ _ mode_NE x y Fx Fy) as C.
  rewrite Rlt_bool_true in C by exact H. unfold fadd. tauto.
Qed.
Lemma fsub_correct (x y : fl) : is_finite x = true -> is_finite y = true ->
  Rabs (rnd (B2R x - B2R y)) < bpow radix2 emax ->
  B2R (fsub x y) = rnd (B2R x - B2R y) /\ is_finite (fsub x y) = true.
Proof.
  intros Fx Fy H. pose proof (Bminus_correct prec emax _ _ mode_NE x y Fx Fy) as C.
  rewrite Rlt_bool_true in C by exact H. unfold fsub. tauto.
Qed.
Lemma fmul_correct (x y : fl) : is_finite x = true -> is_finite y = true ->
  Rabs (rnd (B2R x * B2R y)) < bpow radix2 emax ->
  B2R (fmul x y) = rnd (B2R x * B2R y) /\ is_finite (fmul x y) = true.
Proof.
  intros Fx Fy H. pose proof (Bmult_correct prec emax _ _ mode_NE x y) as C.
  rewrite Rlt_bool_true in C by exact H. rewrite Fx, Fy in C. unfold fmul. tauto.
Qed.
Lemma fdiv_correct (x y : fl) : is_finite x = true -> B2R y <> 0 ->
  Rabs (rnd (B2R x / B2R y)) < bpow radix2 emax ->
  B2R (fdiv x y) = rnd (B2R x / B2R y) /\ is_finite (fdiv x y) = true.
Proof.
  intros Fx Fy H. pose proof (Bdiv_correct prec emax _ _ mode_NE x y Fy) as C.
  rewrite Rlt_bool_true in C by exact H. rewrite Fx in C. unfold fdiv. tauto.
Qed.

Lemma flt_correct (x y : fl) : is_finite x = true -> is_finite y = true ->
  flt x y = true <-> B2R x < B2R y.
Proof.
  intros Fx Fy. unfold flt. rewrite Bltb_correct by assumption.
  destruct (Rlt_bool_spec (B2R x) (B2R y)); split; auto; try discriminate; lra.
Qed.
Lemma flt_false (x y : fl) : is_finite x = true -> is_finite y = true ->
  flt x y = false <-> B2R y <= B2R x.
Proof.
  intros Fx Fy. unfold flt. rewrite Bltb_correct by assumption.
  destruct (Rlt_bool_spec (B2R x) (B2R y)); split; auto; try discriminate; lra.
Qed.
Lemma fle_correct (x y : fl) : is_finite x = true -> is_finite y = true ->
  fle x y = true <-> B2R x <= B2R y.
Proof.
  intros Fx Fy. unfold fle. rewrite Bleb_correct by assumption.
  destruct (Rle_bool_spec (B2R x) (B2R y)); split; auto; try discriminate; lra.
Qed.
Lemma feq_correct (x y : fl) : is_finite x = true -> is_finite y = true ->
  feq x y = true <-> B2R x = B2R y.
Proof.
  intros Fx Fy. unfold feq. rewrite Beqb_correct by assumption.
  destruct (Req_bool_spec (B2R x) (B2R y)); split; auto; try discriminate; lra.
Qed.

Lemma B2R_fneg (x : fl) : B2R (fneg x) = - B2R x.
Proof. exact (B2R_Bopp prec emax x). Qed.
Lemma finite_fneg (x : fl) : is_finite (fneg x) = is_finite x.
Proof. exact (is_finite_Bopp prec emax x). Qed.

Lemma flit_correct m e : fmt (F2R (Float radix2 m e)) ->
  Rabs (F2R (Float radix2 m e)) < bpow radix2 emax ->
  B2R (flit m e : fl) = F2R (Float radix2 m e) /\ is_finite (flit m e : fl) = true.
Proof.
  intros Hf Hb. pose proof (binary_normalize_correct prec emax _ _ mode_NE m e false) as C.
  cbv zeta in C.
  change (round radix2 (SpecFloat.fexp prec emax) (round_mode mode_NE)) with rnd in C.
  rewrite rnd_fmt in C by exact Hf. rewrite Rlt_bool_true in C by exact Hb.
  unfold flit. tauto.
Qed.

Lemma flit_Z m : (Z.abs m <= 2 ^ prec)%Z -> B2R (flit m 0 : fl) = IZR m /\ is_finite (flit m 0 : fl) = true.
Proof.
  intros Hm. replace (IZR m) with (F2R (Float radix2 m 0)) by (unfold F2R; simpl; ring).
  apply flit_correct.
  - replace (F2R (Float radix2 m 0)) with (IZR m) by (unfold F2R; simpl; ring). now apply fmt_Z.
  - replace (F2R (Float radix2 m 0)) with (IZR m) by (unfold F2R; simpl; ring).
    rewrite <- abs_IZR. apply Rle_lt_trans with (IZR (2 ^ prec)).
    + now apply IZR_le.
    + change 2%Z with (radix_val radix2). rewrite IZR_Zpower by (pose proof prec_pos; lia).
      apply bpow_lt, He.
Qed.

Lemma fofZ_exact m : (Z.abs m <= 2 ^ prec)%Z -> B2R (fofZ m : fl) = IZR m /\ is_finite (fofZ m : fl) = true.
Proof. exact (flit_Z m). Qed.

Lemma fofZ_round m : Rabs (IZR m) <= bpow radix2 (emax - 1) ->
  B2R (fofZ m : fl) = rnd (IZR m) /\ is_finite (fofZ m : fl) = true.
Proof.
  intros Hm. pose proof (binary_normalize_correct prec emax _ _ mode_NE m 0 false) as C.
  cbv zeta in C.
  change (round radix2 (SpecFloat.fexp prec emax) (round_mode mode_NE)) with rnd in C.
  replace (F2R (Float radix2 m 0)) with (IZR m) in C by (unfold F2R; simpl; ring).
  rewrite Rlt_bool_true in C by (now apply rnd_small_lt).
  unfold fofZ. tauto.
Qed.

Lemma pow2_prec_ge2 : (2 <= 2 ^ prec)%Z.
Proof. pose proof prec_pos. change 2%Z with (2 ^ 1)%Z at 1. apply Z.pow_le_mono_r; lia. Qed.

Notation one := (flit 1 0 : fl).
Notation mone := (flit (-1) 0 : fl).
Lemma one_correct : B2R one = 1 /\ is_finite one = true.
Proof. apply (flit_Z 1). pose proof pow2_prec_ge2. lia. Qed.
Lemma mone_correct : B2R mone = -1 /\ is_finite mone = true.
Proof. apply (flit_Z (-1)). pose proof pow2_prec_ge2. lia. Qed.
Lemma zero_correct : B2R (flit 0 0 : fl) = 0 /\ is_finite (flit 0 0 : fl) = true.
Proof. apply (flit_Z 0). pose proof pow2_prec_ge2. lia. Qed.

Lemma finite_not_nan (x : fl) : is_finite x = true -> is_nan x = false.
Proof. now destruct x. Qed.

(** ** Clamping *)
Definition clampf (x : fl) : fl := fmax (fmin x one) mone.

Lemma flt_inf_l (y : fl) : is_finite y = true -> flt (B754_infinity false : fl) y = false.
Proof. now destruct y as [?|[]| |[] ? ? ?]. Qed.
Lemma flt_inf_r (x : fl) : is_finite x = true -> flt x (B754_infinity false : fl) = true.
Proof. now destruct x as [?|[]| |[] ? ? ?]. Qed.
Lemma flt_minf_l (y : fl) : is_finite y = true -> flt (B754_infinity true : fl) y = true.
Proof. now destruct y as [?|[]| |[] ? ? ?]. Qed.
Lemma flt_minf_r (x : fl) : is_finite x = true -> flt x (B754_infinity true : fl) = false.
Proof. now destruct x as [?|[]| |[] ? ? ?]. Qed.

Lemma clampf_nan (x : fl) : is_nan x = true -> clampf x = one.
Proof.
  intros Hx. destruct one_correct as [O1 O2], mone_correct as [M1 M2].
  unfold clampf, fmin, fmax. rewrite Hx, (finite_not_nan _ O2), (finite_not_nan _ M2).
  replace (flt one mone) with false; [reflexivity|]. symmetry.
  apply flt_false; auto. lra.
Qed.

Lemma clampf_inf s : clampf (B754_infinity s : fl) = if s then mone else one.
Proof.
  destruct one_correct as [O1 O2], mone_correct as [M1 M2].
  unfold clampf, fmin, fmax. cbn [is_nan].
  rewrite (finite_not_nan _ O2), (finite_not_nan _ M2). destruct s.
  - rewrite flt_minf_r by exact O2. cbn [is_nan]. now rewrite flt_minf_l.
  - rewrite flt_inf_r by exact O2. rewrite (finite_not_nan _ O2).
    replace (flt one mone) with false; [reflexivity|]. symmetry. apply flt_false; auto. lra.
Qed.

Lemma clampf_finite (x : fl) : is_finite x = true ->
  clampf x = if Rlt_dec (B2R x) (-1) then mone else if Rlt_dec 1 (B2R x) then one else x.
Proof.
  intros Fx. destruct one_correct as [O1 O2], mone_correct as [M1 M2].
  unfold clampf, fmin, fmax. rewrite (finite_not_nan x Fx), (finite_not_nan _ O2), (finite_not_nan _ M2).
  destruct (flt one x) eqn:E1.
  - apply flt_correct in E1; auto. rewrite (finite_not_nan _ O2).
    replace (flt one mone) with false by (symmetry; apply flt_false; auto; lra).
    destruct (Rlt_dec (B2R x) (-1)); [lra|]. destruct (Rlt_dec 1 (B2R x)); [reflexivity|lra].
  - apply flt_false in E1; auto. rewrite (finite_not_nan x Fx).
    destruct (flt x mone) eqn:E2.
    + apply flt_correct in E2; auto. destruct (Rlt_dec (B2R x) (-1)); [reflexivity|lra].
    + apply flt_false in E2; auto. destruct (Rlt_dec (B2R x) (-1)); [lra|].
      destruct (Rlt_dec 1 (B2R x)); [lra|reflexivity].
Qed.

Lemma clampf_in_range (x : fl) : in_range (clampf x).
Proof.
  destruct one_correct as [O1 O2], mone_correct as [M1 M2].
  destruct x as [s|s| |s m e H] eqn:Ex; rewrite <- Ex.
  - rewrite clampf_finite by now rewrite Ex.
    rewrite Ex. cbn. destruct (Rlt_dec 0 (-1)); [lra|]. destruct (Rlt_dec 1 0); [lra|].
    split; [reflexivity|cbn; lra].
  - rewrite Ex, clampf_inf. destruct s; split; auto; lra.
  - rewrite clampf_nan by now rewrite Ex. split; auto; lra.
  - rewrite clampf_finite by now rewrite Ex.
    destruct (Rlt_dec (B2R x) (-1)); [split; auto; lra|].
    destruct (Rlt_dec 1 (B2R x)); [split; auto; lra|].
    split; [now rewrite Ex|lra].
Qed.

Lemma clampf_id (x : fl) : in_range x -> clampf x = x.
Proof.
  intros [Fx Hx]. rewrite clampf_finite by exact Fx.
  destruct (Rlt_dec (B2R x) (-1)); [lra|]. destruct (Rlt_dec 1 (B2R x)); [lra|reflexivity].
Qed.

Lemma clampf_B2R (x : fl) : is_finite x = true -> B2R (clampf x) = clampR (B2R x).
Proof.
  intros Fx. destruct one_correct as [O1 O2], mone_correct as [M1 M2].
  rewrite clampf_finite by exact Fx. unfold clampR.
  destruct (Rlt_dec (B2R x) (-1)); [exact M1|]. destruct (Rlt_dec 1 (B2R x)); [exact O1|reflexivity].
Qed.

(** [x <= y] for floats, with infinities, preserved by clamping. *)
Lemma clampf_mono (x y : fl) : fle x y = true -> B2R (clampf x) <= B2R (clampf y).
Proof.
  destruct one_correct as [O1 O2], mone_correct as [M1 M2].
  intros H. destruct (is_finite x) eqn:Fx, (is_finite y) eqn:Fy.
  - apply fle_correct in H; auto. rewrite !clampf_B2R by assumption. unfold clampR.
    repeat destruct Rlt_dec; lra.
  - destruct y as [s|s| |s m e Hb]; try discriminate.
    + rewrite clampf_inf. destruct (clampf_in_range x) as [_ Hr]. destruct s; [|lra].
      now destruct x as [?|[]| |[] ? ? ?].
    + now destruct x as [?|[]| |[] ? ? ?].
  - destruct x as [s|s| |s m e Hb]; try discriminate.
    rewrite clampf_inf. destruct (clampf_in_range y) as [_ Hr]. destruct s; [lra|].
    now destruct y as [?|[]| |[] ? ? ?].
  - destruct x as [s|s| |s m e Hb]; try discriminate.
    destruct y as [s'|s'| |s' m' e' Hb']; try (destruct s; discriminate); try discriminate.
    rewrite !clampf_inf. destruct s, s'; try lra. discriminate.
Qed.

(** ** Equality of floats *)
Lemma finite_eq (x y : fl) : is_finite x = true -> is_finite y = true ->
  B2R x = B2R y -> B2R x <> 0 -> x = y.
Proof.
  intros Fx Fy H H0. apply B2R_inj; auto.
  - destruct x; try discriminate; try reflexivity. elim H0. reflexivity.
  - destruct y; try discriminate; try reflexivity. elim H0. rewrite H. reflexivity.
Qed.

End G.
Arguments clampf {prec emax Hp He}.
