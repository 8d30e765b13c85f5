(** * FArithProofs.v -- clamped float arithmetic, for any float format *)
From Coq Require Import ZArith Reals Lia Lra Bool ZifyBool.
From Flocq Require Import Core.Core IEEE754.BinarySingleNaN.
From Verif Require Import Rust Float SpecChan FloatProofs FloorProofs.
Open Scope R_scope.

Section G.
Context (prec emax : Z).
Context {Hp : FLX.Prec_gt_0 prec} {He : Prec_lt_emax prec emax}.
Notation fl := (binary_float prec emax).
Notation rnd := (round_to prec emax).
Notation emin := (3 - emax - prec)%Z.
Notation fexp := (FLT_exp emin prec).
Notation fmt := (generic_format radix2 fexp).
Notation one := (flit 1 0 : fl).

Lemma B2SF_inf (x : fl) s : B2SF x = binary_overflow prec emax mode_NE s -> x = B754_infinity s.
Proof. intros H. apply B2SF_inj. rewrite H. reflexivity. Qed.

Lemma Bsign_nonneg (x : fl) : is_finite x = true -> Bsign x = false -> 0 <= B2R x.
Proof.
  destruct x as [s|s| |s m e H]; try discriminate; intros _ Hs.
  - cbn. lra.
  - cbn in Hs. subst s. cbn [B2R SpecFloat.cond_Zopp]. now apply F2R_ge_0.
Qed.
Lemma Bsign_nonpos (x : fl) : is_finite x = true -> Bsign x = true -> B2R x <= 0.
Proof.
  destruct x as [s|s| |s m e H]; try discriminate; intros _ Hs.
  - cbn. lra.
  - cbn in Hs. subst s. cbn [B2R SpecFloat.cond_Zopp]. now apply F2R_le_0.
Qed.

Lemma clampR_ge x : 1 <= x -> clampR x = 1.
Proof. intros H. unfold clampR. repeat destruct Rlt_dec; lra. Qed.
Lemma clampR_le x : x <= -1 -> clampR x = -1.
Proof. intros H. unfold clampR. repeat destruct Rlt_dec; lra. Qed.
Lemma clampR_id x : -1 <= x <= 1 -> clampR x = x.
Proof. intros H. unfold clampR. repeat destruct Rlt_dec; lra. Qed.
Lemma clampR_bounds x : -1 <= clampR x <= 1.
Proof. unfold clampR. repeat destruct Rlt_dec; lra. Qed.
Lemma clampR_mono x y : x <= y -> clampR x <= clampR y.
Proof. intros H. unfold clampR. repeat destruct Rlt_dec; lra. Qed.

(** An overflowed result is an infinity, which clamps to the same bound as the
    unbounded rounded result. *)
Lemma clampf_overflow (s : bool) r : bpow radix2 emax <= Rabs r -> (if s then r <= 0 else 0 <= r) ->
  B2R (clampf (B754_infinity s : fl)) = clampR r.
Proof.
  intros H Hs. rewrite clampf_inf. pose proof (one_lt_emax prec emax).
  destruct (one_correct prec emax) as [O1 _], (mone_correct prec emax) as [M1 _]. destruct s.
  - rewrite M1. rewrite Rabs_left1 in H by exact Hs. rewrite clampR_le; lra.
  - rewrite O1. rewrite Rabs_pos_eq in H by exact Hs. rewrite clampR_ge; lra.
Qed.

Lemma rnd_nonneg x : 0 <= x -> 0 <= rnd x.
Proof. intros H. rewrite <- (rnd_0 prec emax). now apply (rnd_mono prec emax). Qed.
Lemma rnd_nonpos x : x <= 0 -> rnd x <= 0.
Proof. intros H. rewrite <- (rnd_0 prec emax). now apply (rnd_mono prec emax). Qed.

Lemma clamp_fadd (x y : fl) : is_finite x = true -> is_finite y = true ->
  B2R (clampf (fadd x y)) = clampR (rnd (B2R x + B2R y)).
Proof.
  intros Fx Fy. pose proof (Bplus_correct prec emax _ _ mode_NE x y Fx Fy) as C.
  change (round radix2 (SpecFloat.fexp prec emax) (round_mode mode_NE)) with rnd in C.
  destruct (Rlt_bool_spec (Rabs (rnd (B2R x + B2R y))) (bpow radix2 emax)) as [H|H].
  - destruct C as (C1 & C2 & _). unfold fadd. now rewrite clampf_B2R, C1.
  - destruct C as (C1 & C2). apply B2SF_inf in C1. unfold fadd. rewrite C1.
    apply clampf_overflow; [exact H|]. destruct (Bsign x) eqn:Es.
    + apply rnd_nonpos. pose proof (Bsign_nonpos x Fx Es). pose proof (Bsign_nonpos y Fy ltac:(congruence)). lra.
    + apply rnd_nonneg. pose proof (Bsign_nonneg x Fx Es). pose proof (Bsign_nonneg y Fy ltac:(congruence)). lra.
Qed.

Lemma clamp_fsub (x y : fl) : is_finite x = true -> is_finite y = true ->
  B2R (clampf (fsub x y)) = clampR (rnd (B2R x - B2R y)).
Proof.
  intros Fx Fy. pose proof (Bminus_correct prec emax _ _ mode_NE x y Fx Fy) as C.
  change (round radix2 (SpecFloat.fexp prec emax) (round_mode mode_NE)) with rnd in C.
  destruct (Rlt_bool_spec (Rabs (rnd (B2R x - B2R y))) (bpow radix2 emax)) as [H|H].
  - destruct C as (C1 & C2 & _). unfold fsub. now rewrite clampf_B2R, C1.
  - destruct C as (C1 & C2). apply B2SF_inf in C1. unfold fsub. rewrite C1.
    apply clampf_overflow; [exact H|]. destruct (Bsign x) eqn:Es.
    + apply rnd_nonpos. pose proof (Bsign_nonpos x Fx Es).
      pose proof (Bsign_nonneg y Fy ltac:(now destruct (Bsign y))). lra.
    + apply rnd_nonneg. pose proof (Bsign_nonneg x Fx Es).
      pose proof (Bsign_nonpos y Fy ltac:(now destruct (Bsign y))). lra.
Qed.

Lemma clamp_fdiv (x y : fl) : is_finite x = true -> is_finite y = true -> B2R y <> 0 ->
  B2R (clampf (fdiv x y)) = clampR (rnd (B2R x / B2R y)).
Proof.
  intros Fx Fy Hy. pose proof (Bdiv_correct prec emax _ _ mode_NE x y Hy) as C.
  change (round radix2 (SpecFloat.fexp prec emax) (round_mode mode_NE)) with rnd in C.
  destruct (Rlt_bool_spec (Rabs (rnd (B2R x / B2R y))) (bpow radix2 emax)) as [H|H].
  - destruct C as (C1 & C2 & _). unfold fdiv. rewrite clampf_B2R, C1; [reflexivity|].
    now rewrite C2.
  - apply B2SF_inf in C. unfold fdiv. rewrite C.
    apply clampf_overflow; [exact H|]. destruct (Bsign x) eqn:Es, (Bsign y) eqn:Et; cbn [xorb].
    + apply rnd_nonneg. pose proof (Bsign_nonpos x Fx Es). pose proof (Bsign_nonpos y Fy Et).
      assert (/ B2R y < 0) by (apply Rinv_lt_0_compat; lra). unfold Rdiv. nra.
    + apply rnd_nonpos. pose proof (Bsign_nonpos x Fx Es). pose proof (Bsign_nonneg y Fy Et).
      assert (0 < / B2R y) by (apply Rinv_0_lt_compat; lra). unfold Rdiv. nra.
    + apply rnd_nonpos. pose proof (Bsign_nonneg x Fx Es). pose proof (Bsign_nonpos y Fy Et).
      assert (/ B2R y < 0) by (apply Rinv_lt_0_compat; lra). unfold Rdiv. nra.
    + apply rnd_nonneg. pose proof (Bsign_nonneg x Fx Es). pose proof (Bsign_nonneg y Fy Et).
      assert (0 < / B2R y) by (apply Rinv_0_lt_compat; lra). unfold Rdiv. nra.
Qed.

(** ** Commutativity *)
Lemma fadd_comm (x y : fl) : fadd x y = fadd y x.
Proof.
  unfold fadd. destruct x as [s|s| |s m e H], y as [s'|s'| |s' m' e' H']; try reflexivity.
  - destruct s, s'; reflexivity.
  - destruct s, s'; reflexivity.
  - cbn [Bplus]. rewrite (Z.min_comm e e'). f_equal. unfold Fplus_naive. apply Z.add_comm.
Qed.
Lemma fmul_comm (x y : fl) : fmul x y = fmul y x.
Proof.
  unfold fmul. destruct x as [s|s| |s m e H], y as [s'|s'| |s' m' e' H'];
    cbn [Bmult]; rewrite ?(xorb_comm s s'); try reflexivity.
  apply B2SF_inj. rewrite !B2SF_SF2B. now rewrite (xorb_comm s s'), (Pos.mul_comm m m'), (Z.add_comm e e').
Qed.

(** ** Products of in-range values *)
Lemma fmul_in_range (x y : fl) : in_range x -> in_range y ->
  in_range (fmul x y) /\ B2R (fmul x y) = rnd (B2R x * B2R y).
Proof.
  intros [Fx Hx] [Fy Hy].
  assert (Hxy : Rabs (B2R x * B2R y) <= 1).
  { rewrite Rabs_mult. assert (Rabs (B2R x) <= 1) by (apply Rabs_le; lra).
    assert (Rabs (B2R y) <= 1) by (apply Rabs_le; lra).
    pose proof (Rabs_pos (B2R x)). pose proof (Rabs_pos (B2R y)). nra. }
  assert (Hr : Rabs (rnd (B2R x * B2R y)) <= 1).
  { apply (rnd_abs_le prec emax); [apply (fmt_1 prec emax)|exact Hxy]. }
  destruct (fmul_correct prec emax x y Fx Fy) as [M1 M2].
  { eapply Rle_lt_trans; [exact Hr|]. apply (one_lt_emax prec emax). }
  split; [|exact M1]. split; [exact M2|]. rewrite M1. apply Rabs_le_inv in Hr. lra.
Qed.

Lemma one_sign : Bsign one = false.
Proof.
  destruct (one_correct prec emax) as [O1 O2]. destruct (Bsign one) eqn:E; [|reflexivity].
  pose proof (Bsign_nonpos one O2 E). lra.
Qed.

Lemma fmul_one (x : fl) : is_finite x = true -> fmul x one = x.
Proof.
  intros Fx. destruct (one_correct prec emax) as [O1 O2].
  pose proof (Bmult_correct prec emax _ _ mode_NE x one) as C.
  change (round radix2 (SpecFloat.fexp prec emax) (round_mode mode_NE)) with rnd in C.
  rewrite O1, Rmult_1_r in C. rewrite (rnd_fmt prec emax) in C by apply (fmt_B2R prec emax).
  rewrite Rlt_bool_true in C by apply abs_B2R_lt_emax. destruct C as (C1 & C2 & C3).
  rewrite Fx, O2 in C2. cbn in C2. unfold fmul. apply B2R_Bsign_inj; auto.
  rewrite C3 by (now apply finite_not_nan). rewrite one_sign. now rewrite xorb_false_r.
Qed.

Lemma fmul_zero (x z : fl) : is_finite x = true -> is_finite z = true -> B2R z = 0 ->
  is_finite (fmul x z) = true /\ B2R (fmul x z) = 0.
Proof.
  intros Fx Fz Hz. destruct (fmul_correct prec emax x z Fx Fz) as [M1 M2].
  - rewrite Hz, Rmult_0_r, (rnd_0 prec emax), Rabs_R0. apply bpow_gt_0.
  - split; [exact M2|]. now rewrite M1, Hz, Rmult_0_r, (rnd_0 prec emax).
Qed.

(** Adding a zero. *)
Lemma fadd_zero (x z : fl) : is_finite x = true -> is_finite z = true -> B2R z = 0 ->
  is_finite (fadd x z) = true /\ B2R (fadd x z) = B2R x.
Proof.
  intros Fx Fz Hz. destruct (fadd_correct prec emax x z Fx Fz) as [M1 M2].
  - rewrite Hz, Rplus_0_r, (rnd_fmt prec emax) by apply (fmt_B2R prec emax). apply abs_B2R_lt_emax.
  - split; [exact M2|]. rewrite M1, Hz, Rplus_0_r. apply (rnd_fmt prec emax), (fmt_B2R prec emax).
Qed.

(** ** Linear interpolation at full scale *)
Lemma lerp_error (a b : fl) : (1 < prec)%Z -> (4 < emax)%Z -> in_range a -> in_range b -> Rabs (B2R b - B2R a) <= 1 ->
  let r := clampf (fadd a (fmul one (clampf (fsub b a)))) in
  Rabs (B2R r - B2R b) <= bpow radix2 (1 - prec).
Proof.
  intros Hp1 He4 [Fa Ha] [Fb Hb] Hd r.
  assert (Hb0 : bpow radix2 0 = 1) by reflexivity. assert (Hb1 : bpow radix2 1 = 2) by reflexivity.
  destruct (fsub_correct prec emax b a Fb Fa) as [S1 S2].
  { apply (rnd_small_lt prec emax). eapply Rle_trans; [exact Hd|]. rewrite <- Hb0. apply bpow_le. lia. }
  assert (Hs : Rabs (rnd (B2R b - B2R a)) <= 1).
  { apply (rnd_abs_le prec emax); [apply (fmt_1 prec emax)|exact Hd]. }
  assert (Hin : in_range (fsub b a)).
  { split; [exact S2|]. rewrite S1. apply Rabs_le_inv in Hs. lra. }
  unfold r. rewrite (clampf_id prec emax _ Hin), fmul_comm, (fmul_one _ S2).
  rewrite clamp_fadd by assumption. rewrite S1.
  pose proof (rnd_error prec emax (B2R b - B2R a) 0 ltac:(rewrite Hb0; exact Hd) ltac:(pose proof (prec_emax prec emax); lia)) as E1.
  set (d := rnd (B2R b - B2R a)) in *.
  assert (Hda : Rabs (B2R a + d) <= bpow radix2 1).
  { rewrite Hb1. apply Rabs_le. apply Rabs_le_inv in Hs. lra. }
  pose proof (rnd_error prec emax (B2R a + d) 1 Hda ltac:(pose proof (prec_emax prec emax); lia)) as E2.
  set (q := rnd (B2R a + d)) in *.
  replace (0 - prec - 1)%Z with (-2 + (1 - prec))%Z in E1 by ring.
  replace (1 - prec - 1)%Z with (-1 + (1 - prec))%Z in E2 by ring.
  rewrite bpow_plus in E1, E2. change (bpow radix2 (-1)) with (/ 2) in E2. change (bpow radix2 (-2)) with (/ 4) in E1.
  pose proof (bpow_gt_0 radix2 (1 - prec)) as Hu. set (u := bpow radix2 (1 - prec)) in *.
  apply Rabs_le_inv in E1. apply Rabs_le_inv in E2.
  assert (Hq : Rabs (q - B2R b) <= u) by (apply Rabs_le; lra).
  apply Rabs_le_inv in Hq. apply Rabs_le.
  unfold clampR. repeat destruct Rlt_dec; lra.
Qed.

End G.
