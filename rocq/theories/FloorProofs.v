(** * FloorProofs.v -- truncation, fraction, the floor helpers of src/math.rs
    and float-format conversions *)
From Coq Require Import ZArith Reals Lia Lra Bool ZifyBool.
From Flocq Require Import Core.Core IEEE754.BinarySingleNaN.
From Verif Require Import Rust Float Math SpecChan FloatProofs.
Open Scope R_scope.

Section G.
Context (prec emax : Z).
Context {Hp : FLX.Prec_gt_0 prec} {He : Prec_lt_emax prec emax}.
Notation fl := (binary_float prec emax).
Notation rnd := (round_to prec emax).
Notation emin := (3 - emax - prec)%Z.
Notation fexp := (FLT_exp emin prec).
Notation fmt := (generic_format radix2 fexp).

Lemma F2R_nonneg_exp m e : (0 <= e)%Z -> F2R (Float radix2 m e) = IZR (m * 2 ^ e).
Proof.
  intros H. unfold F2R; cbn [Fnum Fexp]. rewrite mult_IZR. f_equal.
  change 2%Z with (radix_val radix2). now rewrite IZR_Zpower.
Qed.
Lemma F2R_neg_exp m e : (e < 0)%Z -> F2R (Float radix2 m e) = IZR m / IZR (2 ^ (- e)).
Proof.
  intros H. unfold F2R, Rdiv; cbn [Fnum Fexp]. f_equal.
  change 2%Z with (radix_val radix2). rewrite IZR_Zpower by lia. rewrite <- bpow_opp.
  f_equal. ring.
Qed.

Lemma IZR_cond_Zopp s m : IZR (SpecFloat.cond_Zopp s m) = if s then - IZR m else IZR m.
Proof. destruct s; cbn; [apply opp_IZR|reflexivity]. Qed.

Lemma ftrunc_correct (x : fl) : is_finite x = true -> ftrunc x = Ztrunc (B2R x).
Proof.
  destruct x as [s|s| |s m e H]; try discriminate; intros _.
  - cbn. now rewrite (Ztrunc_IZR 0).
  - cbn [ftrunc B2R]. destruct (0 <=? e)%Z eqn:E.
    + rewrite F2R_nonneg_exp by lia. rewrite Ztrunc_IZR. destruct s; cbn [SpecFloat.cond_Zopp]; ring.
    + assert (He' : (e < 0)%Z) by lia. clear E.
      assert (Hz : (0 < 2 ^ (- e))%Z) by (apply Z.pow_pos_nonneg; lia).
      assert (Hq : Ztrunc (IZR (Zpos m) / IZR (2 ^ (- e))) = (Zpos m / 2 ^ (- e))%Z).
      { rewrite Ztrunc_floor.
        - apply Zfloor_div. lia.
        - apply Rmult_le_pos; [apply IZR_le; lia|]. apply Rlt_le, Rinv_0_lt_compat, IZR_lt. lia. }
      rewrite F2R_neg_exp by exact He'. rewrite IZR_cond_Zopp. destruct s; cbn [SpecFloat.cond_Zopp].
      * unfold Rdiv. rewrite Ropp_mult_distr_l_reverse. rewrite Ztrunc_opp.
        fold (IZR (Zpos m) / IZR (2 ^ (- e))). now rewrite Hq.
      * now rewrite Hq.
Qed.

Lemma frem1_correct (x : fl) : is_finite x = true ->
  B2R (frem1 x) = B2R x - IZR (Ztrunc (B2R x)) /\ is_finite (frem1 x) = true.
Proof.
  intros Fx. rewrite <- ftrunc_correct by exact Fx.
  destruct x as [s|s| |s m e H]; try discriminate.
  - cbn. split; [ring|reflexivity].
  - cbn [ftrunc frem1]. destruct (0 <=? e)%Z eqn:E.
    + cbn [B2R is_finite]. split; [|reflexivity].
      rewrite F2R_nonneg_exp by lia. destruct s; cbn [SpecFloat.cond_Zopp]; rewrite ?opp_IZR.
      * replace (- Z.pos m * 2 ^ e)%Z with (- (Z.pos m * 2 ^ e))%Z by ring. rewrite opp_IZR. ring.
      * ring.
    + assert (He' : (e < 0)%Z) by lia. clear E.
      assert (Hz : (0 < 2 ^ (- e))%Z) by (apply Z.pow_pos_nonneg; lia).
      pose proof (Z.mod_pos_bound (Z.pos m) (2 ^ (- e)) Hz) as Hb.
      pose proof (Z.mod_le (Z.pos m) (2 ^ (- e)) ltac:(lia) Hz) as Hle.
      pose proof (Z.div_mod (Z.pos m) (2 ^ (- e)) ltac:(lia)) as Hdm.
      assert (Hm : (Z.pos m < 2 ^ prec)%Z).
      { pose proof (abs_B2R_lt_emax prec emax (B754_finite s m e H)) as _.
        clear -H. unfold SpecFloat.bounded in H. apply andb_prop in H. destruct H as [H _].
        unfold SpecFloat.canonical_mantissa in H. apply Zeq_bool_eq in H.
        rewrite Digits.Zpos_digits2_pos in H.
        assert (Digits.Zdigits radix2 (Z.pos m) <= prec)%Z.
        { unfold SpecFloat.fexp in H. lia. }
        pose proof (Digits.Zpower_gt_Zdigits radix2 prec (Z.pos m) H0) as H1.
        cbn [Z.abs] in H1. exact H1. }
      assert (Hemin : (emin <= e)%Z).
      { clear -H. unfold SpecFloat.bounded in H. apply andb_prop in H. destruct H as [H _].
        unfold SpecFloat.canonical_mantissa in H. apply Zeq_bool_eq in H.
        unfold SpecFloat.fexp in H. unfold SpecFloat.emin in H. lia. }
      set (r := SpecFloat.cond_Zopp s (Z.pos m mod 2 ^ (- e))).
      assert (Hr : (Z.abs r < 2 ^ prec)%Z) by (unfold r; destruct s; cbn [SpecFloat.cond_Zopp]; lia).
      assert (HF : F2R (Float radix2 r e) = B2R (B754_finite s m e H : fl) -
         IZR (SpecFloat.cond_Zopp s (Z.pos m / 2 ^ (- e)))).
      { cbn [B2R]. rewrite !F2R_neg_exp by exact He'. unfold r. rewrite !IZR_cond_Zopp.
        assert (Hnz : IZR (2 ^ (- e)) <> 0) by (apply IZR_neq; lia).
        replace (IZR (Z.pos m)) with (IZR (2 ^ - e) * IZR (Z.pos m / 2 ^ - e) + IZR (Z.pos m mod 2 ^ - e))
          by (rewrite <- mult_IZR, <- plus_IZR; f_equal; lia).
        destruct s; field; exact Hnz. }
      assert (Hfmt : fmt (F2R (Float radix2 r e))).
      { apply fmt_F2R; assumption. }
      assert (Hlt : Rabs (F2R (Float radix2 r e)) < bpow radix2 emax).
      { rewrite F2R_neg_exp by exact He'. unfold Rdiv. rewrite Rabs_mult.
        rewrite (Rabs_pos_eq (/ _)) by (apply Rlt_le, Rinv_0_lt_compat, IZR_lt; lia).
        apply Rle_lt_trans with 1; [|apply (one_lt_emax prec emax)].
        rewrite <- abs_IZR. apply Rmult_le_reg_r with (IZR (2 ^ - e)); [apply IZR_lt; lia|].
        rewrite Rmult_assoc, Rinv_l by (apply IZR_neq; lia). rewrite Rmult_1_r, Rmult_1_l.
        apply IZR_le. unfold r; destruct s; cbn [SpecFloat.cond_Zopp]; lia. }
      pose proof (binary_normalize_correct prec emax _ _ mode_NE r e s) as C. cbv zeta in C.
      change (round radix2 (SpecFloat.fexp prec emax) (round_mode mode_NE)) with rnd in C.
      rewrite (rnd_fmt prec emax) in C by exact Hfmt.
      rewrite Rlt_bool_true in C by exact Hlt.
      destruct C as (C1 & C2 & _). rewrite HF in C1. split; assumption.
Qed.

Lemma frem1_bounds (x : fl) : is_finite x = true -> 0 <= B2R x -> 0 <= B2R (frem1 x) < 1.
Proof.
  intros Fx Hx. destruct (frem1_correct x Fx) as [E _]. rewrite E.
  rewrite Ztrunc_floor by exact Hx. pose proof (Zfloor_lb (B2R x)). pose proof (Zfloor_ub (B2R x)). lra.
Qed.

Lemma fcast_finite lo hi (x : fl) : (lo <= 0 <= hi)%Z -> is_finite x = true ->
  fcast lo hi x = Z.max lo (Z.min hi (Ztrunc (B2R x))).
Proof.
  intros H Fx. rewrite <- ftrunc_correct by exact Fx. destruct x; try discriminate; cbn [fcast]; [|reflexivity].
  cbn. lia.
Qed.

(** The shape of [ceilh]/[ceil] and of the four floor functions. *)
Definition ceilg (eps input : fl) : fl :=
  let fract := frem1 input in
  let whole := fsub input fract in
  if flt eps fract then fadd whole (flit 1 0) else whole.
Definition floorg (lo hi : Z) (eps input : fl) : Z :=
  if flt input (flit 0 0) then fcast lo hi (fneg (ceilg eps (fneg input))) else fcast lo hi input.

(** Floor with tolerance below: what the code computes. *)
Definition ceil_eps (eps x : R) : Z :=
  if Rlt_dec eps (x - IZR (Zfloor x)) then (Zfloor x + 1)%Z else Zfloor x.
Definition floor_eps (eps x : R) : Z :=
  if Rlt_dec x 0 then (- ceil_eps eps (- x))%Z else Zfloor x.

Lemma ceilg_correct (eps x : fl) : is_finite eps = true -> is_finite x = true ->
  0 <= B2R x <= IZR (2 ^ (prec - 1)) ->
  B2R (ceilg eps x) = IZR (ceil_eps (B2R eps) (B2R x)) /\ is_finite (ceilg eps x) = true.
Proof.
  intros Fe Fx Hx. unfold ceilg. destruct (frem1_correct x Fx) as [E1 E2].
  rewrite Ztrunc_floor in E1 by lra.
  pose proof (Zfloor_lb (B2R x)) as Hlb.
  assert (Hz : (0 <= Zfloor (B2R x) <= 2 ^ (prec - 1))%Z).
  { split.
    - change 0%Z with (Zfloor 0) || rewrite <- (Zfloor_IZR 0). apply Zfloor_le. lra.
    - apply le_IZR. lra. }
  assert (Hpp : (2 ^ prec = 2 * 2 ^ (prec - 1))%Z).
  { pose proof (prec_pos prec). rewrite <- (Z.pow_succ_r 2 (prec - 1)) by lia. f_equal. lia. }
  pose proof (pow2_prec_ge2 prec) as H2.
  destruct (fsub_correct prec emax x (frem1 x) Fx E2) as [S1 S2].
  { rewrite E1. replace (B2R x - _) with (IZR (Zfloor (B2R x))) by ring.
    rewrite (rnd_Z prec emax) by lia. rewrite Rabs_pos_eq by (apply IZR_le; lia).
    apply Rle_lt_trans with (IZR (2 ^ prec)); [apply IZR_le; lia|].
    change 2%Z with (radix_val radix2). rewrite IZR_Zpower by (pose proof (prec_pos prec); lia).
    apply bpow_lt, He. }
  rewrite E1 in S1. replace (B2R x - (B2R x - IZR (Zfloor (B2R x)))) with (IZR (Zfloor (B2R x))) in S1 by ring.
  rewrite (rnd_Z prec emax) in S1 by lia.
  unfold ceil_eps. rewrite <- E1.
  destruct (flt eps (frem1 x)) eqn:Ef.
  - apply flt_correct in Ef; auto. destruct (Rlt_dec _ _); [|lra].
    destruct (one_correct prec emax) as [O1 O2].
    destruct (fadd_correct prec emax (fsub x (frem1 x)) (flit 1 0) S2 O2) as [A1 A2].
    { rewrite S1, O1, <- plus_IZR. rewrite (rnd_Z prec emax) by lia.
      rewrite Rabs_pos_eq by (apply IZR_le; lia).
      apply Rle_lt_trans with (IZR (2 ^ prec)); [apply IZR_le; lia|].
      change 2%Z with (radix_val radix2). rewrite IZR_Zpower by (pose proof (prec_pos prec); lia).
      apply bpow_lt, He. }
    rewrite S1, O1, <- plus_IZR in A1. rewrite (rnd_Z prec emax) in A1 by lia. auto.
  - apply flt_false in Ef; auto. destruct (Rlt_dec _ _); [lra|]. auto.
Qed.

Lemma floorg_correct lo hi (eps x : fl) : (lo <= 0 <= hi)%Z ->
  is_finite eps = true -> is_finite x = true -> Rabs (B2R x) <= IZR (2 ^ (prec - 1)) ->
  floorg lo hi eps x = Z.max lo (Z.min hi (floor_eps (B2R eps) (B2R x))).
Proof.
  intros Hlh Fe Fx Hx. unfold floorg, floor_eps. destruct (zero_correct prec emax) as [Z1 Z2].
  destruct (flt x (flit 0 0)) eqn:E.
  - apply flt_correct in E; auto. rewrite Z1 in E. destruct (Rlt_dec _ _); [|lra].
    rewrite Rabs_left in Hx by exact E.
    destruct (ceilg_correct eps (fneg x)) as [C1 C2]; auto.
    { now rewrite finite_fneg. } { rewrite B2R_fneg. lra. }
    rewrite fcast_finite; auto; [|now rewrite finite_fneg].
    rewrite B2R_fneg, C1, B2R_fneg, <- opp_IZR, Ztrunc_IZR. reflexivity.
  - apply flt_false in E; auto. rewrite Z1 in E. destruct (Rlt_dec _ _); [lra|].
    rewrite fcast_finite by auto. now rewrite Ztrunc_floor.
Qed.

Lemma floor_eps_bounds eps x : 0 <= eps < 1 ->
  IZR (floor_eps eps x) - eps <= x < IZR (floor_eps eps x) + 1.
Proof.
  intros He'. unfold floor_eps, ceil_eps.
  destruct (Rlt_dec x 0).
  - pose proof (Zfloor_lb (-x)). pose proof (Zfloor_ub (-x)). destruct (Rlt_dec _ _).
    + rewrite opp_IZR, plus_IZR. lra.
    + rewrite opp_IZR. lra.
  - pose proof (Zfloor_lb x). pose proof (Zfloor_ub x). lra.
Qed.

Lemma ceil_eps_mono eps x y : x <= y -> (ceil_eps eps x <= ceil_eps eps y)%Z.
Proof.
  intros H. unfold ceil_eps. pose proof (Zfloor_le x y H) as HF.
  destruct (Z.eq_dec (Zfloor x) (Zfloor y)) as [Heq|Hneq].
  - rewrite Heq. repeat destruct Rlt_dec; try lia. lra.
  - repeat destruct Rlt_dec; lia.
Qed.
Lemma ceil_eps_nonneg eps x : 0 <= x -> (0 <= ceil_eps eps x)%Z.
Proof.
  intros H. unfold ceil_eps. assert (0 <= Zfloor x)%Z.
  { rewrite <- (Zfloor_IZR 0). now apply Zfloor_le. }
  destruct Rlt_dec; lia.
Qed.
Lemma floor_eps_mono eps x y : x <= y -> (floor_eps eps x <= floor_eps eps y)%Z.
Proof.
  intros H. unfold floor_eps. destruct (Rlt_dec x 0), (Rlt_dec y 0).
  - pose proof (ceil_eps_mono eps (-y) (-x) ltac:(lra)). lia.
  - pose proof (ceil_eps_nonneg eps (-x) ltac:(lra)).
    assert (0 <= Zfloor y)%Z. { rewrite <- (Zfloor_IZR 0). apply Zfloor_le. lra. } lia.
  - lra.
  - now apply Zfloor_le.
Qed.
(** Away from the tolerance zone it is the floor. *)
Lemma floor_eps_unique eps x n : 0 <= eps -> IZR n <= x < IZR n + 1 - eps -> floor_eps eps x = n.
Proof.
  intros He' H. unfold floor_eps, ceil_eps. destruct (Rlt_dec x 0).
  - destruct (Req_dec x (IZR n)) as [Ex|Nx].
    + assert (Zfloor (- x) = - n)%Z as ->. { rewrite Ex, <- opp_IZR. apply Zfloor_IZR. }
      rewrite opp_IZR. destruct (Rlt_dec _ _); [lra|lia].
    + assert (Zfloor (- x) = - n - 1)%Z as ->.
      { apply Zfloor_imp. rewrite plus_IZR, minus_IZR, opp_IZR. lra. }
      destruct (Rlt_dec _ _) as [_|Hn]; [lia|].
      rewrite minus_IZR, opp_IZR in Hn. lra.
  - apply Zfloor_imp. rewrite plus_IZR. lra.
Qed.

End G.

(** ** Float-format conversion *)
Section Conv.
Context (p1 e1 p2 e2 : Z).
Context {Hp1 : FLX.Prec_gt_0 p1} {He1 : Prec_lt_emax p1 e1}.
Context {Hp2 : FLX.Prec_gt_0 p2} {He2 : Prec_lt_emax p2 e2}.

Lemma fconv_correct (x : binary_float p1 e1) : is_finite x = true ->
  Rabs (round_to p2 e2 (B2R x)) < bpow radix2 e2 ->
  B2R (fconv x : binary_float p2 e2) = round_to p2 e2 (B2R x) /\
  is_finite (fconv x : binary_float p2 e2) = true /\
  Bsign (fconv x : binary_float p2 e2) = Bsign x.
Proof.
  intros Fx Hb. destruct x as [s|s| |s m e H]; try discriminate.
  - cbn. rewrite rnd_0. auto.
  - cbn [B2R] in Hb. cbn [fconv].
    pose proof (binary_normalize_correct p2 e2 _ _ mode_NE (SpecFloat.cond_Zopp s (Z.pos m)) e s) as C.
    cbv zeta in C.
    change (round radix2 (SpecFloat.fexp p2 e2) (round_mode mode_NE)) with (round_to p2 e2) in C.
    rewrite Rlt_bool_true in C by exact Hb. cbn [B2R Bsign]. destruct C as (C1 & C2 & C3).
    split; [exact C1|]. split; [exact C2|]. rewrite C3.
    destruct s; cbn [SpecFloat.cond_Zopp].
    + rewrite Rcompare_Lt; [reflexivity|]. now apply F2R_lt_0.
    + rewrite Rcompare_Gt; [reflexivity|]. now apply F2R_gt_0.
Qed.
End Conv.
