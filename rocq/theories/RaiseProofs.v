(** * RaiseProofs.v -- raising the sample rate (C85) *)
From Coq Require Import ZArith NArith Reals List Lia Lra Psatz Bool.
From Flocq Require Import Core.Core IEEE754.BinarySingleNaN.
From Verif Require Import Rust Float Chan Frame Ops Stream Audio FloatProofs SpecChan SpecFrame SpecStream SpecSink SpecAudio SpecMore SpecRaise
  IntProofs ChanProofs FChanProofs FrameProofs FArithProofs FloorProofs PlaceProofs ResampleProofs CopyProofs OpsProofs
  WeightProofs WholeProofs SinkProofs SinkMore SinkTerm StreamProofs AudioProofs MoreProofs GainProofs LevelProofs SuperProofs.
Import ListNotations.
Open Scope R_scope.

(** ** Rounding errors relative to a bound *)
Lemma rnd_by prec emax {Hp : FLX.Prec_gt_0 prec} {He : Prec_lt_emax prec emax} x W : Rabs x <= W -> 1 <= W ->
  Rabs (round_to prec emax x - x) <= bpow radix2 (- prec) * W.
Proof.
  intros H W1. pose proof (prec_pos prec) as P. pose proof (prec_emax prec emax) as Q.
  assert (Vx : Valid_exp (FLT_exp (3 - emax - prec) prec)) by (apply FLT_exp_valid; exact Hp).
  apply Rle_trans with (/ 2 * ulp radix2 (FLT_exp (3 - emax - prec) prec) x).
  { apply error_le_half_ulp; auto with typeclass_instances. }
  apply Rle_trans with (/ 2 * (W * bpow radix2 (1 - prec))).
  - apply Rmult_le_compat_l; [lra|]. apply Rle_trans with (ulp radix2 (FLT_exp (3 - emax - prec) prec) W).
    + apply ulp_le; auto with typeclass_instances. rewrite (Rabs_pos_eq W) by lra. exact H.
    + rewrite <- (Rabs_pos_eq W) at 2 by lra. apply ulp_FLT_le. rewrite Rabs_pos_eq by lra.
      apply Rle_trans with 1; [|exact W1]. change 1 with (bpow radix2 0). apply bpow_le. lia.
  - unfold Z.sub. rewrite bpow_plus. change (bpow radix2 1) with 2. lra.
Qed.

(** ** Adding one weighted sample, with a weight above 1 *)
Lemma big_step_float prec emax {Hp : FLX.Prec_gt_0 prec} {He : Prec_lt_emax prec emax} (a x w : R) : (2 <= prec)%Z ->
  Rabs a <= 1 -> Rabs x <= 1 -> 1 <= w ->
  let v := round_to prec emax w in let p := round_to prec emax (x * v) in
  Rabs (round_to prec emax (a + p) - (a + x * w)) <= 3 * w * bpow radix2 (1 - prec) /\ 0 <= v <= 2 * w /\ Rabs p <= 2 * w * 2.
Proof.
  intros P2 A X W v p. set (u := bpow radix2 (- prec)).
  assert (U : 0 < u <= / 4). { split; [apply bpow_gt_0|]. change (/ 4) with (bpow radix2 (-2)). apply bpow_le. lia. }
  assert (E0 : bpow radix2 (1 - prec) = 2 * u) by (unfold Z.sub; rewrite bpow_plus; reflexivity).
  pose proof (rnd_by prec emax w w ltac:(rewrite Rabs_pos_eq; lra) W) as E1. fold v u in E1. apply Rabs_le_inv in E1.
  assert (V : (1 - u) * w <= v <= (1 + u) * w) by lra. assert (V0 : 0 <= v) by nra.
  assert (Xv : Rabs (x * v) <= (1 + u) * w).
  { rewrite Rabs_mult, (Rabs_pos_eq v V0). apply Rle_trans with (1 * v); [|lra]. apply Rmult_le_compat_r; lra. }
  pose proof (rnd_by prec emax (x * v) ((1 + u) * w) Xv ltac:(nra)) as E2. fold p u in E2.
  assert (Pp : Rabs p <= (1 + u) * (1 + u) * w).
  { replace p with (x * v + (p - x * v)) by ring. apply Rle_trans with (1 := Rabs_triang _ _). nra. }
  assert (Ap : Rabs (a + p) <= 3 * w).
  { apply Rle_trans with (1 := Rabs_triang _ _). nra. }
  assert (E3 : Rabs (round_to prec emax (a + p) - (a + p)) <= u * (3 * w)) by exact (rnd_by prec emax (a + p) (3 * w) Ap ltac:(lra)).
  assert (Xw : Rabs (x * v - x * w) <= u * w).
  { rewrite <- Rmult_minus_distr_l, Rabs_mult. apply Rle_trans with (1 * Rabs (v - w)); [apply Rmult_le_compat_r; [apply Rabs_pos|exact X]|].
    rewrite Rmult_1_l. apply Rabs_le. lra. }
  split; [|split; nra]. rewrite E0. apply Rabs_le_inv in E2. apply Rabs_le_inv in E3. apply Rabs_le_inv in Xw.
  assert (u * ((1 + u) * w) <= 5 / 4 * u * w) by nra. apply Rabs_le. lra.
Qed.
Lemma big_step k (acc x : chan k) (w : f64) : valid acc -> valid x -> is_finite w = true -> 1 <= B2R w <= bpow radix2 53 ->
  exists p, c_mul x (from_f64 k w) = Ok p /\
    exists z, Rabs (z - (level acc + level x * applied k (B2R w))) <= 3 * applied k (B2R w) * step k /\
      level (c_add acc p) = limited k z.
Proof.
  intros Va Vx F H. destruct (one_correct 53 1024) as [O0 O1].
  assert (Int : is_int k -> exists p, c_mul x (from_f64 k w) = Ok p /\
    exists z, Rabs (z - (level acc + level x * 1)) <= 3 * 1 * step k /\ level (c_add acc p) = limited k z).
  { intros K. assert (M : fle (flit 1 0) w = true) by (apply (fle_correct 53 1024); auto; rewrite O0; lra).
    assert (M1 : fle (flit 1 0 : f64) (flit 1 0) = true) by reflexivity.
    rewrite (proj1 (from_f64_sat k K w) M), <- (proj1 (from_f64_sat k K (flit 1 0)) M1).
    destruct (step_level k acc x (flit 1 0) Va Vx O1) as (p & Hp & z & Ez & Lz); [rewrite O0; lra|].
    exists p. split; [exact Hp|]. exists z. split; [|exact Lz]. rewrite O0 in Ez. apply Rle_trans with (1 := Ez).
    unfold err. pose proof (step_pos k). destruct (Req_EM_T _ _); lra. }
  destruct k; cbn [applied].
  - rewrite (Rmin_left 1) by lra. apply Int. now left.
  - rewrite (Rmin_left 1) by lra. apply Int. now right.
  - clear Int. destruct Va as [Fa Ra], Vx as [Fx Rx]. cbn [level step] in *.
    destruct (big_step_float 24 128 (B2R (acc : f32)) (B2R (x : f32)) (B2R w)) as (E & Bv & Bp); [lia|now apply Rabs_le|now apply Rabs_le|lra|].
    assert (Big : bpow radix2 56 <= bpow radix2 127) by (apply bpow_le; lia). replace (bpow radix2 56) with (8 * bpow radix2 53) in Big by (change 56%Z with (3 + 53)%Z; rewrite bpow_plus; reflexivity).
    set (v := round_to 24 128 (B2R w)) in *. set (p := round_to 24 128 (B2R (x : f32) * v)) in *.
    assert (Wv : is_finite (from_f64 K32 w : f32) = true /\ B2R (from_f64 K32 w : f32) = v).
    { apply from_f64_raw; [exact F|]. apply (rnd_small_lt 24 128). change (128 - 1)%Z with 127%Z. rewrite Rabs_pos_eq; lra. }
    destruct Wv as [Fw Ew]. exists (fmul (x : f32) (from_f64 K32 w)). split; [reflexivity|].
    destruct (fmul_correct 24 128 (x : f32) (from_f64 K32 w : f32) Fx Fw) as [A B].
    { rewrite Ew. apply (rnd_small_lt 24 128). change (128 - 1)%Z with 127%Z. rewrite Rabs_mult, (Rabs_pos_eq v) by lra.
      assert (Rabs (B2R (x : f32)) <= 1) by now apply Rabs_le. pose proof (Rabs_pos (B2R (x : f32))). nra. }
    rewrite Ew in A. fold p in A.
    destruct (float_ops_value K32 (or_introl eq_refl) acc (fmul (x : f32) (from_f64 K32 w : f32)) Fa B) as (Es & _). cbn [rval round_k] in Es.
    exists (round32 (B2R (acc : f32) + p)). split; [exact E|]. cbn [level]. rewrite Es, A. apply clampR_minmax.
  - clear Int. destruct Va as [Fa Ra], Vx as [Fx Rx]. cbn [level step] in *.
    destruct (big_step_float 53 1024 (B2R (acc : f64)) (B2R (x : f64)) (B2R w)) as (E & Bv & Bp); [lia|now apply Rabs_le|now apply Rabs_le|lra|].
    rewrite (rnd_fmt 53 1024 (B2R w)) in E, Bv, Bp by apply (fmt_B2R 53 1024).
    assert (Big : bpow radix2 56 <= bpow radix2 1023) by (apply bpow_le; lia). replace (bpow radix2 56) with (8 * bpow radix2 53) in Big by (change 56%Z with (3 + 53)%Z; rewrite bpow_plus; reflexivity).
    set (p := round_to 53 1024 (B2R (x : f64) * B2R w)) in *.
    assert (Ew : from_f64 K64 w = w) by apply from_f64_raw. rewrite Ew.
    exists (fmul (x : f64) w). split; [reflexivity|].
    destruct (fmul_correct 53 1024 (x : f64) w Fx F) as [A B].
    { apply (rnd_small_lt 53 1024). change (1024 - 1)%Z with 1023%Z. rewrite Rabs_mult, (Rabs_pos_eq (B2R w)) by lra.
      assert (Rabs (B2R (x : f64)) <= 1) by now apply Rabs_le. pose proof (Rabs_pos (B2R (x : f64))). nra. }
    fold p in A.
    destruct (float_ops_value K64 (or_intror eq_refl) acc (fmul (x : f64) w) Fa B) as (Es & _). cbn [rval round_k] in Es.
    exists (round64 (B2R (acc : f64) + p)). split; [exact E|]. cbn [level]. rewrite Es, A. apply clampR_minmax.
Qed.
Lemma applied_low k w : w <= 1 -> applied k w = w.
Proof. intros H. destruct k; cbn [applied]; try reflexivity; apply Rmin_right; exact H. Qed.
Lemma applied_lip k v w : Rabs (applied k v - applied k w) <= Rabs (v - w).
Proof. destruct k; cbn [applied]; try lra; unfold Rmin, Rabs; repeat destruct Rle_dec; repeat destruct Rcase_abs; lra. Qed.
Lemma limited_lip k v w : Rabs (limited k v - limited k w) <= Rabs (v - w).
Proof.
  unfold limited. generalize (bottom k). intros b. unfold Rmax, Rmin.
  destruct (Rle_dec 1 v), (Rle_dec 1 w); repeat destruct Rle_dec; unfold Rabs; repeat destruct Rcase_abs; lra.
Qed.
Lemma limited_in k v : bottom k <= v <= 1 -> limited k v = v.
Proof. intros H. unfold limited. rewrite Rmin_right by lra. apply Rmax_right. lra. Qed.
Lemma limited_range k v : bottom k <= limited k v <= 1.
Proof. unfold limited. pose proof (bottom_range k). split; [apply Rmax_l|]. apply Rmax_lub; [lra|apply Rmin_l]. Qed.
(** Any weight. *)
Lemma any_step k (acc x : chan k) (w : f64) : valid acc -> valid x -> is_finite w = true -> 0 <= B2R w <= bpow radix2 53 ->
  exists p, c_mul x (from_f64 k w) = Ok p /\
    exists z, Rabs (z - (level acc + level x * applied k (B2R w))) <= 3 * applied k (Rmax 1 (B2R w)) * step k /\
      level (c_add acc p) = limited k z.
Proof.
  intros Va Vx F H. pose proof (step_pos k) as Sp. destruct (Rle_dec (B2R w) 1) as [L|L].
  - destruct (step_level k acc x w Va Vx F ltac:(lra)) as (p & Hp & z & Ez & Lz). exists p. split; [exact Hp|]. exists z. split; [|exact Lz].
    rewrite applied_low by lra. rewrite Rmax_left by lra. rewrite applied_low by lra. apply Rle_trans with (1 := Ez).
    unfold err. destruct (Req_EM_T _ _); lra.
  - destruct (big_step k acc x w Va Vx F ltac:(lra)) as (p & Hp & z & Ez & Lz). exists p. split; [exact Hp|]. exists z. split; [|exact Lz].
    rewrite Rmax_right by lra. exact Ez.
Qed.

(** ** A weighted sum of up to three terms *)
Lemma ws_one l k i (acc out : frame l k) f w r a x y : weighted_sum acc ((f, w) :: r) out -> frame_valid acc ->
  nth_error (channels acc) i = Some a -> nth_error (channels f) i = Some x -> nth_error (channels out) i = Some y ->
  exists acc' p, weighted_sum acc' r out /\ frame_valid acc' /\ c_mul x (from_f64 k w) = Ok p /\ nth_error (channels acc') i = Some (c_add a p).
Proof.
  intros W Va Ha Hx Hy. inversion W as [|acc0 f0 w0 p r0 out0 Hp W' E1 E2 E3]. subst.
  pose proof (nth_some _ _ _ _ _ Ha) as Hn. destruct (nth_ex l k (frame_from_f64 l k w) i Hn) as (wc & Hwc).
  destruct (proj1 (proj2 (frame_ops_channelwise l k f (frame_from_f64 l k w)))) as (zz & Hz & Z).
  rewrite Hp in Hz. injection Hz as <-. destruct (Z i x wc Hx Hwc) as (q & Hmul & Hq).
  rewrite frame_from_f64_all in Hwc. apply repeat_nth in Hwc as ->.
  exists (frame_add acc p), q. split; [exact W'|]. split; [apply frame_add_valid|]. split; [exact Hmul|].
  exact (proj1 (proj1 (frame_ops_channelwise l k acc p) i a q Ha Hq)).
Qed.
Lemma three_terms l k c (b : frame l k) (A B C : bool) (f' f : frame l k) (u w t : f64) y (v' v : R) :
  weighted_sum (frame_default l k) ((if A then [(f', u)] else []) ++ (if B then [(f, w)] ++ (if C then [(f, t)] else []) else [])) b ->
  nth_error (channels b) c = Some y ->
  (A = true -> is_finite u = true /\ 0 <= B2R u <= 1 /\ forall x, nth_error (channels f') c = Some x -> valid x /\ v' = level x) ->
  (B = true -> is_finite w = true /\ 0 <= B2R w <= bpow radix2 53 /\ forall x, nth_error (channels f) c = Some x -> valid x /\ v = level x) ->
  (B = true -> C = true -> is_finite t = true /\ 0 <= B2R t <= bpow radix2 (-52)) ->
  Rabs (level y - limited k (v' * (if A then B2R u else 0) + v * (if B then applied k (B2R w) else 0)))
    <= 5 * applied k (Rmax 1 (if B then B2R w else 0)) * step k + bpow radix2 (-51).
Proof.
  intros W Hy HA HB HC. pose proof (step_pos k) as Sp. pose proof (bottom_range k) as Bb.
  assert (A1 : forall z, 1 <= applied k (Rmax 1 z)).
  { intros z. pose proof (Rmax_l 1 z). destruct k; cbn [applied]; try lra; rewrite Rmin_left; lra. }
  assert (T : 0 < bpow radix2 (-51)) by apply bpow_gt_0.
  assert (T2 : bpow radix2 (-51) = 2 * bpow radix2 (-52)) by (change (-51)%Z with (1 + -52)%Z; rewrite bpow_plus; reflexivity).
  pose proof (nth_some _ _ _ _ _ Hy) as Hn.
  assert (Dy : nth_error (channels (frame_default l k)) c = Some (chan_default k)).
  { destruct (nth_ex l k (frame_default l k) c Hn) as (z & Hz). rewrite Hz. f_equal. now apply nth_default in Hz. }
  (* the frame before *)
  assert (S1 : exists acc a, weighted_sum acc (if B then [(f, w)] ++ (if C then [(f, t)] else []) else []) b /\ frame_valid acc /\
    nth_error (channels acc) c = Some a /\ Rabs (level a - v' * (if A then B2R u else 0)) <= step k).
  { destruct A; cbn [app] in W.
    - destruct (HA eq_refl) as (Fu & Bu & Lx). destruct (nth_ex l k f' c Hn) as (x & Hx). destruct (Lx x Hx) as [Vx ->].
      destruct (ws_one l k c _ _ f' u _ _ x y W (frame_default_valid l k) Dy Hx Hy) as (acc & p & W' & Va & Hp & Ha).
      exists acc, (c_add (chan_default k) p). split; [exact W'|]. split; [exact Va|]. split; [exact Ha|].
      assert (Vd : valid (chan_default k)) by (eapply frame_valid_nth; [apply frame_default_valid|exact Dy]).
      destruct (step_level k (chan_default k) x u Vd Vx Fu Bu) as (p' & Hp' & z & Ez & Lz). rewrite Hp in Hp'. injection Hp' as <-.
      fold (limited k z) in Lz. rewrite Lz. rewrite level_default, Rplus_0_l in Ez. pose proof (level_range k x Vx) as Rx.
      rewrite <- (limited_in k (level x * B2R u)) by (split; nra).
      apply Rle_trans with (1 := limited_lip k _ _). apply Rle_trans with (1 := Ez). unfold err. destruct (Req_EM_T _ _); lra.
    - exists (frame_default l k), (chan_default k). split; [exact W|]. split; [apply frame_default_valid|]. split; [exact Dy|].
      rewrite level_default, Rmult_0_r, Rminus_0_r, Rabs_R0. lra. }
  clear W. destruct S1 as (acc & a & W & Va & Ha & La). set (m := v' * (if A then B2R u else 0)) in *.
  assert (Vac : valid a) by (eapply frame_valid_nth; eauto). pose proof (level_range k a Vac) as Rga.
  destruct B; cbn [app] in W.
  - destruct (HB eq_refl) as (Fw & Bw & Lx). destruct (nth_ex l k f c Hn) as (x & Hx). destruct (Lx x Hx) as [Vx ->].
    destruct (ws_one l k c _ _ f w _ a x y W Va Ha Hx Hy) as (acc2 & p & W2 & Va2 & Hp & Ha2).
    destruct (any_step k a x w Vac Vx Fw Bw) as (p' & Hp' & z & Ez & Lz). rewrite Hp in Hp'. injection Hp' as <-.
    set (a2 := c_add a p) in *. set (g := 3 * applied k (Rmax 1 (B2R w)) * step k) in *.
    assert (L2 : Rabs (level a2 - limited k (m + level x * applied k (B2R w))) <= step k + g).
    { rewrite Lz. apply Rle_trans with (1 := limited_lip k _ _).
      replace (z - (m + level x * applied k (B2R w))) with ((z - (level a + level x * applied k (B2R w))) + (level a - m)) by ring.
      apply Rle_trans with (1 := Rabs_triang _ _). lra. }
    assert (Vac2 : valid a2) by (eapply frame_valid_nth; eauto). pose proof (level_range k a2 Vac2) as Rga2.
    assert (L3 : Rabs (level y - level a2) <= step k + 2 * bpow radix2 (-52)).
    { specialize (HC eq_refl). destruct C.
      - destruct (HC eq_refl) as (Ft & Bt).
        destruct (ws_one l k c _ _ f t _ a2 x y W2 Va2 Ha2 Hx Hy) as (acc3 & q & W3 & Va3 & Hq & Ha3).
        assert (E52 : bpow radix2 (-52) <= 1) by (change 1 with (bpow radix2 0); apply bpow_le; lia).
        destruct (step_level k a2 x t Vac2 Vx Ft ltac:(lra)) as (q' & Hq' & z3 & Ez3 & Lz3). rewrite Hq in Hq'. injection Hq' as <-.
        inversion W3; subst. assert (y = c_add a2 q) by congruence. subst y. fold (limited k z3) in Lz3. rewrite Lz3.
        rewrite <- (limited_in k (level a2)) at 1 by exact Rga2. apply Rle_trans with (1 := limited_lip k _ _).
        replace (z3 - level a2) with ((z3 - (level a2 + level x * B2R t)) + level x * B2R t) by ring.
        apply Rle_trans with (1 := Rabs_triang _ _). apply Rplus_le_compat.
        + apply Rle_trans with (1 := Ez3). unfold err. destruct (Req_EM_T _ _); lra.
        + rewrite Rabs_mult, (Rabs_pos_eq (B2R t)) by lra. pose proof (level_range k x Vx) as Rx. apply Rmult_le_compat; try lra; [apply Rabs_pos|apply Rabs_le; lra].
      - inversion W2; subst. assert (y = a2) by congruence. subst y. rewrite Rminus_eq_0, Rabs_R0. pose proof (bpow_gt_0 radix2 (-52)). lra. }
    rewrite T2. pose proof (A1 (B2R w)) as A2.
    replace (level y - limited k (m + level x * applied k (B2R w))) with ((level y - level a2) + (level a2 - limited k (m + level x * applied k (B2R w)))) by ring.
    apply Rle_trans with (1 := Rabs_triang _ _). unfold g in L2. nra.
  - inversion W; subst. assert (y = a) by congruence. subst y. rewrite Rmult_0_r, Rplus_0_r. pose proof (A1 0) as A2.
    rewrite <- (limited_in k (level a)) at 1 by exact Rga. apply Rle_trans with (1 := limited_lip k _ _). nra.
Qed.

(** ** Which source frames reach a frame *)
Definition pair_of {l k} (q : Z) (ratio off : f64) (i : nat) (f : option (frame l k)) : list (frame l k * f64) :=
  match f with
  | None => []
  | Some f => (if Z.eqb (floor_index (place ratio off i)) q then [(f, lower_weight ratio (place ratio off i))] else []) ++
              (if Z.eqb (ceil_index (place ratio off i)) q then [(f, upper_weight ratio (place ratio off i))] else [])
  end.
Lemma pair_none l k q ratio off i (f : option (frame l k)) :
  floor_index (place ratio off i) <> q -> ceil_index (place ratio off i) <> q -> pair_of q ratio off i f = [].
Proof.
  intros A B. unfold pair_of. destruct f; [|reflexivity].
  now rewrite (proj2 (Z.eqb_neq _ _) A), (proj2 (Z.eqb_neq _ _) B).
Qed.
Lemma contributions_two {l k} q ratio off i (fs : list (frame l k)) : forall o,
  (forall a, (a < o + length fs)%nat -> a <> i -> S a <> i ->
     floor_index (place ratio off a) <> q /\ ceil_index (place ratio off a) <> q) ->
  contributions q ratio off o fs =
    match i with O => [] | S j => if Nat.leb o j then pair_of q ratio off j (nth_error fs (j - o)) else [] end ++
    (if Nat.leb o i then pair_of q ratio off i (nth_error fs (i - o)) else []).
Proof.
  induction fs as [|f fs IH]; intros o H.
  - cbn [contributions]. assert (Z : forall n, nth_error (@nil (frame l k)) n = None) by now intros [|n].
    rewrite Z. cbn [pair_of]. destruct i as [|j]; [now destruct (Nat.leb o 0)|]. rewrite Z. cbn [pair_of].
    destruct (Nat.leb o j), (Nat.leb o (S j)); reflexivity.
  - change (contributions q ratio off o (f :: fs)) with
      ((if Z.eqb (floor_index (place ratio off o)) q then [(f, lower_weight ratio (place ratio off o))] else []) ++
       (if Z.eqb (ceil_index (place ratio off o)) q then [(f, upper_weight ratio (place ratio off o))] else []) ++ contributions q ratio off (S o) fs).
    rewrite app_assoc. fold (pair_of q ratio off o (Some f)).
    rewrite (IH (S o)) by (intros a La; apply H; cbn [length]; lia). clear IH.
    assert (Hd : forall d, (0 < d)%nat -> nth_error (f :: fs) d = nth_error fs (d - 1)) by (intros [|d] L; [lia|cbn; now rewrite Nat.sub_0_r]).
    destruct (lt_eq_lt_dec o i) as [[L| ->]|L].
    + destruct i as [|j]; [lia|]. destruct (Nat.eq_dec o j) as [->|N].
      * rewrite (proj2 (Nat.leb_gt (S j) j)) by lia. rewrite !Nat.leb_refl. rewrite (proj2 (Nat.leb_le j (S j))) by lia.
        rewrite !Nat.sub_diag. replace (S j - j)%nat with 1%nat by lia. reflexivity.
      * rewrite (pair_none _ _ q ratio off o (Some f)) by (apply H; cbn [length]; lia). cbn [app].
        rewrite (proj2 (Nat.leb_le (S o) j)), (proj2 (Nat.leb_le o j)), (proj2 (Nat.leb_le (S o) (S j))), (proj2 (Nat.leb_le o (S j))) by lia.
        rewrite !Hd by lia. now replace (j - o - 1)%nat with (j - S o)%nat by lia; replace (S j - o - 1)%nat with (S j - S o)%nat by lia.
    + rewrite (proj2 (Nat.leb_gt (S i) i)) by lia. rewrite Nat.leb_refl, Nat.sub_diag. cbn [nth_error].
      destruct i as [|j]; [cbn [app]; now rewrite app_nil_r|].
      rewrite (proj2 (Nat.leb_gt (S (S j)) j)), (proj2 (Nat.leb_gt (S j) j)) by lia. cbn [app]. apply app_nil_r.
    + rewrite (pair_none _ _ q ratio off o (Some f)) by (apply H; cbn [length]; lia).
      rewrite (proj2 (Nat.leb_gt (S o) i)), (proj2 (Nat.leb_gt o i)) by lia.
      destruct i as [|j]; [reflexivity|]. now rewrite (proj2 (Nat.leb_gt (S o) j)), (proj2 (Nat.leb_gt o j)) by lia.
Qed.

Section Raise.
Context (rate src : f64) (R S : Z).
Hypothesis HR : whole_rate rate R.
Hypothesis HS : whole_rate src S.
Hypothesis S51 : (S <= 2 ^ 51)%Z.
Hypothesis Up : (S < R)%Z.
Notation ratio := (fdiv rate src).
Notation r := (B2R ratio).
Notation J := (place ratio (flit 0 0)).
Notation X i := (IZR (R * Z.of_nat i) / IZR S).

Lemma raise_basic : 1 <= IZR S /\ IZR S < IZR R /\ 1 < IZR R / IZR S /\ is_finite ratio = true /\
  Rabs (r - IZR R / IZR S) <= u53 * (IZR R / IZR S) /\ 1 <= r <= (1 + u53) * (IZR R / IZR S) /\ r <= bpow radix2 53.
Proof.
  pose proof (Spos src S HS S51) as Q. pose proof (Rpos rate R HR) as P.
  destruct (ratio_val rate src R S HR HS S51) as [E F]. destruct (ratio_err rate src R S HR HS S51) as [Er Eb].
  assert (L : IZR S < IZR R) by (apply IZR_lt; exact Up).
  assert (X1 : 1 < IZR R / IZR S). { apply Rmult_lt_reg_r with (IZR S); [lra|]. unfold Rdiv. rewrite Rmult_assoc, Rinv_l by lra. lra. }
  repeat split; try lra; try exact F; try exact Er.
  - rewrite E. apply (rnd_ge_fmt 53 1024); [apply (fmt_Z 53 1024 1); lia|]. lra.
  - apply Rabs_le_inv in Er. lra.
Qed.
Lemma X_pos i : 0 <= X i.
Proof.
  pose proof (Spos src S HS S51) as Q. pose proof (proj2 (proj2 HR)) as P.
  apply Rle_mult_inv_pos; [apply IZR_le; nia|lra].
Qed.
Lemma place_fine i : (R * Z.of_nat i <= 2 ^ 51)%Z -> Rabs (B2R (J i) - X i) <= bpow radix2 (-51) * X i.
Proof.
  intros Hi. pose proof (proj2 (proj2 HR)) as P. destruct (place_val rate src R S HR HS S51 i ltac:(nia)) as (E & _).
  destruct raise_basic as (S1 & SR & x1 & _ & Er & _). pose proof u53_val as U. change (bpow radix2 (-51)) with (/ 2251799813685248).
  assert (Xe : X i = IZR R / IZR S * IZR (Z.of_nat i)) by (rewrite mult_IZR; field; lra).
  destruct i as [|i].
  { rewrite E, Xe. change (IZR (Z.of_nat 0)) with 0. rewrite !Rmult_0_r. change (round64 0) with (round_to 53 1024 0). rewrite (rnd_0 53 1024). rewrite Rminus_0_r, Rabs_R0. lra. }
  set (j := Datatypes.S i) in *. assert (I1 : 1 <= IZR (Z.of_nat j)) by (apply IZR_le; lia).
  assert (X1 : 1 <= X j) by (rewrite Xe; nra).
  assert (D : Rabs (r * IZR (Z.of_nat j) - X j) <= u53 * X j).
  { rewrite Xe, <- Rmult_minus_distr_r, Rabs_mult, (Rabs_pos_eq (IZR (Z.of_nat j))) by lra.
    rewrite <- Rmult_assoc. apply Rmult_le_compat_r; [lra|exact Er]. }
  apply Rabs_le_inv in D.
  assert (W : Rabs (r * IZR (Z.of_nat j)) <= (1 + u53) * X j) by (apply Rabs_le; rewrite U in *; lra).
  pose proof (rnd_by 53 1024 _ _ W ltac:(rewrite U; lra)) as E2. unfold round64 in E. rewrite <- E in E2. change (bpow radix2 (- (53))) with u53 in E2.
  apply Rabs_le_inv in E2. rewrite U in *. apply Rabs_le. lra.
Qed.
Lemma place_floor n i : aligned rate src R S n -> (Z.of_nat i <= Z.of_N n)%Z -> (R * Z.of_N n <= 2 ^ 51)%Z ->
  is_finite (J i) = true /\ 0 <= B2R (J i) /\ floor_index (J i) = (R * Z.of_nat i / S)%Z /\ frac (J i) = B2R (J i) - IZR (R * Z.of_nat i / S).
Proof.
  intros Al Hi Hn. pose proof (proj2 (proj2 HR)) as P. pose proof (proj2 (proj2 HS)) as Q.
  assert (Hi2 : (R * Z.of_nat i <= 2 ^ 51)%Z) by nia.
  destruct (place_val rate src R S HR HS S51 i ltac:(nia)) as (E & F & E2 & F2).
  assert (P0 : 0 <= B2R (J i)). { apply (place_mono rate src R S HR HS S51 i i); [lia|nia]. }
  split; [exact F|]. split; [exact P0|].
  set (q := (R * Z.of_nat i / S)%Z). pose proof (Z.div_mod (R * Z.of_nat i) S ltac:(lia)) as DM. fold q in DM.
  pose proof (Z.mod_pos_bound (R * Z.of_nat i) S ltac:(lia)) as MB.
  assert (Q0 : (0 <= q)%Z) by (apply Z.div_pos; lia). assert (Q1 : (q <= 2 ^ 51)%Z) by nia.
  destruct (Z.eq_dec ((R * Z.of_nat i) mod S) 0) as [M|M].
  - pose proof (Al i Hi M) as A. fold q in A.
    assert (A' : floor_index (J i) = q). { rewrite floor_index_finite in * by assumption. rewrite <- E2. exact A. }
    split; [exact A'|]. rewrite floor_index_finite in A' by exact F. unfold frac. f_equal. f_equal.
    assert (T0 : (0 <= Ztrunc (B2R (J i)))%Z) by (apply (Z.le_trans _ (Ztrunc (IZR 0))); [rewrite Ztrunc_IZR; lia|apply Ztrunc_le; exact P0]).
    rewrite clampZ_maxmin in A' by lia. lia.
  - pose proof (place_err rate src R S HR HS S51 i Hi2) as Pe. apply Rabs_le_inv in Pe. destruct raise_basic as (S1 & _).
    set (m := ((R * Z.of_nat i) mod S)%Z) in *.
    assert (Xe : X i = IZR q + IZR m / IZR S). { rewrite DM. rewrite plus_IZR, mult_IZR. field. lra. }
    assert (I0 : 0 < / IZR S) by (apply Rinv_0_lt_compat; lra). assert (I1 : IZR S * / IZR S = 1) by (apply Rinv_r; lra).
    assert (M1 : 1 <= IZR m) by (apply IZR_le; lia). assert (M2 : IZR m <= IZR S - 1) by (rewrite <- minus_IZR; apply IZR_le; lia).
    unfold Rdiv in Xe, Pe. assert (A : / IZR S <= IZR m * / IZR S <= 1 - / IZR S) by (split; nra).
    apply (floor_index_nonneg (J i) q F); [lia|]. rewrite plus_IZR. split; lra.
Qed.
Lemma ceil_cases j : ceil_index j = floor_index j /\ frac j <= bpow radix2 (-52) \/ ceil_index j = (floor_index j + 1)%Z /\ bpow radix2 (-52) < frac j.
Proof. unfold ceil_index. destruct (Rlt_dec _ _); [right|left]; split; try reflexivity; lra. Qed.
Lemma div_ge a b : (0 < S)%Z -> (S * b <= a)%Z -> (b <= a / S)%Z.
Proof. intros. apply Z.div_le_lower_bound; lia. Qed.
Lemma div_lt a b : (0 < S)%Z -> (a < S * b)%Z -> (a / S < b)%Z.
Proof. intros. apply Z.div_lt_upper_bound; lia. Qed.

(** The weight a source frame gives to the frame before its position. *)
Lemma weight_after n i p : aligned rate src R S n -> (Z.of_nat i <= Z.of_N n)%Z -> (R * Z.of_N n <= 2 ^ 51)%Z -> first_at R S p i ->
  floor_index (J i) = Z.of_nat p ->
  let t := X i - INR p in
  t < 1 /\ is_finite (lower_weight ratio (J i)) = true /\ 0 <= B2R (lower_weight ratio (J i)) <= r /\
  Rabs (B2R (lower_weight ratio (J i)) - (IZR R / IZR S - t)) <= bpow radix2 (-51) * (IZR R / IZR S) + bpow radix2 (-51) * (INR p + 1) /\
  is_finite (upper_weight ratio (J i)) = true /\ B2R (upper_weight ratio (J i)) = frac (J i) /\ 0 <= frac (J i) <= 1.
Proof.
  intros Al Hi Hn Ft Fp t. pose proof (proj2 (proj2 HS)) as Q. pose proof (proj2 (proj2 HR)) as P.
  destruct raise_basic as (S1 & SR & x1 & Fr & Er & rb & _).
  destruct (place_floor n i Al Hi Hn) as (Fj & J0 & Fl & Fc). rewrite Fp in Fl. rewrite <- Fl in Fc.
  pose proof (place_fine i ltac:(nia)) as Pf. pose proof (frac_bounds _ J0) as Fb.
  destruct (weights_real ratio (J i) Fr Fj ltac:(lra) J0) as ((F1 & E1) & (F2 & E2) & B1 & B2 & _).
  rewrite <- INR_IZR_INZ in Fc. rewrite Rmin_left in E1 by lra. rewrite E1 in E2.
  assert (T1 : X i < INR p + 1).
  { rewrite INR_IZR_INZ, <- (plus_IZR _ 1). apply Rmult_lt_reg_r with (IZR S); [lra|]. unfold Rdiv. rewrite Rmult_assoc, Rinv_l, Rmult_1_r by lra.
    rewrite <- mult_IZR. apply IZR_lt. pose proof (Z.div_mod (R * Z.of_nat i) S ltac:(lia)) as DM.
    pose proof (Z.mod_pos_bound (R * Z.of_nat i) S ltac:(lia)) as MB. rewrite <- Fl in DM. lia. }
  split; [unfold t; lra|]. split; [exact F2|]. split; [lra|]. split; [|split; [exact F1|split; [exact E1|lra]]].
  pose proof (X_pos i) as X0. pose proof u53_val as U. assert (U2 : bpow radix2 (-51) = 4 * u53) by (rewrite U; change (bpow radix2 (-51)) with (/ 2251799813685248); lra).
  assert (W : Rabs (r - frac (J i)) <= r) by (apply Rabs_le; lra).
  pose proof (rnd_by 53 1024 _ _ W ltac:(lra)) as E3. unfold round64 in E2. rewrite <- E2 in E3. change (bpow radix2 (- (53))) with u53 in E3.
  set (lw := B2R (lower_weight ratio (J i))) in *. set (x := IZR R / IZR S) in *. set (y := X i) in *. set (z := B2R (J i)) in *. set (f := frac (J i)) in *.
  apply Rabs_le_inv in E3. apply Rabs_le_inv in Er. apply Rabs_le_inv in Pf. rewrite U2 in *.
  assert (U0 : 0 < u53 <= / 4) by (rewrite U; lra).
  assert (Y1 : 4 * u53 * y <= 4 * u53 * (INR p + 1)) by (apply Rmult_le_compat_l; lra).
  assert (R1 : u53 * r <= u53 * (2 * x)) by (apply Rmult_le_compat_l; nra).
  unfold t. apply Rabs_le. lra.
Qed.
(** The weight it gives to the frame after its position. *)
Lemma weight_before n i p : aligned rate src R S n -> (Z.of_nat i <= Z.of_N n)%Z -> (R * Z.of_N n <= 2 ^ 51)%Z ->
  (R * Z.of_nat i < S * Z.of_nat p <= R * Z.of_nat i + R)%Z ->
  let g := Rmax 0 (1 + X i - INR p) in
  is_finite (upper_weight ratio (J i)) = true /\ 0 <= B2R (upper_weight ratio (J i)) /\
  (ceil_index (J i) = Z.of_nat p -> B2R (upper_weight ratio (J i)) <= 1 /\ Rabs (B2R (upper_weight ratio (J i)) - g) <= bpow radix2 (-51) * INR p) /\
  (ceil_index (J i) <> Z.of_nat p -> 0 <= g <= bpow radix2 (-51) * (INR p + 1)) /\
  floor_index (J i) <> Z.of_nat p.
Proof.
  intros Al Hi Hn [Lo Hi2] g. pose proof (proj2 (proj2 HS)) as Q. pose proof (proj2 (proj2 HR)) as P.
  destruct raise_basic as (S1 & SR & x1 & Fr & Er & rb & _).
  destruct (place_floor n i Al Hi Hn) as (Fj & J0 & Fl & Fc).
  pose proof (place_fine i ltac:(nia)) as Pf. pose proof (frac_bounds _ J0) as Fb.
  destruct (weights_real ratio (J i) Fr Fj ltac:(lra) J0) as ((F1 & E1) & _ & B1 & _).
  rewrite Rmin_left in E1 by lra. pose proof (X_pos i) as X0.
  assert (Lp : floor_index (J i) <> Z.of_nat p). { rewrite Fl. pose proof (div_lt (R * Z.of_nat i) (Z.of_nat p) ltac:(lia) ltac:(lia)). lia. }
  assert (Xp : X i <= INR p).
  { rewrite INR_IZR_INZ. apply Rmult_le_reg_r with (IZR S); [lra|]. unfold Rdiv. rewrite Rmult_assoc, Rinv_l, Rmult_1_r by lra.
    rewrite <- mult_IZR. apply IZR_le. lia. }
  assert (Ep : bpow radix2 (-51) * X i <= bpow radix2 (-51) * INR p) by (apply Rmult_le_compat_l; [apply bpow_ge_0|exact Xp]).
  assert (E51 : 0 < bpow radix2 (-51)) by apply bpow_gt_0.
  assert (E52 : bpow radix2 (-51) = 2 * bpow radix2 (-52)) by (change (-51)%Z with (1 + -52)%Z; rewrite bpow_plus; reflexivity).
  set (q := (R * Z.of_nat i / S)%Z) in *. pose proof (Z.div_mod (R * Z.of_nat i) S ltac:(lia)) as DM. fold q in DM.
  pose proof (Z.mod_pos_bound (R * Z.of_nat i) S ltac:(lia)) as MB.
  assert (Xq : IZR q <= X i < IZR (q + 1)).
  { split; [apply Rmult_le_reg_r with (IZR S)|apply Rmult_lt_reg_r with (IZR S)]; try lra; unfold Rdiv; rewrite Rmult_assoc, Rinv_l, Rmult_1_r by lra;
      rewrite <- mult_IZR; [apply IZR_le|apply IZR_lt]; lia. }
  rewrite plus_IZR in Xq. apply Rabs_le_inv in Pf.
  split; [exact F1|]. split; [lra|]. split; [|split; [|exact Lp]].
  - intros C. destruct (ceil_cases (J i)) as [[C' _]|[C' _]]; [congruence|]. rewrite C, Fl in C'.
    assert (Qp : IZR q = INR p - 1). { rewrite INR_IZR_INZ, C', plus_IZR. lra. }
    rewrite E1. split; [lra|]. unfold g. rewrite Rmax_right by lra. apply Rabs_le. lra.
  - intros C. split; [apply Rmax_l|]. unfold g. apply Rmax_lub; [pose proof (pos_INR p); nra|].
    destruct (Z.eq_dec q (Z.of_nat p - 1)) as [Eq|Nq].
    + destruct (ceil_cases (J i)) as [[_ C']|[C' _]]; [|rewrite Fl in C'; lia].
      assert (Qp : IZR q = INR p - 1) by (rewrite INR_IZR_INZ, Eq, minus_IZR; lra). lra.
    + pose proof (div_lt (R * Z.of_nat i) (Z.of_nat p) ltac:(lia) ltac:(lia)) as Lq. fold q in Lq.
      assert (Q2 : (q + 2 <= Z.of_nat p)%Z) by lia. apply IZR_le in Q2. rewrite plus_IZR, <- INR_IZR_INZ in Q2. pose proof (pos_INR p). nra.
Qed.

Lemma pair_shape l k q i (f : option (frame l k)) :
  (floor_index (J i) <> q -> ceil_index (J i) <> q) ->
  pair_of q ratio (flit 0 0) i f =
    match f with
    | None => []
    | Some f => if Z.eqb (floor_index (J i)) q then [(f, lower_weight ratio (J i))] ++
                  (if Z.eqb (ceil_index (J i)) q then [(f, upper_weight ratio (J i))] else []) else []
    end.
Proof.
  intros H. unfold pair_of. destruct f as [f|]; [|reflexivity].
  destruct (Z.eqb_spec (floor_index (J i)) q) as [E|E]; [reflexivity|]. now rewrite (proj2 (Z.eqb_neq _ _) (H E)).
Qed.
Lemma applied_err k w g d : 0 <= d -> Rabs (w - g) <= d -> Rabs (applied k w - applied k g) <= d.
Proof.
  intros D H. destruct k; cbn [applied]; try exact H; apply Rabs_le_inv in H;
    unfold Rmin; destruct (Rle_dec 1 w), (Rle_dec 1 g); apply Rabs_le; lra.
Qed.
Lemma applied_pos k w : 0 <= w -> 0 <= applied k w <= w.
Proof. intros H. destruct k; cbn [applied]; try lra; unfold Rmin; destruct (Rle_dec 1 w); lra. Qed.

(** With aligned positions exactly the whole frames are covered. *)
Lemma covered_all n : aligned rate src R S n -> (R * Z.of_N n <= 2 ^ 51)%Z ->
  floor_index (fmul ratio (fofZ (Z.of_N n))) = (R * Z.of_N n / S)%Z /\
  Z.min (R * Z.of_N n / S) ((R * Z.of_N n + S - 1) / S) = (R * Z.of_N n / S)%Z.
Proof.
  intros Al Hn. pose proof (proj2 (proj2 HR)) as BR. pose proof (proj2 (proj2 HS)) as BS. split.
  - destruct (place_floor n (N.to_nat n) Al ltac:(lia) Hn) as (F & _ & E & _).
    destruct (place_val rate src R S HR HS S51 (N.to_nat n) ltac:(nia)) as (_ & _ & E2 & F2). rewrite N_nat_Z in *.
    rewrite floor_index_finite in * by assumption. rewrite E2. exact E.
  - apply Z.min_l. apply Z.div_le_mono; lia.
Qed.
Lemma raise_frame l k ls ks (a a' : audio l k) (s it : stream ls ks) n all (fs : list (frame l k)) p i c v v' b y :
  s_rate a = rate -> sample_rate s = Some src -> honest s -> slen s = Some n -> yields s all -> converted all fs ->
  (R * Z.of_N n <= 2 ^ 51)%Z -> aligned rate src R S n -> extend (Datatypes.S (N.to_nat n)) a s = (a', Ok it) ->
  ((Z.of_nat p + 1) * S <= R * Z.of_N n)%Z -> first_at R S p i ->
  level_at fs i c v -> level_at fs (i - 1) c v' ->
  audio_get a' (audio_len a + p) = Some b -> nth_error (channels b) c = Some y ->
  Rabs (level y - limited k (gain_before R S p i * v' + gain_after k R S p i * v))
    <= 6 * applied k (IZR R / IZR S) * step k + (IZR R / IZR S + INR p + 6) * bpow radix2 (-49).
Proof.
  intros Ea Er Ho Hl Ya Cv Hn Al He Hp Fi Lv Lv' Hb Hy.
  pose proof (proj2 (proj2 HR)) as BR. pose proof (proj2 (proj2 HS)) as BS. pose proof Fi as [Fi1 Fi2].
  destruct raise_basic as (S1 & SR & x1 & Fr & Err & rb & r53).
  assert (Sk : sinkable s) by (left; rewrite Er; discriminate).
  destruct (extend_values l k ls ks a a' s it n all fs Sk Ho Hl Ya Cv He) as (m & Hm & [_ Lf] & _ & V).
  specialize (V p b Hb). destruct V as [V _].
  rewrite Er, Ea in Lf, V. cbn [ratio_for] in Lf, V. rewrite (frames_for_exact rate src R S HR HS S51 n Hn) in Lf, V.
  destruct (covered_all n Al Hn) as [Ce1 Ce2]. rewrite Ce1 in Lf, V. rewrite Ce2 in Lf, V. clear Ce1 Ce2.
  set (e := (R * Z.of_N n / S)%Z) in *. assert (Pe : (Z.of_nat p < e)%Z). { apply Z.lt_le_trans with (Z.of_nat p + 1)%Z; [lia|]. apply div_ge; lia. }
  specialize (V Pe). clearbody e.
  pose proof (yields_count _ _ _ _ _ Ho Hl Ya) as La.
  assert (Lfs : length fs = N.to_nat n) by (rewrite (converted_length _ _ _ _ _ _ Cv); exact La).
  assert (Lm : length (firstn m fs) = m) by (rewrite firstn_length; lia).
  pose proof (nth_some _ _ _ _ _ Hy) as Hc. pose proof (pos_INR p) as P0.
  assert (Fl : forall a, (a <= N.to_nat n)%nat -> floor_index (J a) = (R * Z.of_nat a / S)%Z).
  { intros j Hj. apply (place_floor n j Al); [lia|exact Hn]. }
  assert (Ce : forall j, (floor_index j <= ceil_index j <= floor_index j + 1)%Z). { intros j. destruct (ceil_cases j) as [[-> _]|[-> _]]; lia. }
  (* frames before the m-th are read *)
  assert (Rd : forall j, (j <= N.to_nat n)%nat -> (R * Z.of_nat j < S * Z.of_nat p + S)%Z -> (j < m)%nat).
  { intros j Hj Hq. destruct (Nat.lt_ge_cases j m) as [L|L]; [exact L|exfalso].
    rewrite (Fl m ltac:(lia)) in Lf. pose proof (div_lt (R * Z.of_nat m) (Z.of_nat p + 1) ltac:(lia) ltac:(nia)). lia. }
  assert (Ni : (i <= N.to_nat n)%nat) by nia.
  (* everything that reaches frame p *)
  rewrite (contributions_two (Z.of_nat p) ratio (flit 0 0) i (firstn m fs) 0) in V.
  2: { intros j Lj N1 N2. cbn [Nat.add] in Lj. rewrite Lm in Lj. pose proof (Ce (J j)) as Cj. rewrite (Fl j ltac:(lia)) in *.
       assert (O : (j + 2 <= i \/ i + 1 <= j)%nat) by lia. destruct O as [O|O].
       - pose proof (div_lt (R * Z.of_nat j) (Z.of_nat p - 1) ltac:(lia) ltac:(nia)). lia.
       - pose proof (div_ge (R * Z.of_nat j) (Z.of_nat p + 1) ltac:(lia) ltac:(nia)). lia. }
  cbn [Nat.leb] in V. rewrite !Nat.sub_0_r in V.
  assert (Fi0 : floor_index (J i) <> Z.of_nat p -> ceil_index (J i) <> Z.of_nat p).
  { intros N1. pose proof (Ce (J i)) as Cj. rewrite (Fl i Ni) in *. pose proof (div_ge (R * Z.of_nat i) (Z.of_nat p) ltac:(lia) ltac:(lia)). lia. }
  rewrite (pair_shape l k _ i _ Fi0) in V.
  (* source frame i *)
  set (x := IZR R / IZR S) in *. set (t := X i - INR p).
  assert (Et : t = IZR R * INR i / IZR S - INR p). { unfold t. rewrite mult_IZR, <- INR_IZR_INZ. reflexivity. }
  set (B := Z.eqb (floor_index (J i)) (Z.of_nat p)) in *. set (C := Z.eqb (ceil_index (J i)) (Z.of_nat p)) in *.
  assert (B1 : B = true -> floor_index (J i) = Z.of_nat p) by (apply Z.eqb_eq).
  assert (Wi : exists f, (match nth_error (firstn m fs) i with None => [] | Some f => if B then [(f, lower_weight ratio (J i))] ++
      (if C then [(f, upper_weight ratio (J i))] else []) else [] end) = (if B then [(f, lower_weight ratio (J i))] ++
      (if C then [(f, upper_weight ratio (J i))] else []) else []) /\ (B = true -> nth_error fs i = Some f)).
  { destruct B eqn:EB.
    - specialize (B1 eq_refl). rewrite (Fl i Ni) in B1. pose proof (Z.div_mod (R * Z.of_nat i) S ltac:(lia)) as DM.
      pose proof (Z.mod_pos_bound (R * Z.of_nat i) S ltac:(lia)) as MB. assert (Im : (i < m)%nat) by (apply Rd; [lia|nia]).
      rewrite firstn_nth by exact Im. destruct (nth_lt_some fs i ltac:(lia)) as (f & Hf). exists f. rewrite Hf. now split.
    - exists (frame_default l k). split; [now destruct (nth_error _ i)|discriminate]. }
  destruct Wi as (f & Wf & Hf). rewrite Wf in V. clear Wf.
  assert (GA : Rabs ((if B then applied k (B2R (lower_weight ratio (J i))) else 0) - gain_after k R S p i) <= bpow radix2 (-51) * x + bpow radix2 (-51) * (INR p + 1) /\
     Rabs v * Rabs ((if B then applied k (B2R (lower_weight ratio (J i))) else 0) - gain_after k R S p i) <= 2 * (bpow radix2 (-51) * x + bpow radix2 (-51) * (INR p + 1))).
  { assert (T0 : 0 <= bpow radix2 (-51) * x + bpow radix2 (-51) * (INR p + 1)). { pose proof (bpow_gt_0 radix2 (-51)). nra. }
    unfold gain_after. rewrite <- Et. fold x. destruct B eqn:EB.
    - destruct (weight_after n i p Al ltac:(lia) Hn Fi (B1 eq_refl)) as (T1 & _ & Wb & We & _). fold t x in T1, We.
      destruct (Rlt_dec t 1); [|lra]. pose proof (applied_err k _ _ _ T0 We) as Ae. split; [exact Ae|].
      destruct (nth_ex l k f c Hc) as (z & Hz). destruct (Lv f z (Hf eq_refl) Hz) as [Vz ->]. pose proof (level_range k z Vz). pose proof (bottom_range k).
      apply Rmult_le_compat; try apply Rabs_pos; [apply Rabs_le; lra|exact Ae].
    - destruct (Rlt_dec t 1) as [L|L].
      + exfalso. apply Z.eqb_neq in EB. rewrite (Fl i Ni) in EB. pose proof (div_ge (R * Z.of_nat i) (Z.of_nat p) ltac:(lia) ltac:(lia)) as G.
        assert (G2 : (Z.of_nat p + 1 <= R * Z.of_nat i / S)%Z) by lia. pose proof (Z.div_mod (R * Z.of_nat i) S ltac:(lia)) as DM.
        pose proof (Z.mod_pos_bound (R * Z.of_nat i) S ltac:(lia)) as MB. assert (G3 : (S * (Z.of_nat p + 1) <= R * Z.of_nat i)%Z) by nia.
        apply IZR_le in G3. rewrite (mult_IZR S), plus_IZR, <- INR_IZR_INZ in G3.
        assert (INR p + 1 <= X i); [|unfold t in L; lra]. apply Rmult_le_reg_r with (IZR S); [lra|]. unfold Rdiv. rewrite Rmult_assoc, Rinv_l, Rmult_1_r by lra. lra.
      + rewrite Rminus_eq_0, Rabs_R0. rewrite Rmult_0_r. lra. }
  destruct GA as [_ GA].
  (* source frame i-1 *)
  assert (WB : exists (f' : frame l k) (u : f64) (A : bool),
    match i with O => [] | Datatypes.S j => pair_of (Z.of_nat p) ratio (flit 0 0) j (nth_error (firstn m fs) (j - 0)) end = (if A then [(f', u)] else []) /\
    (A = true -> is_finite u = true /\ 0 <= B2R u <= 1 /\ nth_error fs (i - 1) = Some f') /\
    Rabs v' * Rabs ((if A then B2R u else 0) - gain_before R S p i) <= 2 * (bpow radix2 (-51) * (INR p + 1))).
  { assert (T0 : 0 <= bpow radix2 (-51) * (INR p + 1)). { pose proof (bpow_gt_0 radix2 (-51)). nra. }
    destruct i as [|j].
    - exists (frame_default l k), (flit 0 0), false. split; [reflexivity|]. split; [discriminate|].
      assert (Zp : p = O) by (clear - Fi1 BS; nia). 
      assert (G0 : gain_before R S p 0 = 0). { unfold gain_before. rewrite Zp. cbv zeta. cbn [INR]. apply Rmax_left. fold x. unfold Rdiv. rewrite Rmult_0_r, Rmult_0_l. lra. }
      rewrite G0, Rminus_eq_0, Rabs_R0, Rmult_0_r. apply Rmult_le_pos; [lra|exact T0].
    - assert (Jn : (j < N.to_nat n)%nat) by lia.
      destruct (weight_before n j p Al ltac:(lia) Hn ltac:(nia)) as (F1 & U0 & WC & WN & Nf). cbn zeta in WC, WN.
      assert (Eg : gain_before R S p (Datatypes.S j) = Rmax 0 (1 + X j - INR p)).
      { unfold gain_before. f_equal. rewrite mult_IZR, <- INR_IZR_INZ, S_INR. field. lra. }
      destruct (nth_lt_some fs j ltac:(lia)) as (f' & Hf').
      destruct (nth_ex l k f' c Hc) as (z & Hz). replace (Datatypes.S j - 1)%nat with j in * by lia.
      destruct (Lv' f' z Hf' Hz) as [Vz Ev]. pose proof (level_range k z Vz) as Rz. pose proof (bottom_range k) as Bb.
      assert (V2 : Rabs v' <= 2) by (rewrite Ev; apply Rabs_le; lra).
      exists f', (upper_weight ratio (J j)), (Z.eqb (ceil_index (J j)) (Z.of_nat p)).
      rewrite Nat.sub_0_r, firstn_nth by (apply Rd; [lia|nia]). rewrite Hf'. cbn [pair_of]. rewrite (proj2 (Z.eqb_neq _ _) Nf). cbn [app].
      split; [reflexivity|]. rewrite Eg. destruct (Z.eqb_spec (ceil_index (J j)) (Z.of_nat p)) as [EC|EC].
      + destruct (WC EC) as [W1 W2]. split; [intros _; repeat split; try assumption; lra|].
        apply Rmult_le_compat; try apply Rabs_pos; [exact V2|]. pose proof (bpow_gt_0 radix2 (-51)). lra.
      + specialize (WN EC). split; [discriminate|]. apply Rmult_le_compat; try apply Rabs_pos; [exact V2|]. apply Rabs_le. lra. }
  destruct WB as (f' & u & A & Ws & HA & GB). rewrite Ws in V. clear Ws.
  pose proof (three_terms l k c b A B C f' f u (lower_weight ratio (J i)) (upper_weight ratio (J i)) y v' v V Hy) as TT.
  assert (TB : B = true -> 0 <= B2R (lower_weight ratio (J i)) <= r).
  { intros EB. destruct (weight_after n i p Al ltac:(lia) Hn Fi (B1 EB)) as (_ & _ & Wb & _). exact Wb. }
  specialize (TT).
  assert (T3 : Rabs (level y - limited k (v' * (if A then B2R u else 0) + v * (if B then applied k (B2R (lower_weight ratio (J i))) else 0)))
     <= 5 * applied k (Rmax 1 (if B then B2R (lower_weight ratio (J i)) else 0)) * step k + bpow radix2 (-51)).
  { apply TT.
    - intros EA. destruct (HA EA) as (Fu & Bu & Hf'). split; [exact Fu|]. split; [exact Bu|]. intros z Hz. exact (Lv' f' z Hf' Hz).
    - intros EB. destruct (weight_after n i p Al ltac:(lia) Hn Fi (B1 EB)) as (_ & F2 & Wb & _). split; [exact F2|]. split; [lra|].
      intros z Hz. exact (Lv f z (Hf EB) Hz).
    - intros EB EC. destruct (weight_after n i p Al ltac:(lia) Hn Fi (B1 EB)) as (_ & _ & _ & _ & F1 & E1 & Fb). split; [exact F1|].
      apply Z.eqb_eq in EC. rewrite E1. destruct (ceil_cases (J i)) as [[_ Q]|[Q _]]; [lra|]. rewrite (B1 EB) in Q. lia. }
  clear TT. set (w := lower_weight ratio (J i)) in *.
  assert (Ap : applied k (Rmax 1 (if B then B2R w else 0)) <= (1 + u53) * applied k x).
  { assert (M1 : Rmax 1 (if B then B2R w else 0) <= (1 + u53) * x).
    { apply Rmax_lub; [lra|]. destruct B; [specialize (TB eq_refl); lra|lra]. }
    assert (u53 > 0) by apply bpow_gt_0. pose proof (Rmax_l 1 (if B then B2R w else 0)).
    destruct k; cbn [applied]; try exact M1; rewrite !Rmin_left by lra; lra. }
  assert (A0 : 0 <= applied k x) by (apply applied_pos; lra). pose proof (step_pos k) as Sp. pose proof u53_val as U.
  set (gb := gain_before R S p i) in *. set (ga := gain_after k R S p i) in *.
  assert (LL : Rabs (limited k (v' * (if A then B2R u else 0) + v * (if B then applied k (B2R w) else 0)) - limited k (gb * v' + ga * v))
     <= 2 * (bpow radix2 (-51) * (INR p + 1)) + 2 * (bpow radix2 (-51) * x + bpow radix2 (-51) * (INR p + 1))).
  { apply Rle_trans with (1 := limited_lip k _ _).
    replace (v' * (if A then B2R u else 0) + v * (if B then applied k (B2R w) else 0) - (gb * v' + ga * v))
      with (v' * ((if A then B2R u else 0) - gb) + v * ((if B then applied k (B2R w) else 0) - ga)) by ring.
    apply Rle_trans with (1 := Rabs_triang _ _). rewrite !Rabs_mult. lra. }
  replace (level y - limited k (gb * v' + ga * v)) with
    ((level y - limited k (v' * (if A then B2R u else 0) + v * (if B then applied k (B2R w) else 0))) +
     (limited k (v' * (if A then B2R u else 0) + v * (if B then applied k (B2R w) else 0)) - limited k (gb * v' + ga * v))) by ring.
  apply Rle_trans with (1 := Rabs_triang _ _).
  assert (St : 5 * applied k (Rmax 1 (if B then B2R w else 0)) * step k <= 6 * applied k x * step k).
  { apply Rmult_le_compat_r; [lra|]. rewrite U in Ap. lra. }
  change (bpow radix2 (-49)) with (/ 562949953421312). change (bpow radix2 (-51)) with (/ 2251799813685248) in *. lra.
Qed.

Lemma overhang_last l k e off (fs : list (frame l k)) : forall o,
  (forall j, (o <= j)%nat -> (Datatypes.S j < o + length fs)%nat -> (ceil_index (place ratio off j) < e)%Z) -> (0 < length fs)%nat ->
  exists f, nth_error fs (length fs - 1) = Some f /\
    overhang e ratio off o fs = if (e <=? ceil_index (place ratio off (o + length fs - 1)))%Z then [(f, upper_weight ratio (place ratio off (o + length fs - 1)))] else [].
Proof.
  induction fs as [|f fs IH]; intros o H L; [cbn in L; lia|].
  change (overhang e ratio off o (f :: fs)) with
    ((if (e <=? ceil_index (place ratio off o))%Z then [(f, upper_weight ratio (place ratio off o))] else []) ++ overhang e ratio off (Datatypes.S o) fs).
  destruct fs as [|g fs].
  - exists f. split; [reflexivity|]. cbn [overhang length]. rewrite app_nil_r. now replace (o + 1 - 1)%nat with o by lia.
  - destruct (IH (Datatypes.S o)) as (h & Hh & E).
    + intros j A B. apply H; [lia|cbn [length] in *; lia].
    + cbn [length]. lia.
    + exists h. split; [cbn [length] in *; replace (Datatypes.S (Datatypes.S (length fs)) - 1)%nat with (Datatypes.S (Datatypes.S (length fs) - 1)) by lia; exact Hh|].
      rewrite E. assert (C : (ceil_index (place ratio off o) < e)%Z) by (apply H; [lia|cbn [length]; lia]).
      rewrite (proj2 (Z.leb_gt _ _) C). cbn [app]. cbn [length]. now replace (Datatypes.S o + Datatypes.S (length fs) - 1)%nat with (o + Datatypes.S (Datatypes.S (length fs)) - 1)%nat by lia.
Qed.
Lemma raise_last l k ls ks (a a' : audio l k) (s it : stream ls ks) n all (fs : list (frame l k)) p c v' b y : (S < 2 ^ 50)%Z ->
  s_rate a = rate -> sample_rate s = Some src -> honest s -> slen s = Some n -> yields s all -> converted all fs ->
  (R * Z.of_N n <= 2 ^ 51)%Z -> aligned rate src R S n -> extend (Datatypes.S (N.to_nat n)) a s = (a', Ok it) ->
  (S * Z.of_nat p < R * Z.of_N n < S * (Z.of_nat p + 1))%Z ->
  level_at fs (N.to_nat n - 1) c v' ->
  audio_get a' (audio_len a + p) = Some b -> nth_error (channels b) c = Some y ->
  Rabs (level y - gain_before R S p (N.to_nat n) * v') <= 5 * step k + (INR p + 6) * bpow radix2 (-49).
Proof.
  intros S50 Ea Er Ho Hl Ya Cv Hn Al He [Hp1 Hp2] Lv' Hb Hy.
  pose proof (proj2 (proj2 HR)) as BR. pose proof (proj2 (proj2 HS)) as BS.
  destruct raise_basic as (S1 & SR & x1 & Fr & Err & rb & r53).
  assert (Sk : sinkable s) by (left; rewrite Er; discriminate).
  destruct (extend_values l k ls ks a a' s it n all fs Sk Ho Hl Ya Cv He) as (m & Hm & [Lf1 Lf] & _ & V).
  specialize (V p b Hb). destruct V as (_ & V & _).
  rewrite Er, Ea in Lf, Lf1, V. cbn [ratio_for] in Lf, Lf1, V. rewrite (frames_for_exact rate src R S HR HS S51 n Hn) in Lf, Lf1, V.
  destruct (covered_all n Al Hn) as [Ce1 Ce2]. rewrite Ce1 in Lf, Lf1, V. rewrite Ce2 in Lf, Lf1, V. clear Ce1 Ce2.
  assert (Pe : (R * Z.of_N n / S = Z.of_nat p)%Z). { symmetry. apply (Z.div_unique_pos _ _ _ (R * Z.of_N n - S * Z.of_nat p)); lia. }
  rewrite Pe in Lf, Lf1, V.
  pose proof (yields_count _ _ _ _ _ Ho Hl Ya) as La.
  assert (Lfs : length fs = N.to_nat n) by (rewrite (converted_length _ _ _ _ _ _ Cv); exact La).
  assert (N1 : (0 < N.to_nat n)%nat) by nia.
  pose proof (nth_some _ _ _ _ _ Hy) as Hc. pose proof (pos_INR p) as P0.
  assert (Fl : forall a, (a <= N.to_nat n)%nat -> floor_index (J a) = (R * Z.of_nat a / S)%Z).
  { intros j Hj. apply (place_floor n j Al); [lia|exact Hn]. }
  assert (Ce : forall j, (floor_index j <= ceil_index j <= floor_index j + 1)%Z). { intros j. destruct (ceil_cases j) as [[-> _]|[-> _]]; lia. }
  (* all source frames are used *)
  assert (Em : m = N.to_nat n).
  { destruct (Nat.lt_ge_cases m (N.to_nat n)) as [L|L]; [exfalso|lia]. rewrite (Fl m ltac:(lia)) in Lf.
    pose proof (div_lt (R * Z.of_nat m) (Z.of_nat p) ltac:(lia) ltac:(nia)). lia. }
  subst m. rewrite firstn_all2 in V by lia.
  assert (Fi : bpow radix2 (-52) < Rabs (frac (J (N.to_nat n)))).
  { destruct (place_floor n (N.to_nat n) Al ltac:(lia) Hn) as (_ & J0 & Fj & Fc). rewrite N_nat_Z, Pe in Fj, Fc.
    pose proof (place_err rate src R S HR HS S51 (N.to_nat n) ltac:(lia)) as Pr. apply Rabs_le_inv in Pr. rewrite N_nat_Z in Pr.
    assert (G : (S * Z.of_nat p + 1 <= R * Z.of_N n)%Z) by lia. apply IZR_le in G. rewrite plus_IZR, (mult_IZR S) in G.
    assert (I0 : 0 < / IZR S) by (apply Rinv_0_lt_compat; lra). assert (I1 : IZR S * / IZR S = 1) by (apply Rinv_r; lra).
    assert (G2 : IZR (Z.of_nat p) + / IZR S <= IZR (R * Z.of_N n) / IZR S). { unfold Rdiv. apply Rmult_le_reg_r with (IZR S); [lra|]. rewrite Rmult_assoc, Rinv_l by lra. rewrite Rmult_plus_distr_r, Rinv_l by lra. lra. }
    assert (G3 : bpow radix2 (-50) < / IZR S).
    { change (bpow radix2 (-50)) with (/ IZR (2 ^ 50)). apply Rinv_lt_contravar; [apply Rmult_lt_0_compat; [lra|apply IZR_lt; reflexivity]|]. apply IZR_lt. exact S50. }
    apply Rlt_le_trans with (2 := Rle_abs _). rewrite Fc. unfold Rdiv in Pr, G2. change (bpow radix2 (-50)) with (/ 1125899906842624) in G3. change (bpow radix2 (-52)) with (/ 4503599627370496). lra. }
  rewrite (Fl (N.to_nat n) ltac:(lia)), N_nat_Z, Pe in V. specialize (V ltac:(lia) eq_refl Fi).
  destruct (overhang_last l k (Z.of_nat p) (flit 0 0) fs 0) as (f & Hf & Eo); [| lia |].
  { intros j _ Lj. cbn [Nat.add] in Lj. pose proof (Ce (J j)) as Cj. rewrite (Fl j ltac:(lia)) in Cj.
    pose proof (div_lt (R * Z.of_nat j) (Z.of_nat p - 1) ltac:(lia) ltac:(nia)). lia. }
  rewrite Eo in V. clear Eo. cbn [Nat.add] in V. rewrite Lfs in V, Hf.
  set (j := (N.to_nat n - 1)%nat) in *. assert (Zj : Z.of_nat j = (Z.of_N n - 1)%Z) by lia.
  destruct (weight_before n j p Al ltac:(lia) Hn ltac:(rewrite Zj; nia)) as (F1 & U0 & WC & WN & Nf). cbn zeta in WC, WN.
  assert (Eg : gain_before R S p (N.to_nat n) = Rmax 0 (1 + X j - INR p)).
  { unfold gain_before. f_equal. rewrite mult_IZR, <- INR_IZR_INZ. replace (N.to_nat n) with (Datatypes.S j) by lia. rewrite S_INR. field. lra. }
  destruct (nth_ex l k f c Hc) as (z & Hz). destruct (Lv' f z Hf Hz) as [Vz Ev]. pose proof (level_range k z Vz) as Rz. pose proof (bottom_range k) as Bb.
  assert (Cp : (ceil_index (J j) <= Z.of_nat p)%Z). { pose proof (Ce (J j)) as Cj. rewrite (Fl j ltac:(lia)) in Cj. pose proof (div_lt (R * Z.of_nat j) (Z.of_nat p) ltac:(lia) ltac:(nia)). lia. }
  set (A := (Z.of_nat p <=? ceil_index (J j))%Z) in *.
  assert (HA : A = true -> ceil_index (J j) = Z.of_nat p). { intros EA. apply Z.leb_le in EA. lia. }
  assert (HN : A = false -> ceil_index (J j) <> Z.of_nat p). { intros EA. apply Z.leb_gt in EA. lia. }
  clearbody A. rewrite <- Eg in WC, WN. set (g := gain_before R S p (N.to_nat n)) in *.
  assert (g01 : 0 <= g <= 1).
  { rewrite Eg. split; [apply Rmax_l|]. apply Rmax_lub; [lra|]. assert (X j <= INR p); [|lra].
    rewrite INR_IZR_INZ. apply Rmult_le_reg_r with (IZR S); [lra|]. unfold Rdiv. rewrite Rmult_assoc, Rinv_l, Rmult_1_r by lra. rewrite <- mult_IZR. apply IZR_le. nia. }
  assert (T3 : Rabs (level y - limited k (v' * (if A then B2R (upper_weight ratio (J j)) else 0) + 0 * 0)) <= 5 * applied k (Rmax 1 0) * step k + bpow radix2 (-51)).
  { apply (three_terms l k c b A false false f f (upper_weight ratio (J j)) (flit 0 0) (flit 0 0) y v' 0); try discriminate; try exact Hy.
    - rewrite app_nil_r. exact V.
    - intros EA. destruct (WC (HA EA)) as [W1 _]. split; [exact F1|]. split; [lra|]. intros z2 Hz2. exact (Lv' f z2 Hf Hz2). }
  assert (A1 : applied k (Rmax 1 0) = 1) by (rewrite Rmax_left by lra; destruct k; cbn [applied]; try reflexivity; apply Rmin_left; lra).
  rewrite A1, Rmult_0_l, Rplus_0_r in T3.
  assert (V2 : Rabs v' <= 2) by (rewrite Ev; apply Rabs_le; lra).
  assert (Gw : Rabs (g * v' - v' * (if A then B2R (upper_weight ratio (J j)) else 0)) <= 2 * (bpow radix2 (-51) * (INR p + 1))).
  { replace (g * v' - v' * (if A then B2R (upper_weight ratio (J j)) else 0)) with (v' * (g - (if A then B2R (upper_weight ratio (J j)) else 0))) by ring.
    rewrite Rabs_mult. pose proof (bpow_gt_0 radix2 (-51)). apply Rmult_le_compat; try apply Rabs_pos; [exact V2|]. destruct A.
    - destruct (WC (HA eq_refl)) as [_ W2]. rewrite Rabs_minus_sym. lra.
    - specialize (WN (HN eq_refl)). rewrite Rminus_0_r, Rabs_pos_eq by lra. lra. }
  rewrite <- (limited_in k (g * v')) by (rewrite Ev; split; nra).
  apply Rle_trans with (Rabs (level y - limited k (v' * (if A then B2R (upper_weight ratio (J j)) else 0))) + Rabs (g * v' - v' * (if A then B2R (upper_weight ratio (J j)) else 0))).
  - replace (level y - limited k (g * v')) with ((level y - limited k (v' * (if A then B2R (upper_weight ratio (J j)) else 0))) + (limited k (v' * (if A then B2R (upper_weight ratio (J j)) else 0)) - limited k (g * v'))) by ring.
    apply Rle_trans with (1 := Rabs_triang _ _). apply Rplus_le_compat_l. apply Rle_trans with (1 := limited_lip k _ _). rewrite Rabs_minus_sym. apply Rle_refl.
  - change (bpow radix2 (-49)) with (/ 562949953421312). change (bpow radix2 (-51)) with (/ 2251799813685248) in *. lra.
Qed.
End Raise.

(** ** When whole positions are met *)
Lemma nearest_half z : Z.even z = false -> ZnearestE (IZR z + / 2) = (z + 1)%Z.
Proof.
  intros E. unfold Znearest. assert (F : Zfloor (IZR z + / 2) = z). { apply Zfloor_imp. rewrite plus_IZR. lra. }
  rewrite F. replace (IZR z + / 2 - IZR z) with (/ 2) by ring. rewrite Rcompare_Eq by reflexivity. rewrite E. cbn [negb].
  rewrite Zceil_floor_neq; rewrite F; [reflexivity|]. lra.
Qed.
Lemma pow2_IZR z : (0 <= z)%Z -> IZR (2 ^ z) = bpow radix2 z.
Proof. intros H. exact (IZR_Zpower radix2 z H). Qed.
Lemma below_whole q : (1 <= q <= 2 ^ 53)%Z -> round64 (IZR q * (1 - bpow radix2 (-54))) = IZR q.
Proof.
  intros Q. set (e := Z.log2 q). pose proof (Z.log2_spec q ltac:(lia)) as [L U]. fold e in L, U.
  assert (E0 : (0 <= e)%Z) by apply Z.log2_nonneg. assert (E1 : (e <= 53)%Z). { apply (Z.pow_le_mono_r_iff 2); lia. }
  assert (P54 : 0 < bpow radix2 (-54) <= / 4). { split; [apply bpow_gt_0|]. change (/ 4) with (bpow radix2 (-2)). apply bpow_le. lia. }
  assert (Q1 : 1 <= IZR q) by (apply IZR_le; lia).
  assert (Lq : bpow radix2 e <= IZR q) by (rewrite <- IZR_Zpower by exact E0; apply IZR_le; exact L).
  assert (Uq : IZR q < bpow radix2 (e + 1)) by (rewrite <- IZR_Zpower by lia; apply IZR_lt; exact U).
  assert (Pe : bpow radix2 (e + 1) = 2 * bpow radix2 e) by (rewrite Z.add_comm, bpow_plus; reflexivity).
  set (y := IZR q * (1 - bpow radix2 (-54))). assert (Y0 : 0 < y) by (unfold y; nra).
  unfold round64, round_to, round, F2R. cbn [Fnum Fexp].
  destruct (Z.eq_dec q (2 ^ e)) as [Eq|Nq].
  - assert (Eb : IZR q = bpow radix2 e) by (rewrite Eq; exact (IZR_Zpower radix2 e E0)).
    assert (Mg : mag radix2 y = e :> Z).
    { apply mag_unique. rewrite Rabs_pos_eq by lra. unfold y. rewrite Eb. pose proof (bpow_gt_0 radix2 e).
      replace (bpow radix2 (e - 1)) with (bpow radix2 e * / 2) by (unfold Z.sub; rewrite bpow_plus; reflexivity). split; nra. }
    unfold scaled_mantissa, cexp. rewrite Mg. replace (FLT_exp (3 - 1024 - 53) 53 e) with (e - 53)%Z by (unfold FLT_exp; lia).
    assert (Sm : y * bpow radix2 (- (e - 53)) = IZR (2 ^ 53 - 1) + / 2).
    { unfold y. rewrite Eb. replace (- (e - 53))%Z with (- e + 53)%Z by lia. rewrite bpow_plus.
      transitivity ((bpow radix2 e * bpow radix2 (- e)) * (bpow radix2 53 - bpow radix2 (-54) * bpow radix2 53)); [ring|].
      rewrite <- !bpow_plus. rewrite Z.add_opp_diag_r. change (-54 + 53)%Z with (-1)%Z. change (bpow radix2 0) with 1. change (bpow radix2 (-1)) with (/ 2).
      change (bpow radix2 53) with (IZR (2 ^ 53)). rewrite minus_IZR. lra. }
    rewrite Sm, nearest_half by reflexivity. rewrite Eb. replace (2 ^ 53 - 1 + 1)%Z with (2 ^ 53)%Z by lia. change (IZR (2 ^ 53)) with (bpow radix2 53).
    rewrite <- bpow_plus. f_equal. lia.
  - assert (E2 : (e <= 52)%Z). { destruct (Z.eq_dec e 53) as [X|X]; [rewrite X in *|]; lia. }
    assert (G : (2 ^ e + 1 <= q)%Z) by lia. apply IZR_le in G. rewrite plus_IZR in G. rewrite (pow2_IZR e E0) in G.
    assert (D : IZR q * bpow radix2 (-54) <= / 2).
    { apply Rle_trans with (bpow radix2 53 * bpow radix2 (-54)); [|rewrite <- bpow_plus; apply Rle_refl].
      apply Rmult_le_compat_r; [lra|]. rewrite <- IZR_Zpower by lia. apply IZR_le. apply Q. }
    assert (Mg : mag radix2 y = (e + 1)%Z :> Z).
    { apply mag_unique. rewrite Rabs_pos_eq by lra. replace (e + 1 - 1)%Z with e by lia. unfold y. nra. }
    unfold scaled_mantissa, cexp. rewrite Mg. replace (FLT_exp (3 - 1024 - 53) 53 (e + 1)) with (e - 52)%Z by (unfold FLT_exp; lia).
    set (Q' := (q * 2 ^ (52 - e))%Z).
    assert (EQ : IZR Q' = IZR q * bpow radix2 (- (e - 52))). { unfold Q'. rewrite mult_IZR. f_equal. rewrite pow2_IZR by lia. f_equal. lia. }
    assert (Sm : y * bpow radix2 (- (e - 52)) = IZR Q' - IZR q * bpow radix2 (- e - 2)).
    { rewrite EQ. unfold y. replace (- e - 2)%Z with (-54 + - (e - 52))%Z by lia. rewrite bpow_plus. ring. }
    assert (Dl : 0 <= IZR q * bpow radix2 (- e - 2) < / 2).
    { pose proof (bpow_gt_0 radix2 (- e - 2)). split; [nra|]. apply Rlt_le_trans with (bpow radix2 (e + 1) * bpow radix2 (- e - 2)).
      - apply Rmult_lt_compat_r; assumption.
      - rewrite <- bpow_plus. replace (e + 1 + (- e - 2))%Z with (-1)%Z by lia. apply Rle_refl. }
    rewrite Sm. rewrite (Znearest_imp _ _ Q'); [|apply Rabs_def1; lra].
    rewrite EQ, Rmult_assoc, <- bpow_plus. replace (- (e - 52) + (e - 52))%Z with 0%Z by lia. cbn [bpow]. ring.
Qed.
Lemma aligned_criterion (rate src : f64) (R S : Z) n : whole_rate rate R -> whole_rate src S -> (S <= 2 ^ 51)%Z ->
  (R * Z.of_N n <= 2 ^ 51)%Z -> IZR R / IZR S * (1 - bpow radix2 (-54)) <= B2R (fdiv rate src) -> aligned rate src R S n.
Proof.
  intros HR HS S51 Hn Cr i Hi Md. pose proof (proj2 (proj2 HR)) as BR. pose proof (proj2 (proj2 HS)) as BS.
  assert (Hi2 : (R * Z.of_nat i <= 2 ^ 51)%Z) by nia.
  destruct (place_val rate src R S HR HS S51 i ltac:(nia)) as (E & F & E2 & F2).
  pose proof (place_err rate src R S HR HS S51 i Hi2) as Pe. apply Rabs_le_inv in Pe.
  set (q := (R * Z.of_nat i / S)%Z). pose proof (Z.div_mod (R * Z.of_nat i) S ltac:(lia)) as DM. fold q in DM. rewrite Md, Z.add_0_r in DM.
  assert (Q0 : (0 <= q)%Z) by (apply Z.div_pos; lia). assert (Q1 : (q <= 2 ^ 51)%Z) by nia.
  pose proof (Spos src S HS S51) as Q. assert (Xq : IZR (R * Z.of_nat i) / IZR S = IZR q). { rewrite DM, mult_IZR. field. lra. }
  rewrite Xq in Pe. assert (I1 : 3 / 4 / IZR S < 1).
  { unfold Rdiv. apply Rmult_lt_reg_r with (IZR S); [lra|]. rewrite !Rmult_assoc, Rinv_l by lra. lra. }
  assert (Lo : IZR q <= B2R (place (fdiv rate src) (flit 0 0) i)).
  { rewrite E. destruct (Z.eq_dec q 0) as [Z0|N0].
    - rewrite Z0. destruct (ratio_err rate src R S HR HS S51) as [_ [Rp _]]. apply (rnd_nonneg 53 1024).
      apply Rmult_le_pos; [exact Rp|]. apply IZR_le; lia.
    - rewrite <- (below_whole q) by lia. apply (rnd_mono 53 1024).
      replace (IZR q) with (IZR R / IZR S * IZR (Z.of_nat i)) by (rewrite <- Xq, mult_IZR; field; lra).
      rewrite Rmult_assoc, (Rmult_comm (IZR (Z.of_nat i))), <- Rmult_assoc. apply Rmult_le_compat_r; [apply IZR_le; lia|exact Cr]. }
  apply floor_index_nonneg; [exact F2|lia|]. rewrite E2, plus_IZR. lra.
Qed.

(** A decidable form of the criterion. *)
Definition meets (R S : Z) : bool :=
  match fdiv (flit R 0 : f64) (flit S 0) with
  | B754_finite false m e _ => (e <=? 0)%Z && (R * (2 ^ 54 - 1) * 2 ^ (- e) <=? S * 2 ^ 54 * Z.pos m)%Z
  | _ => false
  end.
Lemma meets_criterion R S : (0 < S)%Z -> meets R S = true -> IZR R / IZR S * (1 - bpow radix2 (-54)) <= B2R (fdiv (flit R 0 : f64) (flit S 0)).
Proof.
  intros HS. unfold meets. destruct (fdiv (flit R 0 : f64) (flit S 0)) as [s|s| |s m e He]; try discriminate. destruct s; [discriminate|].
  intros M. apply andb_prop in M. destruct M as [M1 M2]. apply Z.leb_le in M1. apply Z.leb_le in M2. apply IZR_le in M2.
  rewrite !mult_IZR in M2. rewrite (pow2_IZR (- e)) in M2 by lia. assert (S0 : 0 < IZR S) by (apply IZR_lt; exact HS).
  cbn [B2R cond_Zopp]. unfold F2R. cbn [Fnum Fexp]. pose proof (bpow_gt_0 radix2 e) as Pe.
  assert (Be : bpow radix2 (- e) * bpow radix2 e = 1) by (rewrite <- bpow_plus, Z.add_opp_diag_l; reflexivity).
  change (IZR (2 ^ 54)) with (bpow radix2 54) in M2. assert (B54 : IZR (2 ^ 54 - 1) = bpow radix2 54 * (1 - bpow radix2 (-54))).
  { rewrite Rmult_minus_distr_l, <- bpow_plus. change (bpow radix2 (54 + -54)) with 1. rewrite Rmult_1_r. now rewrite minus_IZR. }
  rewrite B54 in M2. set (c := 1 - bpow radix2 (-54)) in *. set (b := bpow radix2 54) in *. assert (b0 : 0 < b) by apply bpow_gt_0.
  apply Rmult_le_reg_l with (IZR S * b * bpow radix2 (- e)). { apply Rmult_lt_0_compat; [nra|apply bpow_gt_0]. }
  apply Rle_trans with (IZR R * (b * c) * bpow radix2 (- e)).
  - apply Req_le. field. lra.
  - apply Rle_trans with (1 := M2). apply Req_le. transitivity (IZR S * b * IZR (Z.pos m) * (bpow radix2 (- e) * bpow radix2 e)); [rewrite Be; ring|ring].
Qed.
Lemma usual_aligned R S n : In R usual_rates -> In S usual_rates -> (S < R)%Z -> (R * Z.of_N n <= 2 ^ 51)%Z ->
  aligned (flit R 0) (flit S 0) R S n.
Proof.
  intros HR HS L Hn.
  assert (A : forallb (fun R => forallb (fun S => negb (S <? R)%Z || meets R S) usual_rates) usual_rates = true) by (vm_compute; reflexivity).
  rewrite forallb_forall in A. specialize (A R HR). rewrite forallb_forall in A. specialize (A S HS).
  rewrite (proj2 (Z.ltb_lt S R) L) in A. cbn [negb orb] in A.
  assert (B : forallb (fun z => (0 <? z)%Z && (z <? 400000)%Z) usual_rates = true) by reflexivity.
  rewrite forallb_forall in B. pose proof (B R HR) as BR. pose proof (B S HS) as BS.
  apply andb_prop in BR. apply andb_prop in BS. rewrite !Z.ltb_lt in BR, BS.
  assert (W : forall z, (0 < z < 400000)%Z -> whole_rate (flit z 0) z). { intros z Hz. destruct (flit_Z 53 1024 z ltac:(lia)). repeat split; try assumption; lia. }
  apply aligned_criterion; auto; [lia|]. apply meets_criterion; [lia|exact A].
Qed.

(** ** Consequences *)
Section Raised.
Context (rate src : f64) (R S : Z).
Hypothesis HR : whole_rate rate R.
Hypothesis HS : whole_rate src S.
Hypothesis S51 : (S <= 2 ^ 51)%Z.
Hypothesis Up : (S < R)%Z.

Lemma gains p i : first_at R S p i ->
  let t := IZR R * INR i / IZR S - INR p in let x := IZR R / IZR S in 0 <= t < x /\ 1 < x.
Proof.
  intros [A B] t x. destruct (raise_basic rate src R S HR HS S51 Up) as (S1 & _ & x1 & _). split; [|exact x1].
  assert (I0 : 0 < / IZR S) by (apply Rinv_0_lt_compat; lra). assert (I1 : IZR S * / IZR S = 1) by (apply Rinv_r; lra).
  apply IZR_le in A. apply IZR_lt in B. rewrite plus_IZR in B. rewrite !mult_IZR in A, B. rewrite <- !INR_IZR_INZ in A, B.
  unfold t, x, Rdiv. split.
  - apply Rmult_le_reg_r with (IZR S); [lra|]. rewrite Rmult_minus_distr_r, Rmult_assoc, Rinv_l by lra. lra.
  - apply Rmult_lt_reg_r with (IZR S); [lra|]. rewrite Rmult_minus_distr_r, !Rmult_assoc, Rinv_l by lra. lra.
Qed.
Lemma gains_sum k p i : first_at R S p i ->
  0 <= gain_before R S p i /\ 0 <= gain_after k R S p i /\ gain_before R S p i + gain_after k R S p i <= applied k (IZR R / IZR S) /\
  ((R * Z.of_nat i < S * Z.of_nat p + S)%Z -> is_int k \/ (S * Z.of_nat p + R <= R * Z.of_nat i + S)%Z -> gain_before R S p i + gain_after k R S p i = 1).
Proof.
  intros F. destruct (gains p i F) as [T X]. cbv zeta in T, X. destruct (raise_basic rate src R S HR HS S51 Up) as (S1 & _).
  unfold gain_before, gain_after. cbv zeta.
  assert (L : (R * Z.of_nat i < S * Z.of_nat p + S)%Z -> IZR R * INR i / IZR S - INR p < 1).
  { intros H. apply IZR_lt in H. rewrite plus_IZR, !mult_IZR, <- !INR_IZR_INZ in H. unfold Rdiv.
    apply Rmult_lt_reg_r with (IZR S); [lra|]. rewrite Rmult_minus_distr_r, !Rmult_assoc, Rinv_l by lra. lra. }
  assert (G : (S * Z.of_nat p + R <= R * Z.of_nat i + S)%Z -> IZR R / IZR S <= 1 + (IZR R * INR i / IZR S - INR p)).
  { intros H. apply IZR_le in H. rewrite !plus_IZR, !mult_IZR, <- !INR_IZR_INZ in H. unfold Rdiv.
    apply Rmult_le_reg_r with (IZR S); [lra|]. rewrite Rmult_plus_distr_r, Rmult_minus_distr_r, !Rmult_assoc, Rinv_l by lra. lra. }
  set (t := IZR R * INR i / IZR S - INR p) in *. set (x := IZR R / IZR S) in *.
  assert (M0 : 0 <= Rmax 0 (1 + t - x)) by apply Rmax_l.
  assert (Mc : Rmax 0 (1 + t - x) = 0 /\ 1 + t - x <= 0 \/ Rmax 0 (1 + t - x) = 1 + t - x /\ 0 <= 1 + t - x).
  { destruct (Rle_or_lt 0 (1 + t - x)); [right; rewrite Rmax_right by lra|left; rewrite Rmax_left by lra]; lra. }
  assert (Ax : forall w, 0 <= w -> 0 <= applied k w) by (intros w Hw; apply applied_pos; exact Hw).
  split; [exact M0|]. split; [destruct (Rlt_dec t 1); [apply Ax|]; lra|]. split.
  - assert (A1 : 1 <= applied k x) by (destruct k; cbn [applied]; try lra; rewrite Rmin_left; lra).
    destruct (Rlt_dec t 1) as [T1|T1]; [|lra].
    assert (A2 : applied k (x - t) <= applied k x). { destruct k; cbn [applied]; try lra; unfold Rmin; destruct (Rle_dec 1 (x - t)), (Rle_dec 1 x); lra. }
    destruct Mc as [[-> M]|[-> M]]; [lra|]. assert (applied k (x - t) <= x - t) by (apply applied_pos; lra). lra.
  - intros H1 H2. specialize (L H1). destruct (Rlt_dec t 1) as [T1|T1]; [|lra].
    destruct (Rle_or_lt (x - t) 1) as [D|D].
    + destruct Mc as [[-> M]|[-> M]]; destruct k; cbn [applied]; try rewrite Rmin_right by lra; lra.
    + destruct Mc as [[-> M]|[-> M]]; [|lra]. destruct H2 as [H2|H2]; [|specialize (G H2); lra].
      destruct H2 as [-> | ->]; cbn [applied]; rewrite Rmin_left by lra; lra.
Qed.
Lemma limited_abs k z : Rabs (limited k z) <= Rabs z.
Proof.
  pose proof (bottom_range k). unfold limited. destruct (Rle_or_lt z 1) as [A|A].
  - rewrite Rmin_right by exact A. destruct (Rle_or_lt (bottom k) z) as [B|B]; [rewrite Rmax_right by lra; lra|].
    rewrite Rmax_left by lra. rewrite !Rabs_left by lra. lra.
  - rewrite Rmin_left by lra. rewrite Rmax_right by lra. rewrite !Rabs_pos_eq by lra. lra.
Qed.
Lemma raise_kept l k ls ks (a a' : audio l k) (s it : stream ls ks) n all (fs : list (frame l k)) p i c v b y :
  s_rate a = rate -> sample_rate s = Some src -> honest s -> slen s = Some n -> yields s all -> converted all fs ->
  (R * Z.of_N n <= 2 ^ 51)%Z -> aligned rate src R S n -> extend (Datatypes.S (N.to_nat n)) a s = (a', Ok it) ->
  ((Z.of_nat p + 1) * S <= R * Z.of_N n)%Z -> first_at R S p i ->
  (R * Z.of_nat i < S * Z.of_nat p + S)%Z -> is_int k \/ (S * Z.of_nat p + R <= R * Z.of_nat i + S)%Z ->
  level_at fs i c v -> level_at fs (i - 1) c v -> bottom k <= v <= 1 ->
  audio_get a' (audio_len a + p) = Some b -> nth_error (channels b) c = Some y ->
  Rabs (level y - v) <= 6 * applied k (IZR R / IZR S) * step k + (IZR R / IZR S + INR p + 6) * bpow radix2 (-49).
Proof.
  intros H1 H2 H3 H4 H5 H6 H7 H8 H9 H10 F G1 G2 L1 L2 Bv H11 H12.
  pose proof (raise_frame rate src R S HR HS S51 Up l k ls ks a a' s it n all fs p i c v v b y H1 H2 H3 H4 H5 H6 H7 H8 H9 H10 F L1 L2 H11 H12) as M.
  destruct (gains_sum k p i F) as (_ & _ & _ & E). rewrite <- Rmult_plus_distr_r, (E G1 G2), Rmult_1_l, (limited_in k v Bv) in M. exact M.
Qed.
Lemma raise_peak l k ls ks (a a' : audio l k) (s it : stream ls ks) n all (fs : list (frame l k)) p c pk b y :
  s_rate a = rate -> sample_rate s = Some src -> honest s -> slen s = Some n -> yields s all -> converted all fs ->
  (R * Z.of_N n <= 2 ^ 51)%Z -> aligned rate src R S n -> extend (Datatypes.S (N.to_nat n)) a s = (a', Ok it) ->
  ((Z.of_nat p + 1) * S <= R * Z.of_N n)%Z ->
  (forall i f x, nth_error fs i = Some f -> nth_error (channels f) c = Some x -> valid x /\ Rabs (level x) <= pk) ->
  audio_get a' (audio_len a + p) = Some b -> nth_error (channels b) c = Some y ->
  Rabs (level y) <= applied k (IZR R / IZR S) * pk + 6 * applied k (IZR R / IZR S) * step k + (IZR R / IZR S + INR p + 6) * bpow radix2 (-49).
Proof.
  intros H1 H2 H3 H4 H5 H6 H7 H8 H9 H10 Pk H11 H12. pose proof (proj2 (proj2 HR)) as BR. pose proof (proj2 (proj2 HS)) as BS.
  pose proof (nth_some _ _ _ _ _ H12) as Hc.
  set (i := Z.to_nat ((S * Z.of_nat p + R - 1) / R)). pose proof (Z.div_mod (S * Z.of_nat p + R - 1) R ltac:(lia)) as DM.
  pose proof (Z.mod_pos_bound (S * Z.of_nat p + R - 1) R ltac:(lia)) as MB.
  assert (Zi : Z.of_nat i = ((S * Z.of_nat p + R - 1) / R)%Z) by (unfold i; rewrite Z2Nat.id; [reflexivity|apply Z.div_pos; lia]).
  assert (F : first_at R S p i) by (unfold first_at; rewrite Zi; nia).
  assert (Lf : length fs = N.to_nat n) by (rewrite (converted_length _ _ _ _ _ _ H6); exact (yields_count _ _ _ _ _ H3 H4 H5)).
  assert (N0 : (0 < N.to_nat n)%nat) by nia.
  assert (V : forall j, exists v, level_at fs j c v /\ Rabs v <= pk).
  { assert (P0 : 0 <= pk). { destruct (nth_lt_some fs 0 ltac:(lia)) as (f & Hf). destruct (nth_ex l k f c Hc) as (x & Hx). destruct (Pk 0%nat f x Hf Hx) as [_ Q]. pose proof (Rabs_pos (level x)). lra. }
    intros j. destruct (nth_error fs j) as [f|] eqn:Hf.
    - destruct (nth_ex l k f c Hc) as (x & Hx). exists (level x). destruct (Pk j f x Hf Hx) as [Vx Lx]. split; [|exact Lx].
      intros f2 x2 Hf2 Hx2. assert (f2 = f) by congruence. subst f2. assert (x2 = x) by congruence. subst x2. split; [exact Vx|reflexivity].
    - exists 0. split; [intros f2 x2 Hf2; congruence|]. rewrite Rabs_R0. exact P0. }
  destruct (V i) as (v & Lv & Bv). destruct (V (i - 1)%nat) as (v' & Lv' & Bv').
  pose proof (raise_frame rate src R S HR HS S51 Up l k ls ks a a' s it n all fs p i c v v' b y H1 H2 H3 H4 H5 H6 H7 H8 H9 H10 F Lv Lv' H11 H12) as M.
  destruct (gains_sum k p i F) as (G1 & G2 & G3 & _). set (gb := gain_before R S p i) in *. set (ga := gain_after k R S p i) in *.
  assert (Z : Rabs (gb * v' + ga * v) <= applied k (IZR R / IZR S) * pk).
  { apply Rle_trans with (1 := Rabs_triang _ _). rewrite !Rabs_mult, (Rabs_pos_eq gb G1), (Rabs_pos_eq ga G2).
    pose proof (Rabs_pos v). apply Rle_trans with ((gb + ga) * pk); [|apply Rmult_le_compat_r; lra]. nra. }
  pose proof (limited_abs k (gb * v' + ga * v)) as La.
  replace (level y) with ((level y - limited k (gb * v' + ga * v)) + limited k (gb * v' + ga * v)) by ring.
  apply Rle_trans with (1 := Rabs_triang _ _). lra.
Qed.
(** The same for all frames, the last one included. *)
Lemma raise_peak_all l k ls ks (a a' : audio l k) (s it : stream ls ks) n all (fs : list (frame l k)) p c pk b y : (S < 2 ^ 50)%Z ->
  s_rate a = rate -> sample_rate s = Some src -> honest s -> slen s = Some n -> yields s all -> converted all fs ->
  (R * Z.of_N n <= 2 ^ 51)%Z -> aligned rate src R S n -> extend (Datatypes.S (N.to_nat n)) a s = (a', Ok it) ->
  (forall i f x, nth_error fs i = Some f -> nth_error (channels f) c = Some x -> valid x /\ Rabs (level x) <= pk) ->
  audio_get a' (audio_len a + p) = Some b -> nth_error (channels b) c = Some y ->
  Rabs (level y) <= applied k (IZR R / IZR S) * pk + 6 * applied k (IZR R / IZR S) * step k + (IZR R / IZR S + INR p + 6) * bpow radix2 (-49).
Proof.
  intros S50 H1 H2 H3 H4 H5 H6 H7 H8 H9 Pk H11 H12.
  destruct (Z_le_gt_dec ((Z.of_nat p + 1) * S) (R * Z.of_N n)) as [L|G].
  { exact (raise_peak l k ls ks a a' s it n all fs p c pk b y H1 H2 H3 H4 H5 H6 H7 H8 H9 L Pk H11 H12). }
  pose proof (proj2 (proj2 HR)) as BR. pose proof (proj2 (proj2 HS)) as BS.
  pose proof (nth_some _ _ _ _ _ H12) as Hc.
  destruct (extend_appends _ _ _ _ _ _ _ _ _ H9) as (n' & added & Hn' & Ef & _ & La). assert (n' = n) by congruence. subst n'.
  rewrite H2, H1, (frames_for_exact rate src R S HR HS S51 n H7) in La.
  assert (Pd : (Z.of_nat p < (R * Z.of_N n + S - 1) / S)%Z).
  { rewrite <- La. assert (Q : nth_error (frames a') (audio_len a + p) <> None) by (unfold audio_get in H11; congruence).
    apply nth_error_Some in Q. rewrite Ef, app_length in Q. unfold audio_len in Q. lia. }
  assert (Sp : (S * Z.of_nat p < R * Z.of_N n)%Z).
  { pose proof (Z.mul_div_le (R * Z.of_N n + S - 1) S ltac:(lia)). nia. }
  assert (Lf : length fs = N.to_nat n) by (rewrite (converted_length _ _ _ _ _ _ H6); exact (yields_count _ _ _ _ _ H3 H4 H5)).
  assert (N0 : (0 < N.to_nat n)%nat) by nia.
  destruct (nth_lt_some fs (N.to_nat n - 1) ltac:(lia)) as (f & Hf). destruct (nth_ex l k f c Hc) as (x & Hx). destruct (Pk _ f x Hf Hx) as [Vx Lx].
  pose proof (raise_last rate src R S HR HS S51 Up l k ls ks a a' s it n all fs p c (level x) b y S50 H1 H2 H3 H4 H5 H6 H7 H8 H9 ltac:(lia)) as M.
  specialize (M ltac:(intros f2 x2 Hf2 Hx2; assert (f2 = f) by congruence; subst f2; assert (x2 = x) by congruence; subst x2; split; [exact Vx|reflexivity]) H11 H12).
  assert (Sr : 0 < IZR S < IZR R) by (split; apply IZR_lt; lia).
  assert (X1 : 1 < IZR R / IZR S). { apply Rmult_lt_reg_r with (IZR S); [lra|]. unfold Rdiv. rewrite Rmult_assoc, Rinv_l by lra. lra. }
  assert (g01 : 0 <= gain_before R S p (N.to_nat n) <= 1).
  { unfold gain_before. split; [apply Rmax_l|]. apply Rmax_lub; [lra|].
    assert (T : IZR R * INR (N.to_nat n) / IZR S < INR p + 1); [|lra].
    rewrite !INR_IZR_INZ, N_nat_Z, <- mult_IZR, <- plus_IZR.
    apply Rmult_lt_reg_r with (IZR S); [lra|]. unfold Rdiv. rewrite Rmult_assoc, Rinv_l, Rmult_1_r by lra. rewrite <- mult_IZR. apply IZR_lt. lia. }
  set (g := gain_before R S p (N.to_nat n)) in *. set (q := IZR R / IZR S) in *. clearbody q.
  assert (A1 : 1 <= applied k q) by (destruct k; cbn [applied]; try (rewrite Rmin_left by lra); lra).
  assert (Z : Rabs (g * level x) <= pk). { rewrite Rabs_mult, (Rabs_pos_eq g) by lra. pose proof (Rabs_pos (level x)). nra. }
  assert (P0 : 0 <= pk) by (pose proof (Rabs_pos (level x)); lra).
  assert (St : 0 <= step k) by (destruct k; cbn [step]; try apply bpow_ge_0; lra).
  pose proof (bpow_gt_0 radix2 (-49)) as B49.
  replace (level y) with ((level y - g * level x) + g * level x) by ring.
  apply Rle_trans with (1 := Rabs_triang _ _).
  assert (Q1 : pk <= applied k q * pk) by nra. assert (Q2 : 5 * step k <= 6 * applied k q * step k) by nra.
  assert (Q3 : (INR p + 6) * bpow radix2 (-49) <= (q + INR p + 6) * bpow radix2 (-49)) by nra. lra.
Qed.
Lemma raise_linear l k l1 k1 l2 k2 l3 k3 (a1 a1' a2 a2' a3 a3' : audio l k) (s1 it1 : stream l1 k1) (s2 it2 : stream l2 k2) (s3 it3 : stream l3 k3)
    n all1 all2 all3 (f1 f2 f3 : list (frame l k)) p i c al be t v1 v2 v3 v1' v2' v3' b1 b2 b3 y1 y2 y3 :
  s_rate a1 = rate -> s_rate a2 = rate -> s_rate a3 = rate ->
  sample_rate s1 = Some src -> honest s1 -> slen s1 = Some n -> yields s1 all1 -> converted all1 f1 ->
  sample_rate s2 = Some src -> honest s2 -> slen s2 = Some n -> yields s2 all2 -> converted all2 f2 ->
  sample_rate s3 = Some src -> honest s3 -> slen s3 = Some n -> yields s3 all3 -> converted all3 f3 ->
  (R * Z.of_N n <= 2 ^ 51)%Z -> aligned rate src R S n -> ((Z.of_nat p + 1) * S <= R * Z.of_N n)%Z -> first_at R S p i ->
  extend (Datatypes.S (N.to_nat n)) a1 s1 = (a1', Ok it1) -> extend (Datatypes.S (N.to_nat n)) a2 s2 = (a2', Ok it2) ->
  extend (Datatypes.S (N.to_nat n)) a3 s3 = (a3', Ok it3) ->
  level_at f1 i c v1 -> level_at f2 i c v2 -> level_at f3 i c v3 ->
  level_at f1 (i - 1) c v1' -> level_at f2 (i - 1) c v2' -> level_at f3 (i - 1) c v3' ->
  Rabs (v3 - (al * v1 + be * v2)) <= t -> Rabs (v3' - (al * v1' + be * v2')) <= t ->
  let mixed v' v := gain_before R S p i * v' + gain_after k R S p i * v in
  bottom k <= mixed v1' v1 <= 1 -> bottom k <= mixed v2' v2 <= 1 -> bottom k <= mixed v3' v3 <= 1 ->
  audio_get a1' (audio_len a1 + p) = Some b1 -> audio_get a2' (audio_len a2 + p) = Some b2 -> audio_get a3' (audio_len a3 + p) = Some b3 ->
  nth_error (channels b1) c = Some y1 -> nth_error (channels b2) c = Some y2 -> nth_error (channels b3) c = Some y3 ->
  Rabs (level y3 - (al * level y1 + be * level y2)) <=
    (1 + Rabs al + Rabs be) * (6 * applied k (IZR R / IZR S) * step k + (IZR R / IZR S + INR p + 6) * bpow radix2 (-49)) + applied k (IZR R / IZR S) * t.
Proof.
  intros A1 A2 A3 R1 H1 L1 Y1 C1 R2 H2 L2 Y2 C2 R3 H3 L3 Y3 C3 Hn Al Hp F E1 E2 E3 V1 V2 V3 V1' V2' V3' T T' mixed M1 M2 M3 B1 B2 B3 N1 N2 N3.
  pose proof (raise_frame rate src R S HR HS S51 Up l k l1 k1 a1 a1' s1 it1 n all1 f1 p i c v1 v1' b1 y1 A1 R1 H1 L1 Y1 C1 Hn Al E1 Hp F V1 V1' B1 N1) as P1.
  pose proof (raise_frame rate src R S HR HS S51 Up l k l2 k2 a2 a2' s2 it2 n all2 f2 p i c v2 v2' b2 y2 A2 R2 H2 L2 Y2 C2 Hn Al E2 Hp F V2 V2' B2 N2) as P2.
  pose proof (raise_frame rate src R S HR HS S51 Up l k l3 k3 a3 a3' s3 it3 n all3 f3 p i c v3 v3' b3 y3 A3 R3 H3 L3 Y3 C3 Hn Al E3 Hp F V3 V3' B3 N3) as P3.
  unfold mixed in M1, M2, M3. clear mixed. rewrite limited_in in P1 by exact M1. rewrite limited_in in P2 by exact M2. rewrite limited_in in P3 by exact M3.
  destruct (gains_sum k p i F) as (G1 & G2 & G3 & _). set (gb := gain_before R S p i) in *. set (ga := gain_after k R S p i) in *.
  set (E := 6 * applied k (IZR R / IZR S) * step k + (IZR R / IZR S + INR p + 6) * bpow radix2 (-49)) in *. clearbody E.
  replace (level y3 - (al * level y1 + be * level y2)) with
    ((level y3 - (gb * v3' + ga * v3)) + (- al * (level y1 - (gb * v1' + ga * v1)) + (- be * (level y2 - (gb * v2' + ga * v2)) + (gb * (v3' - (al * v1' + be * v2')) + ga * (v3 - (al * v1 + be * v2)))))) by ring.
  assert (T0 : 0 <= t) by (pose proof (Rabs_pos (v3 - (al * v1 + be * v2))); lra).
  assert (Q1 : Rabs (- al * (level y1 - (gb * v1' + ga * v1))) <= Rabs al * E) by (rewrite Rabs_mult, Rabs_Ropp; apply Rmult_le_compat_l; [apply Rabs_pos|exact P1]).
  assert (Q2 : Rabs (- be * (level y2 - (gb * v2' + ga * v2))) <= Rabs be * E) by (rewrite Rabs_mult, Rabs_Ropp; apply Rmult_le_compat_l; [apply Rabs_pos|exact P2]).
  assert (Q3 : Rabs (gb * (v3' - (al * v1' + be * v2')) + ga * (v3 - (al * v1 + be * v2))) <= applied k (IZR R / IZR S) * t).
  { apply Rle_trans with (1 := Rabs_triang _ _). rewrite !Rabs_mult, (Rabs_pos_eq gb G1), (Rabs_pos_eq ga G2).
    apply Rle_trans with ((gb + ga) * t); [|apply Rmult_le_compat_r; lra]. rewrite Rmult_plus_distr_r. apply Rplus_le_compat; apply Rmult_le_compat_l; assumption. }
  apply Rle_trans with (1 := Rabs_triang _ _).
  pose proof (Rabs_triang (- al * (level y1 - (gb * v1' + ga * v1))) (- be * (level y2 - (gb * v2' + ga * v2)) + (gb * (v3' - (al * v1' + be * v2')) + ga * (v3 - (al * v1 + be * v2))))) as D1.
  pose proof (Rabs_triang (- be * (level y2 - (gb * v2' + ga * v2))) (gb * (v3' - (al * v1' + be * v2')) + ga * (v3 - (al * v1 + be * v2)))) as D2.
  replace ((1 + Rabs al + Rabs be) * E) with (E + Rabs al * E + Rabs be * E) by ring. lra.
Qed.
Lemma raise_gaps l k ls ks (a a' : audio l k) (s it : stream ls ks) n all (fs : list (frame l k)) p b :
  s_rate a = rate -> sample_rate s = Some src -> honest s -> slen s = Some n -> yields s all -> converted all fs ->
  (R * Z.of_N n <= 2 ^ 51)%Z -> extend (Datatypes.S (N.to_nat n)) a s = (a', Ok it) ->
  ((Z.of_nat p + 1) * S < R * Z.of_N n)%Z ->
  (forall i, (S < Z.abs (R * Z.of_nat i - S * Z.of_nat p))%Z) ->
  audio_get a' (audio_len a + p) = Some b -> b = frame_default l k.
Proof.
  clear Up. intros Ea Er Ho Hl Ya Cv Hn He Hp Far Hb.
  pose proof (proj2 (proj2 HR)) as BR. pose proof (proj2 (proj2 HS)) as BS.
  assert (Sk : sinkable s) by (left; rewrite Er; discriminate).
  destruct (extend_values l k ls ks a a' s it n all fs Sk Ho Hl Ya Cv He) as (m & Hm & _ & _ & V).
  specialize (V p b Hb). destruct V as [V _].
  rewrite Er, Ea in V. cbn [ratio_for] in V. rewrite (frames_for_exact rate src R S HR HS S51 n Hn) in V.
  pose proof (covered_nearly rate src R S HR HS S51 n Hn) as Cn.
  set (d := ((R * Z.of_N n + S - 1) / S)%Z) in *.
  assert (Dd : (Z.of_nat p + 2 <= d)%Z). { apply Z.div_le_lower_bound; lia. }
  set (e := Z.min _ d) in *. assert (Pe : (Z.of_nat p < e)%Z) by (unfold e; lia). specialize (V Pe).
  pose proof (yields_count _ _ _ _ _ Ho Hl Ya) as La.
  assert (Lfs : length fs = N.to_nat n) by (rewrite (converted_length _ _ _ _ _ _ Cv); exact La).
  assert (Lm : length (firstn m fs) = m) by (rewrite firstn_length; lia).
  rewrite contributions_empty in V; [now inversion V|]. intros j Lj. cbn [Nat.add] in Lj. rewrite Lm in Lj.
  pose proof (near rate src R S HR HS S51 (Z.of_nat p) j ltac:(nia)) as Nr. specialize (Far j). split; intros Q; [specialize (Nr (or_introl Q))|specialize (Nr (or_intror Q))]; lia.
Qed.
End Raised.
