(** * WholeProofs.v -- conversions between whole-number sample rates (C56, C57) *)
From Coq Require Import ZArith NArith Reals List Lia Bool Lra.
From Flocq Require Import Core.Core Relative IEEE754.BinarySingleNaN.
From Verif Require Import Rust Float Math Chan Frame Ops Stream Audio Heap SpecChan SpecFrame SpecStream SpecSink SpecAudio SpecMore.
From Verif Require Import FloatProofs FloorProofs FArithProofs SinkProofs PlaceProofs SinkMore AudioProofs ResampleProofs.
Import ListNotations.
Open Scope R_scope.

Notation u53 := (bpow radix2 (-53)).
Lemma u53_val : u53 = / 9007199254740992. Proof. reflexivity. Qed.
Lemma rnd_rel x : bpow radix2 (-1022) <= Rabs x -> Rabs (round64 x - x) <= u53 * Rabs x.
Proof.
  intros H. refine (Rle_trans _ _ _ (relative_error_N_FLT radix2 (-1074) 53 _ _ x H) _); [reflexivity|].
  apply Rmult_le_compat_r; [apply Rabs_pos|]. change (bpow radix2 (- (53) + 1)) with (/ 4503599627370496). rewrite u53_val. lra.
Qed.

Lemma floor_index_nonneg (x : f64) z : is_finite x = true -> (0 <= z < 2 ^ 64)%Z -> IZR z <= B2R x < IZR (z + 1) -> floor_index x = z /\ frac x = B2R x - IZR z.
Proof.
  intros F HZ H. assert (E : Ztrunc (B2R x) = z).
  { rewrite Ztrunc_floor; [apply Zfloor_imp; exact H|]. apply Rle_trans with (IZR z); [apply IZR_le; lia|apply H]. }
  split; [|unfold frac; rewrite E; reflexivity]. rewrite floor_index_finite by exact F. rewrite E. unfold clampZ.
  destruct (Z.ltb_spec z 0); [lia|]. destruct (Z.ltb_spec (2 ^ 64 - 1) z); lia.
Qed.

Section Whole.
Context (rate src : f64) (R S : Z).
Hypothesis HR : whole_rate rate R.
Hypothesis HS : whole_rate src S.
Hypothesis S51 : (S <= 2 ^ 51)%Z.
Notation ratio := (fdiv rate src).

Lemma Rpos : 1 <= IZR R <= bpow radix2 53.
Proof. destruct HR as (_ & _ & [A B]). split; [apply IZR_le; lia|]. apply IZR_le in B. exact B. Qed.
Lemma Spos : 1 <= IZR S <= bpow radix2 51.
Proof. destruct HS as (_ & _ & [A B]). split; [apply IZR_le; lia|]. apply IZR_le in S51. exact S51. Qed.

Lemma quot_pos a b : 1 <= a -> 1 <= b <= bpow radix2 51 -> bpow radix2 (-51) <= a / b.
Proof.
  intros A [B C]. change (bpow radix2 (-51)) with (/ bpow radix2 51).
  apply Rle_trans with (/ b); [apply Rinv_le; lra|]. unfold Rdiv. rewrite <- (Rmult_1_l (/ b)) at 1.
  apply Rmult_le_compat_r; [|exact A]. left. apply Rinv_0_lt_compat. lra.
Qed.
Lemma quot_le a b : 0 <= a -> 1 <= b -> a / b <= a.
Proof.
  intros A B. unfold Rdiv. rewrite <- (Rmult_1_r a) at 2. apply Rmult_le_compat_l; [exact A|].
  rewrite <- Rinv_1. apply Rinv_le; lra.
Qed.
Lemma small_fin x e : (e <= 1023)%Z -> Rabs x <= bpow radix2 e -> Rabs (round64 x) < bpow radix2 1024.
Proof. intros E H. apply (rnd_small_lt 53 1024). apply Rle_trans with (1 := H). apply bpow_le. lia. Qed.

Lemma ratio_val : B2R ratio = round64 (IZR R / IZR S) /\ is_finite ratio = true.
Proof.
  destruct HR as (FR & ER & BR), HS as (FS & ES & BS). pose proof Rpos as P. pose proof Spos as Q.
  assert (Hd : Rabs (B2R rate / B2R src) <= bpow radix2 53).
  { rewrite ER, ES. rewrite Rabs_pos_eq; [|apply Rle_mult_inv_pos; lra].
    apply Rle_trans with (IZR R); [apply quot_le; lra|apply P]. }
  destruct (fdiv_correct 53 1024 rate src FR) as [A B].
  - rewrite ES. lra.
  - apply small_fin with (2 := Hd). lia.
  - rewrite A, ER, ES. split; [reflexivity|exact B].
Qed.

Lemma ratio_err : Rabs (B2R ratio - IZR R / IZR S) <= u53 * (IZR R / IZR S) /\ 0 <= B2R ratio <= bpow radix2 53.
Proof.
  pose proof Rpos as P. pose proof Spos as Q. destruct ratio_val as [E _]. rewrite E.
  pose proof (quot_pos _ _ (proj1 P) Q) as L.
  assert (0 <= IZR R / IZR S) as N0 by (apply Rle_mult_inv_pos; lra).
  split; [|split].
  - rewrite <- (Rabs_pos_eq (IZR R / IZR S)) at 3 by exact N0. apply rnd_rel.
    rewrite Rabs_pos_eq by exact N0. apply Rle_trans with (2 := L). apply bpow_le. lia.
  - apply (rnd_nonneg 53 1024). exact N0.
  - apply (rnd_le_fmt 53 1024); [apply fmt_bpow; [reflexivity|lia]|]. apply Rle_trans with (IZR R); [apply quot_le; lra|apply P].
Qed.

(** Position of source frame [i]. *)
Lemma place_val i : (Z.of_nat i <= 2 ^ 53)%Z ->
  B2R (place ratio (flit 0 0) i) = round64 (B2R ratio * IZR (Z.of_nat i)) /\ is_finite (place ratio (flit 0 0) i) = true /\
  B2R (fmul ratio (fofZ (Z.of_nat i))) = B2R (place ratio (flit 0 0) i) /\ is_finite (fmul ratio (fofZ (Z.of_nat i))) = true.
Proof.
  intros Hi. destruct ratio_val as [E F]. destruct ratio_err as [_ [B0 B1]].
  destruct (fofZ53 (Z.of_nat i)) as [EI FI]; [lia|].
  assert (HI : 0 <= IZR (Z.of_nat i) <= bpow radix2 53).
  { split; [apply IZR_le; lia|]. apply IZR_le in Hi. exact Hi. }
  destruct (fmul_correct 53 1024 ratio (fofZ (Z.of_nat i)) F FI) as [A B].
  { rewrite EI. apply small_fin with (106%Z); [lia|]. rewrite Rabs_pos_eq by (apply Rmult_le_pos; lra).
    change (bpow radix2 106) with (bpow radix2 (53 + 53)). rewrite bpow_plus. apply Rmult_le_compat; lra. }
  rewrite EI in A. destruct (zero_correct 53 1024) as [Z0 Z1].
  destruct (fadd_zero 53 1024 (fmul ratio (fofZ (Z.of_nat i))) (flit 0 0) B Z1 Z0) as [C D].
  unfold place. rewrite D, A. repeat split; assumption.
Qed.

(** The position stays within 3/(4 S) of the exact one. *)
Lemma place_err i : (R * Z.of_nat i <= 2 ^ 51)%Z ->
  Rabs (B2R (place ratio (flit 0 0) i) - IZR (R * Z.of_nat i) / IZR S) <= 3 / 4 / IZR S.
Proof.
  intros Hi. destruct HR as (_ & _ & [Rp _]). assert (Hi' : (Z.of_nat i <= 2 ^ 51)%Z) by nia.
  destruct (place_val i) as (E & _); [lia|]. rewrite E. clear E. rewrite mult_IZR.
  pose proof Rpos as P. pose proof Spos as Q. destruct ratio_err as [Er [B0 B1]].
  destruct (Z.eq_dec (Z.of_nat i) 0) as [->|Ni].
  { rewrite !Rmult_0_r. change (round64 0) with (round_to 53 1024 0). rewrite (rnd_0 53 1024).
    unfold Rdiv. rewrite Rmult_0_l, Rminus_0_r, Rabs_R0. apply Rmult_le_pos; [lra|]. left. apply Rinv_0_lt_compat. lra. }
  set (I := IZR (Z.of_nat i)) in *. assert (I1 : 1 <= I) by (apply IZR_le; lia).
  assert (RI : IZR R * I <= bpow radix2 51) by (unfold I; rewrite <- mult_IZR; apply IZR_le in Hi; exact Hi).
  set (x := IZR R / IZR S) in *. set (r := B2R ratio) in *.
  assert (x0 : bpow radix2 (-51) <= x) by (apply quot_pos; [apply P|exact Q]).
  assert (xp : 0 < x) by (apply Rlt_le_trans with (2 := x0); apply bpow_gt_0).
  assert (U : 0 < u53) by apply bpow_gt_0.
  assert (U2 : u53 <= / 2) by (rewrite u53_val; lra).
  assert (Ep : r * I <= x * I * (1 + u53) /\ x * I * (1 - u53) <= r * I).
  { apply Rabs_le_inv in Er. split; nra. }
  assert (Hn : 0 <= r * I) by nra.
  assert (Hb : bpow radix2 (-1022) <= r * I).
  { apply Rle_trans with (bpow radix2 (-51) * / 2). 
    - change (/ 2) with (bpow radix2 (-1)). rewrite <- bpow_plus. apply bpow_le. lia.
    - apply Rle_trans with (2 := proj2 Ep). rewrite Rmult_assoc. pose proof (bpow_gt_0 radix2 (-51)).
      apply Rmult_le_compat; try lra. nra. }
  pose proof (rnd_rel (r * I)) as Er2. rewrite (Rabs_pos_eq (r * I)) in Er2 by exact Hn. specialize (Er2 Hb).
  assert (XS : IZR R * I / IZR S = x * I) by (unfold x, Rdiv; ring). rewrite XS.
  assert (Lim : x * I <= bpow radix2 51 * / IZR S).
  { rewrite <- XS. unfold Rdiv. apply Rmult_le_compat_r; [left; apply Rinv_0_lt_compat; lra|exact RI]. }
  assert (T : Rabs (round64 (r * I) - x * I) <= x * I * (u53 + u53 * (1 + u53))).
  { apply Rabs_le_inv in Er2. apply Rabs_le. split; nra. }
  apply Rle_trans with (1 := T). assert (IS : 0 < / IZR S) by (apply Rinv_0_lt_compat; lra).
  apply Rle_trans with (bpow radix2 51 * / IZR S * (u53 + u53 * (1 + u53))); [apply Rmult_le_compat_r; nra|].
  unfold Rdiv. rewrite u53_val. change (bpow radix2 51) with 2251799813685248. nra.
Qed.

Lemma place_mono i j : (i <= j)%nat -> (Z.of_nat j <= 2 ^ 53)%Z ->
  0 <= B2R (place ratio (flit 0 0) i) <= B2R (place ratio (flit 0 0) j).
Proof.
  intros H J. destruct (place_val i) as (-> & _); [lia|]. destruct (place_val j) as (-> & _); [lia|].
  destruct ratio_err as [_ [B0 _]]. assert (0 <= IZR (Z.of_nat i) <= IZR (Z.of_nat j)) by (split; apply IZR_le; lia).
  split; [apply (rnd_nonneg 53 1024); nra|]. apply (rnd_mono 53 1024). nra.
Qed.

(** The number of frames: an exact ceiling. *)
Lemma frames_for_exact n : (R * Z.of_N n <= 2 ^ 51)%Z -> frames_for rate (Some src) n = ((R * Z.of_N n + S - 1) / S)%Z.
Proof.
  intros Hn. set (A := (R * Z.of_N n)%Z). fold A in Hn.
  destruct HR as (FR & ER & BR), HS as (FS & ES & BS). assert (HA : (0 <= A)%Z) by (unfold A; nia).
  pose proof Spos as Q.
  unfold frames_for. rewrite (whole_fofZ _ _ HR). rewrite mul_int by nia. fold A.
  destruct (fofZ53 A) as [EA FA]; [lia|].
  assert (A51 : 0 <= IZR A <= bpow radix2 51) by (split; [apply IZR_le; lia|apply IZR_le in Hn; exact Hn]).
  destruct (fdiv_correct 53 1024 (fofZ A) src FA) as [E F].
  { rewrite ES. lra. }
  { rewrite EA, ES. apply small_fin with 51%Z; [lia|]. rewrite Rabs_pos_eq by (apply Rle_mult_inv_pos; lra).
    apply Rle_trans with (IZR A); [apply quot_le; lra|lra]. }
  rewrite EA, ES in E. rewrite F.
  pose proof (Z.div_mod A S ltac:(lia)) as DM. pose proof (Z.mod_pos_bound A S ltac:(lia)) as MB.
  set (q := (A / S)%Z) in *. set (m := (A mod S)%Z) in *. assert (Hq : (0 <= q)%Z) by (apply Z.div_pos; lia).
  assert (Hq2 : (q <= 2 ^ 51)%Z) by nia.
  destruct (Z.eq_dec m 0) as [M0|M0].
  - assert (X : IZR A / IZR S = IZR q). { rewrite DM, M0, Z.add_0_r, mult_IZR. field. lra. }
    rewrite X in E. rewrite rnd64_Z in E by lia. rewrite (ceil_index_Z _ q F E) by lia.
    apply Z.div_unique with (S - 1)%Z; [lia|]. lia.
  - assert (X : IZR A / IZR S = IZR q + IZR m * / IZR S). { rewrite DM, plus_IZR, mult_IZR. field. lra. }
    assert (M1 : 1 <= IZR m <= IZR S - 1). { rewrite <- minus_IZR. split; apply IZR_le; lia. }
    assert (IS : 0 < / IZR S) by (apply Rinv_0_lt_compat; lra).
    assert (IS1 : IZR S * / IZR S = 1) by (apply Rinv_r; lra).
    pose proof (rnd_rel (IZR A / IZR S)) as Er.
    assert (Xp : 0 <= IZR A / IZR S) by (apply Rle_mult_inv_pos; lra).
    rewrite (Rabs_pos_eq (IZR A / IZR S)) in Er by exact Xp.
    assert (A1 : 1 <= IZR A). { apply IZR_le. nia. }
    specialize (Er (Rle_trans _ _ _ (bpow_le radix2 (-1022) (-51) ltac:(lia)) (quot_pos _ _ A1 Q))).
    assert (T : u53 * (IZR A / IZR S) <= / 4 * / IZR S).
    { rewrite u53_val. unfold Rdiv. change (bpow radix2 51) with 2251799813685248 in A51. nra. }
    unfold round64 in Er. rewrite <- E in Er. apply Rabs_le_inv in Er. rewrite X in Er, T.
    assert (ISl : bpow radix2 (-51) <= / IZR S).
    { change (bpow radix2 (-51)) with (/ bpow radix2 51). apply Rinv_le; lra. }
    destruct (floor_index_nonneg _ q F) as [FI FC]; [lia|rewrite plus_IZR; split; nra|].
    unfold ceil_index. rewrite FI, FC. destruct (Rlt_dec _ _) as [_|N].
    + apply Z.div_unique with (m - 1)%Z; lia.
    + exfalso. apply N. apply Rlt_le_trans with (3 / 4 * / IZR S); [|nra].
      apply Rlt_le_trans with (3 / 4 * bpow radix2 (-51)); [|nra].
      change (bpow radix2 (-51)) with (/ 2251799813685248). change (bpow radix2 (-52)) with (/ 4503599627370496). lra.
Qed.

Lemma coarse (y : f64) d : (2 <= d)%Z -> IZR d < B2R y -> IZR d + bpow radix2 (-51) <= B2R y.
Proof.
  intros Hd Hy. pose proof (fmt_B2R 53 1024 y) as F. unfold generic_format in F. set (e := cexp _ _ _) in F.
  set (M := Ztrunc _) in F.
  assert (D2 : 2 <= IZR d) by (apply IZR_le; exact Hd).
  assert (He : (-51 <= e)%Z).
  { unfold e, cexp, FLT_exp. apply Z.le_trans with (mag radix2 (B2R y) - 53)%Z; [|lia].
    assert (1 < mag radix2 (B2R y))%Z; [|lia]. apply mag_gt_bpow. change (bpow radix2 1) with 2. rewrite Rabs_pos_eq; lra. }
  assert (exists k, B2R y = IZR k * bpow radix2 (-51)) as [k Hk].
  { exists (M * 2 ^ (e + 51))%Z. rewrite F. unfold F2R. cbn [Fnum Fexp]. rewrite mult_IZR.
    change 2%Z with (radix_val radix2) at 1. rewrite IZR_Zpower by lia. rewrite Rmult_assoc, <- bpow_plus. f_equal. f_equal. lia. }
  assert (D : IZR d = IZR (d * 2 ^ 51) * bpow radix2 (-51)).
  { rewrite mult_IZR. change (IZR (2 ^ 51)) with 2251799813685248. change (bpow radix2 (-51)) with (/ 2251799813685248). field. }
  rewrite Hk in *. rewrite D in *. pose proof (bpow_gt_0 radix2 (-51)) as P.
  assert (d * 2 ^ 51 < k)%Z by (apply lt_IZR; nra).
  assert (IZR (d * 2 ^ 51) + 1 <= IZR k) by (rewrite <- plus_IZR; apply IZR_le; lia). nra.
Qed.

(** Whether the flush at the end of an [extend] call writes past the end. *)
Lemma past_end n m : (R * Z.of_N n <= 2 ^ 51)%Z -> (m <= N.to_nat n)%nat ->
  let d := ((R * Z.of_N n + S - 1) / S)%Z in
  let y := fmul ratio (fofZ (Z.of_N n)) in
  leaves ratio (Z.min (floor_index y) d) m ->
  (bpow radix2 (-52) < Rabs (frac (place ratio (flit 0 0) m)) /\ (d <= floor_index (place ratio (flit 0 0) m))%Z) <->
  ((R * Z.of_N n) mod S = 0 /\ 2 <= d)%Z /\ IZR d < B2R y.
Proof.
  intros Hn Hm d y [L1 L2].
  pose proof Rpos as P. pose proof Spos as Q. destruct HR as (FR & ER & BR), HS as (FS & ES & BS).
  set (A := (R * Z.of_N n)%Z) in *. assert (HA : (0 <= A)%Z) by (unfold A; nia).
  assert (Hn53 : (Z.of_N n <= 2 ^ 51)%Z) by (unfold A in *; nia).
  assert (NN : Z.of_nat (N.to_nat n) = Z.of_N n) by lia.
  pose proof (place_val (N.to_nat n) ltac:(lia)) as (VN & FN & YN & FY). rewrite NN in VN, YN, FY. fold y in YN, FY.
  pose proof (place_err (N.to_nat n) ltac:(rewrite NN; exact Hn)) as EN. rewrite NN in EN. change (R * Z.of_N n)%Z with A in EN.
  rewrite <- YN in EN. apply Rabs_le_inv in EN.
  pose proof (place_val m ltac:(lia)) as (VM & FM & _ & _).
  pose proof (place_mono m (N.to_nat n) Hm ltac:(lia)) as MN. rewrite <- YN in MN.
  set (x := place ratio (flit 0 0) m) in *.
  assert (IS : 0 < / IZR S) by (apply Rinv_0_lt_compat; lra).
  assert (IS1 : IZR S * / IZR S = 1) by (apply Rinv_r; lra).
  pose proof (Z.div_mod A S ltac:(lia)) as DM. pose proof (Z.mod_pos_bound A S ltac:(lia)) as MB.
  set (q := (A / S)%Z) in *. set (r := (A mod S)%Z) in *. assert (Hq : (0 <= q)%Z) by (apply Z.div_pos; lia).
  assert (Hq2 : (q <= 2 ^ 51)%Z) by nia.
  assert (Low : forall c, (0 <= c <= 2 ^ 51)%Z -> B2R y < IZR (c + 1) -> (floor_index x <= c)%Z).
  { intros c Hc Hy. rewrite floor_index_finite by exact FM.
    assert (Ztrunc (B2R x) <= c)%Z.
    { rewrite Ztrunc_floor by apply MN. apply Z.lt_succ_r. apply lt_IZR. apply Rle_lt_trans with (1 := Zfloor_lb _).
      unfold Z.succ. lra. }
    unfold clampZ. destruct (Z.ltb_spec (Ztrunc (B2R x)) 0); [lia|]. destruct (Z.ltb_spec (2 ^ 64 - 1) (Ztrunc (B2R x))); lia. }
  destruct (Z.eq_dec r 0) as [M0|M0].
  - assert (X : IZR A / IZR S = IZR q). { rewrite DM, M0, Z.add_0_r, mult_IZR. field. lra. }
    rewrite X in EN.
    assert (Dq : d = q) by (symmetry; apply Z.div_unique with (S - 1)%Z; lia). rewrite Dq in *.
    assert (T : 3 / 4 / IZR S <= 3 / 4).
    { apply quot_le; lra. }
    destruct (Rlt_le_dec (B2R y) (IZR q)) as [Lt|Ge].
    + split; [|intros [_ G]; lra]. intros [_ G]. exfalso.
      assert (0 < q)%Z by (apply lt_IZR; lra).
      assert (floor_index x <= q - 1)%Z; [|lia]. apply Low; [lia|]. replace (q - 1 + 1)%Z with q by lia. exact Lt.
    + destruct (floor_index_nonneg y q FY) as [FI FC]; [lia|rewrite plus_IZR; lra|].
      rewrite FI, Z.min_id in *.
      assert (Mn : m = N.to_nat n).
      { destruct (Nat.eq_dec m (N.to_nat n)) as [|Ne]; [assumption|exfalso].
        assert (Lt : (m <= N.to_nat n - 1)%nat) by lia.
        pose proof (place_err (N.to_nat n - 1) ltac:(nia)) as E1. 
        replace (R * Z.of_nat (N.to_nat n - 1))%Z with (A - R)%Z in E1 by (unfold A; nia).
        pose proof (place_mono m (N.to_nat n - 1) Lt ltac:(lia)) as M1. fold x in M1.
        rewrite minus_IZR in E1. unfold Rdiv in E1 at 1. rewrite Rmult_minus_distr_r in E1. fold (IZR A / IZR S) in E1.
        rewrite X in E1. apply Rabs_le_inv in E1. unfold Rdiv in E1.
        assert (Bx : B2R x < IZR q) by nra.
        assert (0 < q)%Z by (apply lt_IZR; lra).
        assert (floor_index x <= q - 1)%Z; [|lia].
        rewrite floor_index_finite by exact FM.
        assert (Ztrunc (B2R x) <= q - 1)%Z.
        { rewrite Ztrunc_floor by apply MN. apply Z.lt_le_pred. apply lt_IZR. apply Rle_lt_trans with (1 := Zfloor_lb _). exact Bx. }
        unfold clampZ. destruct (Z.ltb_spec (Ztrunc (B2R x)) 0); [lia|]. destruct (Z.ltb_spec (2 ^ 64 - 1) (Ztrunc (B2R x))); lia. }
      assert (EX : B2R x = B2R y) by (unfold x; rewrite Mn, YN; reflexivity).
      destruct (floor_index_nonneg x q FM) as [XI XC]; [lia|rewrite plus_IZR; lra|].
      rewrite XI, XC, EX. rewrite Rabs_pos_eq by lra. split.
      * intros [G _]. pose proof (bpow_gt_0 radix2 (-52)). split; [|lra]. split; [exact M0|].
        destruct (Z_lt_le_dec q 2) as [Q2|Q2]; [exfalso|exact Q2].
        destruct (Z.eq_dec q 0) as [Q0|Q0].
        { assert (A0 : A = 0%Z) by nia. assert (n0 : Z.of_N n = 0%Z) by (unfold A in A0; nia).
          assert (B2R y = 0); [|rewrite Q0 in G; lra]. rewrite YN, VN, n0, Rmult_0_r. apply (rnd_0 53 1024). }
        assert (H0 : q = 1%Z) by lia.
        assert (B2R y <= 1 + bpow radix2 (-52)); [|rewrite H0 in G; lra].
        rewrite YN, VN. apply (rnd_le_fmt 53 1024).
        { replace (1 + bpow radix2 (-52)) with (F2R (Float radix2 (2 ^ 52 + 1) (-52))).
          - apply (fmt_F2R 53 1024); lia.
          - unfold F2R. cbn [Fnum Fexp]. change (IZR (2 ^ 52 + 1)) with 4503599627370497.
            change (bpow radix2 (-52)) with (/ 4503599627370496). field. }
        destruct ratio_err as [Er _]. apply Rabs_le_inv in Er.
        assert (N0 : 0 <= IZR (Z.of_N n)) by (apply IZR_le; lia).
        apply Rle_trans with ((IZR R / IZR S) * IZR (Z.of_N n) * (1 + u53)); [nra|].
        replace (IZR R / IZR S * IZR (Z.of_N n)) with (IZR A / IZR S) by (unfold A, Rdiv; rewrite mult_IZR; ring).
        rewrite X, H0. rewrite u53_val. change (bpow radix2 (-52)) with (/ 4503599627370496). lra.
      * intros [[_ G2] G]. split; [|lia]. pose proof (coarse y q G2 G) as C.
        assert (bpow radix2 (-52) < bpow radix2 (-51)) by (apply bpow_lt; lia). lra.
  - assert (X : IZR A / IZR S = IZR q + IZR r * / IZR S). { rewrite DM, plus_IZR, mult_IZR. field. lra. }
    assert (M1 : 1 <= IZR r <= IZR S - 1). { rewrite <- minus_IZR. split; apply IZR_le; lia. }
    rewrite X in EN. unfold Rdiv in EN.
    assert (Dq : d = (q + 1)%Z) by (symmetry; apply Z.div_unique with (r - 1)%Z; lia). rewrite Dq in *.
    split; [|intros [[G _] _]; lia]. intros [_ G]. exfalso.
    assert (floor_index x <= q)%Z; [|lia]. apply Low; [lia|]. rewrite plus_IZR. nra.
Qed.
End Whole.

(** C56 *)
Lemma extend_whole l k ls ks (a : audio l k) (s : stream ls ks) n src R S : sample_rate s = Some src ->
  whole_rate src S -> whole_rate (s_rate a) R -> (S <= 2 ^ 51)%Z -> (R * Z.of_N n <= 2 ^ 51)%Z ->
  honest s -> slen s = Some n ->
  let d := ((R * Z.of_N n + S - 1) / S)%Z in
  allocatable l k (Z.of_nat (audio_len a) + d) ->
  (overshoots (s_rate a) src R S n -> snd (extend (Datatypes.S (N.to_nat n)) a s) = Panic IndexOutOfBounds) /\
  (~ overshoots (s_rate a) src R S n -> exists a' it, extend (Datatypes.S (N.to_nat n)) a s = (a', Ok it) /\
     audio_sample_rate a' = audio_sample_rate a /\ exists added, frames a' = frames a ++ added /\ Z.of_nat (length added) = d).
Proof.
  intros Es HS HR S51 Hn Ho Hl d Al.
  assert (Hs : sinkable s) by (left; rewrite Es; discriminate).
  pose proof (extend_outcome l k ls ks a s n Hs Ho Hl) as [_ O].
  cbv zeta in O. rewrite Es in O. rewrite (frames_for_exact _ _ R S HR HS S51 n Hn) in O. specialize (O Al).
  destruct O as (m & Hm & Lm & O1 & O2). cbn [ratio_for] in *.
  pose proof (past_end _ _ R S HR HS S51 n m Hn Hm Lm) as PE. cbv zeta in PE.
  assert (OV : overshoots (s_rate a) src R S n <-> 
    ((R * Z.of_N n) mod S = 0 /\ 2 <= (R * Z.of_N n + S - 1) / S)%Z /\
      IZR ((R * Z.of_N n + S - 1) / S) < B2R (fmul (fdiv (s_rate a) src) (fofZ (Z.of_N n)))).
  { unfold overshoots. destruct HS as (_ & _ & BS).
    assert (E : ((R * Z.of_N n) mod S = 0)%Z -> ((R * Z.of_N n + S - 1) / S = R * Z.of_N n / S)%Z).
    { intros M. symmetry. apply Z.div_unique with (S - 1)%Z; [lia|]. pose proof (Z.div_mod (R * Z.of_N n) S ltac:(lia)). lia. }
    split; [intros (M & C & B)|intros [[M C] B]]; specialize (E M); rewrite E in *; auto. }
  split; intros H.
  - apply O1. apply PE. apply OV. exact H.
  - destruct O2 as [it Hit]; [intros G; apply H, OV, PE, G|].
    destruct (extend (Datatypes.S (N.to_nat n)) a s) as [a' o] eqn:Ex. cbn [snd] in Hit. subst o.
    exists a', it. split; [reflexivity|]. destruct (extend_appends _ _ _ _ _ _ _ _ _ Ex) as (n' & added & E1 & E2 & E3 & E4).
    split; [exact E3|]. exists added. split; [exact E2|]. rewrite E4, Es. assert (n' = n) by congruence. subst n'.
    apply (frames_for_exact _ _ R S HR HS S51 n Hn).
Qed.
