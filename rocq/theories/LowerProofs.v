(** * LowerProofs.v -- what a frame is made of when the rate is lowered (C89) *)
From Coq Require Import ZArith NArith Reals List Lia Lra Psatz Bool.
From Flocq Require Import Core.Core IEEE754.BinarySingleNaN.
From Verif Require Import Rust Float Chan Frame Ops Stream Audio FloatProofs SpecChan SpecFrame SpecStream SpecSink SpecAudio SpecMore SpecRaise SpecLower
  IntProofs ChanProofs FChanProofs FrameProofs FArithProofs FloorProofs PlaceProofs ResampleProofs CopyProofs OpsProofs
  WeightProofs WholeProofs SinkProofs SinkMore SinkTerm StreamProofs AudioProofs MoreProofs GainProofs LevelProofs SuperProofs RaiseProofs.
Import ListNotations.
Open Scope R_scope.

Lemma total_sumf n f : total n f = sumf f n.
Proof. induction n as [|n IH]; cbn [total sumf]; [reflexivity|]. now rewrite IH. Qed.

(** ** Shares *)
Section Shares.
Context (R S : Z).
Hypothesis R1 : (1 <= R)%Z.
Hypothesis RS : (R <= S)%Z.
Notation q := (IZR R / IZR S).
Lemma q_range : 0 < q <= 1 /\ 1 <= IZR R <= IZR S.
Proof.
  assert (A : 1 <= IZR R) by (apply IZR_le; exact R1). assert (B : IZR R <= IZR S) by (apply IZR_le; exact RS).
  split; [|lra]. assert (I : 0 < / IZR S) by (apply Rinv_0_lt_compat; lra). assert (I1 : IZR S * / IZR S = 1) by (apply Rinv_r; lra).
  unfold Rdiv. split; nra.
Qed.
Lemma share_up p i : share R S p i = up q (INR p - 1) (q * INR i) - up q (INR p) (q * INR i).
Proof.
  destruct q_range as [Q [A B]]. unfold share.
  replace ((IZR R * INR i + IZR S) / IZR S) with (q * INR i + 1) by (field; lra).
  replace ((IZR R * INR i - IZR R + IZR S) / IZR S) with (q * INR i - q + 1) by (field; lra).
  generalize (q * INR i) (INR p). intros x y. set (z := q) in *. clearbody z. mm.
Qed.
Lemma share_clamp p i : share R S p i =
  Rmax (INR p) (Rmin (INR p + 1) (q * INR i + 1)) - Rmax (INR p) (Rmin (INR p + 1) (q * INR i + 1 - q)).
Proof.
  destruct q_range as [Q [A B]]. unfold share.
  replace ((IZR R * INR i + IZR S) / IZR S) with (q * INR i + 1) by (field; lra).
  replace ((IZR R * INR i - IZR R + IZR S) / IZR S) with (q * INR i - q + 1) by (field; lra).
  generalize (q * INR i) (INR p). intros x y. set (z := q) in *. clearbody z. mm.
Qed.
Lemma share_range p i : 0 <= share R S p i <= q.
Proof.
  destruct q_range as [Q _]. rewrite share_clamp. generalize (q * INR i) (INR p). intros x y. set (z := q) in *. clearbody z. split; mm.
Qed.
Lemma share_total p n : ((Z.of_nat p) * S <= R * (Z.of_nat n - 1))%Z -> total n (share R S p) = if Nat.eqb p 0 then q else 1.
Proof.
  intros Hn. destruct q_range as [Q [A B]].
  assert (N0 : (1 <= n)%nat) by nia.
  assert (T : forall m, total m (share R S p) = Rmax (INR p) (Rmin (INR p + 1) (q * INR m + 1 - q)) - Rmax (INR p) (Rmin (INR p + 1) (1 - q))).
  { induction m as [|m IH].
    - cbn [total INR]. rewrite Rmult_0_r, Rplus_0_l. ring.
    - cbn [total]. rewrite IH, share_clamp, S_INR. replace (q * (INR m + 1) + 1 - q) with (q * INR m + 1) by ring. ring. }
  rewrite T. clear T.
  assert (L : INR p <= q * INR n - q).
  { apply IZR_le in Hn. rewrite !mult_IZR, minus_IZR, <- !INR_IZR_INZ in Hn. apply Rmult_le_reg_r with (IZR S); [lra|].
    replace ((q * INR n - q) * IZR S) with (IZR R * (INR n - 1)) by (field; lra). exact Hn. }
  set (y := q * INR n + 1 - q) in *. rewrite (Rmin_left (INR p + 1)) by (unfold y; lra). rewrite (Rmax_right (INR p) (INR p + 1)) by lra.
  destruct p as [|p]; cbn [Nat.eqb].
  - cbn [INR]. rewrite Rmin_right by lra. rewrite Rmax_right by lra. ring.
  - pose proof (pos_INR p). rewrite S_INR. rewrite Rmax_left; [ring|]. apply Rle_trans with (1 := Rmin_r _ _). lra.
Qed.
(** Every source frame counts the same. *)
Lemma share_spread i d : (R * Z.of_nat i + S <= S * Z.of_nat d)%Z -> total d (fun p => share R S p i) = q.
Proof.
  intros Hd. destruct q_range as [Q [A B]].
  assert (T : forall m, total m (fun p => share R S p i) = Rmin (INR m) (q * INR i + 1) - Rmin (INR m) (q * INR i + 1 - q)).
  { pose proof (pos_INR i) as I0. assert (X0 : 0 <= q * INR i) by nra. induction m as [|m IH].
    - cbn [total INR]. rewrite !Rmin_left by lra. ring.
    - cbn [total]. rewrite IH, share_clamp, S_INR. pose proof (pos_INR m) as M0. revert X0 M0. generalize (q * INR i) (INR m). intros x y X0 M0.
      set (z := q) in *. clearbody z. mm. }
  rewrite T. clear T.
  assert (L : q * INR i + 1 <= INR d).
  { apply IZR_le in Hd. rewrite plus_IZR, !mult_IZR, <- !INR_IZR_INZ in Hd. apply Rmult_le_reg_r with (IZR S); [lra|].
    replace ((q * INR i + 1) * IZR S) with (IZR R * INR i + IZR S) by (field; lra). lra. }
  rewrite !Rmin_right by lra. ring.
Qed.
End Shares.

(** ** The computed weights *)
Section Lower.
Context (rate src : f64) (R S : Z).
Hypothesis HR : whole_rate rate R.
Hypothesis HS : whole_rate src S.
Hypothesis S50 : (S <= 2 ^ 50)%Z.
Hypothesis RS : (R <= S)%Z.
Notation ratio := (fdiv rate src).
Notation r := (B2R ratio).
Notation q := (IZR R / IZR S).
Notation J := (place ratio (flit 0 0)).
Let S51 : (S <= 2 ^ 51)%Z. Proof. lia. Qed.
Let R1 : (1 <= R)%Z. Proof. pose proof (proj2 (proj2 HR)). lia. Qed.

Lemma up_both (a : Z) j i : (0 <= a)%Z -> (S * a <= 2 ^ 52)%Z -> (forall i, (i < j)%nat -> q * INR i <= IZR a) -> IZR a < q * INR j ->
  (1 <= j)%nat /\ Rabs (up r (IZR a) (r * INR i) - up q (IZR a) (q * INR i) - (if Nat.ltb j i then r - q else 0)) <= u53 * (IZR a + 2) * ind (j - 1) i.
Proof.
  intros A0 A52 Lo Hi. destruct (q_range R S R1 RS) as [Q [R1r RSr]]. destruct (lower_ratio rate src R S HR HS S50 RS) as (_ & r0 & _).
  destruct (ratio_err rate src R S HR HS S51) as [Er _]. apply Rabs_le_inv in Er. pose proof u53_val as U.
  assert (a0 : 0 <= IZR a) by (apply IZR_le; exact A0).
  assert (J1 : (1 <= j)%nat). { destruct j; [|lia]. cbn [INR] in Hi. rewrite Rmult_0_r in Hi. lra. }
  split; [exact J1|].
  assert (Sa : IZR S * IZR a <= 4503599627370496) by (rewrite <- mult_IZR; apply IZR_le in A52; exact A52).
  assert (IS : 0 < / IZR S) by (apply Rinv_0_lt_compat; lra). assert (I1 : IZR S * / IZR S = 1) by (apply Rinv_r; lra).
  assert (qS : / IZR S <= q) by (unfold Rdiv; nra).
  assert (Au : IZR a * u53 <= / 2 * / IZR S).
  { rewrite U. apply Rmult_le_reg_r with (IZR S); [lra|]. rewrite (Rmult_assoc (/ 2)), Rinv_l by lra. lra. }
  pose proof (pos_INR i) as i0. unfold ind. destruct (lt_eq_lt_dec i j) as [[L|E]|G].
  - replace (Nat.ltb j i) with false by (symmetry; apply Nat.ltb_ge; lia). rewrite Rminus_0_r.
    rewrite (up_0 q) by (try lra; apply Lo; exact L). rewrite Rminus_0_r.
    destruct (Nat.eqb_spec i (j - 1)) as [E|N].
    + rewrite Rmult_1_r. pose proof (Lo i L) as X.
      assert (Y : r * INR i - q * INR i <= u53 * (q * INR i)) by nra. set (x := q * INR i) in *. set (y := r * INR i) in *. clearbody x y.
      assert (Y2 : y - IZR a <= u53 * IZR a) by nra. assert (Y3 : 0 <= u53 * IZR a) by (rewrite U in *; lra).
      unfold up. unfold Rmax, Rmin. repeat destruct Rle_dec; apply Rabs_le; rewrite U in *; lra.
    + replace (Nat.eqb i (Datatypes.S (j - 1))) with false by (symmetry; apply Nat.eqb_neq; lia). rewrite Rmult_0_r.
      rewrite up_0; [rewrite Rabs_R0; lra|lra|]. pose proof (Lo (Datatypes.S i) ltac:(lia)) as X. rewrite S_INR in X.
      assert (Y : r * INR i <= (1 + u53) * (q * INR i)) by nra. set (x := q * INR i) in *. clearbody x. nra.
  - subst i. replace (Nat.ltb j j) with false by (symmetry; apply Nat.ltb_irrefl). rewrite Rminus_0_r.
    replace (Nat.eqb j (j - 1)) with false by (symmetry; apply Nat.eqb_neq; lia). replace (Nat.eqb j (Datatypes.S (j - 1))) with true by (symmetry; apply Nat.eqb_eq; lia).
    rewrite Rmult_1_r. pose proof (Lo (j - 1)%nat ltac:(lia)) as X. rewrite minus_INR in X by exact J1. cbn [INR] in X.
    assert (j1 : 1 <= INR j) by (apply (le_INR 1); exact J1).
    assert (Xa : q * INR j <= IZR a + 1) by lra.
    assert (Y : - (u53 * (q * INR j)) <= r * INR j - q * INR j <= u53 * (q * INR j)) by (split; nra).
    assert (Z : u53 * q <= u53 * (q * INR j)) by (rewrite U; nra).
    assert (W : u53 * (q * INR j) <= u53 * (IZR a + 2)) by (rewrite U; lra).
    set (x := q * INR j) in *. set (y := r * INR j) in *. set (z := r) in *. set (w := q) in *. set (t := u53 * x) in *. set (t2 := u53 * w) in *. clearbody x y z w t t2.
    unfold up, Rmax, Rmin. repeat destruct Rle_dec; apply Rabs_le; lra.
  - replace (Nat.ltb j i) with true by (symmetry; apply Nat.ltb_lt; lia).
    replace (Nat.eqb i (j - 1)) with false by (symmetry; apply Nat.eqb_neq; lia). replace (Nat.eqb i (Datatypes.S (j - 1))) with false by (symmetry; apply Nat.eqb_neq; lia).
    rewrite Rmult_0_r.
    assert (B : IZR a + / IZR S <= q * INR j).
    { assert (B1 : (S * a + 1 <= R * Z.of_nat j)%Z).
      { assert (B2 : (S * a < R * Z.of_nat j)%Z); [|lia]. apply lt_IZR. rewrite !mult_IZR, <- INR_IZR_INZ.
        apply Rmult_lt_reg_r with (/ IZR S); [exact IS|]. replace (IZR R * INR j * / IZR S) with (q * INR j) by (unfold Rdiv; ring).
        replace (IZR S * IZR a * / IZR S) with (IZR a) by (field; lra). exact Hi. }
      apply IZR_le in B1. rewrite plus_IZR, !mult_IZR, <- INR_IZR_INZ in B1. apply Rmult_le_reg_r with (IZR S); [lra|].
      rewrite Rmult_plus_distr_r, Rinv_l by lra. replace (q * INR j * IZR S) with (IZR R * INR j) by (field; lra). lra. }
    assert (G' : INR j + 1 <= INR i) by (rewrite <- S_INR; apply le_INR; lia).
    assert (B3 : IZR a + / IZR S <= q * (INR i - 1)). { apply Rle_trans with (1 := B). apply Rmult_le_compat_l; lra. }
    assert (B4 : (1 - u53) * (q * (INR i - 1)) <= r * (INR i - 1)). { pose proof (pos_INR j). nra. }
    assert (B5 : (1 - u53) * (IZR a + / IZR S) <= (1 - u53) * (q * (INR i - 1))) by (apply Rmult_le_compat_l; [rewrite U; lra|exact B3]).
    assert (B6 : IZR a <= (1 - u53) * (IZR a + / IZR S)). { rewrite U in *. lra. }
    rewrite (up_r r) by lra. rewrite (up_r q) by lra. replace (r - q - (r - q)) with 0 by ring. rewrite Rabs_R0. lra.
Qed.

Lemma first_two (a : Z) j0 j1 : (0 <= a)%Z -> IZR (a - 1) < q * INR j0 -> (1 <= j1)%nat -> q * INR (j1 - 1) <= IZR a ->
  q * INR (j1 - j0) <= 2.
Proof.
  intros A0 L J1 U. destruct (q_range R S R1 RS) as [Q _]. rewrite minus_IZR in L.
  destruct (le_lt_dec j1 j0) as [G|G]. { replace (j1 - j0)%nat with 0%nat by lia. cbn [INR]. lra. }
  rewrite minus_INR by lia. rewrite minus_INR in U by lia. cbn [INR] in U. lra.
Qed.

(** All computed weights of a frame together are close to the shares. *)
Lemma weights_shares p m : precise ratio (Z.of_nat p) -> (S * Z.of_nat p <= 2 ^ 52)%Z -> (Z.of_nat m <= 2 ^ 53)%Z ->
  sumf (fun i => Rabs (cw ratio (Z.of_nat p) i - share R S p i)) m <= (INR p + 6) * bpow radix2 (-50).
Proof.
  intros Pr P52 Hm. destruct (q_range R S R1 RS) as [Q [R1r RSr]].
  destruct (lower_ratio rate src R S HR HS S50 RS) as (Fr & r0 & r1 & _).
  destruct (ratio_err rate src R S HR HS S51) as [Er _]. pose proof u53_val as U. assert (u0 : 0 < u53) by apply bpow_gt_0.
  assert (B50 : bpow radix2 (-50) = 8 * u53) by (rewrite U; change (bpow radix2 (-50)) with (/ 1125899906842624); lra).
  pose proof (pos_INR p) as p0. rewrite B50.
  destruct (first_past r (Z.of_nat p) r0 ltac:(lia)) as (i1 & B1 & A1).
  destruct (first_past q (Z.of_nat p) (proj1 Q) ltac:(lia)) as (j1 & C1 & D1).
  destruct (up_both (Z.of_nat p) j1 0 ltac:(lia) P52 C1 D1) as [J1 _].
  assert (Dq : forall n, q * INR n <= 2 -> Rabs (r - q) * INR n <= 2 * u53).
  { intros n Hn. pose proof (pos_INR n). apply Rle_trans with (u53 * q * INR n); [apply Rmult_le_compat_r; assumption|].
    rewrite Rmult_assoc, (Rmult_comm 2). apply Rmult_le_compat_l; lra. }
  assert (Sl : forall z, slack z = u53 * (IZR z + 5)) by (intros z; unfold slack; rewrite U; change (bpow radix2 (-52)) with (/ 4503599627370496); lra).
  pose proof (C1 (j1 - 1)%nat ltac:(lia)) as C1'.
  destruct (sumf_ind i1 m) as [[_ S1] _]. destruct (sumf_ind (j1 - 1) m) as [[_ S2] _].
  destruct p as [|p'].
  - change (Z.of_nat 0) with 0%Z in *. change (INR 0) with 0 in *.
    apply Rle_trans with (sumf (fun i => slack 0 * ind i1 i + (Rabs (r - q) * GainProofs.within 0 j1 i + u53 * (IZR 0 + 2) * ind (j1 - 1) i)) m).
    + apply sumf_le. intros i Hi. pose proof (cw_exact0 ratio Fr r0 r1 i1 i Pr ltac:(lia) B1 A1) as E1.
      destruct (up_both 0 j1 i ltac:(lia) P52 C1 D1) as [_ E2]. rewrite share_up by assumption. change (INR 0) with 0.
      rewrite (up_r q (0 - 1)) by (pose proof (pos_INR i); nra).
      assert (W : Rabs ((r - q) - (if Nat.ltb j1 i then r - q else 0)) <= Rabs (r - q) * GainProofs.within 0 j1 i).
      { unfold GainProofs.within. cbn [Nat.leb andb]. destruct (Nat.ltb_spec j1 i) as [L|L].
        - rewrite (proj2 (Nat.leb_gt i j1)) by lia. rewrite Rminus_eq_0, Rabs_R0. lra.
        - rewrite (proj2 (Nat.leb_le i j1)) by lia. rewrite Rminus_0_r. lra. }
      change (IZR 0) with 0 in *. set (d := if Nat.ltb j1 i then r - q else 0) in *.
      replace (cw ratio 0 i - (q - up q 0 (q * INR i))) with
        ((cw ratio 0 i - (r - up r 0 (r * INR i))) + (((r - q) - d) - (up r 0 (r * INR i) - up q 0 (q * INR i) - d))) by ring.
      apply Rle_trans with (1 := Rabs_triang _ _). apply Rplus_le_compat; [exact E1|].
      unfold Rminus at 1. apply Rle_trans with (1 := Rabs_triang _ _). rewrite Rabs_Ropp. apply Rplus_le_compat; assumption.
    + rewrite sumf_plus, sumf_scal, sumf_plus, !sumf_scal. rewrite Sl.
      assert (W : Rabs (r - q) * sumf (GainProofs.within 0 j1) m <= 2 * u53).
      { apply Rle_trans with (Rabs (r - q) * INR (Datatypes.S j1)).
        - apply Rmult_le_compat_l; [apply Rabs_pos|]. apply Rle_trans with (1 := sumf_within ratio 0 j1 m). apply le_INR. lia.
        - apply Dq. rewrite S_INR. rewrite minus_INR in C1' by lia. cbn [INR] in C1'. change (IZR 0) with 0 in *. lra. }
      change (IZR 0) with 0. nra.
  - set (p := Datatypes.S p') in *. assert (Zp : (Z.of_nat p - 1 = Z.of_nat p')%Z) by lia.
    destruct (first_past r (Z.of_nat p - 1) r0 ltac:(lia)) as (i0 & B0 & A0).
    destruct (first_past q (Z.of_nat p - 1) (proj1 Q) ltac:(lia)) as (j0 & C0 & D0).
    assert (P52' : (S * (Z.of_nat p - 1) <= 2 ^ 52)%Z) by nia.
    destruct (up_both (Z.of_nat p - 1) j0 0 ltac:(lia) P52' C0 D0) as [J0 _].
    destruct (sumf_ind i0 m) as [[_ S3] _]. destruct (sumf_ind (j0 - 1) m) as [[_ S4] _].
    assert (J01 : (j0 <= j1)%nat).
    { destruct (le_lt_dec j0 j1) as [G|G]; [exact G|exfalso]. pose proof (C0 j1 G) as X. rewrite minus_IZR in X. lra. }
    apply Rle_trans with (sumf (fun i => slack (Z.of_nat p) * (ind i0 i + ind i1 i) + (Rabs (r - q) * GainProofs.within (Datatypes.S j0) j1 i +
       (u53 * (IZR (Z.of_nat p - 1) + 2) * ind (j0 - 1) i + u53 * (IZR (Z.of_nat p) + 2) * ind (j1 - 1) i))) m).
    + apply sumf_le. intros i Hi. pose proof (cw_exact ratio Fr r0 r1 (Z.of_nat p) i0 i1 i ltac:(lia) Pr ltac:(lia) B0 A0 B1 A1) as E1.
      destruct (up_both (Z.of_nat p) j1 i ltac:(lia) P52 C1 D1) as [_ E2]. destruct (up_both (Z.of_nat p - 1) j0 i ltac:(lia) P52' C0 D0) as [_ E3].
      rewrite share_up by assumption.
      replace (INR p - 1) with (IZR (Z.of_nat p - 1)) by (rewrite minus_IZR, <- INR_IZR_INZ; reflexivity). rewrite (INR_IZR_INZ p).
      set (d1 := if Nat.ltb j1 i then r - q else 0) in *. set (d0 := if Nat.ltb j0 i then r - q else 0) in *.
      assert (W : Rabs (d0 - d1) <= Rabs (r - q) * GainProofs.within (Datatypes.S j0) j1 i).
      { unfold GainProofs.within, d0, d1. destruct (Nat.ltb_spec j1 i) as [L|L], (Nat.ltb_spec j0 i) as [L0|L0]; try lia.
        - rewrite (proj2 (Nat.leb_gt i j1)), andb_false_r by lia. rewrite Rminus_eq_0, Rabs_R0. lra.
        - rewrite (proj2 (Nat.leb_le i j1)), (proj2 (Nat.leb_le (Datatypes.S j0) i)) by lia. cbn [andb]. rewrite Rminus_0_r. lra.
        - rewrite (proj2 (Nat.leb_gt (Datatypes.S j0) i)) by lia. cbn [andb]. rewrite Rminus_eq_0, Rabs_R0. lra. }
      set (a := IZR (Z.of_nat p - 1)) in *. set (b := IZR (Z.of_nat p)) in *.
      replace (cw ratio (Z.of_nat p) i - (up q a (q * INR i) - up q b (q * INR i))) with
        ((cw ratio (Z.of_nat p) i - (up r a (r * INR i) - up r b (r * INR i))) + ((d0 - d1) +
          ((up r a (r * INR i) - up q a (q * INR i) - d0) + - (up r b (r * INR i) - up q b (q * INR i) - d1)))) by ring.
      apply Rle_trans with (1 := Rabs_triang _ _). apply Rplus_le_compat; [exact E1|].
      apply Rle_trans with (1 := Rabs_triang _ _). apply Rplus_le_compat; [exact W|].
      apply Rle_trans with (1 := Rabs_triang _ _). rewrite Rabs_Ropp. apply Rplus_le_compat; assumption.
    + rewrite sumf_plus, sumf_scal, !sumf_plus, !sumf_scal. rewrite Sl.
      assert (W : Rabs (r - q) * sumf (GainProofs.within (Datatypes.S j0) j1) m <= 2 * u53).
      { apply Rle_trans with (Rabs (r - q) * INR (j1 - j0)).
        - apply Rmult_le_compat_l; [apply Rabs_pos|]. apply Rle_trans with (1 := sumf_within ratio _ j1 m). apply le_INR. lia.
        - apply Dq. apply (first_two (Z.of_nat p)); [lia|exact D0|exact J1|exact C1']. }
      rewrite minus_IZR, <- INR_IZR_INZ. set (x := INR p) in *.
      assert (X1 : 1 <= x) by (apply (le_INR 1); lia).
      assert (T1 : u53 * (x + 5) * (sumf (ind i0) m + sumf (ind i1) m) <= u53 * (x + 5) * 4) by (apply Rmult_le_compat_l; nra).
      assert (T2 : u53 * (x - 1 + 2) * sumf (ind (j0 - 1)) m <= u53 * (x - 1 + 2) * 2) by (apply Rmult_le_compat_l; nra).
      assert (T3 : u53 * (x + 2) * sumf (ind (j1 - 1)) m <= u53 * (x + 2) * 2) by (apply Rmult_le_compat_l; nra).
      nra.
Qed.

(** The real weighted sum as a sum over the source frames. *)
Definition lv {l k} (c : nat) (fs : list (frame l k)) (i : nat) : Rdefinitions.R := match nth_error fs i with Some f => at_level c f | None => 0 end.
Lemma real_sum_contributions l k c z (fs : list (frame l k)) : forall o,
  sumf (fun i => cw ratio z i * match Nat.leb o i with true => lv c fs (i - o) | false => 0 end) (o + length fs) =
  real_sum c (contributions z ratio (flit 0 0) o fs).
Proof.
  induction fs as [|f fs IH]; intros o.
  - cbn [length contributions]. change (real_sum c (@nil (frame l k * f64))) with 0. rewrite (sumf_ext _ (fun _ => 0)).
    { induction (o + 0)%nat as [|m IHm]; cbn [sumf]; [reflexivity|]. rewrite IHm. ring. }
    intros i Hi. unfold lv. destruct (Nat.leb o i); [|ring]. destruct (i - o)%nat; cbn; ring.
  - cbn [length contributions]. rewrite !real_sum_app. rewrite <- (IH (Datatypes.S o)).
    replace (o + Datatypes.S (length fs))%nat with (Datatypes.S o + length fs)%nat by lia.
    assert (Sp : forall m, sumf (fun i => cw ratio z i * (if Nat.leb o i then lv c (f :: fs) (i - o) else 0)) m =
      sumf (fun i => cw ratio z i * (if Nat.eqb i o then at_level c f else 0)) m +
      sumf (fun i => cw ratio z i * (if Nat.leb (Datatypes.S o) i then lv c fs (i - Datatypes.S o) else 0)) m).
    { intros m. rewrite <- sumf_plus. apply sumf_ext. intros i _. destruct (lt_eq_lt_dec i o) as [[L|E]|G].
      - rewrite (proj2 (Nat.leb_gt o i)), (proj2 (Nat.leb_gt (Datatypes.S o) i)), (proj2 (Nat.eqb_neq i o)) by lia. ring.
      - subst i. rewrite Nat.leb_refl, Nat.eqb_refl, (proj2 (Nat.leb_gt (Datatypes.S o) o)) by lia. rewrite Nat.sub_diag. unfold lv. cbn [nth_error]. ring.
      - rewrite (proj2 (Nat.leb_le o i)), (proj2 (Nat.leb_le (Datatypes.S o) i)), (proj2 (Nat.eqb_neq i o)) by lia.
        replace (i - o)%nat with (Datatypes.S (i - Datatypes.S o)) by lia. unfold lv. cbn [nth_error]. ring. }
    rewrite Sp. rewrite <- Rplus_assoc. f_equal.
    assert (One : forall m, (o < m)%nat -> sumf (fun i => cw ratio z i * (if Nat.eqb i o then at_level c f else 0)) m = cw ratio z o * at_level c f).
    { intros m Hm. rewrite (sumf_zero _ (Datatypes.S o) m) by (try lia; intros i Hi; rewrite (proj2 (Nat.eqb_neq i o)) by lia; ring).
      cbn [sumf]. rewrite Nat.eqb_refl. rewrite (sumf_zero _ 0 o) by (try lia; intros i Hi; rewrite (proj2 (Nat.eqb_neq i o)) by lia; ring).
      cbn [sumf]. ring. }
    rewrite One by lia. unfold cw.
    destruct (_ =? z)%Z, (_ =? z)%Z; cbn [real_sum fold_right fst snd]; ring.
Qed.
Lemma real_sum_first l k c z (fs : list (frame l k)) m : (m <= length fs)%nat ->
  real_sum c (contributions z ratio (flit 0 0) 0 (firstn m fs)) = sumf (fun i => cw ratio z i * lv c fs i) m.
Proof.
  intros Hm. rewrite <- real_sum_contributions. cbn [Nat.add]. rewrite firstn_length, Nat.min_l by exact Hm.
  apply sumf_ext. intros i Hi. cbn [Nat.leb]. rewrite Nat.sub_0_r. unfold lv. now rewrite firstn_nth by exact Hi.
Qed.

Lemma lv_at l k c (fs : list (frame l k)) (b : frame l k) y i v : nth_error (channels b) c = Some y -> (i < length fs)%nat ->
  level_at fs i c v -> lv c fs i = v /\ Rabs v <= 2.
Proof.
  intros Hy Hi La. destruct (nth_lt_some fs i Hi) as (f & Hf). destruct (nth_ex l k f c (nth_some _ _ _ _ _ Hy)) as (x & Hx).
  destruct (La f x Hf Hx) as [Vx ->]. unfold lv. rewrite Hf. split; [now apply at_level_some|].
  pose proof (level_range k x Vx). pose proof (bottom_range k). apply Rabs_le. lra.
Qed.

(** A frame that is the weighted sum of what the first [m] source frames give it. *)
Lemma share_part p m : 0 <= sumf (share R S p) m <= 1.
Proof.
  destruct (q_range R S R1 RS) as [Q [R1r RSr]]. assert (S0 : (0 < S)%Z) by lia. split.
  - rewrite <- (Rmult_0_l (INR m)). induction m as [|m IH]; cbn [sumf]; [lra|]. rewrite Rmult_0_l in *. pose proof (share_range R S R1 RS p m). lra.
  - set (M := Nat.max m (Z.to_nat (Z.of_nat p * S + 1))).
    apply Rle_trans with (sumf (share R S p) M).
    + assert (G : forall d, sumf (share R S p) m <= sumf (share R S p) (d + m)).
      { induction d as [|d IH]; cbn [Nat.add sumf]; [lra|]. pose proof (share_range R S R1 RS p (d + m)). lra. }
      replace M with (M - m + m)%nat by lia. apply G.
    + rewrite <- total_sumf. rewrite (share_total R S R1 RS) by nia. destruct (Nat.eqb p 0); lra.
Qed.
Lemma part_real l k (fs : list (frame l k)) p m c (v : nat -> Rdefinitions.R) b y :
  precise ratio (Z.of_nat p) -> (S * Z.of_nat p <= 2 ^ 52)%Z -> (Z.of_nat m <= 2 ^ 52)%Z -> (m <= length fs)%nat ->
  (forall i, (i < m)%nat -> level_at fs i c (v i)) ->
  weighted_sum (frame_default l k) (contributions (Z.of_nat p) ratio (flit 0 0) 0 (firstn m fs)) b -> nth_error (channels b) c = Some y ->
  Rabs (level y - sumf (fun i => cw ratio (Z.of_nat p) i * v i) m) <= (IZR S / IZR R + 6) * (step k + (INR p + 6) * bpow radix2 (-49)).
Proof.
  intros Pr P52 Hm Lm Lv V Hy.
  destruct (lower_ratio rate src R S HR HS S50 RS) as (Fr & r0 & r1 & _ & _ & Ir & D).
  rewrite <- (sumf_ext (fun i => cw ratio (Z.of_nat p) i * lv c fs i)).
  2:{ intros i Hi. destruct (lv_at l k c fs b y i (v i) Hy ltac:(lia) (Lv i Hi)) as [-> _]. reflexivity. }
  rewrite <- real_sum_first by exact Lm.
  assert (Lf : length (firstn m fs) = m) by (rewrite firstn_length; lia).
  assert (Wb : forall i, (i < m)%nat -> let j := place ratio (flit 0 0) i in 0 <= B2R (lower_weight ratio j) <= r /\ 0 <= B2R (upper_weight ratio j) <= r /\
    is_finite (lower_weight ratio j) = true /\ is_finite (upper_weight ratio j) = true).
  { intros i Hi. destruct (pos_val ratio Fr r0 r1 i ltac:(lia)) as [Ev Fj].
    assert (J0 : 0 <= B2R (place ratio (flit 0 0) i)). { rewrite Ev. apply (rnd_nonneg 53 1024). pose proof (pos_INR i). nra. }
    destruct (weights_at ratio Fr r0 r1 (place ratio (flit 0 0) i) Fj J0) as (_ & _ & _ & W). exact W. }
  pose proof (total_count ratio Fr r0 r1 (Z.of_nat p) m Pr ltac:(lia)) as Tn.
  destruct (contributions_total (Z.of_nat p) ratio (firstn m fs) 0) as [W1 W2]. rewrite Lf in W1, W2. cbn [Nat.add sumf] in W1, W2. rewrite Rplus_0_l in W1, W2.
  rewrite <- W2 in Tn. pose proof (weights_shares p m Pr P52 ltac:(lia)) as Ws. pose proof (share_part p m) as Sh.
  set (dl := (INR p + 6) * bpow radix2 (-50)) in *.
  assert (D0 : 0 <= dl). { unfold dl. apply Rmult_le_pos; [pose proof (pos_INR p); lra|apply bpow_ge_0]. }
  assert (Tw : sumf (cw ratio (Z.of_nat p)) m <= 1 + dl).
  { apply Rle_trans with (sumf (fun i => share R S p i + Rabs (cw ratio (Z.of_nat p) i - share R S p i)) m).
    - apply sumf_le. intros i _. pose proof (Rle_abs (cw ratio (Z.of_nat p) i - share R S p i)). lra.
    - rewrite sumf_plus. lra. }
  rewrite <- W1 in Tw. clear W1 W2 Ws Sh.
  set (cs := contributions (Z.of_nat p) ratio (flit 0 0) 0 (firstn m fs)) in *.
  assert (Hc : forall cc, In cc cs -> is_finite (snd cc) = true /\ 0 <= B2R (snd cc) <= 1 /\ forall x, nth_error (channels (fst cc)) c = Some x -> valid x).
  { intros [f w] I. cbn [fst snd]. destruct (contributions_at_position _ _ _ _ _ _ _ I) as (i & Hf & Hw). cbn [Nat.add] in Hw.
    assert (Hi : (i < m)%nat) by (rewrite <- Lf; apply nth_error_Some; congruence).
    destruct (Wb i Hi) as (LB & UB & F1 & F2). rewrite firstn_nth in Hf by exact Hi.
    assert (Lc : forall x, nth_error (channels f) c = Some x -> valid x) by (intros x Hx; apply (Lv i Hi f x Hf Hx)).
    destruct Hw as [[_ ->]|[_ ->]]; (split; [assumption|split; [lra|exact Lc]]). }
  assert (Wp : 0 <= wtot cs) by (apply wtot_nonneg; intros cc I; apply (Hc cc I)).
  assert (Dy : nth_error (channels (frame_default l k)) c = Some (chan_default k)).
  { destruct (nth_ex l k (frame_default l k) c (nth_some _ _ _ _ _ Hy)) as (z & Hz). rewrite Hz. f_equal. now apply nth_default in Hz. }
  pose proof (step_pos k) as Sp.
  assert (K : Rabs (level y - (0 + real_sum c cs)) <= (0 + wnum cs) * (step k + 2 * dl)).
  { apply (ws_real l k c (frame_default l k) b cs dl 0 0 0 (chan_default k) y V); try lra; try assumption.
    - apply frame_default_valid.
    - rewrite level_default, Rmult_0_l, Rminus_0_r, Rabs_R0. lra. }
  assert (B49 : bpow radix2 (-49) = 2 * bpow radix2 (-50)) by (exact (bpow_plus radix2 1 (-50))).
  replace ((INR p + 6) * bpow radix2 (-49)) with (2 * dl) by (unfold dl; rewrite B49; ring).
  rewrite !Rplus_0_l in K. apply Rle_trans with (1 := K). apply Rmult_le_compat_r; lra.
Qed.
(** The weights may be replaced by the shares. *)
Lemma part_shares l k (b : frame l k) (fs : list (frame l k)) p m c (v : nat -> Rdefinitions.R) y :
  precise ratio (Z.of_nat p) -> (S * Z.of_nat p <= 2 ^ 52)%Z -> (Z.of_nat m <= 2 ^ 52)%Z -> (m <= length fs)%nat ->
  (forall i, (i < m)%nat -> level_at fs i c (v i)) -> nth_error (channels b) c = Some y ->
  Rabs (level y - sumf (fun i => cw ratio (Z.of_nat p) i * v i) m) <= (IZR S / IZR R + 6) * (step k + (INR p + 6) * bpow radix2 (-49)) ->
  Rabs (level y - total m (fun i => share R S p i * v i)) <= (IZR S / IZR R + 7) * (step k + (INR p + 6) * bpow radix2 (-49)).
Proof.
  intros Pr P52 Hm Lm Lv Hy K. rewrite total_sumf.
  assert (Df : Rabs (sumf (fun i => cw ratio (Z.of_nat p) i * v i) m - sumf (fun i => share R S p i * v i) m) <= 2 * ((INR p + 6) * bpow radix2 (-50))).
  { pose proof (sumf_abs (fun i => cw ratio (Z.of_nat p) i * v i + (-1) * (share R S p i * v i)) (fun i => 2 * Rabs (cw ratio (Z.of_nat p) i - share R S p i)) m) as A.
    cbv beta in A. rewrite sumf_plus, !sumf_scal in A.
    replace (sumf (fun i => cw ratio (Z.of_nat p) i * v i) m - sumf (fun i => share R S p i * v i) m) with
      (sumf (fun i => cw ratio (Z.of_nat p) i * v i) m + -1 * sumf (fun i => share R S p i * v i) m) by ring.
    apply Rle_trans with (1 := A ltac:(intros i Hi; destruct (lv_at l k c fs b y i (v i) Hy ltac:(lia) (Lv i Hi)) as [_ V2];
      replace (cw ratio (Z.of_nat p) i * v i + -1 * (share R S p i * v i)) with (v i * (cw ratio (Z.of_nat p) i - share R S p i)) by ring;
      rewrite Rabs_mult; apply Rmult_le_compat_r; [apply Rabs_pos|exact V2])).
    apply Rmult_le_compat_l; [lra|]. apply (weights_shares p); [exact Pr|exact P52|lia]. }
  set (X := sumf (fun i => cw ratio (Z.of_nat p) i * v i) m) in *. set (Y := sumf (fun i => share R S p i * v i) m) in *.
  replace (level y - Y) with ((level y - X) + (X - Y)) by ring. apply Rle_trans with (1 := Rabs_triang _ _).
  assert (B49 : bpow radix2 (-49) = 2 * bpow radix2 (-50)) by (exact (bpow_plus radix2 1 (-50))). rewrite B49 in *.
  pose proof (step_pos k) as Sp. lra.
Qed.
Lemma precise_last p n : (S <= 2 ^ 49)%Z -> (Z.of_nat p * S < R * Z.of_N n)%Z -> (R * Z.of_N n <= 2 ^ 51)%Z -> precise ratio (Z.of_nat p).
Proof.
  intros S49 Hp Hn. destruct (lower_ratio rate src R S HR HS S50 RS) as (_ & _ & _ & _ & L & _ & D). split; [lia|].
  pose proof (Spos src S HS S51) as Q. pose proof (Rpos rate R HR) as P.
  assert (I1 : IZR S * / IZR S = 1) by (apply Rinv_r; lra).  assert (IS : 0 < / IZR S) by (apply Rinv_0_lt_compat; lra).
  assert (X : ((Z.of_nat p + 3) * S <= 2 ^ 52 - 1)%Z) by nia. apply IZR_le in X. rewrite mult_IZR, plus_IZR, minus_IZR in X.
  change (IZR (2 ^ 52)) with 4503599627370496 in X. change (bpow radix2 52) with 4503599627370496.
  rewrite u53_val in L. set (z := IZR (Z.of_nat p) + 3) in *.
  assert (Y : z <= 4503599627370495 * / IZR S).
  { apply Rmult_le_reg_r with (IZR S); [lra|]. rewrite Rmult_assoc, (Rmult_comm (/ IZR S)), I1. lra. }
  unfold Rdiv in L. pose proof (proj1 (q_range R S R1 RS)). assert (R1r : 1 <= IZR R) by (apply IZR_le; exact R1). nra.
Qed.

(** What a whole frame is made of. *)
Lemma lower_frame l k ls ks (a a' : audio l k) (s it : stream ls ks) n all (fs : list (frame l k)) p c (v : nat -> Rdefinitions.R) b y :
  s_rate a = rate -> sample_rate s = Some src -> honest s -> slen s = Some n -> yields s all -> converted all fs ->
  (R * Z.of_N n <= 2 ^ 51)%Z -> extend (Datatypes.S (N.to_nat n)) a s = (a', Ok it) ->
  ((Z.of_nat p + 1) * S < R * Z.of_N n \/ (Z.of_nat p + 1) * S = R * Z.of_N n /\ (S <= 2 ^ 49)%Z /\ aligned rate src R S n)%Z ->
  (forall i, (i < N.to_nat n)%nat -> level_at fs i c (v i)) ->
  audio_get a' (audio_len a + p) = Some b -> nth_error (channels b) c = Some y ->
  Rabs (level y - total (N.to_nat n) (fun i => share R S p i * v i)) <= (IZR S / IZR R + 7) * (step k + (INR p + 6) * bpow radix2 (-49)).
Proof.
  intros Ea Er Ho Hl Ya Cv Hn He Hp Lv Hb Hy. pose proof (proj2 (proj2 HR)) as BR. pose proof (proj2 (proj2 HS)) as BS.
  pose proof (yields_count _ _ _ _ _ Ho Hl Ya) as La.
  assert (Lfs : length fs = N.to_nat n) by (rewrite (converted_length _ _ _ _ _ _ Cv); exact La).
  assert (Sk : sinkable s) by (left; rewrite Er; discriminate).
  destruct (extend_values l k ls ks a a' s it n all fs Sk Ho Hl Ya Cv He) as (m & Hm & [_ Lf] & _ & V).
  specialize (V p b Hb). destruct V as (V & _).
  rewrite Er, Ea in Lf, V. cbn [ratio_for] in Lf, V. rewrite (frames_for_exact rate src R S HR HS S51 n Hn) in Lf, V.
  assert (Pr : precise ratio (Z.of_nat p)).
  { destruct Hp as [Hp|(Hp & S49 & _)]; [exact (lower_precise rate src R S HR HS S50 RS p n Hp Hn)|apply (precise_last p n S49); [lia|exact Hn]]. }
  assert (Pe : (Z.of_nat p < Z.min (floor_index (fmul ratio (fofZ (Z.of_N n)))) ((R * Z.of_N n + S - 1) / S))%Z).
  { destruct Hp as [Hp|(Hp & _ & Al)].
    - pose proof (covered_nearly rate src R S HR HS S51 n Hn) as Cn.
      assert (Dd : (Z.of_nat p + 2 <= (R * Z.of_N n + S - 1) / S)%Z) by (apply Z.div_le_lower_bound; lia). lia.
    - specialize (Al (N.to_nat n) ltac:(lia)). rewrite N_nat_Z in Al. rewrite Al by (rewrite <- Hp; apply Z_mod_mult).
      rewrite <- Hp, Z_div_mult by lia. rewrite <- (Z.div_unique_pos ((Z.of_nat p + 1) * S + S - 1) S (Z.of_nat p + 1) (S - 1)) by lia. lia. }
  specialize (V Pe).
  destruct (lower_ratio rate src R S HR HS S50 RS) as (Fr & r0 & r1 & _ & _ & _ & D).
  assert (N53 : (Z.of_N n <= 2 ^ 51)%Z) by nia. assert (P52 : (S * Z.of_nat p <= 2 ^ 52)%Z) by (destruct Hp as [Hp|[Hp _]]; nia).
  apply (part_shares l k b fs p (N.to_nat n) c v y Pr P52); try assumption; try lia.
  rewrite (sumf_zero _ m (N.to_nat n)); [|exact Hm|].
  - apply (part_real l k fs p m c v b y Pr P52); try assumption; try lia. intros i Hi. apply Lv. lia.
  - intros i Hi. rewrite (cw_far ratio (Z.of_nat p) i); [ring|lia|]. apply (pos_far ratio Fr r0 r1 (Z.of_nat p) m); lia.
Qed.

(** ** The last frame *)
Lemma lower_place n i : aligned rate src R S n -> (Z.of_nat i <= Z.of_N n)%Z -> (R * Z.of_N n <= 2 ^ 51)%Z ->
  is_finite (place ratio (flit 0 0) i) = true /\ floor_index (place ratio (flit 0 0) i) = (R * Z.of_nat i / S)%Z /\
  frac (place ratio (flit 0 0) i) = B2R (place ratio (flit 0 0) i) - IZR (R * Z.of_nat i / S).
Proof.
  intros Al Hi Hn. pose proof (proj2 (proj2 HR)) as P. pose proof (proj2 (proj2 HS)) as Q. set (j := place ratio (flit 0 0) i).
  assert (Hi2 : (R * Z.of_nat i <= 2 ^ 51)%Z) by nia.
  destruct (place_val rate src R S HR HS S51 i ltac:(nia)) as (E & F & E2 & F2). fold j in E, F, E2.
  assert (P0 : 0 <= B2R j). { apply (place_mono rate src R S HR HS S51 i i); [lia|nia]. }
  split; [exact F|].
  set (z := (R * Z.of_nat i / S)%Z). pose proof (Z.div_mod (R * Z.of_nat i) S ltac:(lia)) as DM. fold z in DM.
  pose proof (Z.mod_pos_bound (R * Z.of_nat i) S ltac:(lia)) as MB.
  assert (Q0 : (0 <= z)%Z) by (apply Z.div_pos; lia). assert (Q1 : (z <= 2 ^ 51)%Z) by nia.
  destruct (Z.eq_dec ((R * Z.of_nat i) mod S) 0) as [M|M].
  - pose proof (Al i Hi M) as A. fold z in A.
    assert (A' : floor_index j = z). { rewrite floor_index_finite in * by assumption. rewrite <- E2. exact A. }
    split; [exact A'|]. rewrite floor_index_finite in A' by exact F. unfold frac. f_equal. f_equal.
    assert (T0 : (0 <= Ztrunc (B2R j))%Z) by (apply (Z.le_trans _ (Ztrunc (IZR 0))); [rewrite Ztrunc_IZR; lia|apply Ztrunc_le; exact P0]).
    rewrite clampZ_maxmin in A' by lia. lia.
  - pose proof (place_err rate src R S HR HS S51 i Hi2) as Pe. apply Rabs_le_inv in Pe. fold j in Pe.
    pose proof (Spos src S HS S51) as Sp.
    set (m := ((R * Z.of_nat i) mod S)%Z) in *.
    assert (Xe : IZR (R * Z.of_nat i) / IZR S = IZR z + IZR m / IZR S). { rewrite DM. rewrite plus_IZR, mult_IZR. field. lra. }
    assert (I0 : 0 < / IZR S) by (apply Rinv_0_lt_compat; lra). assert (I1 : IZR S * / IZR S = 1) by (apply Rinv_r; lra).
    assert (M1 : 1 <= IZR m) by (apply IZR_le; lia). assert (M2 : IZR m <= IZR S - 1) by (rewrite <- minus_IZR; apply IZR_le; lia).
    unfold Rdiv in Xe, Pe. assert (A : / IZR S <= IZR m * / IZR S <= 1 - / IZR S) by (split; nra).
    apply (floor_index_nonneg j z F); [lia|]. rewrite plus_IZR. split; lra.
Qed.
Lemma overhang_contributions l k z off (fs : list (frame l k)) : forall o,
  (forall j, (o <= j < o + length fs)%nat -> (floor_index (place ratio off j) < z)%Z) ->
  overhang z ratio off o fs = contributions z ratio off o fs.
Proof.
  induction fs as [|f fs IH]; intros o H; [reflexivity|]. cbn [overhang contributions length] in *.
  rewrite IH by (intros j Hj; apply H; lia). pose proof (H o ltac:(lia)) as Ho.
  pose proof (ceil_index_bounds (place ratio off o)) as Cb.
  rewrite (proj2 (Z.eqb_neq (floor_index (place ratio off o)) z)) by lia. cbn [app]. f_equal.
  destruct (Z.eqb_spec (ceil_index (place ratio off o)) z) as [E|E].
  - rewrite (proj2 (Z.leb_le _ _)) by lia. reflexivity.
  - rewrite (proj2 (Z.leb_gt _ _)) by lia. reflexivity.
Qed.
Lemma lower_last_frame l k ls ks (a a' : audio l k) (s it : stream ls ks) n all (fs : list (frame l k)) p m c (v : nat -> Rdefinitions.R) b y : (S <= 2 ^ 49)%Z ->
  s_rate a = rate -> sample_rate s = Some src -> honest s -> slen s = Some n -> yields s all -> converted all fs ->
  (R * Z.of_N n <= 2 ^ 51)%Z -> aligned rate src R S n -> extend (Datatypes.S (N.to_nat n)) a s = (a', Ok it) ->
  (S * Z.of_nat p < R * Z.of_N n < S * (Z.of_nat p + 1))%Z -> (R * (Z.of_nat m - 1) < S * Z.of_nat p <= R * Z.of_nat m)%Z ->
  (forall i, (i < N.to_nat n)%nat -> level_at fs i c (v i)) ->
  audio_get a' (audio_len a + p) = Some b -> nth_error (channels b) c = Some y ->
  ((S * Z.of_nat p < R * Z.of_nat m)%Z -> Rabs (level y - total m (fun i => share R S p i * v i)) <= (IZR S / IZR R + 7) * (step k + (INR p + 6) * bpow radix2 (-49))) /\
  ((S * Z.of_nat p = R * Z.of_nat m)%Z -> B2R (fmul ratio (fofZ (Z.of_nat m))) = INR p -> b = frame_default l k).
Proof.
  intros S49 Ea Er Ho Hl Ya Cv Hn Al He [Hp1 Hp2] [M1 M2] Lv Hb Hy.
  pose proof (proj2 (proj2 HR)) as BR. pose proof (proj2 (proj2 HS)) as BS. pose proof (Spos src S HS S51) as Sp.
  assert (Sk : sinkable s) by (left; rewrite Er; discriminate).
  destruct (extend_values l k ls ks a a' s it n all fs Sk Ho Hl Ya Cv He) as (m' & Hm & [Lf1 Lf] & _ & V).
  specialize (V p b Hb). destruct V as (_ & V & V0).
  rewrite Er, Ea in Lf, Lf1, V, V0. cbn [ratio_for] in Lf, Lf1, V, V0. rewrite (frames_for_exact rate src R S HR HS S51 n Hn) in Lf, Lf1, V, V0.
  assert (Pe : (R * Z.of_N n / S = Z.of_nat p)%Z). { symmetry. apply (Z.div_unique_pos _ _ _ (R * Z.of_N n - S * Z.of_nat p)); lia. }
  assert (Fl : forall a, (a <= N.to_nat n)%nat -> floor_index (place ratio (flit 0 0) a) = (R * Z.of_nat a / S)%Z).
  { intros j Hj. apply (lower_place n j Al); [lia|exact Hn]. }
  assert (Ee : Z.min (floor_index (fmul ratio (fofZ (Z.of_N n)))) ((R * Z.of_N n + S - 1) / S) = Z.of_nat p).
  { destruct (lower_place n (N.to_nat n) Al ltac:(lia) Hn) as (F & E & _).
    destruct (place_val rate src R S HR HS S51 (N.to_nat n) ltac:(nia)) as (_ & _ & E2 & F2). rewrite N_nat_Z in *.
    rewrite floor_index_finite in * by assumption. rewrite E2, E, Pe. apply Z.min_l. rewrite <- Pe. apply Z.div_le_mono; lia. }
  rewrite Ee in Lf, Lf1, V, V0. clear Ee.
  pose proof (yields_count _ _ _ _ _ Ho Hl Ya) as La.
  assert (Lfs : length fs = N.to_nat n) by (rewrite (converted_length _ _ _ _ _ _ Cv); exact La).
  assert (Mn : (m <= N.to_nat n)%nat) by nia.
  (* the source frames before the last destination frame are used *)
  assert (Em : m' = m).
  { destruct (lt_eq_lt_dec m' m) as [[L|E]|G]; [exfalso|exact E|exfalso].
    - rewrite (Fl m' ltac:(lia)) in Lf. assert ((R * Z.of_nat m' / S < Z.of_nat p)%Z) by (apply Z.div_lt_upper_bound; nia). lia.
    - specialize (Lf1 m G). rewrite (Fl m Mn) in Lf1. assert ((Z.of_nat p <= R * Z.of_nat m / S)%Z) by (apply Z.div_le_lower_bound; lia). lia. }
  subst m'.
  assert (Pm : (R * Z.of_nat m / S = Z.of_nat p)%Z).
  { symmetry. apply (Z.div_unique_pos _ _ _ (R * Z.of_nat m - S * Z.of_nat p)); [split; [lia|]|lia]. nia. }
  destruct (lower_place n m Al ltac:(lia) Hn) as (Fm & Flm & Fcm). rewrite Pm in Flm, Fcm.
  rewrite Flm in V, V0. split.
  - intros Gt.
    assert (Fi : bpow radix2 (-52) < Rabs (frac (place ratio (flit 0 0) m))).
    { pose proof (place_err rate src R S HR HS S51 m ltac:(nia)) as Pr. apply Rabs_le_inv in Pr.
      assert (G : (S * Z.of_nat p + 1 <= R * Z.of_nat m)%Z) by lia. apply IZR_le in G. rewrite plus_IZR, (mult_IZR S) in G.
      assert (I0 : 0 < / IZR S) by (apply Rinv_0_lt_compat; lra). assert (I1 : IZR S * / IZR S = 1) by (apply Rinv_r; lra).
      assert (G2 : IZR (Z.of_nat p) + / IZR S <= IZR (R * Z.of_nat m) / IZR S). { unfold Rdiv. apply Rmult_le_reg_r with (IZR S); [lra|]. rewrite Rmult_assoc, Rinv_l by lra. rewrite Rmult_plus_distr_r, Rinv_l by lra. lra. }
      assert (G3 : bpow radix2 (-49) <= / IZR S).
      { change (bpow radix2 (-49)) with (/ IZR (2 ^ 49)). apply Rinv_le; [lra|]. apply IZR_le. exact S49. }
      apply Rlt_le_trans with (2 := Rle_abs _). rewrite Fcm. unfold Rdiv in Pr, G2. change (bpow radix2 (-49)) with (/ 562949953421312) in G3. change (bpow radix2 (-52)) with (/ 4503599627370496). lra. }
    specialize (V ltac:(lia) eq_refl Fi). rewrite overhang_contributions in V.
    2:{ rewrite firstn_length, Nat.min_l by lia. intros j Hj. rewrite (Fl j ltac:(lia)). apply Z.div_lt_upper_bound; nia. }
    assert (Pr : precise ratio (Z.of_nat p)) by (apply (precise_last p n S49); [lia|exact Hn]).
    assert (P52 : (S * Z.of_nat p <= 2 ^ 52)%Z) by lia. assert (N52 : (Z.of_nat m <= 2 ^ 52)%Z) by nia.
    apply (part_shares l k b fs p m c v y Pr P52 N52); try assumption; try lia; [intros i Hi; apply Lv; lia|].
    apply (part_real l k fs p m c v b y Pr P52 N52); try assumption; try lia. intros i Hi. apply Lv. lia.
  - intros Eq Ex. apply V0; [lia|]. right.
    destruct (place_val rate src R S HR HS S51 m ltac:(nia)) as (_ & _ & E2 & _).
    rewrite Fcm. rewrite E2 in Ex. rewrite Ex, <- INR_IZR_INZ. rewrite Rminus_diag_eq by reflexivity. rewrite Rabs_R0. apply bpow_ge_0.
Qed.
End Lower.

Lemma lower_usual_aligned R S n : In R usual_rates -> In S usual_rates -> (R <= S)%Z -> (R * Z.of_N n <= 2 ^ 51)%Z ->
  aligned (flit R 0) (flit S 0) R S n.
Proof.
  intros HR HS L Hn.
  assert (A : forallb (fun R => forallb (fun S => negb (R <=? S)%Z || meets R S) usual_rates) usual_rates = true) by (vm_compute; reflexivity).
  rewrite forallb_forall in A. specialize (A R HR). rewrite forallb_forall in A. specialize (A S HS).
  rewrite (proj2 (Z.leb_le R S) L) in A. cbn [negb orb] in A.
  assert (B : forallb (fun z => (0 <? z)%Z && (z <? 400000)%Z) usual_rates = true) by reflexivity.
  rewrite forallb_forall in B. pose proof (B R HR) as BR. pose proof (B S HS) as BS.
  apply andb_prop in BR. apply andb_prop in BS. rewrite !Z.ltb_lt in BR, BS.
  assert (W : forall z, (0 < z < 400000)%Z -> whole_rate (flit z 0) z). { intros z Hz. destruct (flit_Z 53 1024 z ltac:(lia)). repeat split; try assumption; lia. }
  apply aligned_criterion; auto; [lia|]. apply meets_criterion; [lia|exact A].
Qed.
Lemma lower_shares R S : (1 <= R <= S)%Z ->
  (forall p i, 0 <= share R S p i <= 1) /\
  (forall p n, (Z.of_nat p * S <= R * (Z.of_nat n - 1))%Z -> total n (share R S p) = if Nat.eqb p 0 then IZR R / IZR S else 1) /\
  (forall i d, (R * Z.of_nat i + S <= S * Z.of_nat d)%Z -> total d (fun p => share R S p i) = IZR R / IZR S).
Proof.
  intros [A B]. split; [|split].
  - intros p i. pose proof (share_range R S A B p i). destruct (q_range R S A B). lra.
  - intros p n. exact (share_total R S A B p n).
  - intros i d. exact (share_spread R S A B i d).
Qed.
