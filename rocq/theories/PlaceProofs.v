(** * PlaceProofs.v -- positions, weights and weighted sums for the ratios 1, m
    and 1/2 *)
From Coq Require Import ZArith NArith Reals List Bool Lia Lra.
From Flocq Require Import Core.Core IEEE754.BinarySingleNaN.
From Verif Require Import Rust Float Math Chan Frame Ops Stream SpecChan SpecFrame SpecStream SpecSink
  FloatProofs FloorProofs FArithProofs ChanProofs FChanProofs FrameProofs OpsProofs StreamProofs SinkProofs.
Import ListNotations.
Open Scope Z_scope.

(** ** Integers as floats *)
Lemma fofZ53 z : Z.abs z <= 2 ^ 53 -> B2R (fofZ z : f64) = IZR z /\ is_finite (fofZ z : f64) = true.
Proof. exact (fofZ_exact 53 1024 z). Qed.
Lemma fofZ_0 : (fofZ 0 : f64) = B754_zero false. Proof. apply B2SF_inj. vm_compute. reflexivity. Qed.
Lemma flit_0 : (flit 0 0 : f64) = B754_zero false. Proof. apply B2SF_inj. vm_compute. reflexivity. Qed.
Lemma flit_fofZ z : (flit z 0 : f64) = fofZ z. Proof. reflexivity. Qed.

Lemma B2R_lt_emax z : Z.abs z <= 2 ^ 53 -> (Rabs (IZR z) < bpow radix2 1024)%R.
Proof.
  intros H. rewrite <- abs_IZR. apply Rle_lt_trans with (IZR (2 ^ 53)); [now apply IZR_le|].
  change (IZR (2 ^ 53)) with (bpow radix2 53). apply bpow_lt. lia.
Qed.
Lemma rnd64_Z z : Z.abs z <= 2 ^ 53 -> round64 (IZR z) = IZR z.
Proof. exact (rnd_Z 53 1024 z). Qed.

(** A float with an integer value is that integer (positive). *)
Lemma is_fofZ (x : f64) z : is_finite x = true -> B2R x = IZR z -> 0 < z <= 2 ^ 53 -> x = fofZ z.
Proof.
  intros F E H. destruct (fofZ53 z ltac:(lia)) as [E2 F2]. apply (finite_eq 53 1024); auto; [congruence|].
  rewrite E. apply IZR_neq. lia.
Qed.

Lemma place_int (m n i : Z) : 0 <= m -> 0 <= n -> 0 <= i -> m * i + n <= 2 ^ 53 -> i <= 2 ^ 53 -> m <= 2 ^ 53 ->
  fadd (fmul (fofZ m) (fofZ i)) (fofZ n) = (fofZ (m * i + n) : f64).
Proof.
  intros Hm Hn Hi Hb Hi2 Hm2. assert (0 <= m * i) by nia.
  destruct (fofZ53 m ltac:(lia)) as [M1 M2], (fofZ53 i ltac:(lia)) as [I1 I2], (fofZ53 n ltac:(lia)) as [N1 N2].
  assert (P : B2R (fmul (fofZ m) (fofZ i) : f64) = IZR (m * i) /\ is_finite (fmul (fofZ m) (fofZ i) : f64) = true).
  { destruct (fmul_correct 53 1024 (fofZ m) (fofZ i) M2 I2) as [A B].
    - rewrite M1, I1, <- mult_IZR. rewrite (rnd_Z 53 1024) by lia. apply B2R_lt_emax. lia.
    - split; [|exact B]. rewrite A, M1, I1, <- mult_IZR. apply (rnd_Z 53 1024). lia. }
  destruct P as [P1 P2].
  destruct (Z.eq_dec (m * i + n) 0) as [E0|N0].
  - assert (n = 0) as -> by lia. rewrite E0. rewrite fofZ_0.
    assert (m = 0 \/ i = 0) as [->| ->] by nia.
    + rewrite fofZ_0 in *. unfold fmul. destruct (fofZ i) as [s|s| |s mm e He] eqn:Ei; try discriminate; cbn.
      * now destruct s.
      * assert (s = false) as ->. { destruct s; [|reflexivity]. exfalso.
          assert (0 <= B2R (B754_finite true mm e He : f64))%R by (rewrite I1; now apply IZR_le). cbn [B2R] in H0.
          apply (Rle_not_lt _ _ H0). now apply F2R_lt_0. }
        reflexivity.
    + rewrite fofZ_0 in *. unfold fmul. destruct (fofZ m) as [s|s| |s mm e He] eqn:Ei; try discriminate; cbn.
      * now destruct s.
      * assert (s = false) as ->. { destruct s; [|reflexivity]. exfalso.
          assert (0 <= B2R (B754_finite true mm e He : f64))%R by (rewrite M1; now apply IZR_le). cbn [B2R] in H0.
          apply (Rle_not_lt _ _ H0). now apply F2R_lt_0. }
        reflexivity.
  - destruct (fadd_correct 53 1024 (fmul (fofZ m) (fofZ i)) (fofZ n) P2 N2) as [A B].
    + rewrite P1, N1, <- plus_IZR. rewrite (rnd_Z 53 1024) by lia. apply B2R_lt_emax. lia.
    + apply is_fofZ; [exact B| |lia]. rewrite A, P1, N1, <- plus_IZR. apply (rnd_Z 53 1024). lia.
Qed.

Lemma fofZ_sign z : 0 <= z <= 2 ^ 53 -> Bsign (fofZ z : f64) = false.
Proof.
  intros H. destruct (Z.eq_dec z 0) as [->|N]; [now rewrite fofZ_0|].
  destruct (fofZ53 z ltac:(lia)) as [E F]. destruct (Bsign (fofZ z)) eqn:S; [|reflexivity].
  pose proof (Bsign_nonpos 53 1024 _ F S) as L. rewrite E in L. apply le_IZR in L. lia.
Qed.

(** The fractional part of an integer is +0. *)
Lemma frem1_int (x : f64) z : is_finite x = true -> B2R x = IZR z -> Bsign x = false -> frem1 x = B754_zero false.
Proof.
  intros F E S. destruct x as [s|s| |s m e H]; try discriminate; cbn in S; subst s.
  - reflexivity.
  - cbn [frem1]. destruct (Z.leb_spec 0 e) as [L|L]; [reflexivity|].
    assert (Hm : Zpos m mod 2 ^ (- e) = 0).
    { cbn [B2R SpecFloat.cond_Zopp] in E. rewrite F2R_neg_exp in E by lia.
      assert (P : 0 < 2 ^ (- e)) by (apply Z.pow_pos_nonneg; lia).
      assert (Zpos m = z * 2 ^ (- e)) as ->; [|apply Z.mod_mul; lia].
      apply eq_IZR. rewrite mult_IZR, <- E. field. apply IZR_neq. lia. }
    rewrite Hm. reflexivity.
Qed.
Lemma floor_index_Z (x : f64) z : is_finite x = true -> B2R x = IZR z -> 0 <= z <= 2 ^ 64 - 1 -> floor_index x = z.
Proof.
  intros F E H. destruct x as [s|s| |s m e He]; try discriminate; unfold floor_index; rewrite E, Ztrunc_IZR, clampZ_maxmin by lia; lia.
Qed.
Lemma frac_Z (x : f64) z : B2R x = IZR z -> frac x = 0%R.
Proof. intros E. unfold frac. rewrite E, Ztrunc_IZR. ring. Qed.
Lemma ceil_index_Z (x : f64) z : is_finite x = true -> B2R x = IZR z -> 0 <= z <= 2 ^ 64 - 1 -> ceil_index x = z.
Proof.
  intros F E H. unfold ceil_index. rewrite (frac_Z x z E). pose proof (bpow_gt_0 radix2 (-52)).
  destruct (Rlt_dec _ _); [lra|]. now apply floor_index_Z.
Qed.
Lemma floor_fofZ z : 0 <= z <= 2 ^ 53 -> floor_index (fofZ z) = z.
Proof. intros H. destruct (fofZ53 z ltac:(lia)) as [E F]. apply floor_index_Z; auto. lia. Qed.
Lemma ceil_fofZ z : 0 <= z <= 2 ^ 53 -> ceil_index (fofZ z) = z.
Proof. intros H. destruct (fofZ53 z ltac:(lia)) as [E F]. apply ceil_index_Z; auto. lia. Qed.

Lemma fmin_zero (x : f64) : is_finite x = true -> (0 <= B2R x)%R -> fmin (B754_zero false) x = B754_zero false.
Proof.
  intros F H. unfold fmin. cbn [is_nan]. rewrite (finite_not_nan 53 1024 x F).
  rewrite (proj2 (flt_false 53 1024 x (B754_zero false) F eq_refl) H). reflexivity.
Qed.
Lemma fsub_zero (x : f64) : is_finite x = true -> Bsign x = false -> fsub x (B754_zero false) = x.
Proof.
  intros F S. destruct x as [s|s| |s m e H]; try discriminate; cbn in S; subst s; reflexivity.
Qed.

(** Weights at an integer position. *)
Lemma weights_int (ratio : f64) z : is_finite ratio = true -> Bsign ratio = false -> 0 <= z <= 2 ^ 53 ->
  upper_weight ratio (fofZ z) = B754_zero false /\ lower_weight ratio (fofZ z) = ratio.
Proof.
  intros F S Hz. destruct (fofZ53 z ltac:(lia)) as [E Fz]. unfold lower_weight.
  assert (C : upper_weight ratio (fofZ z) = B754_zero false).
  { unfold upper_weight. rewrite (frem1_int (fofZ z) z Fz E (fofZ_sign z Hz)). apply fmin_zero; auto. now apply (Bsign_nonneg 53 1024). }
  split; [exact C|]. rewrite C. now apply fsub_zero.
Qed.

Lemma ratio_one (r : f64) : is_finite r = true -> B2R r <> 0%R -> fdiv r r = (flit 1 0 : f64).
Proof.
  intros F N. destruct (one_correct 53 1024) as [O1 O2].
  assert (E : (B2R r / B2R r = 1)%R) by (field; exact N).
  assert (E1 : round64 1 = 1%R) by (apply (rnd_fmt 53 1024), (fmt_1 53 1024)).
  destruct (fdiv_correct 53 1024 r r F N) as [A B].
  - rewrite E. change (round_to 53 1024) with round64. rewrite E1, Rabs_R1. apply (one_lt_emax 53 1024).
  - apply (finite_eq 53 1024); auto; rewrite A, E; change (round_to 53 1024) with round64; rewrite E1; [now rewrite O1|lra].
Qed.

(** ** Contributions on a lattice of integer positions *)
Section Lattice.
Context {l : layout} {k : ck} (ratio off : f64) (m base : Z) (wf wc : f64).
Definition lattice (i n : nat) : Prop := forall a, (i <= a < i + n)%nat ->
  floor_index (place ratio off a) = base + m * Z.of_nat a /\ ceil_index (place ratio off a) = base + m * Z.of_nat a /\
  lower_weight ratio (place ratio off a) = wf /\ upper_weight ratio (place ratio off a) = wc.
Lemma lattice_S i n : lattice i (S n) -> lattice (S i) n.
Proof. intros H a Ha. apply H. lia. Qed.

Lemma contributions_none (fs : list (frame l k)) i p : lattice i (length fs) ->
  (forall a, (i <= a < i + length fs)%nat -> p <> base + m * Z.of_nat a) -> contributions p ratio off i fs = [].
Proof.
  revert i; induction fs as [|f fs IH]; intros i H N; [reflexivity|]. cbn [contributions length] in *. cbv zeta.
  destruct (H i ltac:(lia)) as (E1 & E2 & _). rewrite E1, E2. specialize (N i ltac:(lia)) as Ni.
  destruct (Z.eqb_spec (base + m * Z.of_nat i) p); [congruence|]. cbn. apply IH; [now apply lattice_S|].
  intros a Ha. apply N. lia.
Qed.
Lemma contributions_at (fs : list (frame l k)) i a f : 0 < m -> lattice i (length fs) -> nth_error fs a = Some f ->
  contributions (base + m * Z.of_nat (i + a)) ratio off i fs = [(f, wf); (f, wc)].
Proof.
  intros Hm; revert i a; induction fs as [|g fs IH]; intros i a H E; [destruct a; discriminate|].
  cbn [contributions length] in *. cbv zeta. destruct (H i ltac:(lia)) as (E1 & E2 & E3 & E4). rewrite E1, E2, E3, E4.
  destruct a as [|a]; cbn in E.
  - injection E as ->. rewrite Nat.add_0_r, Z.eqb_refl. cbn. do 2 f_equal. apply contributions_none; [now apply lattice_S|].
    intros a Ha. nia.
  - destruct (Z.eqb_spec (base + m * Z.of_nat i) (base + m * Z.of_nat (i + S a))); [nia|]. cbn.
    rewrite Nat.add_succ_r. rewrite <- (IH (S i) a (lattice_S _ _ H) E). reflexivity.
Qed.
Lemma overhang_none (fs : list (frame l k)) i e : lattice i (length fs) ->
  (forall a, (i <= a < i + length fs)%nat -> base + m * Z.of_nat a < e) -> overhang e ratio off i fs = [].
Proof.
  revert i; induction fs as [|f fs IH]; intros i H N; [reflexivity|]. cbn [overhang length] in *. cbv zeta.
  destruct (H i ltac:(lia)) as (_ & E2 & _). rewrite E2. specialize (N i ltac:(lia)) as Ni.
  destruct (Z.leb_spec e (base + m * Z.of_nat i)); [lia|]. cbn. apply IH; [now apply lattice_S|]. intros a Ha. apply N. lia.
Qed.
End Lattice.

(** The lattice of ratio [m], offset [n]. *)
Lemma lattice_int m n i cnt : 0 <= m <= 2 ^ 53 -> 0 <= n -> m * Z.of_nat (i + cnt) + n <= 2 ^ 53 -> Z.of_nat (i + cnt) <= 2 ^ 53 ->
  lattice (fofZ m) (fofZ n) m n (fofZ m) (B754_zero false) i cnt.
Proof.
  intros Hm Hn Hb Hc a Ha. assert (m * Z.of_nat a <= m * Z.of_nat (i + cnt)) by nia.
  assert (E : place (fofZ m) (fofZ n) a = fofZ (m * Z.of_nat a + n)) by (apply place_int; lia).
  destruct (fofZ53 m ltac:(lia)) as [_ Fm]. rewrite E, Z.add_comm.
  destruct (weights_int (fofZ m) (n + m * Z.of_nat a) Fm (fofZ_sign m Hm) ltac:(lia)) as [W1 W2].
  rewrite floor_fofZ, ceil_fofZ by lia. auto.
Qed.

(** ** Weighted sums *)
Lemma ws_nil_inv l k (a b : frame l k) : weighted_sum a [] b -> b = a.
Proof. intros H. now inversion H. Qed.
Lemma ws_cons_inv l k (a f b : frame l k) w r : weighted_sum a ((f, w) :: r) b ->
  exists p, frame_mul f (frame_from_f64 l k w) = Ok p /\ weighted_sum (frame_add a p) r b.
Proof. intros H. inversion H as [|? ? ? p ? ? Hm Hw]; subst. eauto. Qed.
Lemma ws_one l k (a f b : frame l k) w : weighted_sum a [(f, w)] b -> exists p, frame_mul f (frame_from_f64 l k w) = Ok p /\ b = frame_add a p.
Proof. intros H. apply ws_cons_inv in H as (p & Hp & H). apply ws_nil_inv in H. eauto. Qed.
Lemma ws_two l k (a f g b : frame l k) w v : weighted_sum a [(f, w); (g, v)] b ->
  exists p q, frame_mul f (frame_from_f64 l k w) = Ok p /\ frame_mul g (frame_from_f64 l k v) = Ok q /\
    b = frame_add (frame_add a p) q.
Proof. intros H. apply ws_cons_inv in H as (p & Hp & H). apply ws_one in H as (q & Hq & ->). eauto 6. Qed.
Lemma ws_valid l k (a b : frame l k) r : weighted_sum a r b -> frame_valid a -> frame_valid b.
Proof. induction 1; [trivial|]. intros _. apply IHweighted_sum. apply frame_add_valid. Qed.

Lemma frame_from_f64_zero l k : frame_from_f64 l k (B754_zero false) = frame_default l k.
Proof. rewrite <- flit_0. apply frame_from_f64_0. Qed.
Lemma from_f64_1 k : from_f64 k (flit 1 0) = MAX k.
Proof. destruct k; [apply (proj1 (from_f64_sat K8 (or_introl eq_refl) _)); vm_compute; reflexivity
                   |apply (proj1 (from_f64_sat K16 (or_intror eq_refl) _)); vm_compute; reflexivity
                   |apply B2SF_inj; vm_compute; reflexivity|reflexivity]. Qed.
