(** * PanProofs.v -- levels of a panned channel (C79) *)
From Coq Require Import ZArith NArith Reals List Lia Bool Lra Psatz.
From Flocq Require Import Core.Core IEEE754.BinarySingleNaN.
From Verif Require Import Rust Float Math Chan Frame Ops SpecChan SpecFrame SpecPan.
From Verif Require Import IntProofs FloatProofs FArithProofs FloorProofs ConvProofs ChanProofs FChanProofs FrameProofs OpsProofs PiProofs.
Import ListNotations.
Open Scope R_scope.

Lemma full_pos k : 1 <= full_scale k. Proof. destruct k; cbn; lra. Qed.
Lemma rval_full k (x : chan k) : valid x -> Rabs (rval x) <= full_scale k.
Proof.
  destruct k; cbn [rval full_scale]; intros H; apply Rabs_le.
  - pose proof (i8_range x) as [A B]. apply IZR_le in A, B. lra.
  - pose proof (i16_range x) as [A B]. apply IZR_le in A, B. lra.
  - destruct H as [_ H]. exact H.
  - destruct H as [_ H]. exact H.
Qed.

(** One product. *)
Lemma quot_near (a m : Z) : (0 < m)%Z -> Rabs (IZR (Z.quot a m) - IZR a / IZR m) <= 1.
Proof.
  intros Hm. pose proof (Z.quot_rem' a m) as E. pose proof (Z.rem_bound_abs a m ltac:(lia)) as B.
  assert (Hr : 0 < IZR m) by (apply IZR_lt; lia). apply (f_equal IZR) in E. rewrite plus_IZR, mult_IZR in E.
  replace (IZR (a ÷ m) - IZR a / IZR m) with (- (IZR (Z.rem a m) / IZR m)) by (rewrite E; field; lra).
  rewrite Rabs_Ropp. unfold Rdiv. rewrite Rabs_mult, (Rabs_inv (IZR m)), (Rabs_pos_eq (IZR m)) by lra.
  rewrite <- abs_IZR. assert (IZR (Z.abs (Z.rem a m)) <= IZR m) by (apply IZR_le; lia).
  apply Rmult_le_reg_r with (IZR m); [lra|]. rewrite Rmult_assoc, Rinv_l by lra. lra.
Qed.
Lemma clamp_near lo hi (q : Z) y t : (lo <= hi)%Z -> IZR lo <= y <= IZR hi + 1 -> 1 <= t -> Rabs (IZR q - y) <= t ->
  Rabs (IZR (clampZ lo hi q) - y) <= t.
Proof.
  intros L [Y1 Y2] T H. apply IZR_le in L. apply Rabs_le. apply Rabs_le_inv in H. unfold clampZ.
  destruct (Z.ltb_spec q lo) as [A|A]; [apply IZR_lt in A; lra|]. destruct (Z.ltb_spec hi q) as [B|B]; [apply IZR_lt in B; lra|lra].
Qed.
Lemma int_product (M : Z) (x c : Z) (w r e : R) :
  (M = 127 \/ M = 32767)%Z -> (- (M + 1) <= x <= M)%Z -> -1 <= w <= 1 -> -1 <= r <= 1 -> Rabs (w - r) <= e ->
  Rabs (IZR (2 * c + 1) / IZR (2 * M + 1) - w) <= (1 + bpow radix2 (-37)) / IZR (2 * M + 1) ->
  Rabs (IZR (clampZ (- (M + 1)) M (Z.quot (x * c) M)) - IZR x * r) <= 3 + IZR (M + 1) * e.
Proof.
  intros HM Hx Hw Hr He Hc.
  assert (P : bpow radix2 (-37) <= / 1024). { change (/ 1024) with (bpow radix2 (-10)). apply bpow_le. lia. }
  assert (MM : 127 <= IZR M) by (destruct HM as [-> | ->]; lra).
  assert (E0 : 0 <= e) by (eapply Rle_trans; [apply Rabs_pos|exact He]).
  assert (HxR : Rabs (IZR x) <= IZR M + 1). { rewrite <- abs_IZR, <- plus_IZR. apply IZR_le. lia. }
  (* the weight as a fraction of M *)
  assert (W : Rabs (IZR c / IZR M - r) <= e + (3/2 + / 1000) / IZR M).
  { rewrite !plus_IZR, !mult_IZR in Hc. 
    apply Rabs_le. apply Rabs_le_inv in Hc, He. set (m := IZR M) in *. set (cc := IZR c) in *.
    assert (Q : (2 * cc + 1) / (2 * m + 1) * (2 * m + 1) = 2 * cc + 1) by (field; lra).
    set (v := (2 * cc + 1) / (2 * m + 1)) in *.
    assert (D : (1 + bpow radix2 (-37)) / (2 * m + 1) * (2 * m + 1) = 1 + bpow radix2 (-37)) by (field; lra).
    set (u := (1 + bpow radix2 (-37)) / (2 * m + 1)) in *.
    assert (B1 : 2 * cc <= (2 * m + 1) * w + u * (2 * m + 1) - 1) by nra.
    assert (B2 : (2 * m + 1) * w - u * (2 * m + 1) - 1 <= 2 * cc) by nra.
    assert (X : cc / m * m = cc) by (field; lra). set (z := cc / m) in *.
    assert (Y : (3/2 + / 1000) / m * m = 3/2 + /1000) by (field; lra). set (y := (3/2 + / 1000) / m) in *.
    assert (0 < m) by lra. split; apply Rmult_le_reg_r with m; nra. }
  apply clamp_near.
  - destruct HM as [-> | ->]; lia.
  - rewrite opp_IZR, plus_IZR.
    assert (Rabs (IZR x * r) <= IZR M + 1). { rewrite Rabs_mult. apply Rle_trans with ((IZR M + 1) * 1); [|lra]. apply Rmult_le_compat; auto using Rabs_pos. apply Rabs_le. lra. }
    apply Rabs_le_inv in H. lra.
  - assert (0 <= IZR (M + 1) * e) by (apply Rmult_le_pos; [rewrite plus_IZR; lra|exact E0]). lra.
  - assert (Q := quot_near (x * c) M ltac:(lia)). rewrite mult_IZR in Q.
    replace (IZR (Z.quot (x * c) M) - IZR x * r) with ((IZR (Z.quot (x * c) M) - IZR x * IZR c / IZR M) + IZR x * (IZR c / IZR M - r)) by (field; lra).
    eapply Rle_trans; [apply Rabs_triang|]. rewrite Rabs_mult.
    assert (Rabs (IZR x) * Rabs (IZR c / IZR M - r) <= (IZR M + 1) * (e + (3/2 + / 1000) / IZR M)) by (apply Rmult_le_compat; auto using Rabs_pos).
    assert (Y : (IZR M + 1) * ((3/2 + / 1000) / IZR M) <= 3/2 + /1000 + (3/2 + /1000) / 127).
    { replace ((IZR M + 1) * ((3 / 2 + / 1000) / IZR M)) with (3/2 + /1000 + (3/2 + /1000) * / IZR M) by (field; lra).
      apply Rplus_le_compat_l. apply Rmult_le_compat_l; [lra|]. apply Rinv_le_contravar; lra. }
    rewrite plus_IZR. lra.
Qed.
Lemma product k (x : chan k) (w : f64) r e : valid x -> in_range w -> -1 <= r <= 1 -> Rabs (B2R w - r) <= e ->
  valid (from_f64 k w) /\ exists p, c_mul x (from_f64 k w) = Ok p /\ valid p /\ Rabs (rval p - rval x * r) <= tolerance k e.
Proof.
  intros Vx Hw Hr He. destruct quantisation_error as [Q8 Q16]. destruct k.
  - split; [exact I|]. destruct (mul8_spec x (from_f64 K8 w)) as (p & E & S). exists p. split; [exact E|]. split; [exact I|].
    cbn [rval tolerance]. rewrite S. exact (int_product 127 _ _ (B2R w) r e ltac:(auto) (i8_range x) (proj2 Hw) Hr He (Q8 w Hw)).
  - split; [exact I|]. destruct (mul16_spec x (from_f64 K16 w)) as (p & E & S). exists p. split; [exact E|]. split; [exact I|].
    cbn [rval tolerance]. rewrite S. exact (int_product 32767 _ _ (B2R w) r e ltac:(auto) (i16_range x) (proj2 Hw) Hr He (Q16 w Hw)).
  - assert (R1 : Rabs (round32 (B2R w)) <= 1). { apply (rnd_abs_le 24 128); [apply (fmt_1 24 128)|]. apply Rabs_le. exact (proj2 Hw). }
    assert (V : @in_range 24 128 (f64_as_f32 w) /\ B2R (f64_as_f32 w : f32) = round32 (B2R w)).
    { destruct (fconv_correct 53 1024 24 128 w (proj1 Hw)) as (E1 & E2 & _). { eapply Rle_lt_trans; [exact R1|]. apply (one_lt_emax 24 128). }
      split; [split; [exact E2|]|exact E1]. unfold f64_as_f32. rewrite E1. now apply Rabs_le_inv. }
    destruct V as [V EV]. split; [exact V|].
    destruct (float_mul_valid K32 (or_introl eq_refl) x (from_f64 K32 w) Vx V) as (p & E & Vp & S). exists p. split; [exact E|]. split; [exact Vp|].
    cbn [tolerance]. rewrite S. cbn [round_k rval from_f64]. unfold ch32_from_f64. rewrite EV. destruct Vx as [_ Hx]. cbn in Hx.
    assert (A1 : Rabs (round32 (B2R w) - B2R w) <= bpow radix2 (-25)). { apply (rnd_error 24 128 _ 0); [apply Rabs_le; exact (proj2 Hw)|lia]. }
    assert (HP : Rabs (B2R (x : f32) * round32 (B2R w)) <= 1). { rewrite Rabs_mult. apply Rle_trans with (1 * 1); [|lra]. apply Rmult_le_compat; auto using Rabs_pos. now apply Rabs_le. }
    assert (A2 : Rabs (round32 (B2R (x : f32) * round32 (B2R w)) - B2R (x : f32) * round32 (B2R w)) <= bpow radix2 (-25)). { apply (rnd_error 24 128 _ 0); [exact HP|lia]. }
    replace (bpow radix2 (-24)) with (bpow radix2 (-25) + bpow radix2 (-25)) by (change (-24)%Z with (1 + -25)%Z; rewrite bpow_plus; change (bpow radix2 1) with 2; ring).
    set (pr := round32 (B2R (x : f32) * round32 (B2R w))) in *. set (wr := round32 (B2R w)) in *. set (xr := B2R (x : f32)) in *.
    replace (pr - xr * r) with ((pr - xr * wr) + (xr * (wr - B2R w) + xr * (B2R w - r))) by ring.
    eapply Rle_trans; [apply Rabs_triang|]. eapply Rle_trans; [apply Rplus_le_compat_l; apply Rabs_triang|]. rewrite !Rabs_mult.
    assert (X1 : Rabs xr <= 1) by now apply Rabs_le.
    assert (Rabs xr * Rabs (wr - B2R w) <= 1 * bpow radix2 (-25)) by (apply Rmult_le_compat; auto using Rabs_pos).
    assert (Rabs xr * Rabs (B2R w - r) <= 1 * e) by (apply Rmult_le_compat; auto using Rabs_pos). lra.
  - split; [exact Hw|]. destruct (float_mul_valid K64 (or_intror eq_refl) x (from_f64 K64 w) Vx Hw) as (p & E & Vp & S). exists p. split; [exact E|]. split; [exact Vp|].
    cbn [tolerance]. rewrite S. cbn [round_k rval from_f64]. unfold ch64_from_f64. destruct Vx as [_ Hx]. cbn in Hx.
    assert (HP : Rabs (B2R (x : f64) * B2R w) <= 1). { rewrite Rabs_mult. apply Rle_trans with (1 * 1); [|lra]. apply Rmult_le_compat; auto using Rabs_pos; apply Rabs_le; [exact Hx|exact (proj2 Hw)]. }
    assert (A2 : Rabs (round64 (B2R (x : f64) * B2R w) - B2R (x : f64) * B2R w) <= bpow radix2 (-54)). { apply (rnd_error 53 1024 _ 0); [exact HP|lia]. }
    set (pr := round64 (B2R (x : f64) * B2R w)) in *. set (xr := B2R (x : f64)) in *.
    replace (pr - xr * r) with ((pr - xr * B2R w) + xr * (B2R w - r)) by ring.
    eapply Rle_trans; [apply Rabs_triang|]. rewrite !Rabs_mult.
    assert (X1 : Rabs xr <= 1) by now apply Rabs_le.
    assert (Rabs xr * Rabs (B2R w - r) <= 1 * e) by (apply Rmult_le_compat; auto using Rabs_pos). lra.
Qed.

(** Silence adds nothing. *)
Lemma mul_zero k (y w p : chan k) : rval y = 0 -> valid y -> valid w -> c_mul y w = Ok p -> rval p = 0 /\ valid p.
Proof.
  intros Z Vy Vw H. destruct k.
  - destruct (mul8_spec y w) as (q & E & S). rewrite E in H. injection H as <-. split; [|exact I]. cbn [rval] in *.
    apply eq_IZR_R0 in Z. rewrite S, Z. reflexivity.
  - destruct (mul16_spec y w) as (q & E & S). rewrite E in H. injection H as <-. split; [|exact I]. cbn [rval] in *.
    apply eq_IZR_R0 in Z. rewrite S, Z. reflexivity.
  - destruct (float_mul_valid K32 (or_introl eq_refl) y w Vy Vw) as (q & E & V & S). rewrite E in H. injection H as <-.
    split; [|exact V]. rewrite S, Z, Rmult_0_l. apply round_0. auto with typeclass_instances.
  - destruct (float_mul_valid K64 (or_intror eq_refl) y w Vy Vw) as (q & E & V & S). rewrite E in H. injection H as <-.
    split; [|exact V]. rewrite S, Z, Rmult_0_l. apply round_0. auto with typeclass_instances.
Qed.
Lemma valid_fin k (c : chan k) : valid c -> fin c = true.
Proof. destruct k; cbn; trivial; intros [H _]; exact H. Qed.
Lemma add_zero k (c p : chan k) : valid c -> valid p -> (rval p = 0 -> rval (c_add c p) = rval c) /\ (rval c = 0 -> rval (c_add c p) = rval p) /\ valid (c_add c p).
Proof.
  intros Vc Vp. destruct k.
  - cbn [rval]. rewrite add8_spec. pose proof (i8_range c). pose proof (i8_range p).
    split; [|split; [|exact I]]; intros Z; apply eq_IZR_R0 in Z; f_equal; unfold clampZ; rewrite Z; 
      repeat match goal with |- context [Z.ltb ?a ?b] => destruct (Z.ltb_spec a b) end; lia.
  - cbn [rval]. rewrite add16_spec. pose proof (i16_range c). pose proof (i16_range p).
    split; [|split; [|exact I]]; intros Z; apply eq_IZR_R0 in Z; f_equal; unfold clampZ; rewrite Z; 
      repeat match goal with |- context [Z.ltb ?a ?b] => destruct (Z.ltb_spec a b) end; lia.
  - destruct (float_ops_value K32 (or_introl eq_refl) c p (valid_fin _ _ Vc) (valid_fin _ _ Vp)) as (A & _).
    split; [|split; [|exact (proj1 (float_ops_valid K32 (or_introl eq_refl) c p))]]; intros Z; rewrite A, Z; rewrite ?Rplus_0_r, ?Rplus_0_l;
      cbn [round_k rval]; (unfold round32; rewrite (rnd_fmt 24 128) by apply (fmt_B2R 24 128)); apply clampR_id; [exact (proj2 Vc)|exact (proj2 Vp)].
  - destruct (float_ops_value K64 (or_intror eq_refl) c p (valid_fin _ _ Vc) (valid_fin _ _ Vp)) as (A & _).
    split; [|split; [|exact (proj1 (float_ops_valid K64 (or_intror eq_refl) c p))]]; intros Z; rewrite A, Z; rewrite ?Rplus_0_r, ?Rplus_0_l;
      cbn [round_k rval]; (unfold round64; rewrite (rnd_fmt 53 1024) by apply (fmt_B2R 53 1024)); apply clampR_id; [exact (proj2 Vc)|exact (proj2 Vp)].
Qed.
Lemma accum_zero k (c : chan k) ps c' : accum c ps c' -> valid c -> Forall (fun q => rval (fst q) = 0 /\ valid (fst q) /\ valid (snd q)) ps ->
  rval c' = rval c /\ valid c'.
Proof.
  induction 1 as [c|c a b p ps c' M A IH]; intros V F; [split; [reflexivity|exact V]|].
  apply Forall_cons_iff in F as [(Z & Va & Vb) F]. cbn in *. destruct (mul_zero k a b p Z Va Vb M) as [Zp Vp].
  destruct (add_zero k c p V Vp) as (S & _ & W). destruct (IH W F) as [E V']. split; [rewrite E; auto|exact V'].
Qed.

(** The angle is a number whatever the position. *)
Definition sfR (x : f64) : B2R x = SF2R radix2 (B2SF x) := eq_sym (SF2R_B2SF _ _ x).
Ltac konst x := let v := eval vm_compute in (B2SF x) in
  rewrite (sfR x); change (B2SF x) with v; cbn [SF2R]; unfold F2R; cbn [Fnum Fexp cond_Zopp bpow]; cbn [Z.pow_pos Pos.iter Z.mul Pos.mul radix2 radix_val Z.opp].
Lemma angle_finite (s a d : f64) : in_range s -> is_finite a = true -> Rabs (B2R a) <= 1 -> / 4 <= B2R d ->
  is_finite (fmul (fdiv (fsub s a) d) half_pi) = true.
Proof.
  intros [Fs Hs] Fa Ha Hd. 
  assert (BIG : forall x, Rabs x <= 16 -> Rabs (round64 x) < bpow radix2 1024).
  { intros x Hx. apply (rnd_small_lt 53 1024). eapply Rle_trans; [exact Hx|]. change 16 with (bpow radix2 4). apply bpow_le. lia. }
  apply Rabs_le_inv in Ha.
  destruct (fsub_correct 53 1024 s a Fs Fa) as [E1 F1]. { apply BIG. apply Rabs_le. lra. }
  assert (B1 : Rabs (B2R (fsub s a)) <= 2). { rewrite E1. apply (rnd_abs_le 53 1024); [apply (fmt_Z 53 1024 2); lia|]. apply Rabs_le. lra. }
  assert (Q : Rabs (B2R (fsub s a) / B2R d) <= 8).
  { unfold Rdiv. rewrite Rabs_mult. rewrite (Rabs_pos_eq (/ B2R d)) by (left; apply Rinv_0_lt_compat; lra).
    apply Rle_trans with (2 * 4); [|lra]. apply Rmult_le_compat; [apply Rabs_pos|left; apply Rinv_0_lt_compat; lra|exact B1|].
    rewrite <- (Rinv_inv 4). apply Rinv_le_contravar; lra. }
  destruct (fdiv_correct 53 1024 (fsub s a) d F1 ltac:(lra)) as [E2 F2]. { apply BIG. lra. }
  assert (B2 : Rabs (B2R (fdiv (fsub s a) d)) <= 8). { rewrite E2. apply (rnd_abs_le 53 1024); [apply (fmt_Z 53 1024 8); lia|exact Q]. }
  assert (H : 0 <= B2R half_pi <= 2). { konst half_pi. lra. }
  apply (fmul_correct 53 1024); [exact F2|reflexivity|]. apply BIG. rewrite Rabs_mult, (Rabs_pos_eq (B2R half_pi)) by lra.
  replace 16 with (8 * 2) by ring. apply Rmult_le_compat; try apply Rabs_pos; tauto.
Qed.
Lemma plan_finite l s : l <> Mono -> in_range s -> is_finite (snd (pan_plan l s)) = true.
Proof.
  intros N H. destruct l; [congruence| |]; cbn [pan_plan]; destruct (fle _ s); cbn [snd]; apply angle_finite; auto.
  - konst (flit (-1) (-1) : f64). apply Rabs_le. lra.
  - konst (fsub (flit 1 (-1)) (flit (-1) (-1)) : f64). lra.
  - konst (flit (-1) (-1) : f64). apply Rabs_le. lra.
  - konst (fsub (flit 2 0) (fsub (flit (-1) (-1)) (flit 1 (-1))) : f64). lra.
  - konst (fdiv (flit (-2) 0) (flit 3 0) : f64). apply Rabs_le. lra.
  - konst (fsub (fdiv (flit (-1) 0) (flit 3 0)) (fdiv (flit (-2) 0) (flit 3 0)) : f64). lra.
  - konst (fdiv (flit (-2) 0) (flit 3 0) : f64). apply Rabs_le. lra.
  - konst (fsub (flit 2 0) (fsub (fdiv (flit (-2) 0) (flit 3 0)) (fdiv (flit 2 0) (flit 3 0))) : f64). lra.
Qed.

(** What the channels bring to speaker [i]. *)
Lemma accum_split k (c : chan k) ps qs c' : accum c (ps ++ qs) c' -> exists m, accum c ps m /\ accum m qs c'.
Proof.
  revert c; induction ps as [|[a b] ps IH]; intros c H; cbn in *; [exists c; split; [constructor|exact H]|].
  inversion H as [|? ? ? p ? ? M A]; subst. destruct (IH _ A) as (m & A1 & A2). exists m. split; [econstructor; eauto|exact A2].
Qed.
Lemma plan_differ l s : l <> Mono -> fst (fst (pan_plan l s)) <> snd (fst (pan_plan l s)).
Proof. intros N. destruct l; [congruence| |]; cbn [pan_plan]; destruct (fle _ s); cbn; discriminate. Qed.
Lemma weight_valid l k t e (s : chan k) : l <> Mono -> accurate t e -> valid s ->
  valid (from_f64 k (t_cos t (snd (pan_plan l (to_f64 s))))) /\ valid (from_f64 k (t_sin t (snd (pan_plan l (to_f64 s))))).
Proof.
  intros N [E0 T] V. destruct (T _ (plan_finite l _ N (to_f64_range k s V))) as (C & S & EC & ES).
  assert (VM : valid (MID k)). { destruct k; cbn; try exact I; (split; [reflexivity|cbn; lra]). }
  split; [exact (proj1 (product k (MID k) _ _ e VM C (COS_bound _) EC))|exact (proj1 (product k (MID k) _ _ e VM S (SIN_bound _) ES))].
Qed.
Lemma zeros l k t e i (ds ss : list (chan k)) : l <> Mono -> accurate t e -> Forall valid ds -> Forall valid ss -> Forall (fun y => rval y = 0) ds ->
  Forall (fun q => rval (fst q) = 0 /\ valid (fst q) /\ valid (snd q)) (pan_reaches l (t_cos t) (t_sin t) i ds ss).
Proof.
  intros N T. revert ss; induction ds as [|d ds IH]; intros ss Vd Vs Z; [constructor|]. destruct ss as [|s ss]; [constructor|].
  apply Forall_cons_iff in Vd as [Vd Vds], Vs as [Vs Vss], Z as [Zd Zds].
  cbn [pan_reaches]. destruct (weight_valid l k t e s N T Vs) as [WC WS]. 
  destruct (pan_plan l (to_f64 s)) as [[a b] ang]. cbn [snd] in *.
  apply Forall_app. split; [destruct (Nat.eqb a i); constructor; auto|]. apply Forall_app. split; [destruct (Nat.eqb b i); constructor; auto|].
  now apply IH.
Qed.
Definition brings (l : layout) {k} (i : nat) (x p : chan k) (e : R) (c : chan k) : Prop :=
  let '(a, b, angle) := pan_plan l (to_f64 p) in
  (a = i -> Rabs (rval c - rval x * cos (B2R angle)) <= tolerance k e) /\
  (b = i -> Rabs (rval c - rval x * sin (B2R angle)) <= tolerance k e) /\
  (a <> i -> b <> i -> rval c = 0).
Lemma single l k t e i (ds ss : list (chan k)) j x p (c c' : chan k) : l <> Mono -> accurate t e -> Forall valid ds -> Forall valid ss ->
  nth_error ds j = Some x -> (forall m y, m <> j -> nth_error ds m = Some y -> rval y = 0) -> nth_error ss j = Some p ->
  valid c -> rval c = 0 -> accum c (pan_reaches l (t_cos t) (t_sin t) i ds ss) c' -> brings l i x p e c'.
Proof.
  intros N T. revert ss j c; induction ds as [|d ds IH]; intros ss j c Vd Vs Hx Hz Hp Vc Zc A; [destruct j; discriminate|].
  destruct ss as [|s ss]; [destruct j; discriminate|].
  pose proof (zeros l k t e i) as ZS.
  apply Forall_cons_iff in Vd as [Vd Vds], Vs as [Vs Vss].
  cbn [pan_reaches] in A. pose proof (weight_valid l k t e s N T Vs) as [WC WS].
  pose proof (plan_finite l _ N (to_f64_range k s Vs)) as F. pose proof (plan_differ l (to_f64 s) N) as D.
  destruct j as [|j]; cbn [nth_error] in Hx, Hp.
  - injection Hx as ->. injection Hp as ->. unfold brings. destruct (pan_plan l (to_f64 p)) as [[a b] ang]. cbn [fst snd] in *.
    destruct T as [E0 T]. destruct (T ang F) as (C & S & EC & ES).
    destruct (product k x _ _ e Vd C (COS_bound _) EC) as (_ & pc & Mc & Vpc & Bc).
    destruct (product k x _ _ e Vd S (SIN_bound _) ES) as (_ & ps & Ms & Vps & Bs).
    assert (R : Forall (fun q => rval (fst q) = 0 /\ valid (fst q) /\ valid (snd q)) (pan_reaches l (t_cos t) (t_sin t) i ds ss)).
    { apply ZS; auto; [split; auto|]. apply Forall_forall. intros y Hy. apply In_nth_error in Hy as [m Hm]. exact (Hz (Datatypes.S m) y ltac:(lia) Hm). }
    destruct (Nat.eqb_spec a i) as [Ea|Na]; destruct (Nat.eqb_spec b i) as [Eb|Nb]; cbn [app] in A.
    + congruence.
    + inversion A as [|? ? ? q ? ? M A']; subst. rewrite Mc in M. injection M as <-.
      destruct (add_zero k c pc Vc Vpc) as (_ & Z & V). destruct (accum_zero k _ _ _ A' V R) as [E _]. rewrite (Z Zc) in E.
      split; [|split]; intros; congruence.
    + inversion A as [|? ? ? q ? ? M A']; subst. rewrite Ms in M. injection M as <-.
      destruct (add_zero k c ps Vc Vps) as (_ & Z & V). destruct (accum_zero k _ _ _ A' V R) as [E _]. rewrite (Z Zc) in E.
      split; [|split]; intros; congruence.
    + destruct (accum_zero k _ _ _ A Vc R) as [E _]. split; [|split]; intros; try congruence.
  - assert (Zd : rval d = 0) by exact (Hz 0%nat d ltac:(lia) eq_refl).
    destruct (pan_plan l (to_f64 s)) as [[a b] ang]. cbn [fst snd] in *. rewrite app_assoc in A. apply accum_split in A as (m & A1 & A2).
    assert (Q : rval m = rval c /\ valid m).
    { apply (accum_zero k c _ m A1 Vc). apply Forall_app. split; [destruct (Nat.eqb a i)|destruct (Nat.eqb b i)]; constructor; auto. }
    destruct Q as [Qm Vm]. apply (IH ss j m); auto; [|congruence]. intros m' y Hm Hy. exact (Hz (Datatypes.S m') y ltac:(lia) Hy).
Qed.

Lemma levels l k t e (d s : frame l k) j x p : l <> Mono -> accurate t e -> frame_valid d -> frame_valid s ->
  only d j x -> nth_error (channels s) j = Some p ->
  exists out, mix_frames (Pan_ t) d s = Ok out /\ forall i c, nth_error (channels out) i = Some c -> brings l i x p e c.
Proof.
  intros N T Vd Vs [Hx Hz] Hp. destruct (mix_pan l k t d s) as (out & M & P). exists out. split; [exact M|]. intros i c Hc.
  assert (VM : valid (MID k)). { destruct k; cbn; try exact I; (split; [reflexivity|cbn; lra]). }
  assert (ZM : rval (MID k) = 0). { destruct k; cbn; reflexivity. }
  exact (single l k t e i _ _ j x p (MID k) c N T Vd Vs Hx Hz Hp VM ZM (P i c Hc)).
Qed.

(** The computed angle against the exact one. *)
Lemma angle_near (s a d : f64) (ar dr : R) : in_range s -> is_finite a = true -> Rabs (B2R a - ar) <= bpow radix2 (-53) ->
  Rabs (B2R d - dr) <= bpow radix2 (-51) -> -1 <= ar <= 1 -> Rabs (B2R a) <= 1 -> / 3 <= dr ->
  Rabs (B2R (fmul (fdiv (fsub s a) d) half_pi) - (B2R s - ar) / dr * (PI / 2)) <= angle_error.
Proof.
  intros [Fs Hs] Fa Ha Hd Har Ha1 Hdr. unfold angle_error.
  assert (BIG : forall x, Rabs x <= 16 -> Rabs (round64 x) < bpow radix2 1024).
  { intros x Hx. apply (rnd_small_lt 53 1024). eapply Rle_trans; [exact Hx|]. change 16 with (bpow radix2 4). apply bpow_le. lia. }
  apply Rabs_le_inv in Ha1.
  destruct (fsub_correct 53 1024 s a Fs Fa) as [E1 F1]. { apply BIG. apply Rabs_le. lra. }
  assert (B1 : Rabs (B2R (fsub s a)) <= 2). { rewrite E1. apply (rnd_abs_le 53 1024); [apply (fmt_Z 53 1024 2); lia|]. apply Rabs_le. lra. }
  assert (X1 : Rabs (B2R (fsub s a) - (B2R s - B2R a)) <= bpow radix2 (-53)). { rewrite E1. apply (rnd_error 53 1024 _ 1); [apply Rabs_le; change (bpow radix2 1) with 2; lra|lia]. }
  pose proof half_pi_near as HP. set (h := B2R half_pi) in *.
  change (bpow radix2 (-53)) with (/ 9007199254740992) in *. replace (bpow radix2 (-51)) with (4 * / 9007199254740992) in Hd by (change (bpow radix2 (-51)) with (/ 2251799813685248); lra). change (bpow radix2 (-45)) with (/ 35184372088832).
  apply Rabs_le_inv in Ha, Hd, X1. pose proof pi_rough as PR.
  assert (Hd4 : / 4 <= B2R d) by lra.
  assert (Q : Rabs (B2R (fsub s a) / B2R d) <= 8).
  { unfold Rdiv. rewrite Rabs_mult. rewrite (Rabs_pos_eq (/ B2R d)) by (left; apply Rinv_0_lt_compat; lra).
    apply Rle_trans with (2 * 4); [|lra]. apply Rmult_le_compat; [apply Rabs_pos|left; apply Rinv_0_lt_compat; lra|exact B1|].
    rewrite <- (Rinv_inv 4). apply Rinv_le_contravar; lra. }
  destruct (fdiv_correct 53 1024 (fsub s a) d F1 ltac:(lra)) as [E2 F2]. { apply BIG. lra. }
  assert (B2 : Rabs (B2R (fdiv (fsub s a) d)) <= 8). { rewrite E2. apply (rnd_abs_le 53 1024); [apply (fmt_Z 53 1024 8); lia|exact Q]. }
  assert (X2 : Rabs (B2R (fdiv (fsub s a) d) - B2R (fsub s a) / B2R d) <= / 2251799813685248). { rewrite E2. apply (rnd_error 53 1024 _ 3); [exact Q|lia]. }
  assert (Hh : 0 <= h <= 2). { apply Rabs_le_inv in HP. lra. }
  assert (Q3 : Rabs (B2R (fdiv (fsub s a) d) * h) <= 16).
  { rewrite Rabs_mult, (Rabs_pos_eq h) by lra. replace 16 with (8 * 2) by ring. apply Rmult_le_compat; try apply Rabs_pos; tauto. }
  destruct (fmul_correct 53 1024 (fdiv (fsub s a) d) half_pi F2 eq_refl) as [E3 _]. { apply BIG. exact Q3. }
  assert (X3 : Rabs (B2R (fmul (fdiv (fsub s a) d) half_pi) - B2R (fdiv (fsub s a) d) * h) <= / 1125899906842624). { rewrite E3. apply (rnd_error 53 1024 _ 4); [exact Q3|lia]. }
  clear E1 E2 E3 BIG. set (r3 := B2R (fmul (fdiv (fsub s a) d) half_pi)) in *. set (r2 := B2R (fdiv (fsub s a) d)) in *. set (r1 := B2R (fsub s a)) in *.
  set (dd := B2R d) in *. set (y := (B2R s - ar) / dr).
  (* the quotient *)
  assert (X4 : Rabs (r1 / dd - y) <= 105 * / 9007199254740992).
  { assert (Y : y * dr = B2R s - ar) by (unfold y; field; lra). assert (Z : r1 / dd * dd = r1) by (field; lra). set (z := r1 / dd) in *.
    assert (Yb : -6 <= y <= 6). { apply Rabs_le_inv. unfold y, Rdiv. rewrite Rabs_mult, (Rabs_pos_eq (/ dr)) by (left; apply Rinv_0_lt_compat; lra).
      replace 6 with (2 * 3) by ring. apply Rmult_le_compat; [apply Rabs_pos|left; apply Rinv_0_lt_compat; lra|apply Rabs_le; lra|].
      rewrite <- (Rinv_inv 3). apply Rinv_le_contravar; lra. }
    assert (W : (z - y) * dd = r1 - (B2R s - ar) - y * (dd - dr)) by nra.
    assert (V : Rabs ((z - y) * dd) <= 26 * / 9007199254740992). { rewrite W. apply Rabs_le. assert (- (6 * (4 * / 9007199254740992)) <= y * (dd - dr) <= 6 * (4 * / 9007199254740992)) by (apply Rabs_le_inv; rewrite Rabs_mult; apply Rmult_le_compat; auto using Rabs_pos; [apply Rabs_le; lra|apply Rabs_le; lra]). lra. }
    rewrite Rabs_mult, (Rabs_pos_eq dd) in V by lra. pose proof (Rabs_pos (z - y)). nra. }
  assert (Yb : Rabs y <= 7).
  { apply Rabs_le. apply Rabs_le_inv in X4. unfold y. assert (Rabs ((B2R s - ar) / dr) <= 6).
    { unfold Rdiv. rewrite Rabs_mult, (Rabs_pos_eq (/ dr)) by (left; apply Rinv_0_lt_compat; lra).
      replace 6 with (2 * 3) by ring. apply Rmult_le_compat; [apply Rabs_pos|left; apply Rinv_0_lt_compat; lra|apply Rabs_le; lra|].
      rewrite <- (Rinv_inv 3). apply Rinv_le_contravar; lra. } apply Rabs_le_inv in H. lra. }
  replace (r3 - y * (PI / 2)) with ((r3 - r2 * h) + ((r2 - r1 / dd) * h + ((r1 / dd - y) * h + y * (h - PI / 2)))) by ring.
  eapply Rle_trans; [apply Rabs_triang|]. eapply Rle_trans; [apply Rplus_le_compat_l, Rabs_triang|]. eapply Rle_trans; [apply Rplus_le_compat_l, Rplus_le_compat_l, Rabs_triang|].
  rewrite !Rabs_mult, (Rabs_pos_eq h) by lra.
  assert (Rabs (r2 - r1 / dd) * h <= / 2251799813685248 * 2) by (apply Rmult_le_compat; auto using Rabs_pos; lra).
  assert (Rabs (r1 / dd - y) * h <= 105 * / 9007199254740992 * 2) by (apply Rmult_le_compat; auto using Rabs_pos; lra).
  assert (Rabs y * Rabs (h - PI / 2) <= 7 * / 9007199254740992) by (apply Rmult_le_compat; auto using Rabs_pos).
  lra.
Qed.
Lemma at_least (a s : f64) : is_finite a = true -> is_finite s = true -> fle a s = Rle_bool (B2R a) (B2R s).
Proof. intros A B. unfold fle. exact (Bleb_correct 53 1024 a s A B). Qed.
Lemma two_thirds (s : f64) : is_finite s = true -> (B2R (fdiv (flit (-2) 0) (flit 3 0) : f64) <= B2R s <-> -2/3 <= B2R s).
Proof.
  intros F. split; intros H.
  - eapply Rle_trans; [|exact H]. konst (fdiv (flit (-2) 0) (flit 3 0) : f64). lra.
  - destruct (flit_Z 53 1024 (-2) ltac:(lia)) as [A FA]. destruct (flit_Z 53 1024 3 ltac:(lia)) as [B FB].
    assert (S : Rabs (-2/3) <= 1) by (apply Rabs_le; lra).
    destruct (fdiv_correct 53 1024 (flit (-2) 0) (flit 3 0) FA) as [E _]; rewrite ?B; [lra| |].
    { rewrite A. apply (rnd_small_lt 53 1024). eapply Rle_trans; [exact S|]. change 1 with (bpow radix2 0). apply bpow_le. lia. }
    rewrite E, A, B. rewrite <- (rnd_fmt 53 1024 (B2R s) (fmt_B2R 53 1024 s)). now apply (rnd_mono 53 1024).
Qed.
Lemma plan_law l s a b th : in_range s -> pan_law l (B2R s) a b th ->
  l <> Mono /\ fst (pan_plan l s) = (a, b) /\ Rabs (B2R (snd (pan_plan l s)) - th) <= angle_error.
Proof.
  intros H L. destruct l; cbn [pan_law] in L; [destruct L| |]; (split; [discriminate|]); cbn [pan_plan].
  - assert (HL : B2R (flit (-1) (-1) : f64) = -1/2) by (konst (flit (-1) (-1) : f64); lra).
    rewrite at_least by (try reflexivity; apply H). rewrite HL.
    destruct L as [(Hs & -> & -> & ->)|(Hs & -> & -> & ->)].
    + rewrite Rle_bool_true by exact Hs. cbn [fst snd]. split; [reflexivity|].
      replace ((B2R s + 1 / 2) * (PI / 2)) with ((B2R s - (-1/2)) / 1 * (PI / 2)) by field.
      apply angle_near; auto; try lra; try (rewrite HL; apply Rabs_le; lra).
      * rewrite HL. rewrite Rminus_diag_eq, Rabs_R0 by lra. apply bpow_ge_0.
      * konst (fsub (flit 1 (-1)) (flit (-1) (-1)) : f64). rewrite Rminus_diag_eq, Rabs_R0 by lra. lra.
    + rewrite Rle_bool_false by exact Hs. cbn [fst snd]. split; [reflexivity|].
      replace ((B2R s + 1 / 2) / 3 * (PI / 2)) with ((B2R s - (-1/2)) / 3 * (PI / 2)) by field.
      apply angle_near; auto; try lra; try (rewrite HL; apply Rabs_le; lra).
      * rewrite HL. rewrite Rminus_diag_eq, Rabs_R0 by lra. apply bpow_ge_0.
      * konst (fsub (flit 2 0) (fsub (flit (-1) (-1)) (flit 1 (-1))) : f64). rewrite Rminus_diag_eq, Rabs_R0 by lra. lra.
  - assert (HL : Rabs (B2R (fdiv (flit (-2) 0) (flit 3 0) : f64) - -2/3) <= bpow radix2 (-53)). { konst (fdiv (flit (-2) 0) (flit 3 0) : f64). apply Rabs_le. lra. }
    assert (HL' : Rabs (B2R (fdiv (flit (-2) 0) (flit 3 0) : f64)) <= 1). { konst (fdiv (flit (-2) 0) (flit 3 0) : f64). apply Rabs_le. lra. }
    rewrite at_least by (try reflexivity; apply H).
    destruct L as [(Hs & -> & -> & ->)|(Hs & -> & -> & ->)].
    + rewrite Rle_bool_true by (now apply two_thirds; [apply H|]). cbn [fst snd]. split; [reflexivity|].
      replace ((B2R s + 2 / 3) * 3 * (PI / 2)) with ((B2R s - (-2/3)) / (1/3) * (PI / 2)) by field.
      apply angle_near; auto; try lra.
      konst (fsub (fdiv (flit (-1) 0) (flit 3 0)) (fdiv (flit (-2) 0) (flit 3 0)) : f64). apply Rabs_le. lra.
    + rewrite Rle_bool_false by (apply Rnot_le_lt; intros Q; apply two_thirds in Q; [lra|apply H]). cbn [fst snd]. split; [reflexivity|].
      replace ((B2R s + 2 / 3) * (3/10) * (PI / 2)) with ((B2R s - (-2/3)) / (10/3) * (PI / 2)) by field.
      apply angle_near; auto; try lra.
      konst (fsub (flit 2 0) (fsub (fdiv (flit (-2) 0) (flit 3 0)) (fdiv (flit 2 0) (flit 3 0))) : f64). apply Rabs_le. lra.
Qed.

Lemma tol_pos k e : 0 <= e -> 0 <= tolerance k e.
Proof. intros H. destruct k; cbn; try lra; apply Rplus_le_le_0_compat; auto; apply bpow_ge_0. Qed.
Lemma tol_add k e a : tolerance k e + full_scale k * a = tolerance k (e + a).
Proof. destruct k; cbn; ring. Qed.
Lemma law_levels l k t e (d s : frame l k) j x p a b th : accurate t e -> frame_valid d -> frame_valid s ->
  only d j x -> nth_error (channels s) j = Some p -> pan_law l (B2R (to_f64 p)) a b th ->
  exists out u v, mix_frames (Pan_ t) d s = Ok out /\ a <> b /\
    nth_error (channels out) a = Some u /\ nth_error (channels out) b = Some v /\
    Rabs (rval u - rval x * cos th) <= tolerance k (e + angle_error) /\
    Rabs (rval v - rval x * sin th) <= tolerance k (e + angle_error) /\
    forall i c, i <> a -> i <> b -> nth_error (channels out) i = Some c -> rval c = 0.
Proof.
  intros T Vd Vs Ho Hp L.
  assert (Vp : valid p) by exact (proj1 (Forall_forall _ _) Vs p (nth_error_In _ _ Hp)).
  assert (Vx : valid x) by exact (proj1 (Forall_forall _ _) Vd x (nth_error_In _ _ (proj1 Ho))).
  destruct (plan_law l (to_f64 p) a b th (to_f64_range k p Vp) L) as (N & E & A).
  destruct (levels l k t e d s j x p N T Vd Vs Ho Hp) as (out & M & Br).
  pose proof (plan_differ l (to_f64 p) N) as D. pose proof (pan_plan_bounds l (to_f64 p)) as [B1 B2].
  rewrite E in D, B1, B2. cbn [fst snd] in D, B1, B2.
  destruct (nth_ex l k out a B1) as (u & Hu). destruct (nth_ex l k out b B2) as (v & Hv).
  unfold brings in Br. destruct (pan_plan l (to_f64 p)) as [ab ang]. cbn [fst snd] in *. subst ab.
  pose proof (rval_full k x Vx) as F. pose proof (full_pos k) as FP.
  exists out, u, v. repeat (split; [assumption|]). split; [|split].
  - destruct (Br a u Hu) as (C & _). specialize (C eq_refl). rewrite <- tol_add.
    replace (rval u - rval x * cos th) with ((rval u - rval x * cos (B2R ang)) + rval x * (cos (B2R ang) - cos th)) by ring.
    eapply Rle_trans; [apply Rabs_triang|]. apply Rplus_le_compat; [exact C|]. rewrite Rabs_mult.
    apply Rmult_le_compat; auto using Rabs_pos. eapply Rle_trans; [apply cos_lip|exact A].
  - destruct (Br b v Hv) as (_ & C & _). specialize (C eq_refl). rewrite <- tol_add.
    replace (rval v - rval x * sin th) with ((rval v - rval x * sin (B2R ang)) + rval x * (sin (B2R ang) - sin th)) by ring.
    eapply Rle_trans; [apply Rabs_triang|]. apply Rplus_le_compat; [exact C|]. rewrite Rabs_mult.
    apply Rmult_le_compat; auto using Rabs_pos. eapply Rle_trans; [apply sin_lip|exact A].
  - intros i c Ha Hb Hc. destruct (Br i c Hc) as (_ & _ & Z). apply Z; congruence.
Qed.

(** Power. *)
Definition pw {k} (cs : list (chan k)) : R := fold_right (fun c a => rval c * rval c + a) 0 cs.
Lemma pw_zero k (cs : list (chan k)) : (forall i c, nth_error cs i = Some c -> rval c = 0) -> pw cs = 0.
Proof.
  induction cs as [|c cs IH]; intros H; [reflexivity|]. change (pw (c :: cs)) with (rval c * rval c + pw cs). rewrite (H 0%nat c eq_refl), IH; [ring|]. intros i y Hy. exact (H (S i) y Hy).
Qed.
Lemma pw_one k (cs : list (chan k)) a u : nth_error cs a = Some u -> (forall i c, i <> a -> nth_error cs i = Some c -> rval c = 0) -> pw cs = rval u * rval u.
Proof.
  revert a; induction cs as [|c cs IH]; intros a Hu H; [destruct a; discriminate|]. change (pw (c :: cs)) with (rval c * rval c + pw cs). destruct a as [|a].
  - injection Hu as ->. rewrite (pw_zero k cs); [ring|]. intros i y Hy. exact (H (S i) y ltac:(lia) Hy).
  - rewrite (IH a Hu); [|intros i y Hi Hy; exact (H (S i) y ltac:(lia) Hy)]. rewrite (H 0%nat c ltac:(lia) eq_refl). ring.
Qed.
Lemma pw_two k (cs : list (chan k)) a b u v : a <> b -> nth_error cs a = Some u -> nth_error cs b = Some v ->
  (forall i c, i <> a -> i <> b -> nth_error cs i = Some c -> rval c = 0) -> pw cs = rval u * rval u + rval v * rval v.
Proof.
  revert a b; induction cs as [|c cs IH]; intros a b D Hu Hv H; [destruct a; discriminate|]. change (pw (c :: cs)) with (rval c * rval c + pw cs). destruct a as [|a], b as [|b].
  - congruence.
  - injection Hu as ->. rewrite (pw_one k cs b v Hv); [ring|]. intros i y Hi Hy. exact (H (S i) y ltac:(lia) ltac:(lia) Hy).
  - injection Hv as ->. rewrite (pw_one k cs a u Hu); [ring|]. intros i y Hi Hy. exact (H (S i) y ltac:(lia) ltac:(lia) Hy).
  - rewrite (IH a b ltac:(lia) Hu Hv); [|intros i y Hi Hj Hy; exact (H (S i) y ltac:(lia) ltac:(lia) Hy)]. rewrite (H 0%nat c ltac:(lia) ltac:(lia) eq_refl). ring.
Qed.
Lemma law_exists l s : l <> Mono -> exists a b th, pan_law l s a b th.
Proof.
  intros N. destruct l; [congruence| |]; cbn [pan_law].
  - destruct (Rle_lt_dec (-1/2) s); do 3 eexists; [left|right]; repeat split; assumption.
  - destruct (Rle_lt_dec (-2/3) s); do 3 eexists; [left|right]; repeat split; assumption.
Qed.
Lemma constant_power l k t e (d s : frame l k) j x p : l <> Mono -> accurate t e -> frame_valid d -> frame_valid s ->
  only d j x -> nth_error (channels s) j = Some p ->
  exists out, mix_frames (Pan_ t) d s = Ok out /\
    Rabs (power out - power d) <= 2 * tolerance k (e + angle_error) * (2 * full_scale k + tolerance k (e + angle_error)).
Proof.
  intros N T Vd Vs Ho Hp. destruct (law_exists l (B2R (to_f64 p)) N) as (a & b & th & L).
  destruct (law_levels l k t e d s j x p a b th T Vd Vs Ho Hp L) as (out & u & v & M & D & Hu & Hv & Lu & Lv & Z).
  exists out. split; [exact M|]. change (power out) with (pw (channels out)). change (power d) with (pw (channels d)).
  rewrite (pw_two k _ a b u v D Hu Hv Z), (pw_one k _ j x (proj1 Ho) (proj2 Ho)).
  assert (Vx : valid x) by exact (proj1 (Forall_forall _ _) Vd x (nth_error_In _ _ (proj1 Ho))).
  pose proof (rval_full k x Vx) as F. pose proof (full_pos k) as FP. 
  assert (E0 : 0 <= tolerance k (e + angle_error)). { apply tol_pos. destruct T as [E0 _]. pose proof (bpow_ge_0 radix2 (-45)). unfold angle_error. lra. }
  set (to := tolerance k (e + angle_error)) in *. set (f := full_scale k) in *. set (xr := rval x) in *. set (ur := rval u) in *. set (vr := rval v) in *.
  assert (SQ : forall y g, Rabs (y - xr * g) <= to -> Rabs g <= 1 -> Rabs (y * y - xr * g * (xr * g)) <= to * (2 * f + to)).
  { intros y g H G. replace (y * y - xr * g * (xr * g)) with ((y - xr * g) * ((y - xr * g) + 2 * (xr * g))) by ring.
    rewrite Rabs_mult. apply Rmult_le_compat; auto using Rabs_pos. eapply Rle_trans; [apply Rabs_triang|].
    rewrite !Rabs_mult, (Rabs_pos_eq 2) by lra.
    assert (Rabs xr * Rabs g <= f * 1) by (apply Rmult_le_compat; auto using Rabs_pos). lra. }
  assert (P1 := SQ ur (cos th) Lu ltac:(apply Rabs_le, COS_bound)). assert (P2 := SQ vr (sin th) Lv ltac:(apply Rabs_le, SIN_bound)).
  pose proof (sin2_cos2 th) as S. unfold Rsqr in S.
  replace (ur * ur + vr * vr - xr * xr) with ((ur * ur - xr * cos th * (xr * cos th)) + (vr * vr - xr * sin th * (xr * sin th))).
  2:{ transitivity (ur * ur + vr * vr - xr * xr * (sin th * sin th + cos th * cos th)); [ring|]. rewrite S. ring. }
  eapply Rle_trans; [apply Rabs_triang|]. lra.
Qed.

(** Stereo, position by position. *)
Lemma stereo_out k (out : frame Stereo k) u v : nth_error (channels out) 0 = Some u -> nth_error (channels out) 1 = Some v -> channels out = [u; v].
Proof. frame_cases out. cbn. intros H1 H2. injection H1 as ->. injection H2 as ->. reflexivity. Qed.
Lemma centre k t e (d s : frame Stereo k) j x p : accurate t e -> frame_valid d -> frame_valid s ->
  only d j x -> nth_error (channels s) j = Some p -> -1/2 <= B2R (to_f64 p) ->
  exists out u v, mix_frames (Pan_ t) d s = Ok out /\ channels out = [u; v] /\
    Rabs (rval u - rval v) <= 2 * tolerance k (e + angle_error) + 4 * Rabs (B2R (to_f64 p)) * full_scale k.
Proof.
  intros T Vd Vs Ho Hp H. set (q := B2R (to_f64 p)) in *.
  destruct (law_levels Stereo k t e d s j x p 0 1 ((q + 1/2) * (PI / 2)) T Vd Vs Ho Hp) as (out & u & v & M & D & Hu & Hv & Lu & Lv & Z); [left; repeat split; exact H|].
  exists out, u, v. split; [exact M|]. split; [now apply stereo_out|].
  assert (Vx : valid x) by exact (proj1 (Forall_forall _ _) Vd x (nth_error_In _ _ (proj1 Ho))).
  pose proof (rval_full k x Vx) as F. pose proof pi_rough as PR.
  set (th := (q + 1/2) * (PI / 2)) in *.
  assert (TH : Rabs (th - PI / 4) <= 2 * Rabs q). { replace (th - PI / 4) with (q * (PI / 2)) by (unfold th; field). rewrite Rabs_mult, (Rabs_pos_eq (PI / 2)) by lra. pose proof (Rabs_pos q). nra. }
  pose proof (cos_lip th (PI / 4)) as C. pose proof (sin_lip th (PI / 4)) as S. 
  assert (E : cos (PI / 4) = sin (PI / 4)) by (rewrite cos_PI4, sin_PI4; reflexivity). rewrite E in C.
  replace (rval u - rval v) with ((rval u - rval x * cos th) - (rval v - rval x * sin th) + rval x * ((cos th - sin (PI / 4)) - (sin th - sin (PI / 4)))) by ring.
  eapply Rle_trans; [apply Rabs_triang|]. apply Rplus_le_compat.
  - apply Rabs_le. apply Rabs_le_inv in Lu, Lv. lra.
  - rewrite Rabs_mult, Rmult_comm. apply Rmult_le_compat; auto using Rabs_pos. apply Rabs_le. apply Rabs_le_inv in C, S. lra.
Qed.
Lemma hard_left k t e (d s : frame Stereo k) j x p : accurate t e -> frame_valid d -> frame_valid s ->
  only d j x -> nth_error (channels s) j = Some p -> B2R (to_f64 p) < -1/2 ->
  exists out u v, mix_frames (Pan_ t) d s = Ok out /\ channels out = [u; v] /\
    Rabs (rval u) <= 3/10 * Rabs (rval x) + tolerance k (e + angle_error) /\
    19/20 * Rabs (rval x) - tolerance k (e + angle_error) <= Rabs (rval v).
Proof.
  intros T Vd Vs Ho Hp H. assert (Vp : valid p) by exact (proj1 (Forall_forall _ _) Vs p (nth_error_In _ _ Hp)).
  pose proof (to_f64_range k p Vp) as [_ R]. set (q := B2R (to_f64 p)) in *.
  destruct (law_levels Stereo k t e d s j x p 1 0 ((q + 1/2) / 3 * (PI / 2)) T Vd Vs Ho Hp) as (out & v & u & M & D & Hv & Hu & Lv & Lu & Z); [right; repeat split; exact H|].
  exists out, u, v. split; [exact M|]. split; [now apply stereo_out|].
  pose proof pi_rough as PR. set (th := (q + 1/2) / 3 * (PI / 2)) in *.
  assert (TH : -27/100 <= th <= 0). { unfold th. nra. }
  assert (S : Rabs (sin th) <= 3/10). { eapply Rle_trans; [apply sin_abs|]. apply Rabs_le. lra. }
  assert (C : 19/20 <= cos th).
  { assert (0 <= cos th) by (apply cos_ge_0; lra). pose proof (sin2_cos2 th) as Q. unfold Rsqr in Q. apply Rabs_le_inv in S. nra. }
  split.
  - replace (rval u) with ((rval u - rval x * sin th) + rval x * sin th) by ring. eapply Rle_trans; [apply Rabs_triang|].
    rewrite (Rabs_mult (rval x)). pose proof (Rabs_pos (rval x)). nra.
  - assert (A : Rabs (rval x * cos th) <= Rabs (rval v) + tolerance k (e + angle_error)).
    { replace (rval x * cos th) with (rval v + - (rval v - rval x * cos th)) by ring. eapply Rle_trans; [apply Rabs_triang|]. rewrite Rabs_Ropp. lra. }
    rewrite Rabs_mult, (Rabs_pos_eq (cos th)) in A by lra. pose proof (Rabs_pos (rval x)). nra.
Qed.
Lemma hard_right k t e (d s : frame Stereo k) j x p : accurate t e -> frame_valid d -> frame_valid s ->
  only d j x -> nth_error (channels s) j = Some p -> 3/4 <= B2R (to_f64 p) ->
  exists out u v, mix_frames (Pan_ t) d s = Ok out /\ channels out = [u; v] /\
    rval u * rval x <= - (3/10) * (rval x * rval x) + tolerance k (e + angle_error) * Rabs (rval x).
Proof.
  intros T Vd Vs Ho Hp H. assert (Vp : valid p) by exact (proj1 (Forall_forall _ _) Vs p (nth_error_In _ _ Hp)).
  pose proof (to_f64_range k p Vp) as [_ R]. set (q := B2R (to_f64 p)) in *.
  assert (H0 : -1/2 <= q) by lra.
  destruct (law_levels Stereo k t e d s j x p 0 1 ((q + 1/2) * (PI / 2)) T Vd Vs Ho Hp) as (out & u & v & M & D & Hu & Hv & Lu & Lv & Z); [left; split; [exact H0|repeat split]|].
  exists out, u, v. split; [exact M|]. split; [now apply stereo_out|].
  pose proof pi_rough as PR. set (th := (q + 1/2) * (PI / 2)) in *.
  assert (TH : 5/8 * PI <= th <= 3/4 * PI). { unfold th. nra. }
  (* cos th = - sin (th - pi/2), and sin grows from 3/8 at pi/8 on *)
  assert (S : sin (PI / 8) >= 3/10).
  { assert (E : sin (PI / 4) = 2 * sin (PI / 8) * cos (PI / 8)) by (replace (PI / 4) with (2 * (PI / 8)) by field; apply sin_2a).
    rewrite sin_PI4 in E. assert (Q : 0 <= sqrt 2) by apply sqrt_pos. assert (Q2 : sqrt 2 * sqrt 2 = 2) by (apply sqrt_sqrt; lra).
    assert (Q3 : 1 < sqrt 2 <= 3/2) by nra. assert (I : 1 / sqrt 2 * sqrt 2 = 1) by (field; lra). set (z := 1 / sqrt 2) in *.
    assert (2/3 <= z) by nra. assert (0 <= sin (PI / 8)) by (apply sin_ge_0; lra). pose proof (COS_bound (PI / 8)). nra. }
  assert (C : cos th <= - (3/10)).
  { replace th with (PI / 2 + (th - PI / 2)) by ring.
    assert (E : cos (PI / 2 + (th - PI / 2)) = - sin (th - PI / 2)) by (rewrite (sin_cos (th - PI / 2)); ring). rewrite E.
    assert (sin (PI / 8) <= sin (th - PI / 2)) by (apply sin_incr_1; lra). lra. }
  replace (rval u * rval x) with ((rval u - rval x * cos th) * rval x + cos th * (rval x * rval x)) by ring.
  assert (A : (rval u - rval x * cos th) * rval x <= tolerance k (e + angle_error) * Rabs (rval x)).
  { eapply Rle_trans; [apply Rle_abs|]. rewrite Rabs_mult. apply Rmult_le_compat_r; [apply Rabs_pos|exact Lu]. }
  assert (0 <= rval x * rval x) by nra. nra.
Qed.

(** Correctly rounded functions exist. *)
Definition rounded (r : R) : f64 := flit (ZnearestE (r * bpow radix2 52)) (-52).
Definition rounded_trig : trig := mkTrig (fun a => rounded (cos (B2R a))) (fun a => rounded (sin (B2R a))).
Lemma rounded_ok r : -1 <= r <= 1 -> in_range (rounded r) /\ Rabs (B2R (rounded r) - r) <= bpow radix2 (-53).
Proof.
  intros H. unfold rounded. set (m := ZnearestE (r * bpow radix2 52)).
  assert (B : (- 2 ^ 52 <= m <= 2 ^ 52)%Z).
  { assert (L : (ZnearestE (IZR (- 2 ^ 52)) <= m)%Z) by (apply (@Zrnd_le ZnearestE (valid_rnd_N _)); change (bpow radix2 52) with (IZR (2 ^ 52)); rewrite opp_IZR; assert (0 < IZR (2 ^ 52)) by (apply IZR_lt; lia); nra).
    assert (U : (m <= ZnearestE (IZR (2 ^ 52)))%Z) by (apply (@Zrnd_le ZnearestE (valid_rnd_N _)); change (bpow radix2 52) with (IZR (2 ^ 52)); assert (0 < IZR (2 ^ 52)) by (apply IZR_lt; lia); nra).
    rewrite (@Zrnd_IZR ZnearestE (valid_rnd_N _)) in L, U. lia. }
  assert (BR : -1 <= IZR m * bpow radix2 (-52) <= 1). { destruct B as [B1 B2]. apply IZR_le in B1, B2. change (bpow radix2 (-52)) with (/ 4503599627370496). change (2 ^ 52)%Z with 4503599627370496%Z in *. change (- (4503599627370496))%Z with (-4503599627370496)%Z in *. lra. }
  destruct (flit_correct 53 1024 m (-52)) as [E F].
  - apply (fmt_F2R 53 1024); lia.
  - unfold F2R. cbn [Fnum Fexp]. apply Rle_lt_trans with 1; [apply Rabs_le; lra|apply (one_lt_emax 53 1024)].
  - split; [split; [exact F|rewrite E; exact BR]|]. rewrite E. unfold F2R. cbn [Fnum Fexp].
    pose proof (Znearest_half (fun x => negb (Z.even x)) (r * bpow radix2 52)) as N. fold m in N.
    replace (IZR m * bpow radix2 (-52) - r) with (- ((r * bpow radix2 52 - IZR m) * bpow radix2 (-52))).
    2:{ rewrite Rmult_minus_distr_r, Rmult_assoc, <- bpow_plus. change (bpow radix2 (52 + -52)) with 1. ring. }
    rewrite Rabs_Ropp, Rabs_mult, (Rabs_pos_eq (bpow radix2 (-52))) by apply bpow_ge_0.
    change (-53)%Z with (-1 + -52)%Z. rewrite bpow_plus. apply Rmult_le_compat_r; [apply bpow_ge_0|]. exact N.
Qed.
Lemma rounded_accurate : accurate rounded_trig (bpow radix2 (-53)).
Proof.
  split; [apply bpow_ge_0|]. intros a _. cbn [rounded_trig t_cos t_sin].
  destruct (rounded_ok _ (COS_bound (B2R a))) as [C1 C2], (rounded_ok _ (SIN_bound (B2R a))) as [S1 S2]. auto.
Qed.
