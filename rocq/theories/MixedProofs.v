(** * MixedProofs.v -- operands of other types and interpolation (C61, C62) *)
From Coq Require Import ZArith NArith Reals List Lia Bool Lra.
From Flocq Require Import Core.Core IEEE754.BinarySingleNaN.
From Verif Require Import Rust Float Math Chan Frame SpecChan SpecFrame SpecStream SpecSink SpecAudio SpecMore.
From Verif Require Import IntProofs FloatProofs FloorProofs ConvProofs FArithProofs ChanProofs FChanProofs FrameProofs StreamProofs SinkProofs CopyProofs.
Import ListNotations.
Open Scope Z_scope.

(** ** Integer operands *)
Lemma int_mixed :
  (forall (a : chan K16) (b : chan K8),
     sv (op_add a (OChan K8 b)) = clampZ (-32768) 32767 (sv a + (257 * sv b + 128)) /\
     sv (op_sub a (OChan K8 b)) = clampZ (-32768) 32767 (sv a - (257 * sv b + 128)) /\
     exists c, op_mul a (OChan K8 b) = Ok c /\ sv c = clampZ (-32768) 32767 (Z.quot (sv a * (257 * sv b + 128)) 32767)) /\
  (forall (a : chan K8) (b : chan K16),
     sv (op_add a (OChan K16 b)) = clampZ (-128) 127 (sv a + sv b / 256) /\
     sv (op_sub a (OChan K16 b)) = clampZ (-128) 127 (sv a - sv b / 256) /\
     exists c, op_mul a (OChan K16 b) = Ok c /\ sv c = clampZ (-128) 127 (Z.quot (sv a * (sv b / 256)) 127)).
Proof.
  destruct add_int_spec as (A8 & S8 & A16 & S16), mul_int_spec as (M8 & M16).
  split; intros a b; unfold op_add, op_sub, op_mul; cbn [into].
  - assert (E : sv (chan_from K8 K16 b : chan K16) = 257 * sv b + 128) by (apply widen_spec).
    rewrite <- E. split; [apply A16|]. split; [apply S16|apply M16].
  - assert (E : sv (chan_from K16 K8 b : chan K8) = sv b / 256) by (apply narrow_spec).
    rewrite <- E. split; [apply A8|]. split; [apply S8|apply M8].
Qed.
(** Division by an operand of another integer type; the only panic. *)
Lemma div_mixed :
  (forall (a : chan K16) (b : chan K8), exists c, op_div a (OChan K8 b) = Ok c /\
     sv c = clampZ (-32768) 32767 (Z.quot (65536 * sv a) (257 * sv b + 128))) /\
  (forall (a : chan K8) (b : chan K16), exists c, op_div a (OChan K16 b) = Ok c /\
     sv c = if sv b / 256 =? 0 then 127 else clampZ (-128) 127 (Z.quot (256 * sv a) (sv b / 256))).
Proof.
  split; intros a b; unfold op_div; cbn [into].
  - assert (E : sv (chan_from K8 K16 b : chan K16) = 257 * sv b + 128) by (apply widen_spec).
    destruct (div16_spec a (chan_from K8 K16 b)) as (c & Ec & Vc); [rewrite E; lia|].
    exists c. split; [exact Ec|]. rewrite Vc, E. destruct (Z.eqb_spec (257 * sv b + 128) 0); [lia|reflexivity].
  - assert (E : sv (chan_from K16 K8 b : chan K8) = sv b / 256) by (apply narrow_spec).
    destruct (div8_spec a (chan_from K16 K8 b)) as (c & Ec & Vc). exists c. split; [exact Ec|]. now rewrite Vc, E.
Qed.

(** ** Full scale and silence *)
Lemma from_max h k : chan_from h k (MAX h) = MAX k.
Proof. destruct h, k; try reflexivity; (apply sint_eq || apply B2SF_inj); vm_compute; reflexivity. Qed.
Lemma mul_full h k (a : chan k) : fin a = true -> op_mul a (OChan h (MAX h)) = Ok a.
Proof. intros F. unfold op_mul. cbn [into]. rewrite from_max. now apply mul_max_all. Qed.
Lemma from_silence h k : is_float h -> chan_from h k (MID h) = MID k.
Proof. intros [-> | ->]; destruct k; try reflexivity; (apply sint_eq || apply B2SF_inj); vm_compute; reflexivity. Qed.
Lemma add_silence h k (a : chan k) : is_float h -> valid a -> rval (op_add a (OChan h (MID h))) = rval a /\ rval (op_sub a (OChan h (MID h))) = rval a.
Proof.
  intros Hh V. unfold op_add, op_sub. cbn [into]. rewrite (from_silence h k Hh). split; [now apply add_mid_all|].
  destruct k.
  - cbn [rval]. f_equal. destruct (add_int_laws K8 (or_introl eq_refl) a a a) as (_ & _ & E & _). exact (f_equal (fun c : chan K8 => sv c) E).
  - cbn [rval]. f_equal. destruct (add_int_laws K16 (or_intror eq_refl) a a a) as (_ & _ & E & _). exact (f_equal (fun c : chan K16 => sv c) E).
  - destruct (float_ops_value K32 (or_introl eq_refl) a (MID K32)) as (_ & E & _); [apply V|reflexivity|].
    rewrite E. change (rval (MID K32)) with 0%R. rewrite Rminus_0_r.
    cbn [round_k]. unfold round32. rewrite (rnd_fmt 24 128) by apply (fmt_B2R 24 128). apply clampR_id. apply V.
  - destruct (float_ops_value K64 (or_intror eq_refl) a (MID K64)) as (_ & E & _); [apply V|reflexivity|].
    rewrite E. change (rval (MID K64)) with 0%R. rewrite Rminus_0_r.
    cbn [round_k]. unfold round64. rewrite (rnd_fmt 53 1024) by apply (fmt_B2R 53 1024). apply clampR_id. apply V.
Qed.

(** ** Integer operands of float channels *)
Lemma clampR_lip x y d : (Rabs (x - y) <= d -> Rabs (clampR x - clampR y) <= d)%R.
Proof.
  intros H. apply Rabs_le_inv in H. apply Rabs_le.
  unfold clampR. repeat (destruct Rlt_dec); lra.
Qed.
Lemma float_plus_int prec emax {Hp : FLX.Prec_gt_0 prec} {He : Prec_lt_emax prec emax} (r v w : R) :
  (0 <= emax - 4)%Z -> (-1 <= r <= 1)%R -> (-1 <= v <= 1)%R -> (Rabs (v - w) <= 3 * bpow radix2 (- prec))%R ->
  (Rabs (clampR (round_to prec emax (r + v)) - clampR (r + w)) <= bpow radix2 (2 - prec))%R.
Proof.
  intros He4 Hr Hv Hw. apply clampR_lip.
  assert (H2 : (Rabs (r + v) <= bpow radix2 1)%R) by (change (bpow radix2 1) with 2%R; apply Rabs_le; lra).
  pose proof (rnd_error prec emax (r + v) 1 H2 ltac:(pose proof (prec_emax prec emax); lia)) as E.
  replace (1 - prec - 1) with (- prec) in E by lia.
  replace (2 - prec) with (2 + - prec) by lia. rewrite bpow_plus. change (bpow radix2 2) with 4%R.
  apply Rabs_le_inv in E, Hw. apply Rabs_le. lra.
Qed.
Lemma float_int_mixed k h (a : chan k) (b : chan h) : is_float k -> is_int h -> valid a ->
  (Rabs (rval (op_add a (OChan h b)) - clampR (rval a + meaning b)) <= bpow radix2 (2 - prec_k k) /\
   Rabs (rval (op_sub a (OChan h b)) - clampR (rval a - meaning b)) <= bpow radix2 (2 - prec_k k))%R.
Proof.
  intros Hk Hh V. unfold op_add, op_sub. cbn [into].
  assert (C : fin (chan_from h k b) = true /\ (-1 <= rval (chan_from h k b) <= 1)%R /\
    (Rabs (rval (chan_from h k b) - meaning b) <= 3 * bpow radix2 (- prec_k k))%R).
  { destruct to_float_accuracy as [A8 A16]. 
    destruct Hh as [-> | ->]; destruct Hk as [-> | ->].
    - destruct (to64_range K8 (or_introl eq_refl) b) as [_ R]. split; [apply R|]. split; [apply R|apply (A8 b)].
    - destruct (to64_range K8 (or_introl eq_refl) b) as [R _]. split; [apply R|]. split; [apply R|apply (A8 b)].
    - destruct (to64_range K16 (or_intror eq_refl) b) as [_ R]. split; [apply R|]. split; [apply R|apply (A16 b)].
    - destruct (to64_range K16 (or_intror eq_refl) b) as [R _]. split; [apply R|]. split; [apply R|apply (A16 b)]. }
  destruct C as (F & R & E). set (c := chan_from h k b) in *. set (w := meaning b) in *.
  assert (Va : fin a = true /\ (-1 <= rval a <= 1)%R) by (destruct Hk as [-> | ->]; exact V).
  destruct Va as [Fa Ra]. destruct (float_ops_value k Hk a c Fa F) as (Ea & Es & _). rewrite Ea, Es.
  assert (E' : (Rabs (- rval c - - w) <= 3 * bpow radix2 (- prec_k k))%R) by (rewrite <- Rabs_Ropp in E; replace (- rval c - - w)%R with (- (rval c - w))%R by ring; exact E).
  assert (R' : (-1 <= - rval c <= 1)%R) by lra.
  destruct Hk as [-> | ->]; cbn [round_k prec_k] in *.
  - split; [exact (float_plus_int 24 128 _ _ _ ltac:(lia) Ra R E)|exact (float_plus_int 24 128 _ _ _ ltac:(lia) Ra R' E')].
  - split; [exact (float_plus_int 53 1024 _ _ _ ltac:(lia) Ra R E)|exact (float_plus_int 53 1024 _ _ _ ltac:(lia) Ra R' E')].
Qed.

(** ** Raw [f32] operands are clamped before the operation *)
Lemma raw_mixed (a : chan K32) (v : f32) : valid a -> is_finite v = true ->
  rval (op_add a (ORaw (v : raw_operand K32))) = clampR (round32 (rval a + clampR (B2R v))) /\
  rval (op_sub a (ORaw (v : raw_operand K32))) = clampR (round32 (rval a - clampR (B2R v))) /\
  exists c, op_mul a (ORaw (v : raw_operand K32)) = Ok c /\ rval c = round32 (rval a * clampR (B2R v)).
Proof.
  intros V F. unfold op_add, op_sub, op_mul. cbn [into from_raw].
  destruct (proj1 float_new_valid v) as (N1 & _ & N2). specialize (N2 F). change (ch32_new v) with (ch32_new v : chan K32).
  destruct (float_ops_value K32 (or_introl eq_refl) a (ch32_new v : chan K32)) as (A & S & _); [apply V|apply N1|].
  destruct (float_mul_valid K32 (or_introl eq_refl) a (ch32_new v : chan K32) V N1) as (p & Ep & _ & Vp).
  rewrite A, S. cbn [rval round_k] in *. rewrite N2 in *. split; [reflexivity|]. split; [reflexivity|]. exists p. now split.
Qed.

(** ** Interpolation (C62) *)
Lemma leb_rval k (a b : chan k) : valid a -> valid b -> (c_leb a b = true <-> (rval a <= rval b)%R).
Proof.
  intros A B. destruct k; cbn [c_leb rval valid] in *.
  - rewrite Z.leb_le. split; [apply IZR_le|apply le_IZR].
  - rewrite Z.leb_le. split; [apply IZR_le|apply le_IZR].
  - apply (fle_correct 24 128); [apply A|apply B].
  - apply (fle_correct 53 1024); [apply A|apply B].
Qed.
Lemma clampZ_mono lo hi x y : lo <= hi -> x <= y -> clampZ lo hi x <= clampZ lo hi y.
Proof. intros. rewrite !clampZ_minmax by assumption. lia. Qed.
Lemma quot_mono x y d : 0 < d -> x <= y -> Z.quot x d <= Z.quot y d.
Proof. intros. now apply Z.quot_le_mono. Qed.
Lemma lerp8 (a b t : chan K8) : exists c, c_lerp a b t = Ok c /\
  sv c = clampZ (-128) 127 (sv a + clampZ (-128) 127 (Z.quot (sv t * clampZ (-128) 127 (sv b - sv a)) 127)).
Proof.
  destruct add_int_spec as (A & S & _), mul_int_spec as (M & _). unfold c_lerp.
  destruct (M t (c_sub b a)) as (p & Ep & Vp). rewrite Ep. cbn [bind]. eexists. split; [reflexivity|]. now rewrite A, Vp, S.
Qed.
Lemma lerp16 (a b t : chan K16) : exists c, c_lerp a b t = Ok c /\
  sv c = clampZ (-32768) 32767 (sv a + clampZ (-32768) 32767 (Z.quot (sv t * clampZ (-32768) 32767 (sv b - sv a)) 32767)).
Proof.
  destruct add_int_spec as (_ & _ & A & S), mul_int_spec as (_ & M). unfold c_lerp.
  destruct (M t (c_sub b a)) as (p & Ep & Vp). rewrite Ep. cbn [bind]. eexists. split; [reflexivity|]. now rewrite A, Vp, S.
Qed.
Lemma lerp_float k (a b t : chan k) : is_float k -> valid a -> valid b -> valid t -> exists c, c_lerp a b t = Ok c /\ valid c /\
  rval c = clampR (round_k k (rval a + round_k k (rval t * clampR (round_k k (rval b - rval a))))).
Proof.
  intros Hk A B T. assert (Fi : forall x : chan k, valid x -> fin x = true) by (destruct Hk as [-> | ->]; intros x X; apply X).
  unfold c_lerp. destruct (float_ops_valid k Hk b a) as (_ & V & _).
  destruct (float_mul_valid k Hk t (c_sub b a) T V) as (p & Ep & Vp & Rp). rewrite Ep. cbn [bind]. eexists. split; [reflexivity|].
  split; [apply (float_ops_valid k Hk a p)|].
  destruct (float_ops_value k Hk a p (Fi _ A) (Fi _ Vp)) as (E & _). rewrite E, Rp.
  destruct (float_ops_value k Hk b a (Fi _ B) (Fi _ A)) as (_ & E' & _). now rewrite E'.
Qed.
Lemma round_k_le k x y : is_float k -> (x <= y)%R -> (round_k k x <= round_k k y)%R.
Proof.
  intros [-> | ->] H; cbn [round_k]; unfold round32, round64, round_to; apply round_le; auto with typeclass_instances.
Qed.
Lemma round_k_0 k : is_float k -> round_k k 0 = 0%R.
Proof. intros [-> | ->]; [apply (rnd_0 24 128)|apply (rnd_0 53 1024)]. Qed.
Lemma lerp_int_mono lo hi m a b t u : lo <= 0 <= hi -> 0 < m -> t <= u ->
  let f t := clampZ lo hi (a + clampZ lo hi (Z.quot (t * clampZ lo hi (b - a)) m)) in
  (a <= b -> f t <= f u) /\ (b <= a -> f u <= f t).
Proof.
  intros H M Htu f. unfold f. rewrite !clampZ_minmax by lia. set (d := Z.max lo (Z.min hi (b - a))).
  split; intros Hab.
  - assert (Q : Z.quot (t * d) m <= Z.quot (u * d) m) by (apply quot_mono; nia). lia.
  - assert (Q : Z.quot (u * d) m <= Z.quot (t * d) m) by (apply quot_mono; nia). lia.
Qed.
(** From [a <= b] the result rises with [t], from [b <= a] it falls. *)
Lemma lerp_monotone k (a b t u x y : chan k) : valid a -> valid b -> valid t -> valid u ->
  c_lerp a b t = Ok x -> c_lerp a b u = Ok y -> c_leb t u = true ->
  (c_leb a b = true -> c_leb x y = true) /\ (c_leb b a = true -> c_leb y x = true).
Proof.
  intros A B T U Ex Ey Htu. destruct (kind_cases k) as [Hk|Hk].
  - destruct Hk as [-> | ->]; cbn [c_leb] in *; rewrite !Z.leb_le in *.
    + destruct (lerp8 a b t) as (x' & Ex' & Vx), (lerp8 a b u) as (y' & Ey' & Vy).
      assert (x' = x) by congruence. assert (y' = y) by congruence. subst x' y'. rewrite Vx, Vy. apply lerp_int_mono; lia.
    + destruct (lerp16 a b t) as (x' & Ex' & Vx), (lerp16 a b u) as (y' & Ey' & Vy).
      assert (x' = x) by congruence. assert (y' = y) by congruence. subst x' y'. rewrite Vx, Vy. apply lerp_int_mono; lia.
  - destruct (lerp_float k a b t Hk A B T) as (x' & Ex' & VX & Vx), (lerp_float k a b u Hk A B U) as (y' & Ey' & VY & Vy).
    assert (x' = x) by congruence. assert (y' = y) by congruence. subst x' y'.
    rewrite !leb_rval in * by assumption. rewrite Vx, Vy. set (d := clampR (round_k k (rval b - rval a))).
    split; intros Hab.
    + assert (D : (0 <= d)%R).
      { rewrite <- (clampR_id 0) by lra. apply clampR_mono. rewrite <- (round_k_0 k Hk). apply round_k_le; [exact Hk|lra]. }
      apply clampR_mono, round_k_le; [exact Hk|]. apply Rplus_le_compat_l, round_k_le; [exact Hk|]. nra.
    + assert (D : (d <= 0)%R).
      { rewrite <- (clampR_id 0) by lra. apply clampR_mono. rewrite <- (round_k_0 k Hk). apply round_k_le; [exact Hk|lra]. }
      apply clampR_mono, round_k_le; [exact Hk|]. apply Rplus_le_compat_l, round_k_le; [exact Hk|]. nra.
Qed.
(** Integer interpolation by a non-negative weight stays between its end points. *)
Lemma lerp_int_between lo hi a b t : lo <= 0 < hi -> 0 <= t <= hi -> lo <= a <= hi -> lo <= b <= hi ->
  let r := clampZ lo hi (a + clampZ lo hi (Z.quot (t * clampZ lo hi (b - a)) hi)) in
  Z.min a b <= r <= Z.max a b.
Proof.
  intros H T A B r. unfold r. rewrite !clampZ_minmax by lia. set (d := Z.max lo (Z.min hi (b - a))).
  destruct (Z.le_ge_cases 0 d) as [D|D].
  - pose proof (Z.quot_pos (t * d) hi ltac:(nia) ltac:(lia)).
    assert (Z.quot (t * d) hi <= d). { apply Z.quot_le_upper_bound; nia. } lia.
  - assert (E : Z.quot (t * d) hi = - Z.quot (t * - d) hi).
    { replace (t * d) with (- (t * - d)) by ring. apply Z.quot_opp_l. lia. }
    pose proof (Z.quot_pos (t * - d) hi ltac:(nia) ltac:(lia)).
    assert (Z.quot (t * - d) hi <= - d). { apply Z.quot_le_upper_bound; nia. } lia.
Qed.
Lemma lerp_between k (a b t : chan k) : is_int k -> c_leb (MID k) t = true -> exists x, c_lerp a b t = Ok x /\
  ((c_leb a b = true -> c_leb a x = true /\ c_leb x b = true) /\ (c_leb b a = true -> c_leb b x = true /\ c_leb x a = true)).
Proof.
  intros [-> | ->]; cbn [c_leb MID]; rewrite !Z.leb_le; intros T.
  - destruct (lerp8 a b t) as (x & Ex & Vx). exists x. split; [exact Ex|]. rewrite !Z.leb_le, Vx.
    pose proof (i8_range a). pose proof (i8_range b). pose proof (i8_range t). change (sv ch8_MID) with 0 in T.
    pose proof (lerp_int_between (-128) 127 (sv a) (sv b) (sv t) ltac:(lia) ltac:(lia) ltac:(lia) ltac:(lia)) as L. cbv zeta in L. lia.
  - destruct (lerp16 a b t) as (x & Ex & Vx). exists x. split; [exact Ex|]. rewrite !Z.leb_le, Vx.
    pose proof (i16_range a). pose proof (i16_range b). pose proof (i16_range t). change (sv ch16_MID) with 0 in T.
    pose proof (lerp_int_between (-32768) 32767 (sv a) (sv b) (sv t) ltac:(lia) ltac:(lia) ltac:(lia) ltac:(lia)) as L. cbv zeta in L. lia.
Qed.
(** Float interpolation overshoots by at most one rounding. *)
Lemma lerp_between_float k (a b t : chan k) : is_float k -> valid a -> valid b -> valid t -> c_leb (MID k) t = true ->
  exists x, c_lerp a b t = Ok x /\ valid x /\
  ((c_leb a b = true -> c_leb a x = true /\ rval x <= rval b + bpow radix2 (1 - prec_k k)) /\
   (c_leb b a = true -> c_leb x a = true /\ rval b - bpow radix2 (1 - prec_k k) <= rval x))%R.
Proof.
  intros Hk A B T H0. destruct (lerp_float k a b t Hk A B T) as (x & Ex & VX & Vx). exists x. split; [exact Ex|]. split; [exact VX|].
  assert (VM : valid (MID k)) by (rewrite MID_default; apply default_valid).
  assert (VF : valid (MAX k)).
  { destruct Hk as [-> | ->]; (split; [reflexivity|]); [change (B2R (MAX K32 : f32)) with (rval (MAX K32))|change (B2R (MAX K64 : f64)) with (rval (MAX K64))]; cbn; unfold F2R; cbn; lra. }
  assert (H1 : c_leb t (MAX k) = true).
  { apply leb_rval; [assumption..|]. destruct Hk as [-> | ->]; (eapply Rle_trans; [apply T|]); cbn; unfold F2R; cbn; lra. }
  destruct (lerp_mid_float k Hk a b A B) as (x0 & E0 & Q0). destruct (lerp_float k a b (MAX k) Hk A B VF) as (x1 & E1 & V1 & R1).
  destruct (lerp_float k a b (MID k) Hk A B VM) as (x0' & E0' & V0 & _). assert (x0' = x0) by congruence. subst x0'.
  assert (Q : rval x0 = rval a).
  { destruct Hk as [-> | ->]; [apply (feq_correct 24 128) in Q0|apply (feq_correct 53 1024) in Q0]; auto; first [apply V0|apply A]. }
  destruct (lerp_monotone k a b _ _ _ _ A B VM T E0 Ex H0) as [M1 M2].
  destruct (lerp_monotone k a b _ _ _ _ A B T VF Ex E1 H1) as [N1 N2].
  rewrite !leb_rval in * by assumption. rewrite Q in *.
  assert (End : (rval a <= rval b -> rval x1 <= rval b + bpow radix2 (1 - prec_k k))%R /\
                (rval b <= rval a -> rval b - bpow radix2 (1 - prec_k k) <= rval x1)%R).
  { pose proof (bpow_gt_0 radix2 (1 - prec_k k)).
    destruct (Rle_lt_dec (Rabs (rval b - rval a)) 1) as [D|D].
    - destruct (lerp_max_float k Hk a b A B D) as (x1' & E1' & L). assert (x1' = x1) by congruence. subst x1'.
      apply Rabs_le_inv in L. lra.
    - assert (G1 : round_k k 1 = 1%R) by (destruct Hk as [-> | ->]; [apply (rnd_fmt 24 128), (fmt_1 24 128)|apply (rnd_fmt 53 1024), (fmt_1 53 1024)]).
      assert (Gm : round_k k (-1) = (-1)%R).
      { destruct Hk as [-> | ->]; cbn [round_k] in *; [unfold round32 in *; change (-1)%R with (- (1))%R; rewrite (rnd_opp 24 128), G1; lra|
          unfold round64 in *; change (-1)%R with (- (1))%R; rewrite (rnd_opp 53 1024), G1; lra]. }
      assert (Gb : round_k k (rval b) = rval b) by (destruct Hk as [-> | ->]; [apply (rnd_fmt 24 128), (fmt_B2R 24 128)|apply (rnd_fmt 53 1024), (fmt_B2R 53 1024)]).
      assert (Rb : (-1 <= rval b <= 1)%R) by (destruct Hk as [-> | ->]; apply B).
      assert (Fm : rval (MAX k) = 1%R) by (destruct Hk as [-> | ->]; cbn; unfold F2R; cbn; lra). rewrite Fm, Rmult_1_l in R1.
      split; intros Hab.
      + rewrite Rabs_pos_eq in D by lra. rewrite (clampR_ge (round_k k (rval b - rval a))) in R1.
        2:{ rewrite <- G1. apply round_k_le; [exact Hk|lra]. }
        rewrite G1 in R1. assert (rval x1 <= rval b)%R; [|lra]. rewrite R1, <- (clampR_id (rval b)), <- Gb by exact Rb.
        rewrite Gb at 1. apply clampR_mono. rewrite <- Gb. apply round_k_le; [exact Hk|lra].
      + rewrite Rabs_left1 in D by lra. rewrite (clampR_le (round_k k (rval b - rval a))) in R1.
        2:{ rewrite <- Gm. apply round_k_le; [exact Hk|lra]. }
        rewrite Gm in R1. assert (rval b <= rval x1)%R; [|lra]. rewrite R1, <- (clampR_id (rval b)), <- Gb by exact Rb.
        rewrite Gb at 1. apply clampR_mono. rewrite <- Gb. apply round_k_le; [exact Hk|lra]. }
  split; intros Hab; (split; [now auto|]); [specialize (N1 Hab)|specialize (N2 Hab)]; destruct End as [End1 End2];
    [specialize (End1 Hab)|specialize (End2 Hab)]; lra.
Qed.

(** Frames interpolate channel by channel. *)
Lemma vlerp_ok k n : forall a b t : vec (chan k) n, exists z, vlerp a b t = Ok z /\
  forall i x y w, nth_error (vlist a) i = Some x -> nth_error (vlist b) i = Some y -> nth_error (vlist t) i = Some w ->
    exists c, c_lerp x y w = Ok c /\ nth_error (vlist z) i = Some c.
Proof.
  induction n as [|n IH]; intros a b t.
  - exists tt. split; [reflexivity|]. intros [|i] x y w H; discriminate.
  - destruct a as [x a], b as [y b], t as [w t]. destruct (IH a b t) as (z & Ez & Hz), (lerp_total k x y w) as (c & Ec).
    exists (c, z). cbn [vlerp fst snd]. rewrite Ec. cbn [bind]. rewrite Ez. split; [reflexivity|].
    intros [|i] x' y' w'; cbn [vlist fst snd nth_error].
    + intros [= <-] [= <-] [= <-]. now exists c.
    + apply Hz.
Qed.
Lemma frame_lerp_channelwise l k (a b t : frame l k) : exists z, frame_lerp a b t = Ok z /\
  forall i x y w, nth_error (channels a) i = Some x -> nth_error (channels b) i = Some y -> nth_error (channels t) i = Some w ->
    exists c, c_lerp x y w = Ok c /\ nth_error (channels z) i = Some c.
Proof. apply vlerp_ok. Qed.
