(** * FChanProofs.v -- lemmas about the float channels, lerp, conversions *)
From Coq Require Import ZArith Reals Lia Lra Bool ZifyBool List.
From Flocq Require Import Core.Core IEEE754.BinarySingleNaN.
From Verif Require Import Rust Float Math Chan SpecChan IntProofs FloatProofs FloorProofs ConvProofs FArithProofs ChanProofs.
Open Scope R_scope.

(** ** Clamped results (C12) *)
Lemma float_ops_valid k : is_float k -> forall a b : chan k,
  valid (c_add a b) /\ valid (c_sub a b) /\ exists q, c_div a b = Ok q /\ valid q.
Proof.
  intros [-> | ->] a b; cbn [c_add c_sub c_div valid].
  - split; [apply (clampf_in_range 24 128)|split; [apply (clampf_in_range 24 128)|]].
    eexists; split; [reflexivity|]. apply (clampf_in_range 24 128).
  - split; [apply (clampf_in_range 53 1024)|split; [apply (clampf_in_range 53 1024)|]].
    eexists; split; [reflexivity|]. apply (clampf_in_range 53 1024).
Qed.
Lemma float_new_valid :
  (forall x : f32, in_range (ch32_new x) /\ (in_range x -> ch32_new x = x) /\
     (is_finite x = true -> B2R (ch32_new x) = clampR (B2R x))) /\
  (forall x : f64, in_range (ch64_new x) /\ (in_range x -> ch64_new x = x) /\
     (is_finite x = true -> B2R (ch64_new x) = clampR (B2R x))).
Proof.
  split; intros x.
  - split; [apply (clampf_in_range 24 128)|]. split; [exact (clampf_id 24 128 x)|exact (clampf_B2R 24 128 x)].
  - split; [apply (clampf_in_range 53 1024)|]. split; [exact (clampf_id 53 1024 x)|exact (clampf_B2R 53 1024 x)].
Qed.
Lemma float_ops_value k : is_float k -> forall a b : chan k, fin a = true -> fin b = true ->
  rval (c_add a b) = clampR (round_k k (rval a + rval b)) /\
  rval (c_sub a b) = clampR (round_k k (rval a - rval b)) /\
  (rval b <> 0 -> exists q, c_div a b = Ok q /\ rval q = clampR (round_k k (rval a / rval b))).
Proof.
  intros [-> | ->] a b Fa Fb; cbn [fin rval round_k c_add c_sub c_div] in *.
  - split; [|split].
    + exact (clamp_fadd 24 128 a b Fa Fb).
    + exact (clamp_fsub 24 128 a b Fa Fb).
    + intros H. eexists; split; [reflexivity|]. exact (clamp_fdiv 24 128 a b Fa Fb H).
  - split; [|split].
    + exact (clamp_fadd 53 1024 a b Fa Fb).
    + exact (clamp_fsub 53 1024 a b Fa Fb).
    + intros H. eexists; split; [reflexivity|]. exact (clamp_fdiv 53 1024 a b Fa Fb H).
Qed.

Lemma fdiv_zero prec emax {Hp : FLX.Prec_gt_0 prec} {He : Prec_lt_emax prec emax} (a b : binary_float prec emax) :
  is_finite a = true -> is_finite b = true -> B2R b = 0 ->
  clampf (fdiv a b) = if Req_EM_T (B2R a) 0 then flit 1 0
                      else if xorb (Bsign a) (Bsign b) then flit (-1) 0 else flit 1 0.
Proof.
  intros Fa Fb Hb. destruct b as [sb|sb| |sb mb eb Hbb]; try discriminate.
  - destruct a as [sa|sa| |sa ma ea Haa]; try discriminate.
    + cbn [fdiv Bdiv B2R]. destruct (Req_EM_T 0 0) as [_|N]; [|now elim N].
      unfold fdiv; cbn [Bdiv]. now rewrite clampf_nan.
    + unfold fdiv; cbn [Bdiv Bsign]. rewrite clampf_inf.
      destruct (Req_EM_T _ 0) as [E|_]; [|now destruct (xorb sa sb)].
      cbn [B2R] in E. apply eq_0_F2R in E. destruct sa; discriminate.
  - cbn [B2R] in Hb. apply eq_0_F2R in Hb. destruct sb; discriminate.
Qed.
Lemma float_div_zero k : is_float k -> forall a b : chan k, fin a = true -> fin b = true -> rval b = 0 ->
  (rval a = 0 -> c_div a b = Ok (MAX k)) /\
  (rval a <> 0 -> c_div a b = Ok (if xorb (negative a) (negative b) then MIN k else MAX k)).
Proof.
  intros [-> | ->] a b Fa Fb Hb; cbn [fin rval c_div negative MIN MAX] in *.
  - split; intros H; f_equal; unfold ch32_div; rewrite clamp32_eq;
      rewrite (fdiv_zero 24 128 a b Fa Fb Hb); destruct (Req_EM_T _ _); try reflexivity; contradiction.
  - split; intros H; f_equal; unfold ch64_div; rewrite clamp64_eq;
      rewrite (fdiv_zero 53 1024 a b Fa Fb Hb); destruct (Req_EM_T _ _); try reflexivity; contradiction.
Qed.

Lemma float_nan_to_max k : is_float k -> forall a b : chan k, isnan a = true \/ isnan b = true ->
  c_add a b = MAX k /\ c_sub a b = MAX k /\ c_div a b = Ok (MAX k).
Proof.
  intros [-> | ->] a b H; cbn [isnan c_add c_sub c_div MAX] in *.
  - assert (is_nan (fadd a b : f32) = true /\ is_nan (fsub a b : f32) = true /\ is_nan (fdiv a b : f32) = true) as (N1 & N2 & N3).
    { destruct H as [H|H]; [destruct a|destruct b]; try discriminate; auto; destruct a; auto. }
    split; [|split; [|f_equal]].
    + exact (clampf_nan 24 128 _ N1).
    + exact (clampf_nan 24 128 _ N2).
    + exact (clampf_nan 24 128 _ N3).
  - assert (is_nan (fadd a b : f64) = true /\ is_nan (fsub a b : f64) = true /\ is_nan (fdiv a b : f64) = true) as (N1 & N2 & N3).
    { destruct H as [H|H]; [destruct a|destruct b]; try discriminate; auto; destruct a; auto. }
    split; [|split; [|f_equal]].
    + exact (clampf_nan 53 1024 _ N1).
    + exact (clampf_nan 53 1024 _ N2).
    + exact (clampf_nan 53 1024 _ N3).
Qed.

(** ** Multiplication (C13) *)
Lemma float_mul_valid k : is_float k -> forall a b : chan k, valid a -> valid b ->
  exists p, c_mul a b = Ok p /\ valid p /\ rval p = round_k k (rval a * rval b).
Proof.
  intros [-> | ->] a b Ha Hb; cbn [valid rval round_k c_mul] in *; eexists; (split; [reflexivity|]).
  - exact (fmul_in_range 24 128 a b Ha Hb).
  - exact (fmul_in_range 53 1024 a b Ha Hb).
Qed.
Lemma float_mul_laws k : is_float k -> forall a b : chan k,
  c_mul a b = c_mul b a /\
  (fin a = true -> c_mul a (MAX k) = Ok a) /\
  (fin a = true -> exists z, c_mul a (MID k) = Ok z /\ rval z = 0).
Proof.
  intros [-> | ->] a b; cbn [valid fin rval c_mul MAX MID] in *.
  - split; [f_equal; exact (fmul_comm 24 128 a b)|]. split.
    + intros H. f_equal. exact (fmul_one 24 128 a H).
    + intros H. eexists; split; [reflexivity|].
      destruct (zero_correct 24 128) as [Z1 Z2].
      exact (proj2 (fmul_zero 24 128 a _ H Z2 Z1)).
  - split; [f_equal; exact (fmul_comm 53 1024 a b)|]. split.
    + intros H. f_equal. exact (fmul_one 53 1024 a H).
    + intros H. eexists; split; [reflexivity|].
      destruct (zero_correct 53 1024) as [Z1 Z2].
      exact (proj2 (fmul_zero 53 1024 a _ H Z2 Z1)).
Qed.

(** Addition laws for the float channels. *)
Lemma float_add_comm k : is_float k -> forall a b : chan k, c_add a b = c_add b a.
Proof.
  intros [-> | ->] a b; cbn [c_add].
  - unfold ch32_add. f_equal. exact (fadd_comm 24 128 a b).
  - unfold ch64_add. f_equal. exact (fadd_comm 53 1024 a b).
Qed.
Lemma add_comm_all k (a b : chan k) : c_add a b = c_add b a.
Proof.
  destruct k.
  - exact (proj1 (add_int_laws K8 (or_introl eq_refl) a b a)).
  - exact (proj1 (add_int_laws K16 (or_intror eq_refl) a b a)).
  - apply float_add_comm. now left.
  - apply float_add_comm. now right.
Qed.
Lemma mul_total k (a b : chan k) : exists c, c_mul a b = Ok c.
Proof.
  destruct k; cbn [c_mul]; eauto.
  - destruct (mul8_spec a b) as (c & H & _). eauto.
  - destruct (mul16_spec a b) as (c & H & _). eauto.
Qed.
Lemma mul_comm_all k (a b : chan k) : c_mul a b = c_mul b a.
Proof.
  destruct k.
  - exact (proj1 (proj2 (mul_int_laws K8 (or_introl eq_refl) a b))).
  - exact (proj1 (proj2 (mul_int_laws K16 (or_intror eq_refl) a b))).
  - exact (proj1 (float_mul_laws K32 (or_introl eq_refl) a b)).
  - exact (proj1 (float_mul_laws K64 (or_intror eq_refl) a b)).
Qed.
Lemma mul_max_all k (a : chan k) : fin a = true -> c_mul a (MAX k) = Ok a.
Proof.
  destruct k; intros H.
  - exact (proj1 (proj2 (proj2 (mul_int_laws K8 (or_introl eq_refl) a a)))).
  - exact (proj1 (proj2 (proj2 (mul_int_laws K16 (or_intror eq_refl) a a)))).
  - exact (proj1 (proj2 (float_mul_laws K32 (or_introl eq_refl) a a)) H).
  - exact (proj1 (proj2 (float_mul_laws K64 (or_intror eq_refl) a a)) H).
Qed.

(** Adding silence: integer exactly; float: same value, and the very same float
    when the sample is not a zero. *)
Lemma add_mid_all k (a : chan k) : valid a -> rval (c_add a (MID k)) = rval a /\ valid (c_add a (MID k)).
Proof.
  destruct k; intros H.
  - split; [|exact I]. f_equal. f_equal. exact (proj1 (proj2 (add_int_laws K8 (or_introl eq_refl) a a a))).
  - split; [|exact I]. f_equal. f_equal. exact (proj1 (proj2 (add_int_laws K16 (or_intror eq_refl) a a a))).
  - destruct (zero_correct 24 128) as [Z1 Z2]. destruct H as [Fa Ha].
    destruct (float_ops_value K32 (or_introl eq_refl) a (MID K32) Fa Z2) as (E & _).
    split; [|exact (proj1 (float_ops_valid K32 (or_introl eq_refl) a (MID K32)))].
    rewrite E. cbn [rval MID]. unfold ch32_MID. rewrite Z1, Rplus_0_r.
    cbn [round_k]. unfold round32. rewrite (rnd_fmt 24 128) by apply (fmt_B2R 24 128). now apply clampR_id.
  - destruct (zero_correct 53 1024) as [Z1 Z2]. destruct H as [Fa Ha].
    destruct (float_ops_value K64 (or_intror eq_refl) a (MID K64) Fa Z2) as (E & _).
    split; [|exact (proj1 (float_ops_valid K64 (or_intror eq_refl) a (MID K64)))].
    rewrite E. cbn [rval MID]. unfold ch64_MID. rewrite Z1, Rplus_0_r.
    cbn [round_k]. unfold round64. rewrite (rnd_fmt 53 1024) by apply (fmt_B2R 53 1024). now apply clampR_id.
Qed.

(** ** Negation of floats (C05) *)
Lemma float_neg k : is_float k -> forall a : chan k, exists na, c_neg a = Ok na /\ c_neg na = Ok a /\
  rval na = - rval a /\ fin na = fin a /\ isnan na = isnan a.
Proof.
  intros [-> | ->] a; cbn [c_neg rval fin isnan]; eexists; (split; [reflexivity|]); (split; [|split; [|split]]).
  - f_equal. exact (Bopp_involutive 24 128 a).
  - exact (B2R_fneg 24 128 a).
  - exact (finite_fneg 24 128 a).
  - exact (is_nan_Bopp 24 128 a).
  - f_equal. exact (Bopp_involutive 53 1024 a).
  - exact (B2R_fneg 53 1024 a).
  - exact (finite_fneg 53 1024 a).
  - exact (is_nan_Bopp 53 1024 a).
Qed.

(** ** Infinite operands (C12) *)
Lemma inf_ops prec emax {Hp : FLX.Prec_gt_0 prec} {He : Prec_lt_emax prec emax} (a b : binary_float prec emax) :
  let side (s : bool) := if s then flit (-1) 0 else flit 1 0 in
  (is_finite a = false -> is_nan a = false -> is_finite b = true ->
     clampf (fadd a b) = side (Bsign a) /\ clampf (fsub a b) = side (Bsign a) /\ clampf (fdiv a b) = side (xorb (Bsign a) (Bsign b))) /\
  (is_finite a = true -> is_finite b = false -> is_nan b = false ->
     clampf (fadd a b) = side (Bsign b) /\ clampf (fsub a b) = side (negb (Bsign b)) /\ B2R (clampf (fdiv a b)) = 0) /\
  (is_finite a = false -> is_nan a = false -> is_finite b = false -> is_nan b = false ->
     clampf (fadd a b) = side (Bsign a && Bsign b)%bool /\ clampf (fsub a b) = side (Bsign a && negb (Bsign b))%bool /\
     clampf (fdiv a b) = flit 1 0).
Proof.
  cbv zeta. split; [|split].
  - intros F N Fb. destruct a as [|sa| |]; try discriminate.
    assert (E : fadd (B754_infinity sa) b = B754_infinity sa /\ fsub (B754_infinity sa) b = B754_infinity sa /\
              fdiv (B754_infinity sa) b = B754_infinity (xorb sa (Bsign b))) by (destruct b; try discriminate; repeat split; reflexivity).
    destruct E as (-> & -> & ->). cbn [Bsign]. rewrite !clampf_inf. repeat split; reflexivity.
  - intros Fa F N. destruct b as [|sb| |]; try discriminate.
    assert (E : fadd a (B754_infinity sb) = B754_infinity sb /\ fsub a (B754_infinity sb) = B754_infinity (negb sb) /\
              fdiv a (B754_infinity sb) = B754_zero (xorb (Bsign a) sb)) by (destruct a; try discriminate; repeat split; reflexivity).
    destruct E as (-> & -> & ->). cbn [Bsign]. rewrite !clampf_inf, clampf_B2R by reflexivity.
    cbn [B2R]. rewrite clampR_id by lra. repeat split; reflexivity.
  - intros F N F2 N2. destruct a as [|sa| |]; try discriminate. destruct b as [|sb| |]; try discriminate.
    cbn [Bsign]. destruct sa, sb; repeat split;
      (unfold fadd, fsub, fdiv; cbn [Bplus Bminus Bopp Bdiv eqb xorb negb andb];
       rewrite ?clampf_inf; rewrite ?clampf_nan by reflexivity; reflexivity).
Qed.
Lemma float_infinite k : is_float k -> forall a b : chan k,
  let side (s : bool) := if s then MIN k else MAX k in
  (fin a = false -> isnan a = false -> fin b = true ->
     c_add a b = side (negative a) /\ c_sub a b = side (negative a) /\ c_div a b = Ok (side (xorb (negative a) (negative b)))) /\
  (fin a = true -> fin b = false -> isnan b = false ->
     c_add a b = side (negative b) /\ c_sub a b = side (negb (negative b)) /\ exists q, c_div a b = Ok q /\ rval q = 0) /\
  (fin a = false -> isnan a = false -> fin b = false -> isnan b = false ->
     c_add a b = side (negative a && negative b)%bool /\ c_sub a b = side (negative a && negb (negative b))%bool /\
     c_div a b = Ok (MAX k)).
Proof.
  intros [-> | ->] a b; cbn [fin isnan negative c_add c_sub c_div MIN MAX rval]; cbv zeta.
  - destruct (inf_ops 24 128 a b) as (H1 & H2 & H3). split; [|split].
    + intros A B C. destruct (H1 A B C) as (E1 & E2 & E3). split; [exact E1|]. split; [exact E2|]. f_equal. exact E3.
    + intros A B C. destruct (H2 A B C) as (E1 & E2 & E3). split; [exact E1|]. split; [exact E2|]. eexists; split; [reflexivity|exact E3].
    + intros A B C D. destruct (H3 A B C D) as (E1 & E2 & E3). split; [exact E1|]. split; [exact E2|]. f_equal. exact E3.
  - destruct (inf_ops 53 1024 a b) as (H1 & H2 & H3). split; [|split].
    + intros A B C. destruct (H1 A B C) as (E1 & E2 & E3). split; [exact E1|]. split; [exact E2|]. f_equal. exact E3.
    + intros A B C. destruct (H2 A B C) as (E1 & E2 & E3). split; [exact E1|]. split; [exact E2|]. eexists; split; [reflexivity|exact E3].
    + intros A B C D. destruct (H3 A B C D) as (E1 & E2 & E3). split; [exact E1|]. split; [exact E2|]. f_equal. exact E3.
Qed.
Lemma float_new_special :
  (forall x : f32, is_finite x = false -> ch32_new x = if (negb (is_nan x) && Bsign x)%bool then MIN K32 else MAX K32) /\
  (forall x : f64, is_finite x = false -> ch64_new x = if (negb (is_nan x) && Bsign x)%bool then MIN K64 else MAX K64).
Proof.
  split; intros [|[|]| |] H; try discriminate; cbn [is_nan negb Bsign andb].
  - exact (clampf_inf 24 128 true).
  - exact (clampf_inf 24 128 false).
  - exact (clampf_nan 24 128 B754_nan eq_refl).
  - exact (clampf_inf 53 1024 true).
  - exact (clampf_inf 53 1024 false).
  - exact (clampf_nan 53 1024 B754_nan eq_refl).
Qed.

(** ** from_f64 of the float channels (C14) *)
Lemma from_f64_raw :
  (forall x : f64, from_f64 K64 x = x /\ to_f64 (k:=K64) x = x) /\
  (forall x : f64, is_finite x = true -> Rabs (round32 (B2R x)) < bpow radix2 128 ->
     is_finite (from_f64 K32 x : f32) = true /\ B2R (from_f64 K32 x : f32) = round32 (B2R x)) /\
  (forall x : f64, is_nan x = true -> isnan (from_f64 K32 x) = true).
Proof.
  split; [|split].
  - intros x. split; reflexivity.
  - intros x Fx Hb. destruct (fconv_correct 53 1024 24 128 x Fx Hb) as (E1 & E2 & _). split; [exact E2|exact E1].
  - intros x Hx. destruct x; try discriminate. reflexivity.
Qed.

Lemma from_f64_overflow (x : f64) :
  (is_finite x = false /\ is_nan x = false) \/ (is_finite x = true /\ bpow radix2 128 <= Rabs (round32 (B2R x))) ->
  from_f64 K32 x = (B754_infinity (Bsign x) : f32).
Proof.
  intros [[F N]|[F H]]; [destruct x; try discriminate; reflexivity|].
  destruct x as [s|s| |s m e Hx]; try discriminate.
  { exfalso. cbn [B2R] in H. unfold round32, round_to in H. rewrite round_0, Rabs_R0 in H by auto with typeclass_instances.
    pose proof (bpow_gt_0 radix2 128). lra. }
  cbn [from_f64]. unfold ch32_from_f64, f64_as_f32, fconv.
  pose proof (binary_normalize_correct 24 128 _ _ mode_NE (SpecFloat.cond_Zopp s (Zpos m)) e s) as C. cbv zeta in C.
  change (F2R (Float radix2 (SpecFloat.cond_Zopp s (Zpos m)) e)) with (B2R (B754_finite s m e Hx : f64)) in C.
  change (round radix2 (SpecFloat.fexp 24 128) (round_mode mode_NE)) with round32 in C.
  rewrite Rlt_bool_false in C by exact H. apply B2SF_inj. rewrite C. cbn [B2SF Bsign].
  cbn [binary_overflow overflow_to_inf].
  assert (E : Rlt_bool (B2R (B754_finite s m e Hx : f64)) 0 = s).
  { cbn [B2R]. destruct s; [apply Rlt_bool_true; apply F2R_lt_0; reflexivity|apply Rlt_bool_false; apply F2R_ge_0; discriminate]. }
  rewrite E. reflexivity.
Qed.
Lemma eq_refl_iff k (c : chan k) : c_eqb c c = negb (isnan c).
Proof.
  destruct k; cbn [c_eqb isnan negb].
  - apply Z.eqb_refl.
  - apply Z.eqb_refl.
  - exact (Beqb_refl 24 128 c).
  - exact (Beqb_refl 53 1024 c).
Qed.

(** ** Ch32 <-> Ch64 (C15) *)
Lemma fmt32_64 x : generic_format radix2 (FLT_exp (3 - 128 - 24) 24) x ->
  generic_format radix2 (FLT_exp (3 - 1024 - 53) 53) x.
Proof.
  apply generic_inclusion_mag. intros _. unfold FLT_exp. lia.
Qed.
Lemma f32_as_f64_exact (x : f32) : is_finite x = true ->
  B2R (f32_as_f64 x) = B2R x /\ is_finite (f32_as_f64 x) = true /\ Bsign (f32_as_f64 x) = Bsign x.
Proof.
  intros Fx.
  assert (E : round_to 53 1024 (B2R x) = B2R x).
  { apply (rnd_fmt 53 1024). apply fmt32_64. apply (fmt_B2R 24 128). }
  destruct (fconv_correct 24 128 53 1024 x Fx) as (E1 & E2 & E3).
  - rewrite E. apply Rlt_trans with (bpow radix2 128); [apply abs_B2R_lt_emax|]. apply bpow_lt. lia.
  - unfold f32_as_f64. rewrite E1, E. auto.
Qed.
Lemma widen_float (x : f32) : is_finite x = true ->
  B2R (f32_as_f64 x) = B2R x /\ (in_range x -> in_range (f32_as_f64 x)).
Proof.
  intros Fx. destruct (f32_as_f64_exact x Fx) as (E1 & E2 & _). split; [exact E1|].
  intros [_ H]. split; [exact E2|]. now rewrite E1.
Qed.
Lemma f64_as_f32_of_f32 (x : f32) : is_finite x = true -> f64_as_f32 (f32_as_f64 x) = x.
Proof.
  intros Fx. destruct (f32_as_f64_exact x Fx) as (E1 & E2 & E3).
  assert (E : round_to 24 128 (B2R (f32_as_f64 x)) = B2R x).
  { rewrite E1. apply (rnd_fmt 24 128), (fmt_B2R 24 128). }
  destruct (fconv_correct 53 1024 24 128 (f32_as_f64 x) E2) as (C1 & C2 & C3).
  - rewrite E. apply abs_B2R_lt_emax.
  - apply B2R_Bsign_inj; auto.
    + unfold f64_as_f32. now rewrite C1.
    + unfold f64_as_f32. now rewrite C3.
Qed.
Lemma f64_as_f32_of_f32_gen (x : f32) : f64_as_f32 (f32_as_f64 x) = x.
Proof. destruct x as [s|s| |s m e H]; try reflexivity. now apply f64_as_f32_of_f32. Qed.

Lemma to_f64_kept : forall x : f32,
  (is_finite x = true -> is_finite (to_f64 (k:=K32) x) = true /\ B2R (to_f64 (k:=K32) x) = B2R x /\ Bsign (to_f64 (k:=K32) x) = Bsign x) /\
  (is_finite x = false -> is_nan x = false -> to_f64 (k:=K32) x = B754_infinity (Bsign x)) /\
  (is_nan x = true -> is_nan (to_f64 (k:=K32) x) = true) /\
  from_f64 K32 (to_f64 (k:=K32) x) = x.
Proof.
  intros x. split; [|split; [|split]].
  - intros F. destruct (f32_as_f64_exact x F) as (A & B & C). auto.
  - destruct x; intros A B; try discriminate. reflexivity.
  - destruct x; intros A; try discriminate. reflexivity.
  - exact (f64_as_f32_of_f32_gen x).
Qed.
Lemma ch32_ch64_roundtrip (c : chan K32) : valid c ->
  rval (chan_from K32 K64 c) = rval c /\ valid (chan_from K32 K64 c) /\
  chan_from K64 K32 (chan_from K32 K64 c) = c.
Proof.
  intros Hc. pose proof Hc as [Fc _]. destruct (widen_float c Fc) as [E1 E2]. specialize (E2 Hc).
  cbn [chan_from rval valid]. unfold ch64_from_ch32. rewrite (new64_id _ E2).
  split; [exact E1|]. split; [exact E2|].
  unfold ch32_from_ch64. rewrite f64_as_f32_of_f32 by exact Fc. now apply new32_id.
Qed.

Lemma fconv_overflow (x : f64) : is_finite x = true -> bpow radix2 128 <= Rabs (round32 (B2R x)) ->
  f64_as_f32 x = B754_infinity (Bsign x).
Proof.
  intros Fx H. destruct x as [s|s| |s m e Hb]; try discriminate.
  - cbn [B2R] in H. unfold round32 in H. rewrite (rnd_0 24 128), Rabs_R0 in H.
    pose proof (bpow_gt_0 radix2 128). lra.
  - pose proof (binary_normalize_correct 24 128 _ _ mode_NE (SpecFloat.cond_Zopp s (Z.pos m)) e s) as C.
    cbv zeta in C.
    change (round radix2 (SpecFloat.fexp 24 128) (round_mode mode_NE)) with round32 in C.
    cbn [B2R] in H. rewrite Rlt_bool_false in C by exact H.
    unfold f64_as_f32; cbn [fconv Bsign]. apply (B2SF_inf 24 128). rewrite C. f_equal.
    destruct s; cbn [SpecFloat.cond_Zopp].
    + apply Rlt_bool_true. now apply F2R_lt_0.
    + apply Rlt_bool_false. now apply F2R_ge_0.
Qed.

Lemma ch64_to_ch32 (x : chan K64) : valid (chan_from K64 K32 x) /\
  (fin x = true -> rval (chan_from K64 K32 x) = clampR (round32 (rval x))).
Proof.
  cbn [chan_from valid fin rval]. unfold ch32_from_ch64. split; [apply (clampf_in_range 24 128)|].
  intros Fx. change (ch32_new ?y) with (clampf y).
  destruct (Rlt_or_le (Rabs (round32 (B2R x))) (bpow radix2 128)) as [H|H].
  - destruct (fconv_correct 53 1024 24 128 x Fx H) as (E1 & E2 & _).
    change (round32 (B2R x)) with (round_to 24 128 (B2R x)). rewrite <- E1. exact (clampf_B2R 24 128 _ E2).
  - rewrite (fconv_overflow x Fx H). apply (clampf_overflow 24 128); [exact H|].
    destruct (Bsign x) eqn:Es.
    + apply (rnd_nonpos 24 128). now apply (Bsign_nonpos 53 1024).
    + apply (rnd_nonneg 24 128). now apply (Bsign_nonneg 53 1024).
Qed.
Lemma ch64_to_ch32_mono (x y : chan K64) : fle (x : f64) y = true ->
  fle (chan_from K64 K32 x : f32) (chan_from K64 K32 y) = true.
Proof.
  intros H. destruct (ch64_to_ch32 x) as [[Vx Rx] Ex], (ch64_to_ch32 y) as [[Vy Ry] Ey].
  apply fle_correct; auto. cbn [fin rval] in Ex, Ey.
  destruct (is_finite (x : f64)) eqn:Fx, (is_finite (y : f64)) eqn:Fy.
  - apply fle_correct in H; auto.
    rewrite (Ex eq_refl), (Ey eq_refl). apply clampR_mono. apply (rnd_mono 24 128). exact H.
  - destruct y as [s|s| |s m e Hb]; try discriminate; [|now destruct x as [?|[]| |[] ? ? ?]].
    destruct s; [now destruct x as [?|[]| |[] ? ? ?]|].
    apply Rle_trans with 1; [lra|]. apply Req_le.
    destruct (one_correct 24 128) as [O1 _].
    cbn [chan_from]. unfold ch32_from_ch64. change (ch32_new ?y) with (clampf y).
    unfold f64_as_f32. cbn [fconv]. now rewrite clampf_inf, O1.
  - destruct x as [s|s| |s m e Hb]; try discriminate.
    destruct s; [|now destruct y as [?|[]| |[] ? ? ?]].
    apply Rle_trans with (-1); [|lra]. apply Req_le.
    destruct (mone_correct 24 128) as [O1 _].
    cbn [chan_from]. unfold ch32_from_ch64. change (ch32_new ?y) with (clampf y).
    unfold f64_as_f32. cbn [fconv]. now rewrite clampf_inf, O1.
  - destruct x as [s|s| |s m e Hb]; try discriminate.
    destruct y as [s'|s'| |s' m' e' Hb']; try (destruct s; discriminate); try discriminate.
    destruct s, s'; try discriminate; try lra.
    destruct (mone_correct 24 128) as [M1 _]. destruct (one_correct 24 128) as [O1 _].
    cbn [chan_from]. unfold ch32_from_ch64. change (ch32_new ?y) with (clampf y).
    unfold f64_as_f32. cbn [fconv]. rewrite !clampf_inf, O1, M1. lra.
Qed.

(** ** lerp (C16) *)
Lemma lerp_total k (a b t : chan k) : exists c, c_lerp a b t = Ok c.
Proof. unfold c_lerp. destruct (mul_total k t (c_sub b a)) as (p & ->). cbn [bind]. eauto. Qed.

Lemma lerp_mid_int k : is_int k -> forall a b : chan k, c_lerp a b (MID k) = Ok a.
Proof.
  intros Hk a b. unfold c_lerp. rewrite mul_comm_all.
  destruct (mul_int_laws k Hk (c_sub b a) a) as (_ & _ & _ & ->). cbn [bind].
  f_equal. exact (proj1 (proj2 (add_int_laws k Hk a a a))).
Qed.
Lemma lerp_mid_float k : is_float k -> forall a b : chan k, valid a -> valid b ->
  exists c, c_lerp a b (MID k) = Ok c /\ c_eqb c a = true.
Proof.
  intros [-> | ->] a b Ha Hb; unfold c_lerp; cbn [c_mul bind c_add c_sub c_eqb MID]; eexists; (split; [reflexivity|]).
  - destruct Ha as [Fa Ha], Hb as [Fb Hb]. destruct (zero_correct 24 128) as [Z1 Z2].
    destruct (clampf_in_range 24 128 (fsub b a)) as [Fs _].
    destruct (fmul_zero 24 128 (ch32_sub b a) _ Fs Z2 Z1) as [F1 R1].
    unfold ch32_mul. rewrite (fmul_comm 24 128).
    destruct (fadd_zero 24 128 a _ Fa F1 R1) as [F2 R2].
    unfold ch32_add. rewrite clamp32_eq, (clampf_id 24 128).
    + apply feq_correct; auto.
    + split; [exact F2|]. change (fadd a (fmul (ch32_sub b a) ch32_MID)) with (fadd a (fmul (ch32_sub b a) (flit 0 0))).
      rewrite R2. lra.
  - destruct Ha as [Fa Ha], Hb as [Fb Hb]. destruct (zero_correct 53 1024) as [Z1 Z2].
    destruct (clampf_in_range 53 1024 (fsub b a)) as [Fs _].
    destruct (fmul_zero 53 1024 (ch64_sub b a) _ Fs Z2 Z1) as [F1 R1].
    unfold ch64_mul. rewrite (fmul_comm 53 1024).
    destruct (fadd_zero 53 1024 a _ Fa F1 R1) as [F2 R2].
    unfold ch64_add. rewrite clamp64_eq, (clampf_id 53 1024).
    + apply feq_correct; auto.
    + split; [exact F2|]. change (fadd a (fmul (ch64_sub b a) ch64_MID)) with (fadd a (fmul (ch64_sub b a) (flit 0 0))).
      rewrite R2. lra.
Qed.

Lemma clampZ_minmax lo hi z : (lo <= hi)%Z -> clampZ lo hi z = Z.max lo (Z.min hi z).
Proof. intros H. clampz. Qed.
Ltac clampz2 := rewrite ?clampZ_minmax by lia; lia.
Lemma lerp_max8 (a b : chan K8) : (-128 <= sv b - sv a <= 127)%Z -> c_lerp a b (MAX K8) = Ok b.
Proof.
  intros H. unfold c_lerp. rewrite mul_comm_all, mul_max_all by reflexivity. cbn [bind]. f_equal.
  apply sint_eq. rewrite add8_spec, sub8_spec. pose proof (i8_range a). pose proof (i8_range b). clampz2.
Qed.
Lemma lerp_max16 (a b : chan K16) : (-32768 <= sv b - sv a <= 32767)%Z -> c_lerp a b (MAX K16) = Ok b.
Proof.
  intros H. unfold c_lerp. rewrite mul_comm_all, mul_max_all by reflexivity. cbn [bind]. f_equal.
  apply sint_eq. rewrite add16_spec, sub16_spec. pose proof (i16_range a). pose proof (i16_range b). clampz2.
Qed.
(** exactly: a plus the saturated difference *)
Lemma lerp_max8_gen (a b : chan K8) : exists c, c_lerp a b (MAX K8) = Ok c /\
  (c = b <-> (-128 <= sv b - sv a <= 127)%Z).
Proof.
  unfold c_lerp. rewrite mul_comm_all, mul_max_all by reflexivity. cbn [bind]. eexists; split; [reflexivity|].
  pose proof (i8_range a). pose proof (i8_range b). 
  split; [intros E; apply (f_equal sv) in E; revert E|intros ?; apply sint_eq]; rewrite add8_spec, sub8_spec; clampz2.
Qed.
Lemma lerp_max16_gen (a b : chan K16) : exists c, c_lerp a b (MAX K16) = Ok c /\
  (c = b <-> (-32768 <= sv b - sv a <= 32767)%Z).
Proof.
  unfold c_lerp. rewrite mul_comm_all, mul_max_all by reflexivity. cbn [bind]. eexists; split; [reflexivity|].
  pose proof (i16_range a). pose proof (i16_range b). 
  split; [intros E; apply (f_equal sv) in E; revert E|intros ?; apply sint_eq]; rewrite add16_spec, sub16_spec; clampz2.
Qed.
Lemma lerp_max_float k : is_float k -> forall a b : chan k, valid a -> valid b ->
  Rabs (rval b - rval a) <= 1 ->
  exists c, c_lerp a b (MAX k) = Ok c /\ Rabs (rval c - rval b) <= bpow radix2 (1 - prec_k k).
Proof.
  intros [-> | ->] a b Ha Hb H; unfold c_lerp; cbn [c_mul bind c_add c_sub MAX rval prec_k valid] in *;
    eexists; (split; [reflexivity|]).
  - apply (lerp_error 24 128 a b); auto; lia.
  - apply (lerp_error 53 1024 a b); auto; lia.
Qed.

(** ** Two paths between 8 and 16 bit (C17) *)
Definition all_i8 : list Z := map (fun n => Z.of_nat n - 128)%Z (seq 0 256).
Lemma all_i8_in z : (-128 <= z <= 127)%Z -> In z all_i8.
Proof.
  intros H. unfold all_i8. apply in_map_iff. exists (Z.to_nat (z + 128)). split; [lia|].
  apply in_seq. lia.
Qed.
Lemma as_sint_sv8 (c : sint W8) : as_sint W8 (sv c) = c.
Proof. apply sint_eq, sv_as8, i8_range. Qed.
Lemma as_sint_sv16 (c : sint W16) : as_sint W16 (sv c) = c.
Proof. apply sint_eq, sv_as16, i16_range. Qed.

Lemma widen_paths (c : chan K8) : from_f64 K16 (to_f64 c) = chan_from K8 K16 c.
Proof.
  assert (H : forallb (fun z => sv (from_f64 K16 (to_f64 (as_sint W8 z : chan K8))) =? sv (chan_from K8 K16 (as_sint W8 z)))%Z
    all_i8 = true) by (vm_compute; reflexivity).
  rewrite forallb_forall in H. specialize (H (sv c) (all_i8_in _ (i8_range c))).
  cbv beta in H. rewrite as_sint_sv8 in H. apply sint_eq. lia.
Qed.

Lemma narrow_paths (c : chan K16) : (Z.abs (sv (from_f64 K8 (to_f64 c)) - sv (chan_from K16 K8 c)) <= 1)%Z.
Proof.
  rewrite from_f64_eq8. cbn [to_f64]. unfold ch16_to_f64. pose proof (to64_16_range c) as Hr.
  rewrite (clampf_id 53 1024 _ Hr), sv_from64_8, narrow_spec. rewrite to64_16 in *.
  pose proof (i16_range c) as Hc.
  destruct (tof_correct 53 1024 P64a P64b 65535 (sv c) ltac:(lia) ltac:(lia)) as [_ T].
  rewrite fromf_correct; auto; try lia.
  destruct (scale_correct 53 1024 P64a P64b 255 _ ltac:(lia) Hr) as (S1 & S2 & S3 & S4).
  rewrite S2 in S4. set (t := B2R (tof 53 1024 65535 (sv c))) in *.
  set (y := round_to 53 1024 (t * (255 / 2))) in *.
  pose proof eps64_small as Hes.
  pose proof (floor_eps_bounds (B2R eps64) y ltac:(lra)) as Hf.
  set (n := floor_eps (B2R eps64) y) in *.
  pose proof (bpow_prec_small 53 P64a) as Hu. change (- (53))%Z with (-53)%Z in *.
  set (u := bpow radix2 (-53)) in *.
  apply Rabs_le_inv in T. apply Rabs_le_inv in S4.
  assert (Hm : (256 * (sv c / 256) <= sv c < 256 * (sv c / 256) + 256)%Z) by (pose proof (Z.mod_pos_bound (sv c) 256); lia).
  set (m := (sv c / 256)%Z) in *.
  assert (Hm1 : 256 * IZR m <= IZR (sv c)) by (rewrite <- mult_IZR; apply IZR_le; lia).
  assert (Hm2 : IZR (sv c) <= 256 * IZR m + 255) by (rewrite <- mult_IZR, <- plus_IZR; apply IZR_le; lia).
  assert (Hcr : -32768 <= IZR (sv c) <= 32767) by (split; apply IZR_le; lia).
  rewrite plus_IZR, mult_IZR in T.
  assert (He1 : B2R eps64 <= / 1000).
  { destruct eps64_correct as [-> _]. apply Rle_trans with (bpow radix2 (-10)); [apply bpow_le; lia|]. cbn. lra. }
  assert (Hn1 : (n <= m + 1)%Z).
  { assert (n < m + 2)%Z; [|lia]. apply lt_IZR. rewrite plus_IZR. lra. }
  assert (Hn2 : (m - 1 <= n)%Z).
  { assert (m - 2 < n)%Z; [|lia]. apply lt_IZR. rewrite minus_IZR. lra. }
  assert (Hmr : (-128 <= m <= 127)%Z) by lia.
  lia.
Qed.
