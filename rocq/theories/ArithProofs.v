(** * ArithProofs.v -- arithmetic and conversion of amplitudes (C88) *)
From Coq Require Import ZArith NArith Reals List Lia Bool Lra.
From Flocq Require Import Core.Core IEEE754.BinarySingleNaN.
From Verif Require Import Rust Float Math Chan Frame Ops Stream Audio SpecChan SpecFrame SpecStream SpecSink SpecAudio SpecMore SpecMix SpecArith.
From Verif Require Import IntProofs FloatProofs FArithProofs ChanProofs FChanProofs FrameProofs MixedProofs DirectProofs RoundTripProofs RangeProofs FadeProofs MixProofs.
Import ListNotations.
Open Scope R_scope.

Definition full (k : ck) : Z := (2 * imax k + 1)%Z.
Lemma full_pos k : (0 < full k)%Z. Proof. unfold full. pose proof (imax_pos k). lia. Qed.
Lemma amp_int k (c : chan k) : is_int k -> amplitude c = IZR (2 * code c + 1) / IZR (full k).
Proof. intros [-> | ->]; reflexivity. Qed.
Lemma amp_float k (c : chan k) : is_float k -> amplitude c = rval c.
Proof. intros [-> | ->]; reflexivity. Qed.
Lemma amp_meaning k (c : chan k) : amplitude c = meaning c.
Proof. destruct k; reflexivity. Qed.
Lemma amp_range k (c : chan k) : valid c -> -1 <= amplitude c <= 1.
Proof.
  destruct (kind_cases k) as [I|F]; intros V.
  - rewrite amp_int by exact I. pose proof (code_range k c I) as [L H]. pose proof (full_pos k) as P. apply IZR_lt in P.
    assert (A : - IZR (full k) <= IZR (2 * code c + 1) <= IZR (full k)) by (unfold full; rewrite <- opp_IZR; split; apply IZR_le; lia).
    split; [apply Rmult_le_reg_r with (IZR (full k)); [lra|]|apply Rmult_le_reg_r with (IZR (full k)); [lra|]];
      unfold Rdiv; rewrite Rmult_assoc, Rinv_l by lra; lra.
  - rewrite amp_float by exact F. destruct F as [-> | ->]; exact (proj2 V).
Qed.
(** Clamped codes stand for clamped amplitudes. *)
Lemma clamp_amp M s : (0 < M)%Z -> IZR (2 * clampZ (- M - 1) M s + 1) / IZR (2 * M + 1) = clampR (IZR (2 * s + 1) / IZR (2 * M + 1)).
Proof.
  intros P. assert (N : 0 < IZR (2 * M + 1)) by (apply IZR_lt; lia).
  unfold clampZ. destruct (Z.ltb_spec s (- M - 1)).
  - rewrite clampR_le.
    + replace (2 * (- M - 1) + 1)%Z with (- (2 * M + 1))%Z by lia. rewrite opp_IZR. field. lra.
    + apply Rmult_le_reg_r with (IZR (2 * M + 1)); [exact N|]. unfold Rdiv. rewrite Rmult_assoc, Rinv_l by lra.
      rewrite Rmult_1_r. rewrite <- mult_IZR. apply IZR_le. lia.
  - destruct (Z.ltb_spec M s).
    + rewrite clampR_ge.
      * field. lra.
      * apply Rmult_le_reg_r with (IZR (2 * M + 1)); [exact N|]. unfold Rdiv. rewrite Rmult_assoc, Rinv_l by lra.
        rewrite Rmult_1_r, Rmult_1_l. apply IZR_le. lia.
    + rewrite clampR_id; [reflexivity|]. split; (apply Rmult_le_reg_r with (IZR (2 * M + 1)); [exact N|]); unfold Rdiv; rewrite Rmult_assoc, Rinv_l by lra;
        rewrite Rmult_1_r; rewrite <- mult_IZR; apply IZR_le; lia.
Qed.
Lemma sub_code k (a b : chan k) : is_int k -> code (c_sub a b) = clampZ (- imax k - 1) (imax k) (code a - code b).
Proof. intros [-> | ->]; [exact (proj1 (proj2 add_int_spec) a b)|exact (proj2 (proj2 (proj2 add_int_spec)) a b)]. Qed.
Lemma int_sum_error k : is_int k -> sum_error k = 1 / IZR (full k).
Proof. intros [-> | ->]; cbn; lra. Qed.
Lemma float_sum_error k x : is_float k -> Rabs x <= 2 -> Rabs (round_k k x - x) <= sum_error k.
Proof.
  intros [-> | ->] H; cbn [round_k sum_error];
  [apply (rnd_error 24 128 _ 1)|apply (rnd_error 53 1024 _ 1)]; try lia; exact H.
Qed.
Lemma float_valid k (a : chan k) : is_float k -> valid a -> fin a = true /\ -1 <= rval a <= 1.
Proof. intros [-> | ->] V; exact V. Qed.

Lemma add_amp k (a b : chan k) : valid a -> valid b -> Rabs (amplitude (c_add a b) - clampR (amplitude a + amplitude b)) <= sum_error k.
Proof.
  intros Va Vb. destruct (kind_cases k) as [I|F].
  - rewrite !amp_int by exact I. rewrite add_code by exact I. unfold full at 1. rewrite clamp_amp by apply imax_pos. fold (full k).
    apply clampR_lip. rewrite int_sum_error by exact I. pose proof (full_pos k) as P. apply IZR_lt in P.
    replace (_ - _) with (- (1 / IZR (full k))); [|rewrite !plus_IZR, !mult_IZR, !plus_IZR; field; lra].
    rewrite Rabs_Ropp, Rabs_right; [lra|]. apply Rle_ge. apply Rlt_le. apply Rdiv_lt_0_compat; lra.
  - destruct (float_valid k a F Va) as [Fa Ra], (float_valid k b F Vb) as [Fb Rb].
    rewrite !amp_float by exact F. rewrite (proj1 (float_ops_value k F a b Fa Fb)). apply clampR_lip.
    apply float_sum_error; [exact F|]. apply Rabs_le. lra.
Qed.
Lemma sub_amp k (a b : chan k) : valid a -> valid b -> Rabs (amplitude (c_sub a b) - clampR (amplitude a - amplitude b)) <= sum_error k.
Proof.
  intros Va Vb. destruct (kind_cases k) as [I|F].
  - rewrite !amp_int by exact I. rewrite sub_code by exact I. unfold full at 1. rewrite clamp_amp by apply imax_pos. fold (full k).
    apply clampR_lip. rewrite int_sum_error by exact I. pose proof (full_pos k) as P. apply IZR_lt in P.
    replace (_ - _) with (1 / IZR (full k)); [|rewrite !plus_IZR, !mult_IZR, !minus_IZR; field; lra].
    rewrite Rabs_right; [lra|]. apply Rle_ge. apply Rlt_le. apply Rdiv_lt_0_compat; lra.
  - destruct (float_valid k a F Va) as [Fa Ra], (float_valid k b F Vb) as [Fb Rb].
    rewrite !amp_float by exact F. rewrite (proj1 (proj2 (float_ops_value k F a b Fa Fb))). apply clampR_lip.
    apply float_sum_error; [exact F|]. apply Rabs_le. lra.
Qed.
Lemma neg_amp k (a : chan k) : exists na, c_neg a = Ok na /\ amplitude na = - amplitude a /\ (valid a -> valid na).
Proof.
  destruct (kind_cases k) as [I|F].
  - destruct I as [-> | ->]; [destruct (neg8_spec a) as (na & E & V)|destruct (neg16_spec a) as (na & E & V)];
      (exists na; split; [exact E|]; split; [|intros _; exact Logic.I]); cbn [amplitude]; unfold code_value; rewrite V;
      rewrite !plus_IZR, !mult_IZR, !minus_IZR; cbn; lra.
  - destruct (float_neg k F a) as (na & E & _ & V & Fn & _). exists na. split; [exact E|]. rewrite !amp_float by exact F. split; [exact V|].
    intros W. destruct (float_valid k a F W) as [Fa Ra]. destruct F as [-> | ->]; (split; [cbn [fin rval] in *; congruence|]); cbn [rval] in *; lra.
Qed.

(** ** Products *)
Lemma product_codes M a b : (1 < M)%Z -> (- M - 1 <= a <= M)%Z -> (- M - 1 <= b <= M)%Z ->
  let t := clampZ (- M - 1) M (Z.quot (a * b) M) in
  (Z.abs ((2 * M + 1) * (2 * t + 1) - (2 * a + 1) * (2 * b + 1)) <= 4 * (2 * M + 1))%Z.
Proof.
  intros P Ha Hb t. pose proof (Z.quot_rem' (a * b) M) as E. set (q := Z.quot (a * b) M) in *. set (r := Z.rem (a * b) M) in *.
  assert (S : ((0 <= a * b -> 0 <= r < M) /\ (a * b <= 0 -> - M < r <= 0))%Z).
  { pose proof (quot_lin (a * b) M ltac:(lia)) as (U & W & X). fold q in U, W, X. split; intros H; [specialize (U H)|specialize (W H)]; lia. }
  destruct S as [S1 S2].
  assert (D : ((2 * M + 1) * (2 * q + 1) - (2 * a + 1) * (2 * b + 1) = 2 * q - 4 * r + 2 * M - 2 * a - 2 * b)%Z) by nia.
  destruct (Z.le_gt_cases 0 a) as [A|A], (Z.le_gt_cases 0 b) as [B|B].
  - specialize (S1 ltac:(nia)). assert (Q : (0 <= q <= a)%Z) by nia.
    assert (T : t = q) by (subst t; unfold clampZ; destruct (Z.ltb_spec q (- M - 1)); [lia|]; destruct (Z.ltb_spec M q); lia).
    rewrite T, D. assert (G : (0 <= M + q - a - b)%Z) by nia. assert (q <= b)%Z by nia. lia.
  - specialize (S2 ltac:(nia)). assert (Q : (- M - 1 <= q <= 0)%Z) by nia.
    assert (T : t = q) by (subst t; unfold clampZ; destruct (Z.ltb_spec q (- M - 1)); [lia|]; destruct (Z.ltb_spec M q); lia).
    rewrite T, D. assert (G : (0 <= M + q - a - b)%Z) by nia. lia.
  - specialize (S2 ltac:(nia)). assert (Q : (- M - 1 <= q <= 0)%Z) by nia.
    assert (T : t = q) by (subst t; unfold clampZ; destruct (Z.ltb_spec q (- M - 1)); [lia|]; destruct (Z.ltb_spec M q); lia).
    rewrite T, D. assert (G : (0 <= M + q - a - b)%Z) by nia. lia.
  - specialize (S1 ltac:(nia)). assert (Q : (0 <= q)%Z) by nia.
    destruct (Z.le_gt_cases q M) as [L|L].
    + assert (T : t = q) by (subst t; unfold clampZ; destruct (Z.ltb_spec q (- M - 1)); [lia|]; destruct (Z.ltb_spec M q); lia).
      rewrite T, D. assert (G : (- a - b <= 2 * M)%Z) by nia. lia.
    + assert (T : t = M) by (subst t; unfold clampZ; destruct (Z.ltb_spec q (- M - 1)); [lia|]; destruct (Z.ltb_spec M q); lia).
      rewrite T. assert (G : (a <= - M /\ b <= - M)%Z) by nia. nia.
Qed.
Lemma mul_amp k (a b : chan k) : valid a -> valid b -> exists c, c_mul a b = Ok c /\ valid c /\
  Rabs (amplitude c - amplitude a * amplitude b) <= product_error k.
Proof.
  intros Va Vb. destruct (kind_cases k) as [I|F].
  - destruct (mul_code k a b I) as (c & E & V). exists c. split; [exact E|]. split; [now apply int_valid|].
    rewrite !amp_int by exact I. rewrite V. pose proof (code_range k a I) as Ha. pose proof (code_range k b I) as Hb.
    assert (M : (1 < imax k)%Z) by (destruct I as [-> | ->]; reflexivity).
    pose proof (product_codes (imax k) (code a) (code b) M Ha Hb) as D. cbv zeta in D. fold (full k) in D.
    set (t := clampZ _ _ _) in *. pose proof (full_pos k) as P. apply IZR_lt in P. apply IZR_le in D. rewrite abs_IZR, minus_IZR, !mult_IZR in D.
    assert (N : 0 < / IZR (full k)) by now apply Rinv_0_lt_compat.
    replace (product_error k) with (4 / IZR (full k)) by (destruct I as [-> | ->]; reflexivity).
    replace (IZR (2 * t + 1) / IZR (full k) - IZR (2 * code a + 1) / IZR (full k) * (IZR (2 * code b + 1) / IZR (full k)))
      with ((IZR (full k) * IZR (2 * t + 1) - IZR (2 * code a + 1) * IZR (2 * code b + 1)) * (/ IZR (full k) * / IZR (full k))) by (field; lra).
    rewrite Rabs_mult, (Rabs_right (_ * _)) by (apply Rle_ge, Rmult_le_pos; lra).
    replace (4 / IZR (full k)) with (4 * IZR (full k) * (/ IZR (full k) * / IZR (full k))) by (field; lra).
    apply Rmult_le_compat_r; [apply Rmult_le_pos; lra|exact D].
  - destruct (float_mul_valid k F a b Va Vb) as (c & E & V & Rc). exists c. split; [exact E|]. split; [exact V|].
    rewrite !amp_float by exact F. rewrite Rc. destruct (float_valid k a F Va) as [_ Ra], (float_valid k b F Vb) as [_ Rb].
    assert (A : Rabs (rval a * rval b) <= 1).
    { rewrite Rabs_mult. rewrite <- (Rmult_1_l 1). apply Rmult_le_compat; try apply Rabs_pos; apply Rabs_le; lra. }
    destruct F as [-> | ->]; cbn [round_k product_error]; [apply (rnd_error 24 128 _ 0)|apply (rnd_error 53 1024 _ 0)]; try lia; exact A.
Qed.

(** ** Conversions *)
Lemma b_pos e : 0 < bpow radix2 e. Proof. apply bpow_gt_0. Qed.
Lemma to64_amp k (c : chan k) : valid c -> in_range (to_f64 c) /\
  Rabs (B2R (to_f64 c) - amplitude c) <= match k with K8 | K16 => 3 * bpow radix2 (-53) | _ => 0 end.
Proof.
  intros V. split; [now apply to_f64_range|]. destruct k.
  - exact (proj1 (proj1 to_float_accuracy c)).
  - exact (proj1 (proj2 to_float_accuracy c)).
  - cbn [to_f64 amplitude]. unfold ch32_to_f64. rewrite (proj1 (widen_float _ (proj1 V))). rewrite Rminus_diag_eq, Rabs_R0 by reflexivity. lra.
  - cbn [to_f64 amplitude]. unfold ch64_to_f64. rewrite Rminus_diag_eq, Rabs_R0 by reflexivity. lra.
Qed.
Lemma b_53 : bpow radix2 (-53) = / 9007199254740992. Proof. reflexivity. Qed.
Lemma b_37 : bpow radix2 (-37) = / 137438953472. Proof. reflexivity. Qed.
Lemma b_8 : bpow radix2 (-8) = / 256. Proof. reflexivity. Qed.
Lemma b_24 : bpow radix2 (-24) = / 16777216. Proof. reflexivity. Qed.
Lemma b_25 : bpow radix2 (-25) = / 33554432. Proof. reflexivity. Qed.
Lemma zero_err x : Rabs (x - x) <= 0. Proof. rewrite Rminus_diag_eq, Rabs_R0 by reflexivity. lra. Qed.
Lemma widen_amp (c : chan K8) : amplitude (chan_from K8 K16 c) = amplitude c.
Proof. cbn [amplitude]. unfold code_value. rewrite widen_spec. rewrite !plus_IZR, !mult_IZR, !plus_IZR, !mult_IZR. change (2 ^ 16 - 1)%Z with 65535%Z. change (2 ^ 8 - 1)%Z with 255%Z. lra. Qed.
Lemma narrow_amp (c : chan K16) : Rabs (amplitude (chan_from K16 K8 c) - amplitude c) <= 2 / 255.
Proof.
  cbn [amplitude]. unfold code_value. rewrite narrow_spec. change (2 ^ 16 - 1)%Z with 65535%Z. change (2 ^ 8 - 1)%Z with 255%Z.
  pose proof (i16_range c) as H. assert (D : (Z.abs (257 * (2 * (sv c / 256) + 1) - (2 * sv c + 1)) <= 514)%Z).
  { pose proof (Z.div_mod (sv c) 256 ltac:(lia)) as E. pose proof (Z.mod_pos_bound (sv c) 256 ltac:(lia)). 
    assert (-128 <= sv c / 256 <= 127)%Z by (split; [apply Z.div_le_lower_bound; lia|apply Z.lt_succ_r, Z.div_lt_upper_bound; lia]). lia. }
  apply IZR_le in D. rewrite abs_IZR, minus_IZR, mult_IZR in D. apply Rabs_le. apply Rabs_le_inv in D. lra.
Qed.
Lemma frame_int k (c : chan k) k2 : valid c -> is_int k2 -> Rabs (amplitude (from_f64 k2 (to_f64 c)) - amplitude c) <= (1 + bpow radix2 (-8)) / IZR (full k2).
Proof.
  intros V I. destruct (to64_amp k c V) as [R E].
  assert (E' : Rabs (B2R (to_f64 c) - amplitude c) <= 3 * bpow radix2 (-53)) by (pose proof (b_pos (-53)); destruct k; lra).
  assert (Q : Rabs (amplitude (from_f64 k2 (to_f64 c)) - B2R (to_f64 c)) <= (1 + bpow radix2 (-37)) / IZR (full k2)).
  { destruct I as [-> | ->]; [exact (proj1 quantisation_error _ R)|exact (proj2 quantisation_error _ R)]. }
  apply Rabs_le. apply Rabs_le_inv in E', Q. rewrite b_53 in E'. rewrite b_37 in Q. rewrite b_8.
  destruct I as [-> | ->]; unfold full in *; cbn [imax] in *; change (2 * 127 + 1)%Z with 255%Z in *; change (2 * 32767 + 1)%Z with 65535%Z in *; lra.
Qed.
Lemma frame_32 k (c : chan k) : valid c -> valid (from_f64 K32 (to_f64 c)) /\
  Rabs (amplitude (from_f64 K32 (to_f64 c)) - amplitude c) <= match k with K8 | K16 => 3 * bpow radix2 (-24) | K32 => 0 | K64 => bpow radix2 (-25) end.
Proof.
  intros V. destruct (to64_amp k c V) as [R E]. split; [exact (from_f64_valid K32 _ R)|].
  destruct (via32 _ R) as (_ & _ & S & _). cbn [from_f64 amplitude]. unfold ch32_from_f64. rewrite S.
  assert (Q : Rabs (round32 (B2R (to_f64 c)) - B2R (to_f64 c)) <= bpow radix2 (-25)).
  { apply (rnd_error 24 128 _ 0); [|lia]. apply Rabs_le. exact (proj2 R). }
  destruct k.
  - apply Rabs_le. apply Rabs_le_inv in E, Q. rewrite b_53 in E. rewrite b_25 in Q. rewrite b_24. lra.
  - apply Rabs_le. apply Rabs_le_inv in E, Q. rewrite b_53 in E. rewrite b_25 in Q. rewrite b_24. lra.
  - cbn [to_f64 amplitude] in *. unfold ch32_to_f64 in *. rewrite (proj1 (widen_float _ (proj1 V))). unfold round32, round_to.
    rewrite round_generic; [apply zero_err|apply valid_rnd_N|apply (fmt_B2R 24 128)].
  - cbn [to_f64 amplitude] in *. unfold ch64_to_f64 in *. exact Q.
Qed.
Lemma kind_amp w k k2 (c : chan k) : valid c -> valid (to_kind w k2 c) /\ Rabs (amplitude (to_kind w k2 c) - amplitude c) <= conversion_error k k2.
Proof.
  intros V. destruct w.
  - cbn [to_kind]. destruct k, k2; try (split; [exact V|apply zero_err]).
    + split; [exact I|]. rewrite widen_amp. apply zero_err.
    + split; [exact (proj2 (to64_range K8 (or_introl eq_refl) c))|exact (proj2 (proj1 to_float_accuracy c))].
    + split; [exact (proj1 (to64_range K8 (or_introl eq_refl) c))|exact (proj1 (proj1 to_float_accuracy c))].
    + split; [exact I|apply narrow_amp].
    + split; [exact (proj2 (to64_range K16 (or_intror eq_refl) c))|exact (proj2 (proj2 to_float_accuracy c))].
    + split; [exact (proj1 (to64_range K16 (or_intror eq_refl) c))|exact (proj1 (proj2 to_float_accuracy c))].
    + split; [exact I|]. rewrite (amp_meaning K8). exact (direct_error K32 K8 (or_introl eq_refl) (or_introl eq_refl) c V).
    + split; [exact I|]. rewrite (amp_meaning K16). exact (direct_error K32 K16 (or_introl eq_refl) (or_intror eq_refl) c V).
    + destruct (widen_float _ (proj1 V)) as [E R]. cbn [chan_from amplitude valid]. unfold ch64_from_ch32.
      rewrite new64_id by (exact (R V)). split; [exact (R V)|]. rewrite E. apply zero_err.
    + split; [exact I|]. rewrite (amp_meaning K8). eapply Rle_trans; [exact (direct_error K64 K8 (or_intror eq_refl) (or_introl eq_refl) c V)|].
      cbn [conversion_error prec_k int_bits]. change (16 - 53)%Z with (-37)%Z. rewrite b_37, b_8. change (2 ^ 8 - 1)%Z with 255%Z. lra.
    + split; [exact I|]. rewrite (amp_meaning K16). eapply Rle_trans; [exact (direct_error K64 K16 (or_intror eq_refl) (or_intror eq_refl) c V)|].
      cbn [conversion_error prec_k int_bits]. change (16 - 53)%Z with (-37)%Z. rewrite b_37, b_8. change (2 ^ 16 - 1)%Z with 65535%Z. lra.
    + pose proof (frame_32 K64 c V) as [W E]. cbn [from_f64 to_f64] in W, E. unfold ch32_from_f64, ch64_to_f64 in W, E.
      cbn [chan_from]. unfold ch32_from_ch64. rewrite new32_id by exact W. split; [exact W|exact E].
  - cbn [to_kind]. split; [apply from_f64_valid, to_f64_range, V|]. destruct k2.
    + destruct k; try exact (frame_int _ c K8 V (or_introl eq_refl)).
      * rewrite (self_conv K8). apply zero_err.
      * eapply Rle_trans; [exact (frame_int _ c K8 V (or_introl eq_refl))|]. cbn [conversion_error]. rewrite b_8. unfold full; cbn [imax]. change (2 * 127 + 1)%Z with 255%Z. lra.
    + destruct k; try exact (frame_int _ c K16 V (or_intror eq_refl)).
      * rewrite widen_paths, widen_amp. apply zero_err.
      * rewrite (self_conv K16). apply zero_err.
    + pose proof (proj2 (frame_32 k c V)) as E. destruct k; exact E.
    + pose proof (proj2 (to64_amp k c V)) as E. destruct k; exact E.
Qed.

(** ** Both orders *)
Lemma conv_pos k k2 : 0 <= conversion_error k k2.
Proof. pose proof (b_pos (-24)). pose proof (b_pos (-53)). pose proof (b_pos (-25)). pose proof (b_pos (-8)). destruct k, k2; cbn [conversion_error]; lra. Qed.
Lemma near x y z e f : Rabs (x - y) <= e -> Rabs (y - z) <= f -> Rabs (x - z) <= e + f.
Proof. intros A B. replace (x - z) with ((x - y) + (y - z)) by ring. eapply Rle_trans; [apply Rabs_triang|lra]. Qed.
Lemma near_sym x y e : Rabs (x - y) <= e -> Rabs (y - x) <= e.
Proof. now rewrite Rabs_minus_sym. Qed.
Lemma sub_valid k (a b : chan k) : valid (c_sub a b).
Proof. destruct (kind_cases k) as [Hk|Hk]; [now apply int_valid|]. exact (proj1 (proj2 (float_ops_valid k Hk a b))). Qed.
Lemma commute_add w k k2 (a b : chan k) : valid a -> valid b ->
  Rabs (amplitude (to_kind w k2 (c_add a b)) - amplitude (c_add (to_kind w k2 a) (to_kind w k2 b))) <= sum_error k + sum_error k2 + 3 * conversion_error k k2.
Proof.
  intros Va Vb. destruct (kind_amp w k k2 a Va) as [Wa Ea], (kind_amp w k k2 b Vb) as [Wb Eb].
  pose proof (proj2 (kind_amp w k k2 _ (add_valid k a b))) as E. pose proof (add_amp k a b Va Vb) as A. pose proof (add_amp k2 _ _ Wa Wb) as B.
  assert (L : Rabs (clampR (amplitude a + amplitude b) - clampR (amplitude (to_kind w k2 a) + amplitude (to_kind w k2 b))) <= 2 * conversion_error k k2).
  { apply clampR_lip. apply Rabs_le. apply Rabs_le_inv in Ea, Eb. lra. }
  pose proof (near _ _ _ _ _ E A) as H1. pose proof (near _ _ _ _ _ H1 L) as H2. pose proof (near _ _ _ _ _ H2 (near_sym _ _ _ B)). lra.
Qed.
Lemma commute_sub w k k2 (a b : chan k) : valid a -> valid b ->
  Rabs (amplitude (to_kind w k2 (c_sub a b)) - amplitude (c_sub (to_kind w k2 a) (to_kind w k2 b))) <= sum_error k + sum_error k2 + 3 * conversion_error k k2.
Proof.
  intros Va Vb. destruct (kind_amp w k k2 a Va) as [Wa Ea], (kind_amp w k k2 b Vb) as [Wb Eb].
  pose proof (proj2 (kind_amp w k k2 _ (sub_valid k a b))) as E. pose proof (sub_amp k a b Va Vb) as A. pose proof (sub_amp k2 _ _ Wa Wb) as B.
  assert (L : Rabs (clampR (amplitude a - amplitude b) - clampR (amplitude (to_kind w k2 a) - amplitude (to_kind w k2 b))) <= 2 * conversion_error k k2).
  { apply clampR_lip. apply Rabs_le. apply Rabs_le_inv in Ea, Eb. lra. }
  pose proof (near _ _ _ _ _ E A) as H1. pose proof (near _ _ _ _ _ H1 L) as H2. pose proof (near _ _ _ _ _ H2 (near_sym _ _ _ B)). lra.
Qed.
Lemma commute_mul w k k2 (a b : chan k) : valid a -> valid b -> exists c d, c_mul a b = Ok c /\ c_mul (to_kind w k2 a) (to_kind w k2 b) = Ok d /\
  Rabs (amplitude (to_kind w k2 c) - amplitude d) <= product_error k + product_error k2 + 3 * conversion_error k k2.
Proof.
  intros Va Vb. destruct (kind_amp w k k2 a Va) as [Wa Ea], (kind_amp w k k2 b Vb) as [Wb Eb].
  destruct (mul_amp k a b Va Vb) as (c & Ec & Vc & A). destruct (mul_amp k2 _ _ Wa Wb) as (d & Ed & Vd & B).
  exists c, d. split; [exact Ec|]. split; [exact Ed|].
  pose proof (proj2 (kind_amp w k k2 _ Vc)) as E.
  assert (L : Rabs (amplitude a * amplitude b - amplitude (to_kind w k2 a) * amplitude (to_kind w k2 b)) <= 2 * conversion_error k k2).
  { pose proof (amp_range _ _ Vb) as Rb. pose proof (amp_range _ _ Wa) as Ra.
    apply near_sym in Ea. apply near_sym in Eb.
    replace (2 * conversion_error k k2) with (conversion_error k k2 * 1 + 1 * conversion_error k k2) by ring.
    apply near with (amplitude (to_kind w k2 a) * amplitude b).
    - replace (_ - _) with ((amplitude a - amplitude (to_kind w k2 a)) * amplitude b) by ring. rewrite Rabs_mult.
      apply Rmult_le_compat; try apply Rabs_pos; [exact Ea|apply Rabs_le; lra].
    - replace (_ - _) with (amplitude (to_kind w k2 a) * (amplitude b - amplitude (to_kind w k2 b))) by ring. rewrite Rabs_mult.
      apply Rmult_le_compat; try apply Rabs_pos; [apply Rabs_le; lra|exact Eb]. }
  pose proof (near _ _ _ _ _ E A) as H1. pose proof (near _ _ _ _ _ H1 L) as H2. pose proof (near _ _ _ _ _ H2 (near_sym _ _ _ B)). lra.
Qed.
Lemma commute_neg w k k2 (a : chan k) : valid a -> exists c d, c_neg a = Ok c /\ c_neg (to_kind w k2 a) = Ok d /\
  Rabs (amplitude (to_kind w k2 c) - amplitude d) <= 2 * conversion_error k k2.
Proof.
  intros Va. destruct (kind_amp w k k2 a Va) as [Wa Ea]. destruct (neg_amp k a) as (c & Ec & Ac & Vc), (neg_amp k2 (to_kind w k2 a)) as (d & Ed & Ad & _).
  exists c, d. split; [exact Ec|]. split; [exact Ed|]. pose proof (proj2 (kind_amp w k k2 c (Vc Va))) as E. rewrite Ac in E. rewrite Ad.
  apply Rabs_le. apply Rabs_le_inv in E, Ea. lra.
Qed.
(** The sum of many. *)
Lemma sum_amp_aux k k2 (x : chan k) ys (x2 : chan k2) ys2 q e : valid x -> valid x2 -> Forall valid ys -> Forall valid ys2 ->
  Rabs (amplitude x - amplitude x2) <= e -> Forall2 (fun y y2 => Rabs (amplitude y - amplitude y2) <= q) ys ys2 ->
  valid (sum_up x ys) /\ Rabs (amplitude (sum_up x ys) - amplitude (sum_up x2 ys2)) <= e + INR (length ys) * (q + sum_error k + sum_error k2).
Proof.
  intros Vx Vx2 Vy Vy2 H F. revert x x2 e Vx Vx2 Vy Vy2 H. induction F as [|y y2 ys ys2 D F IH]; intros x x2 e Vx Vx2 Vy Vy2 H.
  - split; [exact Vx|]. cbn. lra.
  - apply Forall_cons_iff in Vy as [Vy Vys], Vy2 as [Vy2 Vys2].
    change (sum_up x (y :: ys)) with (sum_up (c_add x y) ys). change (sum_up x2 (y2 :: ys2)) with (sum_up (c_add x2 y2) ys2).
    destruct (IH (c_add x y) (c_add x2 y2) (sum_error k + (e + q) + sum_error k2) (add_valid _ _ _) (add_valid _ _ _) Vys Vys2) as [V E].
    + pose proof (add_amp k x y Vx Vy) as A. pose proof (add_amp k2 x2 y2 Vx2 Vy2) as B.
      assert (L : Rabs (clampR (amplitude x + amplitude y) - clampR (amplitude x2 + amplitude y2)) <= e + q).
      { apply clampR_lip. apply Rabs_le. apply Rabs_le_inv in D, H. lra. }
      exact (near _ _ _ _ _ (near _ _ _ _ _ A L) (near_sym _ _ _ B)).
    + split; [exact V|]. eapply Rle_trans; [exact E|]. cbn [length]. rewrite S_INR. lra.
Qed.
Lemma commute_sum w k k2 (x : chan k) ys : valid x -> Forall valid ys ->
  Rabs (amplitude (to_kind w k2 (sum_up x ys)) - amplitude (sum_up (to_kind w k2 x) (map (to_kind w k2) ys))) <= mix_error k k2 (length ys).
Proof.
  intros Vx Vy. destruct (kind_amp w k k2 x Vx) as [Wx Ex].
  destruct (sum_amp_aux k k2 x ys (to_kind w k2 x) (map (to_kind w k2) ys) (conversion_error k k2) (conversion_error k k2) Vx Wx Vy) as [V E].
  - clear -Vy. induction Vy as [|y ys V Vs IH]; constructor; [exact (proj1 (kind_amp w k k2 y V))|exact IH].
  - apply near_sym, Ex.
  - clear -Vy. induction Vy as [|y ys V Vs IH]; constructor; [apply near_sym, (proj2 (kind_amp w k k2 y V))|exact IH].
  - pose proof (near _ _ _ _ _ (proj2 (kind_amp w k k2 _ V)) E) as H. eapply Rle_trans; [exact H|]. unfold mix_error. lra.
Qed.
