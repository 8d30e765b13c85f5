(** * ChanProofs.v -- lemmas about the four channel types *)
From Coq Require Import ZArith Reals Lia Lra Bool ZifyBool List.
From Flocq Require Import Core.Core IEEE754.BinarySingleNaN.
From Verif Require Import Rust Float Math Chan SpecChan IntProofs FloatProofs FloorProofs ConvProofs FArithProofs.
Open Scope R_scope.

Lemma P64a : (24 <= 53)%Z. Proof. lia. Qed.
Lemma P64b : (128 <= 1024)%Z. Proof. lia. Qed.
Lemma P32a : (24 <= 24)%Z. Proof. lia. Qed.
Lemma P32b : (128 <= 128)%Z. Proof. lia. Qed.
#[global] Hint Resolve P64a P64b P32a P32b : core.

Lemma eps64_correct : B2R eps64 = bpow radix2 (-52) /\ is_finite eps64 = true.
Proof.
  split; [|reflexivity].
  destruct (flit_correct 53 1024 1 (-52)) as [E _].
  - apply fmt_F2R; lia.
  - unfold F2R; cbn [Fnum Fexp]. rewrite Rmult_1_l, Rabs_pos_eq by apply bpow_ge_0. apply bpow_lt. lia.
  - unfold eps64. rewrite E. unfold F2R; cbn [Fnum Fexp]. apply Rmult_1_l.
Qed.
Lemma eps32_correct : B2R eps32 = bpow radix2 (-23) /\ is_finite eps32 = true.
Proof.
  split; [|reflexivity].
  destruct (flit_correct 24 128 1 (-23)) as [E _].
  - apply fmt_F2R; lia.
  - unfold F2R; cbn [Fnum Fexp]. rewrite Rmult_1_l, Rabs_pos_eq by apply bpow_ge_0. apply bpow_lt. lia.
  - unfold eps32. rewrite E. unfold F2R; cbn [Fnum Fexp]. apply Rmult_1_l.
Qed.
Lemma eps64_small : 0 <= B2R eps64 <= / 4.
Proof.
  destruct eps64_correct as [-> _]. split; [apply bpow_ge_0|].
  change (/ 4) with (bpow radix2 (-2)). apply bpow_le. lia.
Qed.
Lemma eps32_small : 0 <= B2R eps32 <= / 4.
Proof.
  destruct eps32_correct as [-> _]. split; [apply bpow_ge_0|].
  change (/ 4) with (bpow radix2 (-2)). apply bpow_le. lia.
Qed.

(** ** Integer to float: shapes *)
Lemma to64_8 (c : ch8) : ch64_from_ch8 c = tof 53 1024 255 (sv c). Proof. reflexivity. Qed.
Lemma to64_16 (c : ch16) : ch64_from_ch16 c = tof 53 1024 65535 (sv c). Proof. reflexivity. Qed.
Lemma to32_8 (c : ch8) : ch32_from_ch8 c = tof 24 128 255 (sv c). Proof. reflexivity. Qed.
Lemma to32_16 (c : ch16) : ch32_from_ch16 c = tof 24 128 65535 (sv c). Proof. reflexivity. Qed.
Lemma from64_8 (x : ch64) : ch8_from_ch64 x = as_sint W8 (fromf 53 1024 255 (-128) 127 eps64 x). Proof. reflexivity. Qed.
Lemma from64_16 (x : ch64) : ch16_from_ch64 x = as_sint W16 (fromf 53 1024 65535 (-32768) 32767 eps64 x). Proof. reflexivity. Qed.
Lemma from32_8 (x : ch32) : ch8_from_ch32 x = as_sint W8 (fromf 24 128 255 (-128) 127 eps32 x). Proof. reflexivity. Qed.
Lemma from32_16 (x : ch32) : ch16_from_ch32 x = as_sint W16 (fromf 24 128 65535 (-32768) 32767 eps32 x). Proof. reflexivity. Qed.

Lemma clamp64_eq (x : f64) : clamp64 x = clampf x. Proof. reflexivity. Qed.
Lemma clamp32_eq (x : f32) : clamp32 x = clampf x. Proof. reflexivity. Qed.

(** End points. *)
Lemma ends :
  tof 53 1024 255 (-128) = flit (-1) 0 /\ tof 53 1024 255 127 = flit 1 0 /\
  tof 53 1024 65535 (-32768) = flit (-1) 0 /\ tof 53 1024 65535 32767 = flit 1 0 /\
  tof 24 128 255 (-128) = flit (-1) 0 /\ tof 24 128 255 127 = flit 1 0 /\
  tof 24 128 65535 (-32768) = flit (-1) 0 /\ tof 24 128 65535 32767 = flit 1 0.
Proof. repeat split; apply B2SF_inj; vm_compute; reflexivity. Qed.

Lemma tof_in_range prec emax {Hp : FLX.Prec_gt_0 prec} {He : Prec_lt_emax prec emax} M lo hi c :
  (24 <= prec)%Z -> (128 <= emax)%Z -> (3 <= M <= 65535)%Z ->
  (2 * lo = - (M + 1))%Z -> (2 * hi = M - 1)%Z ->
  tof prec emax M lo = flit (-1) 0 -> tof prec emax M hi = flit 1 0 ->
  (lo <= c <= hi)%Z -> in_range (tof prec emax M c).
Proof.
  intros P1 P2 HM Hlo Hhi El Eh Hc.
  destruct (tof_correct prec emax P1 P2 M c HM ltac:(lia)) as [Hf _].
  destruct (one_correct prec emax) as [O1 O2], (mone_correct prec emax) as [M1 M2].
  destruct (Z.eq_dec c lo) as [->|Nl]; [rewrite El; split; auto; lra|].
  destruct (Z.eq_dec c hi) as [->|Nh]; [rewrite Eh; split; auto; lra|].
  split; [exact Hf|].
  pose proof (tof_inside prec emax P1 P2 M c HM ltac:(lia) ltac:(lia)). lra.
Qed.

Lemma to64_8_range (c : ch8) : in_range (ch64_from_ch8 c).
Proof. rewrite to64_8. destruct ends as (E1 & E2 & _). eapply (tof_in_range 53 1024 255 (-128) 127); eauto; try lia. apply i8_range. Qed.
Lemma to64_16_range (c : ch16) : in_range (ch64_from_ch16 c).
Proof. rewrite to64_16. destruct ends as (_ & _ & E1 & E2 & _). eapply (tof_in_range 53 1024 65535 (-32768) 32767); eauto; try lia. apply i16_range. Qed.
Lemma to32_8_range (c : ch8) : in_range (ch32_from_ch8 c).
Proof. rewrite to32_8. destruct ends as (_ & _ & _ & _ & E1 & E2 & _). eapply (tof_in_range 24 128 255 (-128) 127); eauto; try lia. apply i8_range. Qed.
Lemma to32_16_range (c : ch16) : in_range (ch32_from_ch16 c).
Proof. rewrite to32_16. destruct ends as (_ & _ & _ & _ & _ & _ & E1 & E2). eapply (tof_in_range 24 128 65535 (-32768) 32767); eauto; try lia. apply i16_range. Qed.

(** ** Round trips (C07, C08) *)
Lemma rt64_8 (c : ch8) : ch8_from_ch64 (ch64_from_ch8 c) = c.
Proof.
  pose proof (i8_range c). pose proof (to64_8_range c) as Hr. rewrite to64_8 in Hr.
  apply sint_eq. rewrite from64_8, to64_8, fromf_tof; auto; try lia.
  - now apply sv_as8.
  - apply eps64_small.
Qed.
Lemma rt64_16 (c : ch16) : ch16_from_ch64 (ch64_from_ch16 c) = c.
Proof.
  pose proof (i16_range c). pose proof (to64_16_range c) as Hr. rewrite to64_16 in Hr.
  apply sint_eq. rewrite from64_16, to64_16, fromf_tof; auto; try lia.
  - now apply sv_as16.
  - apply eps64_small.
Qed.
Lemma rt32_8 (c : ch8) : ch8_from_ch32 (ch32_from_ch8 c) = c.
Proof.
  pose proof (i8_range c). pose proof (to32_8_range c) as Hr. rewrite to32_8 in Hr.
  apply sint_eq. rewrite from32_8, to32_8, fromf_tof; auto; try lia.
  - now apply sv_as8.
  - apply eps32_small.
Qed.
Lemma rt32_16 (c : ch16) : ch16_from_ch32 (ch32_from_ch16 c) = c.
Proof.
  pose proof (i16_range c). pose proof (to32_16_range c) as Hr. rewrite to32_16 in Hr.
  apply sint_eq. rewrite from32_16, to32_16, fromf_tof; auto; try lia.
  - now apply sv_as16.
  - apply eps32_small.
Qed.
Lemma new64_id (x : f64) : in_range x -> ch64_new x = x.
Proof. exact (clampf_id 53 1024 x). Qed.
Lemma new32_id (x : f32) : in_range x -> ch32_new x = x.
Proof. exact (clampf_id 24 128 x). Qed.

Lemma int_f64_roundtrip k : is_int k -> forall c : chan k,
  from_f64 k (to_f64 c) = c /\ chan_from K64 k (chan_from k K64 c) = c.
Proof.
  intros [-> | ->] c; cbn [from_f64 to_f64 chan_from].
  - unfold ch8_from_f64, ch8_to_f64. rewrite new64_id by apply to64_8_range. split; apply rt64_8.
  - unfold ch16_from_f64, ch16_to_f64. rewrite new64_id by apply to64_16_range. split; apply rt64_16.
Qed.
Lemma int_f32_roundtrip k : is_int k -> forall c : chan k, chan_from K32 k (chan_from k K32 c) = c.
Proof. intros [-> | ->] c; cbn [chan_from]; [apply rt32_8|apply rt32_16]. Qed.

(** ** Range, monotonicity and accuracy (C09) *)
Lemma to_float_ends k : is_int k ->
  to_f64 (MIN k) = flit (-1) 0 /\ to_f64 (MAX k) = flit 1 0 /\
  chan_from k K32 (MIN k) = flit (-1) 0 /\ chan_from k K32 (MAX k) = flit 1 0.
Proof.
  destruct ends as (E1 & E2 & E3 & E4 & E5 & E6 & E7 & E8).
  intros [-> | ->]; cbn [to_f64 chan_from].
  - unfold ch8_to_f64. rewrite !to64_8, !to32_8.
    change (sv (MIN K8)) with (-128)%Z. change (sv (MAX K8)) with 127%Z. auto.
  - unfold ch16_to_f64. rewrite !to64_16, !to32_16.
    change (sv (MIN K16)) with (-32768)%Z. change (sv (MAX K16)) with 32767%Z. auto.
Qed.

Lemma to_f64_eq_from k : is_int k -> forall c : chan k, to_f64 c = chan_from k K64 c.
Proof. intros [-> | ->] c; reflexivity. Qed.

Lemma to64_range k : is_int k -> forall c : chan k, in_range (to_f64 c) /\ in_range (chan_from k K32 c : f32).
Proof.
  intros [-> | ->] c; cbn [to_f64 chan_from].
  - split; [apply to64_8_range|apply to32_8_range].
  - split; [apply to64_16_range|apply to32_16_range].
Qed.

Lemma sv_lt8 (c d : chan K8) : c_leb d c = false -> (sv c < sv d)%Z.
Proof. cbn [c_leb]. lia. Qed.
Lemma sv_lt16 (c d : chan K16) : c_leb d c = false -> (sv c < sv d)%Z.
Proof. cbn [c_leb]. lia. Qed.

Lemma to_float_mono k : is_int k -> forall c d : chan k, c_leb d c = false ->
  flt (to_f64 c) (to_f64 d) = true /\ flt (chan_from k K32 c : f32) (chan_from k K32 d) = true.
Proof.
  intros [-> | ->] c d H; cbn [to_f64 chan_from].
  - apply sv_lt8 in H. pose proof (i8_range c). pose proof (i8_range d).
    unfold ch8_to_f64. destruct (to64_8_range c) as [F1 _], (to64_8_range d) as [F2 _],
      (to32_8_range c) as [F3 _], (to32_8_range d) as [F4 _].
    split; apply flt_correct; auto; rewrite ?to64_8, ?to32_8; apply tof_mono; auto; lia.
  - apply sv_lt16 in H. pose proof (i16_range c). pose proof (i16_range d).
    unfold ch16_to_f64. destruct (to64_16_range c) as [F1 _], (to64_16_range d) as [F2 _],
      (to32_16_range c) as [F3 _], (to32_16_range d) as [F4 _].
    split; apply flt_correct; auto; rewrite ?to64_16, ?to32_16; apply tof_mono; auto; lia.
Qed.

Lemma to_float_accuracy :
  (forall c : chan K8, Rabs (B2R (to_f64 c) - code_value 8 (sv c)) <= 3 * bpow radix2 (-53) /\
     Rabs (B2R (chan_from K8 K32 c : f32) - code_value 8 (sv c)) <= 3 * bpow radix2 (-24)) /\
  (forall c : chan K16, Rabs (B2R (to_f64 c) - code_value 16 (sv c)) <= 3 * bpow radix2 (-53) /\
     Rabs (B2R (chan_from K16 K32 c : f32) - code_value 16 (sv c)) <= 3 * bpow radix2 (-24)).
Proof.
  split; intros c; cbn [to_f64 chan_from]; unfold ch8_to_f64, ch16_to_f64, code_value.
  - pose proof (i8_range c). change (2 ^ 8 - 1)%Z with 255%Z. rewrite to64_8, to32_8. split.
    + apply (tof_correct 53 1024); auto; lia.
    + apply (tof_correct 24 128); auto; lia.
  - pose proof (i16_range c). change (2 ^ 16 - 1)%Z with 65535%Z. rewrite to64_16, to32_16. split.
    + apply (tof_correct 53 1024); auto; lia.
    + apply (tof_correct 24 128); auto; lia.
Qed.

(** ** Float to integer: saturation and monotonicity (C10) *)
Lemma from_f64_eq8 (x : f64) : from_f64 K8 x = ch8_from_ch64 (clampf x). Proof. reflexivity. Qed.
Lemma from_f64_eq16 (x : f64) : from_f64 K16 x = ch16_from_ch64 (clampf x). Proof. reflexivity. Qed.

Lemma fromf_range lo hi prec emax {Hp : FLX.Prec_gt_0 prec} {He : Prec_lt_emax prec emax} M eps x :
  (lo <= 0 <= hi)%Z -> (lo <= fromf prec emax M lo hi eps x <= hi)%Z.
Proof.
  intros H. unfold fromf, floorg.
  assert (forall y : binary_float prec emax, (lo <= fcast lo hi y <= hi)%Z) as HH.
  { intros y. destruct y as [?|[]| |? ? ? ?]; cbn [fcast]; lia. }
  destruct (flt _ _); apply HH.
Qed.

Lemma sv_from64_8 (x : f64) : sv (ch8_from_ch64 x) = fromf 53 1024 255 (-128) 127 eps64 x.
Proof. rewrite from64_8. apply sv_as8. apply fromf_range. lia. Qed.
Lemma sv_from64_16 (x : f64) : sv (ch16_from_ch64 x) = fromf 53 1024 65535 (-32768) 32767 eps64 x.
Proof. rewrite from64_16. apply sv_as16. apply fromf_range. lia. Qed.

Lemma from_f64_consts :
  ch8_from_ch64 (flit 1 0) = MAX K8 /\ ch8_from_ch64 (flit (-1) 0) = MIN K8 /\
  ch8_from_ch64 (flit 0 0) = MID K8 /\
  ch16_from_ch64 (flit 1 0) = MAX K16 /\ ch16_from_ch64 (flit (-1) 0) = MIN K16 /\
  ch16_from_ch64 (flit 0 0) = MID K16.
Proof. repeat apply conj; apply sint_eq; vm_compute; reflexivity. Qed.

Lemma clampf_ge1 (x : f64) : fle (flit 1 0) x = true -> clampf x = flit 1 0.
Proof.
  intros H. destruct (one_correct 53 1024) as [O1 O2].
  destruct (is_finite x) eqn:Fx.
  - apply fle_correct in H; auto. rewrite O1 in H. rewrite clampf_finite by exact Fx.
    destruct (Rlt_dec (B2R x) (-1)); [lra|]. destruct (Rlt_dec 1 (B2R x)); [reflexivity|].
    apply (finite_eq 53 1024); auto; try lra.
  - destruct x as [s|s| |s m e Hb]; try discriminate.
    rewrite clampf_inf. destruct s; [discriminate|reflexivity].
Qed.
Lemma clampf_le1 (x : f64) : fle x (flit (-1) 0) = true -> clampf x = flit (-1) 0.
Proof.
  intros H. destruct (mone_correct 53 1024) as [O1 O2].
  destruct (is_finite x) eqn:Fx.
  - apply fle_correct in H; auto. rewrite O1 in H. rewrite clampf_finite by exact Fx.
    destruct (Rlt_dec (B2R x) (-1)); [reflexivity|]. destruct (Rlt_dec 1 (B2R x)); [lra|].
    apply (finite_eq 53 1024); auto; try lra.
  - destruct x as [s|s| |s m e Hb]; try discriminate.
    rewrite clampf_inf. destruct s; [reflexivity|discriminate].
Qed.

Lemma from_f64_sat k : is_int k -> forall x : f64,
  (fle (flit 1 0) x = true -> from_f64 k x = MAX k) /\
  (fle x (flit (-1) 0) = true -> from_f64 k x = MIN k) /\
  (is_nan x = true -> from_f64 k x = MAX k) /\
  (feq x (flit 0 0) = true -> from_f64 k x = MID k).
Proof.
  destruct from_f64_consts as (E1 & E2 & E3 & E4 & E5 & E6).
  assert (Hz : forall x : f64, feq x (flit 0 0) = true -> x = B754_zero true \/ x = B754_zero false).
  { intros x. destruct (zero_correct 53 1024) as [Z1 Z2]. destruct x as [s|s| |s m e Hb].
    - intros _. destruct s; auto.
    - destruct s; discriminate.
    - discriminate.
    - intros H. apply feq_correct in H; auto. rewrite Z1 in H. cbn [B2R] in H.
      apply eq_0_F2R in H. destruct s; discriminate. }
  intros [-> | ->] x; (split; [|split; [|split]]); intros H.
  - now rewrite from_f64_eq8, clampf_ge1.
  - now rewrite from_f64_eq8, clampf_le1.
  - now rewrite from_f64_eq8, clampf_nan.
  - apply sint_eq. destruct (Hz x H) as [-> | ->]; vm_compute; reflexivity.
  - now rewrite from_f64_eq16, clampf_ge1.
  - now rewrite from_f64_eq16, clampf_le1.
  - now rewrite from_f64_eq16, clampf_nan.
  - apply sint_eq. destruct (Hz x H) as [-> | ->]; vm_compute; reflexivity.
Qed.

Lemma from_f64_mono k : is_int k -> forall x y : f64, fle x y = true ->
  c_leb (from_f64 k x) (from_f64 k y) = true.
Proof.
  intros [-> | ->] x y H; apply (clampf_mono 53 1024) in H; cbn [c_leb].
  - rewrite !from_f64_eq8, !sv_from64_8.
    apply Z.leb_le; apply (fromf_mono 53 1024); auto; try lia; apply (clampf_in_range 53 1024).
  - rewrite !from_f64_eq16, !sv_from64_16.
    apply Z.leb_le; apply (fromf_mono 53 1024); auto; try lia; apply (clampf_in_range 53 1024).
Qed.

(** ** Quantisation error (C11) *)
Lemma quantisation_error :
  (forall x : f64, in_range x ->
     Rabs (code_value 8 (sv (from_f64 K8 x)) - B2R x) <= (1 + bpow radix2 (-37)) / 255) /\
  (forall x : f64, in_range x ->
     Rabs (code_value 16 (sv (from_f64 K16 x)) - B2R x) <= (1 + bpow radix2 (-37)) / 65535).
Proof.
  destruct eps64_correct as [Ee Fe].
  assert (Hb : 2 * B2R eps64 + 32768 * bpow radix2 (-53) <= bpow radix2 (-37)).
  { rewrite Ee.
    replace (bpow radix2 (-52)) with (2 * bpow radix2 (-53)) by (change 2 with (bpow radix2 1); rewrite <- bpow_plus; reflexivity).
    replace (bpow radix2 (-37)) with (65536 * bpow radix2 (-53)) by (change 65536 with (bpow radix2 16); rewrite <- bpow_plus; reflexivity).
    pose proof (bpow_gt_0 radix2 (-53)). lra. }
  split; intros x Hx; unfold code_value.
  - rewrite from_f64_eq8, (clampf_id 53 1024 x Hx), sv_from64_8. change (2 ^ 8 - 1)%Z with 255%Z.
    eapply Rle_trans; [apply (fromf_error 53 1024); auto; try lia; apply eps64_small|].
    change (- (53))%Z with (-53)%Z. lra.
  - rewrite from_f64_eq16, (clampf_id 53 1024 x Hx), sv_from64_16. change (2 ^ 16 - 1)%Z with 65535%Z.
    eapply Rle_trans; [apply (fromf_error 53 1024); auto; try lia; apply eps64_small|].
    change (- (53))%Z with (-53)%Z. lra.
Qed.
