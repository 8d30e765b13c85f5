(** * DirectProofs.v -- direct float to integer conversions (C10, C11), raw integer operands (C61) *)
From Coq Require Import ZArith Reals List Bool Lia Lra.
From Flocq Require Import Core.Core IEEE754.BinarySingleNaN.
From Verif Require Import Rust Float Math Chan FloatProofs SpecChan SpecMore IntProofs ConvProofs ChanProofs FChanProofs MixedProofs.
Open Scope R_scope.

Lemma sv_from32_8 (x : f32) : sv (ch8_from_ch32 x) = fromf 24 128 255 (-128) 127 eps32 x.
Proof. rewrite from32_8. apply sv_as8. apply fromf_range. lia. Qed.
Lemma sv_from32_16 (x : f32) : sv (ch16_from_ch32 x) = fromf 24 128 65535 (-32768) 32767 eps32 x.
Proof. rewrite from32_16. apply sv_as16. apply fromf_range. lia. Qed.

Lemma direct_mono h k : is_float h -> is_int k -> forall a b : chan h, valid a -> valid b -> c_leb a b = true ->
  c_leb (chan_from h k a) (chan_from h k b) = true.
Proof.
  intros Hh Hk a b Va Vb H. apply (leb_rval h a b Va Vb) in H.
  destruct Hh as [-> | ->], Hk as [-> | ->]; cbn [chan_from c_leb rval valid] in *; apply Z.leb_le.
  - rewrite !sv_from32_8. apply (fromf_mono 24 128); auto; lia.
  - rewrite !sv_from32_16. apply (fromf_mono 24 128); auto; lia.
  - rewrite !sv_from64_8. apply (fromf_mono 53 1024); auto; lia.
  - rewrite !sv_from64_16. apply (fromf_mono 53 1024); auto; lia.
Qed.
Lemma direct_ends h k : is_float h -> is_int k ->
  chan_from h k (MAX h) = MAX k /\ chan_from h k (MIN h) = MIN k /\ chan_from h k (MID h) = MID k.
Proof.
  intros [-> | ->] [-> | ->]; (split; [|split]); apply sint_eq; vm_compute; reflexivity.
Qed.
Lemma direct_error h k : is_float h -> is_int k -> forall a : chan h, valid a ->
  Rabs (meaning (chan_from h k a) - rval a) <= (1 + bpow radix2 (16 - prec_k h)) / IZR (2 ^ int_bits k - 1).
Proof.
  intros Hh Hk a V. destruct eps64_correct as [Ee Fe]. destruct eps32_correct as [Ee2 Fe2].
  assert (Hb : 2 * B2R eps64 + 32768 * bpow radix2 (-53) <= bpow radix2 (-37)).
  { rewrite Ee.
    replace (bpow radix2 (-52)) with (2 * bpow radix2 (-53)) by (change 2 with (bpow radix2 1); rewrite <- bpow_plus; reflexivity).
    replace (bpow radix2 (-37)) with (65536 * bpow radix2 (-53)) by (change 65536 with (bpow radix2 16); rewrite <- bpow_plus; reflexivity).
    pose proof (bpow_gt_0 radix2 (-53)). lra. }
  assert (Hb2 : 2 * B2R eps32 + 32768 * bpow radix2 (-24) <= bpow radix2 (-8)).
  { rewrite Ee2.
    replace (bpow radix2 (-23)) with (2 * bpow radix2 (-24)) by (change 2 with (bpow radix2 1); rewrite <- bpow_plus; reflexivity).
    replace (bpow radix2 (-8)) with (65536 * bpow radix2 (-24)) by (change 65536 with (bpow radix2 16); rewrite <- bpow_plus; reflexivity).
    pose proof (bpow_gt_0 radix2 (-24)). lra. }
  destruct Hh as [-> | ->], Hk as [-> | ->]; cbn [chan_from rval valid prec_k int_bits meaning] in *; unfold code_value.
  - rewrite sv_from32_8. change (2 ^ 8 - 1)%Z with 255%Z. change (16 - 24)%Z with (-8)%Z.
    eapply Rle_trans; [apply (fromf_error 24 128); auto; try lia; apply eps32_small|].
    change (- (24))%Z with (-24)%Z. lra.
  - rewrite sv_from32_16. change (2 ^ 16 - 1)%Z with 65535%Z. change (16 - 24)%Z with (-8)%Z.
    eapply Rle_trans; [apply (fromf_error 24 128); auto; try lia; apply eps32_small|].
    change (- (24))%Z with (-24)%Z. lra.
  - rewrite sv_from64_8. change (2 ^ 8 - 1)%Z with 255%Z. change (16 - 53)%Z with (-37)%Z.
    eapply Rle_trans; [apply (fromf_error 53 1024); auto; try lia; apply eps64_small|].
    change (- (53))%Z with (-53)%Z. lra.
  - rewrite sv_from64_16. change (2 ^ 16 - 1)%Z with 65535%Z. change (16 - 53)%Z with (-37)%Z.
    eapply Rle_trans; [apply (fromf_error 53 1024); auto; try lia; apply eps64_small|].
    change (- (53))%Z with (-53)%Z. lra.
Qed.

Open Scope Z_scope.
(** Raw integer operands: the number itself, saturating. *)
Lemma raw_int :
  (forall (a : chan K8) (v : i8),
     sv (op_add a (ORaw (v : raw_operand K8))) = clampZ (-128) 127 (sv a + sv v) /\
     sv (op_sub a (ORaw (v : raw_operand K8))) = clampZ (-128) 127 (sv a - sv v) /\
     (exists c, op_mul a (ORaw (v : raw_operand K8)) = Ok c /\ sv c = clampZ (-128) 127 (Z.quot (sv a * sv v) 127)) /\
     (exists c, op_div a (ORaw (v : raw_operand K8)) = Ok c /\
        sv c = if sv v =? 0 then 127 else clampZ (-128) 127 (Z.quot (256 * sv a) (sv v)))) /\
  (forall (a : chan K16) (v : i16),
     sv (op_add a (ORaw (v : raw_operand K16))) = clampZ (-32768) 32767 (sv a + sv v) /\
     sv (op_sub a (ORaw (v : raw_operand K16))) = clampZ (-32768) 32767 (sv a - sv v) /\
     (exists c, op_mul a (ORaw (v : raw_operand K16)) = Ok c /\ sv c = clampZ (-32768) 32767 (Z.quot (sv a * sv v) 32767)) /\
     (~ (sv a = -32768 /\ sv v = -1) -> exists c, op_div a (ORaw (v : raw_operand K16)) = Ok c /\
        sv c = if sv v =? 0 then 32767 else clampZ (-32768) 32767 (Z.quot (65536 * sv a) (sv v)))).
Proof.
  split; intros a v; unfold op_add, op_sub, op_mul, op_div; cbn [into from_raw]; unfold ch8_new, ch16_new.
  - split; [apply add8_spec|]. split; [apply sub8_spec|]. split; [apply mul8_spec|apply div8_spec].
  - split; [apply add16_spec|]. split; [apply sub16_spec|]. split; [apply mul16_spec|apply div16_spec].
Qed.

(** An integer channel and a float operand. *)
Lemma int_float_mixed h : is_float h ->
  (forall (a : chan K8) (b : chan h), valid b -> exists c, (-128 <= c <= 127)%Z /\
     (Rabs (code_value 8 c - rval b) <= (1 + bpow radix2 (16 - prec_k h)) / 255)%R /\
     sv (op_add a (OChan h b)) = clampZ (-128) 127 (sv a + c) /\ sv (op_sub a (OChan h b)) = clampZ (-128) 127 (sv a - c) /\
     (exists m, op_mul a (OChan h b) = Ok m /\ sv m = clampZ (-128) 127 (Z.quot (sv a * c) 127)) /\
     (exists q, op_div a (OChan h b) = Ok q /\ sv q = if (c =? 0)%Z then 127%Z else clampZ (-128) 127 (Z.quot (256 * sv a) c))) /\
  (forall (a : chan K16) (b : chan h), valid b -> exists c, (-32768 <= c <= 32767)%Z /\
     (Rabs (code_value 16 c - rval b) <= (1 + bpow radix2 (16 - prec_k h)) / 65535)%R /\
     sv (op_add a (OChan h b)) = clampZ (-32768) 32767 (sv a + c) /\ sv (op_sub a (OChan h b)) = clampZ (-32768) 32767 (sv a - c) /\
     (exists m, op_mul a (OChan h b) = Ok m /\ sv m = clampZ (-32768) 32767 (Z.quot (sv a * c) 32767)) /\
     (~ (sv a = -32768 /\ c = -1)%Z -> exists q, op_div a (OChan h b) = Ok q /\
        sv q = if (c =? 0)%Z then 32767%Z else clampZ (-32768) 32767 (Z.quot (65536 * sv a) c))).
Proof.
  intros Hh. destruct add_int_spec as (A8 & S8 & A16 & S16), mul_int_spec as (M8 & M16).
  split; intros a b V; unfold op_add, op_sub, op_mul, op_div; cbn [into].
  - exists (sv (chan_from h K8 b : chan K8)). split; [apply i8_range|].
    split; [exact (direct_error h K8 Hh (or_introl eq_refl) b V)|].
    split; [apply A8|]. split; [apply S8|]. split; [apply M8|apply div8_spec].
  - exists (sv (chan_from h K16 b : chan K16)). split; [apply i16_range|].
    split; [exact (direct_error h K16 Hh (or_intror eq_refl) b V)|].
    split; [apply A16|]. split; [apply S16|]. split; [apply M16|apply div16_spec].
Qed.
