(** * PropArith.v -- property theorems C88 *)
From Coq Require Import ZArith NArith Reals Bool List Lia Lra.
From Flocq Require Import Core.Core IEEE754.BinarySingleNaN.
From Verif Require Import Rust Float Chan Frame Ops Stream Audio SpecChan SpecFrame SpecStream SpecSink SpecAudio SpecMix SpecArith ArithProofs ArithMixProofs IntProofs.
Import ListNotations.
Open Scope R_scope.

(** ** C88 *)
(** The operators compute with the numbers the samples stand for. *)
Theorem C88_add : forall k (a b : chan k), valid a -> valid b ->
  Rabs (amplitude (c_add a b) - clampR (amplitude a + amplitude b)) <= sum_error k.
Proof. exact add_amp. Qed.
Print Assumptions C88_add.
Theorem C88_sub : forall k (a b : chan k), valid a -> valid b ->
  Rabs (amplitude (c_sub a b) - clampR (amplitude a - amplitude b)) <= sum_error k.
Proof. exact sub_amp. Qed.
Print Assumptions C88_sub.
Theorem C88_mul : forall k (a b : chan k), valid a -> valid b -> exists c, c_mul a b = Ok c /\ valid c /\
  Rabs (amplitude c - amplitude a * amplitude b) <= product_error k.
Proof. exact mul_amp. Qed.
Print Assumptions C88_mul.
Theorem C88_neg : forall k (a : chan k), exists na, c_neg a = Ok na /\ amplitude na = - amplitude a /\ (valid a -> valid na).
Proof. exact neg_amp. Qed.
Print Assumptions C88_neg.
(** Both roads of conversion keep the number. *)
Theorem C88_convert : forall w k k2 (c : chan k), valid c ->
  valid (to_kind w k2 c) /\ Rabs (amplitude (to_kind w k2 c) - amplitude c) <= conversion_error k k2.
Proof. exact kind_amp. Qed.
Print Assumptions C88_convert.
(** Operating and then converting, or converting and then operating. *)
Theorem C88_add_convert : forall w k k2 (a b : chan k), valid a -> valid b ->
  Rabs (amplitude (to_kind w k2 (c_add a b)) - amplitude (c_add (to_kind w k2 a) (to_kind w k2 b)))
    <= sum_error k + sum_error k2 + 3 * conversion_error k k2.
Proof. exact commute_add. Qed.
Print Assumptions C88_add_convert.
Theorem C88_sub_convert : forall w k k2 (a b : chan k), valid a -> valid b ->
  Rabs (amplitude (to_kind w k2 (c_sub a b)) - amplitude (c_sub (to_kind w k2 a) (to_kind w k2 b)))
    <= sum_error k + sum_error k2 + 3 * conversion_error k k2.
Proof. exact commute_sub. Qed.
Print Assumptions C88_sub_convert.
Theorem C88_mul_convert : forall w k k2 (a b : chan k), valid a -> valid b -> exists c d,
  c_mul a b = Ok c /\ c_mul (to_kind w k2 a) (to_kind w k2 b) = Ok d /\
  Rabs (amplitude (to_kind w k2 c) - amplitude d) <= product_error k + product_error k2 + 3 * conversion_error k k2.
Proof. exact commute_mul. Qed.
Print Assumptions C88_mul_convert.
Theorem C88_neg_convert : forall w k k2 (a : chan k), valid a -> exists c d,
  c_neg a = Ok c /\ c_neg (to_kind w k2 a) = Ok d /\ Rabs (amplitude (to_kind w k2 c) - amplitude d) <= 2 * conversion_error k k2.
Proof. exact commute_neg. Qed.
Print Assumptions C88_neg_convert.
(** Any number of samples, saturating or not. *)
Theorem C88_sum_convert : forall w k k2 (x : chan k) ys, valid x -> Forall valid ys ->
  Rabs (amplitude (to_kind w k2 (sum_up x ys)) - amplitude (sum_up (to_kind w k2 x) (map (to_kind w k2) ys))) <= mix_error k k2 (length ys).
Proof. exact commute_sum. Qed.
Print Assumptions C88_sum_convert.
(** Tracks of any number and lengths: mixed and then converted, or each converted and
    then mixed. *)
Theorem C88_mixes : forall l k k2 rate z (a : audio l k) as_, whole_rate rate z -> Forall (fit_track k2 rate z) (a :: as_) ->
  exists n t (m : audio l k2) it (b : audio l k2) bs (u : stream l k2), shortest (map audio_stream (a :: as_)) = Some n /\
    mixdown (audio_stream a) (map audio_stream as_) = Ok t /\ with_stream l k2 (S (N.to_nat n)) rate t = Ok (m, it) /\ audio_len m = N.to_nat n /\
    each_converted rate (a :: as_) (b :: bs) /\ mixdown (audio_stream b) (map audio_stream bs) = Ok u /\ honest u /\ slen u = Some n /\
    forall i j c d, given (audio_stream m) i j c -> given u i j d -> Rabs (amplitude c - amplitude d) <= mix_error k k2 (length as_).
Proof. exact mixes. Qed.
Print Assumptions C88_mixes.
(** The orders differ: silence plus silence in 8 bits is code 0, 128 in 16 bits; converted
    first, 128 + 128. *)
Theorem C88_same_refuted : exists a b : chan K8, forall w, to_kind w K16 (c_add a b) <> c_add (to_kind w K16 a) (to_kind w K16 b).
Proof.
  exists (MID K8), (MID K8). intros w E. apply (f_equal (@sv W16)) in E. destruct w; vm_compute in E; discriminate E.
Qed.
Print Assumptions C88_same_refuted.
(** The bounds for sums of integers are reached; "the product is within one code" is false
    (-127 by -127 is 127). *)
Theorem C88_sum_error_reached : Rabs (amplitude (c_add (MID K8) (MID K8)) - clampR (amplitude (MID K8) + amplitude (MID K8))) = sum_error K8 /\
  Rabs (amplitude (c_sub (MID K16) (MID K16)) - clampR (amplitude (MID K16) - amplitude (MID K16))) = sum_error K16.
Proof.
  split.
  - rewrite FArithProofs.clampR_id; unfold amplitude, code_value; change (sv (c_add (MID K8) (MID K8))) with 0%Z; change (sv (MID K8)) with 0%Z;
      change (2 ^ 8 - 1)%Z with 255%Z; change (2 * 0 + 1)%Z with 1%Z; [|lra]. rewrite Rabs_left by lra. unfold sum_error. lra.
  - rewrite FArithProofs.clampR_id; unfold amplitude, code_value; change (sv (c_sub (MID K16) (MID K16))) with 0%Z; change (sv (MID K16)) with 0%Z;
      change (2 ^ 16 - 1)%Z with 65535%Z; change (2 * 0 + 1)%Z with 1%Z; [|lra]. rewrite Rabs_right by lra. unfold sum_error. lra.
Qed.
Print Assumptions C88_sum_error_reached.
Theorem C88_product_one_code_refuted : exists a b c : chan K8, c_mul a b = Ok c /\ Rabs (amplitude c - amplitude a * amplitude b) > 2 / 255.
Proof.
  destruct (mul8_spec (as_sint W8 (-127)) (as_sint W8 (-127))) as (c & E & V). exists (as_sint W8 (-127)), (as_sint W8 (-127)), c. split; [exact E|].
  unfold amplitude, code_value. rewrite V. change (sv (as_sint W8 (-127))) with (-127)%Z. change (clampZ (-128) 127 (Z.quot (-127 * -127) 127)) with 127%Z.
  change (2 ^ 8 - 1)%Z with 255%Z. change (2 * 127 + 1)%Z with 255%Z. change (2 * -127 + 1)%Z with (-253)%Z. rewrite Rabs_right; lra.
Qed.
Print Assumptions C88_product_one_code_refuted.
(** Three mono tracks in 8 bits, mixed and converted to 16 bits: the two buffers differ. *)
Definition tr8 (zs : list Z) : audio Mono K8 := with_frames (flit 48000 0) (map (fun z => ((as_sint W8 z, tt) : frame Mono K8)) zs).
Example C88_case : whole_rate (flit 48000 0) 48000 /\ Forall (fit_track K16 (flit 48000 0) 48000) [tr8 [1; 2]; tr8 [100; 3]; tr8 [100; -9; 4]]%Z /\
  (sv (to_kind ByFrame K16 (sum_up (as_sint W8 1 : chan K8) [as_sint W8 100; as_sint W8 100])) = 32767)%Z /\
  (sv (to_kind ByFrame K16 (sum_up (as_sint W8 2 : chan K8) [as_sint W8 3; as_sint W8 (-9)])) = -900)%Z /\
  (sv (sum_up (to_kind ByFrame K16 (as_sint W8 2 : chan K8)) [to_kind ByFrame K16 (as_sint W8 3 : chan K8); to_kind ByFrame K16 (as_sint W8 (-9) : chan K8)]) = -644)%Z.
Proof.
  split; [|split; [|repeat split; vm_compute; reflexivity]].
  - split; [reflexivity|]. split; [exact (proj1 (FloatProofs.flit_Z 53 1024 48000 ltac:(cbn; lia)))|lia].
  - repeat constructor; cbn; try lia; try (unfold allocatable; vm_compute; discriminate).
Qed.
