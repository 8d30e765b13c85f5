(** * IntProofs.v -- lemmas about the integer channels *)
From Coq Require Import ZArith List Bool Lia Eqdep_dec ZifyBool.
From Verif Require Import Rust Float Math Chan SpecChan.
Import ListNotations.
Open Scope Z_scope.
Ltac Zify.zify_post_hook ::= Z.div_mod_to_equations.

Ltac clampz := unfold clampZ in *;
  repeat match goal with |- context [if ?a <? ?b then _ else _] => destruct (Z.ltb_spec a b) end; lia.

Lemma sint_eq {w} (a b : sint w) : sv a = sv b -> a = b.
Proof.
  destruct a as [a Ha], b as [b Hb]; cbn. intros ->. f_equal.
  apply UIP_dec, bool_dec.
Qed.

Lemma sint_range {w} (a : sint w) : smin w <= sv a <= smax w.
Proof. destruct a as [a Ha]; cbn. lia. Qed.

Lemma i8_range (a : sint W8) : -128 <= sv a <= 127.
Proof. exact (sint_range a). Qed.
Lemma i16_range (a : sint W16) : -32768 <= sv a <= 32767.
Proof. exact (sint_range a). Qed.

Lemma wrap8_id z : -128 <= z <= 127 -> wrap_signed 8 z = z.
Proof.
  intros H. unfold wrap_signed. change (2 ^ (8 - 1)) with 128. change (2 ^ 8) with 256.
  rewrite Z.mod_small; lia.
Qed.
Lemma wrap16_id z : -32768 <= z <= 32767 -> wrap_signed 16 z = z.
Proof.
  intros H. unfold wrap_signed. change (2 ^ (16 - 1)) with 32768. change (2 ^ 16) with 65536.
  rewrite Z.mod_small; lia.
Qed.
Lemma wrap32_id z : i32_min <= z <= i32_max -> wrap_signed 32 z = z.
Proof.
  unfold i32_min, i32_max. intros H. unfold wrap_signed.
  change (2 ^ (32 - 1)) with 2147483648. change (2 ^ 32) with 4294967296.
  rewrite Z.mod_small; lia.
Qed.

Lemma sv_as8 z : -128 <= z <= 127 -> sv (as_sint W8 z) = z.
Proof. exact (wrap8_id z). Qed.
Lemma sv_as16 z : -32768 <= z <= 32767 -> sv (as_sint W16 z) = z.
Proof. exact (wrap16_id z). Qed.

Lemma sv_as8_gen z : sv (as_sint W8 z) = (z + 128) mod 256 - 128.
Proof. reflexivity. Qed.
Lemma sv_as16_gen z : sv (as_sint W16 z) = (z + 32768) mod 65536 - 32768.
Proof. reflexivity. Qed.

Lemma sv_sat w z : sv (sat w z) = clampZ (smin w) (smax w) z.
Proof. destruct w; cbn [sv sat smin smax]; clampz. Qed.

Lemma mono_max_eq w (x y : sint w) : sv x = sv y <-> x = y.
Proof. split; [apply sint_eq | now intros ->]. Qed.

Ltac sint_ext := apply sint_eq.

(** ** Addition, subtraction *)
Lemma add8_spec (a b : chan K8) : sv (c_add a b) = clampZ (-128) 127 (sv a + sv b).
Proof. exact (sv_sat W8 _). Qed.
Lemma add16_spec (a b : chan K16) : sv (c_add a b) = clampZ (-32768) 32767 (sv a + sv b).
Proof. exact (sv_sat W16 _). Qed.
Lemma sub8_spec (a b : chan K8) : sv (c_sub a b) = clampZ (-128) 127 (sv a - sv b).
Proof. exact (sv_sat W8 _). Qed.
Lemma sub16_spec (a b : chan K16) : sv (c_sub a b) = clampZ (-32768) 32767 (sv a - sv b).
Proof. exact (sv_sat W16 _). Qed.

(** ** Multiplication *)
Lemma quot_bounds8 a b : -128 <= a <= 127 -> -128 <= b <= 127 -> -128 <= Z.quot (a * b) 127 <= 129.
Proof.
  intros Ha Hb.
  assert (H : -16256 <= a * b <= 16384) by nia.
  split.
  - change (-128) with (Z.quot (-16256) 127). apply Z.quot_le_mono; lia.
  - change 129 with (Z.quot 16384 127). apply Z.quot_le_mono; lia.
Qed.
Lemma quot_bounds16 a b : -32768 <= a <= 32767 -> -32768 <= b <= 32767 ->
  -32768 <= Z.quot (a * b) 32767 <= 32769.
Proof.
  intros Ha Hb.
  assert (H : -1073709056 <= a * b <= 1073741824) by nia.
  split.
  - change (-32768) with (Z.quot (-1073709056) 32767). apply Z.quot_le_mono; lia.
  - change 32769 with (Z.quot 1073741824 32767). apply Z.quot_le_mono; lia.
Qed.

Lemma mul8_spec (a b : chan K8) : exists c, c_mul a b = Ok c /\
  sv c = clampZ (-128) 127 (Z.quot (sv a * sv b) 127).
Proof.
  pose proof (i8_range a) as Ha. pose proof (i8_range b) as Hb.
  pose proof (quot_bounds8 _ _ Ha Hb) as Hq.
  cbn [c_mul]. unfold ch8_mul, checked, int_div, i16_min, i16_max.
  replace ((-32768 <=? sv a * sv b) && (sv a * sv b <=? 32767)) with true by nia.
  cbn [bind]. change (127 =? 0) with false. change (127 =? -1) with false.
  rewrite andb_false_r. cbn iota. cbn [bind].
  eexists. split; [reflexivity|].
  rewrite sv_as8 by lia. clampz.
Qed.
Lemma mul16_spec (a b : chan K16) : exists c, c_mul a b = Ok c /\
  sv c = clampZ (-32768) 32767 (Z.quot (sv a * sv b) 32767).
Proof.
  pose proof (i16_range a) as Ha. pose proof (i16_range b) as Hb.
  pose proof (quot_bounds16 _ _ Ha Hb) as Hq.
  cbn [c_mul]. unfold ch16_mul, checked, int_div, i32_min, i32_max.
  replace ((-2147483648 <=? sv a * sv b) && (sv a * sv b <=? 2147483647)) with true by nia.
  cbn [bind]. change (32767 =? 0) with false. change (32767 =? -1) with false.
  rewrite andb_false_r. cbn iota. cbn [bind].
  eexists. split; [reflexivity|].
  rewrite sv_as16 by lia. clampz.
Qed.

(** ** Division *)
Lemma div8_spec (a b : chan K8) : exists c, c_div a b = Ok c /\
  sv c = if sv b =? 0 then 127 else clampZ (-128) 127 (Z.quot (256 * sv a) (sv b)).
Proof.
  pose proof (i8_range a) as Ha. pose proof (i8_range b) as Hb.
  cbn [c_div]. unfold ch8_div, int_div. destruct (sv b =? 0) eqn:Eb; cbn [negb].
  - eexists. split; reflexivity.
  - rewrite wrap32_id by (unfold i32_min, i32_max; lia).
    replace (sv a * 2 ^ 8 =? i32_min) with false by (unfold i32_min; lia).
    cbn [andb bind]. eexists. split; [reflexivity|].
    replace (sv a * 2 ^ 8) with (256 * sv a) by (change (2 ^ 8) with 256; ring).
    set (q := Z.quot _ _). rewrite sv_as8 by lia. clampz.
Qed.
Lemma div16_spec (a b : chan K16) : ~ (sv a = -32768 /\ sv b = -1) -> exists c, c_div a b = Ok c /\
  sv c = if sv b =? 0 then 32767 else clampZ (-32768) 32767 (Z.quot (65536 * sv a) (sv b)).
Proof.
  intros Hn.
  pose proof (i16_range a) as Ha. pose proof (i16_range b) as Hb.
  cbn [c_div]. unfold ch16_div, int_div. destruct (sv b =? 0) eqn:Eb; cbn [negb].
  - eexists. split; reflexivity.
  - rewrite wrap32_id by (unfold i32_min, i32_max; lia).
    replace ((sv a * 2 ^ 16 =? i32_min) && (sv b =? -1)) with false by (unfold i32_min; lia).
    cbn [bind]. eexists. split; [reflexivity|].
    replace (sv a * 2 ^ 16) with (65536 * sv a) by (change (2 ^ 16) with 65536; ring).
    set (q := Z.quot _ _). unfold i16_max, i16_min. rewrite sv_as16 by lia. clampz.
Qed.
Lemma div16_panic (a b : chan K16) p : c_div a b = Panic p <-> (sv a = -32768 /\ sv b = -1 /\ p = DivOverflow).
Proof.
  destruct (Z.eq_dec (sv a) (-32768)) as [Ea|Ea], (Z.eq_dec (sv b) (-1)) as [Eb|Eb].
  - cbn [c_div]. unfold ch16_div, int_div. rewrite Ea, Eb. cbn.
    split; [intros [= <-]; auto | intros (_ & _ & ->); reflexivity].
  - destruct (div16_spec a b) as (c & -> & _); [lia|]. split; [discriminate | lia].
  - destruct (div16_spec a b) as (c & -> & _); [lia|]. split; [discriminate | lia].
  - destruct (div16_spec a b) as (c & -> & _); [lia|]. split; [discriminate | lia].
Qed.

(** ** Negation *)
Lemma neg8_spec (a : chan K8) : exists c, c_neg a = Ok c /\ sv c = -1 - sv a.
Proof.
  pose proof (i8_range a) as Ha. cbn [c_neg]. unfold ch8_neg, checked, wrap_unsigned.
  change (2 ^ 8) with 256.
  replace ((0 <=? 255 - sv a mod 256) && (255 - sv a mod 256 <=? 255)) with true by lia.
  cbn [bind]. eexists. split; [reflexivity|]. rewrite sv_as8_gen. lia.
Qed.
Lemma neg16_spec (a : chan K16) : exists c, c_neg a = Ok c /\ sv c = -1 - sv a.
Proof.
  pose proof (i16_range a) as Ha. cbn [c_neg]. unfold ch16_neg, checked, wrap_unsigned.
  change (2 ^ 16) with 65536.
  replace ((0 <=? 65535 - sv a mod 65536) && (65535 - sv a mod 65536 <=? 65535)) with true by lia.
  cbn [bind]. eexists. split; [reflexivity|]. rewrite sv_as16_gen. lia.
Qed.

(** ** 8 <-> 16 bit *)
Lemma widen_spec (c : chan K8) : sv (chan_from K8 K16 c) = 257 * sv c + 128.
Proof.
  pose proof (i8_range c) as Hc. cbn [chan_from]. unfold ch16_from_ch8, wrap_unsigned, wrap_signed.
  rewrite sv_as16_gen. change (2 ^ (8 - 1)) with 128. change (2 ^ 8) with 256. change (2 ^ 16) with 65536.
  lia.
Qed.
Lemma narrow_spec (c : chan K16) : sv (chan_from K16 K8 c) = sv c / 256.
Proof.
  pose proof (i16_range c) as Hc. cbn [chan_from]. unfold ch8_from_ch16, ch8_new.
  change (2 ^ 8) with 256. apply sv_as8. lia.
Qed.

(** ** Derived laws *)

Lemma add_int_spec :
  (forall a b : chan K8, sv (c_add a b) = clampZ (-128) 127 (sv a + sv b)) /\
  (forall a b : chan K8, sv (c_sub a b) = clampZ (-128) 127 (sv a - sv b)) /\
  (forall a b : chan K16, sv (c_add a b) = clampZ (-32768) 32767 (sv a + sv b)) /\
  (forall a b : chan K16, sv (c_sub a b) = clampZ (-32768) 32767 (sv a - sv b)).
Proof. repeat split; [exact add8_spec | exact sub8_spec | exact add16_spec | exact sub16_spec]. Qed.

Ltac ranges := repeat match goal with
  | a : chan K8 |- _ => lazymatch goal with H : -128 <= sv a <= 127 |- _ => fail | _ => pose proof (i8_range a) end
  | a : chan K16 |- _ => lazymatch goal with H : -32768 <= sv a <= 32767 |- _ => fail | _ => pose proof (i16_range a) end
  end.
Ltac ranges1 a := first [pose proof (i8_range a) | pose proof (i16_range a)].

Lemma add_int_laws k : is_int k -> forall a b c : chan k,
  c_add a b = c_add b a /\ c_add a (MID k) = a /\ c_sub a (MID k) = a /\ c_sub a a = MID k /\
  (c_leb a b = true -> c_leb (c_add a c) (c_add b c) = true /\ c_leb (c_sub a c) (c_sub b c) = true).
Proof.
  intros [-> | ->] a b c; ranges1 a; ranges1 b; ranges1 c.
  - repeat split.
    + sint_ext. rewrite !add8_spec. clampz.
    + sint_ext. rewrite !add8_spec. change (sv (MID K8)) with 0. clampz.
    + sint_ext. rewrite !sub8_spec. change (sv (MID K8)) with 0. clampz.
    + sint_ext. rewrite !sub8_spec. change (sv (MID K8)) with 0. clampz.
    + cbn [c_leb] in *. rewrite !add8_spec. clampz.
    + cbn [c_leb] in *. rewrite !sub8_spec. clampz.
  - repeat split.
    + sint_ext. rewrite !add16_spec. clampz.
    + sint_ext. rewrite !add16_spec. change (sv (MID K16)) with 0. clampz.
    + sint_ext. rewrite !sub16_spec. change (sv (MID K16)) with 0. clampz.
    + sint_ext. rewrite !sub16_spec. change (sv (MID K16)) with 0. clampz.
    + cbn [c_leb] in *. rewrite !add16_spec. clampz.
    + cbn [c_leb] in *. rewrite !sub16_spec. clampz.
Qed.

Lemma mul_int_laws k : is_int k -> forall a b : chan k,
  (exists c, c_mul a b = Ok c) /\ c_mul a b = c_mul b a /\
  c_mul a (MAX k) = Ok a /\ c_mul a (MID k) = Ok (MID k).
Proof.
  intros [-> | ->] a b; ranges1 a; ranges1 b.
  - split; [destruct (mul8_spec a b) as (c & Hc & _); eauto | split; [|split]].
    + destruct (mul8_spec a b) as (c & -> & Hc), (mul8_spec b a) as (d & -> & Hd).
      f_equal. sint_ext. rewrite Hc, Hd, Z.mul_comm. reflexivity.
    + destruct (mul8_spec a (MAX K8)) as (c & -> & Hc). f_equal. sint_ext.
      rewrite Hc. change (sv (MAX K8)) with 127. rewrite Z.quot_mul by lia. clampz.
    + destruct (mul8_spec a (MID K8)) as (c & -> & Hc). f_equal. sint_ext.
      rewrite Hc. change (sv (MID K8)) with 0. rewrite Z.mul_0_r. reflexivity.
  - split; [destruct (mul16_spec a b) as (c & Hc & _); eauto | split; [|split]].
    + destruct (mul16_spec a b) as (c & -> & Hc), (mul16_spec b a) as (d & -> & Hd).
      f_equal. sint_ext. rewrite Hc, Hd, Z.mul_comm. reflexivity.
    + destruct (mul16_spec a (MAX K16)) as (c & -> & Hc). f_equal. sint_ext.
      rewrite Hc. change (sv (MAX K16)) with 32767. rewrite Z.quot_mul by lia. clampz.
    + destruct (mul16_spec a (MID K16)) as (c & -> & Hc). f_equal. sint_ext.
      rewrite Hc. change (sv (MID K16)) with 0. rewrite Z.mul_0_r. reflexivity.
Qed.

Lemma mul_int_spec :
  (forall a b : chan K8, exists c, c_mul a b = Ok c /\ sv c = clampZ (-128) 127 (Z.quot (sv a * sv b) 127)) /\
  (forall a b : chan K16, exists c, c_mul a b = Ok c /\ sv c = clampZ (-32768) 32767 (Z.quot (sv a * sv b) 32767)).
Proof. split; [exact mul8_spec | exact mul16_spec]. Qed.

(** ** a / MAX *)
Lemma div_max8 (a : chan K8) :
  exists c, c_div a (MAX K8) = Ok c /\ sv c = clampZ (-128) 127 (Z.quot (256 * sv a) 127) /\
    (c = a <-> (a = MIN K8 \/ a = MID K8 \/ a = MAX K8)).
Proof.
  ranges1 a. destruct (div8_spec a (MAX K8)) as (c & -> & Hc). exists c. split; [reflexivity|].
  change (sv (MAX K8)) with 127 in Hc. change (127 =? 0) with false in Hc. cbn iota in Hc.
  split; [exact Hc|]. split.
  - intros ->. assert (sv a = -128 \/ sv a = 0 \/ sv a = 127) as [E|[E|E]].
    { unfold clampZ in Hc. pose proof (Z.quot_rem' (256 * sv a) 127) as Hq.
      pose proof (Z.rem_bound_abs (256 * sv a) 127 ltac:(lia)) as Hr.
      assert (Hr2 : -127 < Z.rem (256 * sv a) 127 < 127) by lia. clear Hr.
      destruct (Z.quot (256 * sv a) 127 <? -128) eqn:E1; [lia|].
      destruct (127 <? Z.quot (256 * sv a) 127) eqn:E2; [lia|]. lia. }
    + left. sint_ext. exact E.
    + right; left. sint_ext. exact E.
    + right; right. sint_ext. exact E.
  - intros [-> | [-> | ->]]; sint_ext; exact Hc.
Qed.
Lemma div_max16 (a : chan K16) :
  exists c, c_div a (MAX K16) = Ok c /\ sv c = clampZ (-32768) 32767 (Z.quot (65536 * sv a) 32767) /\
    (c = a <-> (a = MIN K16 \/ a = MID K16 \/ a = MAX K16)).
Proof.
  ranges1 a. destruct (div16_spec a (MAX K16)) as (c & -> & Hc).
  { change (sv (MAX K16)) with 32767. lia. }
  exists c. split; [reflexivity|].
  change (sv (MAX K16)) with 32767 in Hc. change (32767 =? 0) with false in Hc. cbn iota in Hc.
  split; [exact Hc|]. split.
  - intros ->. assert (sv a = -32768 \/ sv a = 0 \/ sv a = 32767) as [E|[E|E]].
    { unfold clampZ in Hc. pose proof (Z.quot_rem' (65536 * sv a) 32767) as Hq.
      pose proof (Z.rem_bound_abs (65536 * sv a) 32767 ltac:(lia)) as Hr.
      assert (Hr2 : -32767 < Z.rem (65536 * sv a) 32767 < 32767) by lia. clear Hr.
      destruct (Z.quot (65536 * sv a) 32767 <? -32768) eqn:E1; [lia|].
      destruct (32767 <? Z.quot (65536 * sv a) 32767) eqn:E2; [lia|]. lia. }
    + left. sint_ext. exact E.
    + right; left. sint_ext. exact E.
    + right; right. sint_ext. exact E.
  - intros [-> | [-> | ->]]; sint_ext; exact Hc.
Qed.

(** ** Negation *)
Lemma neg_int_laws k : is_int k -> forall a b : chan k,
  exists na nb, c_neg a = Ok na /\ c_neg b = Ok nb /\ c_neg na = Ok a /\
    c_leb nb na = c_leb a b /\ c_neg (MIN k) = Ok (MAX k) /\ c_neg (MAX k) = Ok (MIN k).
Proof.
  intros [-> | ->] a b; ranges1 a; ranges1 b.
  - destruct (neg8_spec a) as (na & Ea & Ha), (neg8_spec b) as (nb & Eb & Hb).
    exists na, nb. split; [exact Ea|]. split; [exact Eb|]. split; [|split; [|split]].
    + destruct (neg8_spec na) as (x & -> & Hx). f_equal. sint_ext. lia.
    + cbn [c_leb]. rewrite Ha, Hb. lia.
    + destruct (neg8_spec (MIN K8)) as (x & -> & Hx). f_equal. sint_ext. exact Hx.
    + destruct (neg8_spec (MAX K8)) as (x & -> & Hx). f_equal. sint_ext. exact Hx.
  - destruct (neg16_spec a) as (na & Ea & Ha), (neg16_spec b) as (nb & Eb & Hb).
    exists na, nb. split; [exact Ea|]. split; [exact Eb|]. split; [|split; [|split]].
    + destruct (neg16_spec na) as (x & -> & Hx). f_equal. sint_ext. lia.
    + cbn [c_leb]. rewrite Ha, Hb. lia.
    + destruct (neg16_spec (MIN K16)) as (x & -> & Hx). f_equal. sint_ext. exact Hx.
    + destruct (neg16_spec (MAX K16)) as (x & -> & Hx). f_equal. sint_ext. exact Hx.
Qed.

Lemma neg_int_add8 (a : chan K8) : exists na, c_neg a = Ok na /\ sv na = -1 - sv a /\ sv (c_add a na) = -1.
Proof.
  ranges1 a. destruct (neg8_spec a) as (na & -> & Hn). exists na. repeat split; auto.
  rewrite add8_spec, Hn. clampz.
Qed.
Lemma neg_int_add16 (a : chan K16) : exists na, c_neg a = Ok na /\ sv na = -1 - sv a /\ sv (c_add a na) = -1.
Proof.
  ranges1 a. destruct (neg16_spec a) as (na & -> & Hn). exists na. repeat split; auto.
  rewrite add16_spec, Hn. clampz.
Qed.

(** ** Widening / narrowing *)
Lemma widen_laws :
  (forall c : chan K8, sv (chan_from K8 K16 c) = 257 * sv c + 128) /\
  chan_from K8 K16 (MIN K8) = MIN K16 /\ chan_from K8 K16 (MAX K8) = MAX K16 /\
  (forall c d : chan K8, sv c < sv d -> sv (chan_from K8 K16 c) < sv (chan_from K8 K16 d)) /\
  (forall c : chan K8, chan_from K16 K8 (chan_from K8 K16 c) = c).
Proof.
  split; [exact widen_spec|]. split; [sint_ext; reflexivity|]. split; [sint_ext; reflexivity|]. split.
  - intros c d. rewrite !widen_spec. lia.
  - intros c. sint_ext. rewrite narrow_spec, widen_spec. ranges1 c. lia.
Qed.
Lemma narrow_laws :
  (forall c : chan K16, sv (chan_from K16 K8 c) = sv c / 256) /\
  (forall c d : chan K16, sv c <= sv d -> sv (chan_from K16 K8 c) <= sv (chan_from K16 K8 d)).
Proof. split; [exact narrow_spec|]. intros c d. rewrite !narrow_spec. lia. Qed.
