(** * PiProofs.v -- core::f64::consts::FRAC_PI_2 against pi/2, and the slope of sin and cos *)
From Coq Require Import ZArith Reals Machin Ratan AltSeries QArith Qreals Lia Lra.
From Flocq Require Import Core.Core IEEE754.BinarySingleNaN.
From Verif Require Import Rust Float Chan SpecChan SpecFrame.
Open Scope R_scope.

(** Partial sums of Machin's series in the rationals. *)
Fixpoint qpow (x : Q) (n : nat) : Q := match n with O => 1%Q | S n => Qred (x * qpow x n) end.
Definition qatan (x : Q) (n : nat) : Q := Qred (qpow x (2 * n + 1) * / inject_Z (Z.of_nat (2 * n + 1))).
Definition qterm (n : nat) : Q := Qred (qpow (-1 # 1) n * (2 * qatan (1 # 3) n + qatan (1 # 7) n)).
Fixpoint qsum (n : nat) : Q := match n with O => qterm 0 | S n => Qred (qsum n + qterm (S n)) end.
Lemma Q2R_red q : Q2R (Qred q) = Q2R q. Proof. apply Qeq_eqR, Qred_correct. Qed.
Lemma Q2R_pow x n : Q2R (qpow x n) = Q2R x ^ n.
Proof. induction n as [|n IH]; cbn [qpow pow]; [unfold Q2R; cbn; field|]. now rewrite Q2R_red, Q2R_mult, IH. Qed.
Lemma Q2R_atan x n : Q2R (qatan x n) = Ratan_seq (Q2R x) n.
Proof.
  unfold qatan, Ratan_seq, Rdiv. rewrite Q2R_red, Q2R_mult, Q2R_pow, Q2R_inv.
  - f_equal. f_equal. unfold Q2R. cbn [Qnum Qden inject_Z]. rewrite Rinv_1, Rmult_1_r. now rewrite INR_IZR_INZ.
  - intros H. unfold Qeq, inject_Z in H. cbn [Qnum Qden] in H. lia.
Qed.
Lemma Q2R_term n : Q2R (qterm n) = tg_alt PI_2_3_7_tg n.
Proof.
  unfold qterm, tg_alt, PI_2_3_7_tg. rewrite Q2R_red, Q2R_mult, Q2R_plus, Q2R_mult, Q2R_pow, !Q2R_atan.
  replace (Q2R (-1 # 1)) with (-1) by (unfold Q2R; cbn; field).
  replace (Q2R (1 # 3)) with (/ 3) by (unfold Q2R; cbn; field).
  replace (Q2R (1 # 7)) with (/ 7) by (unfold Q2R; cbn; field).
  replace (Q2R 2) with 2 by (unfold Q2R; cbn; field). reflexivity.
Qed.
Lemma Q2R_sum n : Q2R (qsum n) = sum_f_R0 (tg_alt PI_2_3_7_tg) n.
Proof. induction n as [|n IH]; cbn [qsum sum_f_R0]; [apply Q2R_term|]. now rewrite Q2R_red, Q2R_plus, IH, Q2R_term. Qed.
Lemma pi_bounds : IZR 14148475504056879 * bpow radix2 (-53) <= PI / 2 <= IZR 14148475504056881 * bpow radix2 (-53).
Proof.
  pose proof (PI_2_3_7_ineq 9) as [L U]. rewrite <- !Q2R_sum in L, U.
  assert (A : ((14148475504056879 # 18014398509481984) <= qsum (S (2 * 9)))%Q) by (vm_compute; discriminate).
  assert (B : (qsum (2 * 9) <= (14148475504056881 # 18014398509481984))%Q) by (vm_compute; discriminate).
  apply Qle_Rle in A, B. unfold Q2R at 1 in A. unfold Q2R at 2 in B. cbn [Qnum Qden] in A, B.
  change (bpow radix2 (-53)) with (/ 9007199254740992). lra.
Qed.
Lemma half_pi_near : Rabs (B2R half_pi - PI / 2) <= bpow radix2 (-53).
Proof.
  assert (E : B2R half_pi = IZR 7074237752028440 * bpow radix2 (-52)). { rewrite <- (SF2R_B2SF _ _ half_pi). change (B2SF half_pi) with (SpecFloat.S754_finite false 7074237752028440 (-52)). reflexivity. }
  rewrite E. pose proof pi_bounds as [L U]. change (bpow radix2 (-53)) with (/ 9007199254740992) in *. change (bpow radix2 (-52)) with (/ 4503599627370496).
  apply Rabs_le. lra.
Qed.
Lemma pi_rough : 3.14159 <= PI <= 3.1416.
Proof. pose proof pi_bounds as [L U]. change (bpow radix2 (-53)) with (/ 9007199254740992) in *. lra. Qed.

(** sin and cos move no faster than their argument. *)
Lemma sin_abs x : Rabs (sin x) <= Rabs x.
Proof.
  assert (P : forall y, 0 < y -> Rabs (sin y) <= y).
  { intros y Hy. apply Rabs_le. split; [|now left; apply sin_lt_x]. destruct (Rle_lt_dec y PI) as [H|H].
    - apply Rle_trans with 0; [lra|]. apply sin_ge_0; lra.
    - pose proof (SIN_bound y). pose proof pi_rough. lra. }
  destruct (Rtotal_order x 0) as [H|[->|H]].
  - rewrite <- (Rabs_Ropp x), <- (Rabs_Ropp (sin x)), <- sin_neg, (Rabs_pos_eq (- x)) by lra. apply P. lra.
  - rewrite sin_0. lra.
  - rewrite (Rabs_pos_eq x) by lra. now apply P.
Qed.
Lemma cos_lip p q : Rabs (cos p - cos q) <= Rabs (p - q).
Proof.
  rewrite form2, !Rabs_mult. replace (Rabs (-2)) with 2 by (rewrite Rabs_left; lra). pose proof (sin_abs ((p - q) / 2)) as A.
  assert (B : Rabs (sin ((p + q) / 2)) <= 1) by (apply Rabs_le, SIN_bound).
  unfold Rdiv in A at 2. rewrite Rabs_mult, (Rabs_pos_eq (/ 2)) in A by lra.
  pose proof (Rabs_pos (sin ((p - q) / 2))). pose proof (Rabs_pos (sin ((p + q) / 2))). nra.
Qed.
Lemma sin_lip p q : Rabs (sin p - sin q) <= Rabs (p - q).
Proof.
  rewrite form4, !Rabs_mult. replace (Rabs 2) with 2 by (rewrite Rabs_pos_eq; lra). pose proof (sin_abs ((p - q) / 2)) as A.
  assert (B : Rabs (cos ((p + q) / 2)) <= 1) by (apply Rabs_le, COS_bound).
  unfold Rdiv in A at 2. rewrite Rabs_mult, (Rabs_pos_eq (/ 2)) in A by lra.
  pose proof (Rabs_pos (sin ((p - q) / 2))). pose proof (Rabs_pos (cos ((p + q) / 2))). nra.
Qed.
