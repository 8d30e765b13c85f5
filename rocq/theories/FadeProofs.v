(** * FadeProofs.v -- gain (C82) *)
From Coq Require Import ZArith NArith Reals List Lia Bool Lra.
From Flocq Require Import Core.Core IEEE754.BinarySingleNaN.
From Verif Require Import Rust Float Chan Frame Ops Stream SpecChan SpecFrame SpecStream SpecLaw SpecMix SpecFade.
From Verif Require Import IntProofs FloatProofs FArithProofs ChanProofs FChanProofs FrameProofs OpsProofs StreamProofs LawProofs StreamMore MixedProofs MixProofs.
Import ListNotations.
Open Scope R_scope.

(** ** One sample *)
Definition imax (k : ck) : Z := match k with K8 => 127 | _ => 32767 end.
Definition code {k} : chan k -> Z := match k with K8 => fun c => sv c | K16 => fun c => sv c | _ => fun _ => 0%Z end.
Lemma int_code k (c : chan k) : is_int k -> rval c = IZR (code c).
Proof. intros [-> | ->]; reflexivity. Qed.
Lemma int_top k : is_int k -> top k = IZR (imax k). Proof. intros [-> | ->]; reflexivity. Qed.
Lemma int_slack k n : is_int k -> slack k n = 1. Proof. intros [-> | ->]; reflexivity. Qed.
Lemma float_slack k n : is_float k -> slack k n = n * step k. Proof. intros [-> | ->]; reflexivity. Qed.
Lemma code_range k (c : chan k) : is_int k -> (- imax k - 1 <= code c <= imax k)%Z.
Proof. intros [-> | ->]; cbn; [pose proof (i8_range c)|pose proof (i16_range c)]; lia. Qed.
Lemma mul_code k (a b : chan k) : is_int k -> exists c, c_mul a b = Ok c /\ code c = clampZ (- imax k - 1) (imax k) (Z.quot (code a * code b) (imax k)).
Proof. intros [-> | ->]; [apply mul8_spec|apply mul16_spec]. Qed.
Lemma add_code k (a b : chan k) : is_int k -> code (c_add a b) = clampZ (- imax k - 1) (imax k) (code a + code b).
Proof. intros [-> | ->]; [apply add8_spec|apply add16_spec]. Qed.
Lemma imax_pos k : (0 < imax k)%Z. Proof. destruct k; cbn; lia. Qed.

Lemma code_within k (c : chan k) : is_int k -> within c -> (- imax k <= code c <= imax k)%Z.
Proof.
  intros I [_ H]. rewrite (int_code k c I), (int_top k I), <- abs_IZR in H. apply le_IZR in H. lia.
Qed.
Lemma k_cases k : is_int k \/ is_float k. Proof. destruct k; unfold is_int, is_float; tauto. Qed.

Lemma gain_mono k (a b g x y : chan k) : valid a -> valid b -> valid g -> c_mul a g = Ok x -> c_mul b g = Ok y -> rval a <= rval b ->
  (0 <= rval g -> rval x <= rval y) /\ (rval g <= 0 -> rval y <= rval x).
Proof.
  intros Va Vb Vg Hx Hy L. destruct (k_cases k) as [I|I].
  - destruct (mul_code k a g I) as (x' & E & Cx). rewrite Hx in E. injection E as <-. destruct (mul_code k b g I) as (y' & E & Cy). rewrite Hy in E. injection E as <-.
    rewrite !(int_code k) in * by exact I. apply le_IZR in L. pose proof (imax_pos k).
    split; intros S; apply le_IZR in S; apply IZR_le; rewrite Cx, Cy; (apply clampZ_mono; [lia|]; apply quot_mono; [lia|nia]).
  - destruct (float_mul_valid k I a g Va Vg) as (x' & E & _ & Rx). rewrite Hx in E. injection E as <-. destruct (float_mul_valid k I b g Vb Vg) as (y' & E & _ & Ry). rewrite Hy in E. injection E as <-.
    rewrite Rx, Ry. assert (M : forall u v, u <= v -> round_k k u <= round_k k v).
    { intros u v. destruct I as [-> | ->]; [apply (rnd_mono 24 128)|apply (rnd_mono 53 1024)]. }
    split; intros S; apply M; nra.
Qed.

Lemma quot_abs_le a g m : (0 < m)%Z -> (Z.abs g <= m)%Z -> (Z.abs (Z.quot (a * g) m) <= Z.abs a)%Z.
Proof.
  intros Hm Hg. rewrite <- Z.quot_abs by lia. rewrite (Z.abs_eq m), Z.abs_mul by lia.
  apply Z.le_trans with (Z.quot (Z.abs a * m) m); [apply quot_mono; nia|rewrite Z.quot_mul; lia].
Qed.
Lemma clampZ_bounds lo hi z : (lo <= hi)%Z -> (lo <= clampZ lo hi z <= hi)%Z.
Proof. intros H. unfold clampZ. destruct (Z.ltb_spec z lo); [lia|]. destruct (Z.ltb_spec hi z); lia. Qed.
Lemma quot_near x m : (0 < m)%Z -> (Z.abs (m * Z.quot x m - x) < m /\ 0 <= Z.quot x m * x /\ Z.abs (m * Z.quot x m) <= Z.abs x)%Z.
Proof.
  intros H. pose proof (Z.quot_rem x m ltac:(lia)) as E. pose proof (Z.rem_bound_abs x m ltac:(lia)). split; [lia|].
  destruct (Z.le_gt_cases 0 x).
  - pose proof (Z.quot_pos x m ltac:(lia) ltac:(lia)). pose proof (Z.rem_bound_pos x m ltac:(lia) ltac:(lia)). split; nia.
  - pose proof (Z.quot_opp_l x m ltac:(lia)). pose proof (Z.quot_pos (- x) m ltac:(lia) ltac:(lia)). pose proof (Z.rem_bound_pos (- x) m ltac:(lia) ltac:(lia)). rewrite Z.rem_opp_l in * by lia. split; nia.
Qed.
Lemma gain_quiet k (a g x : chan k) : valid a -> valid g -> c_mul a g = Ok x ->
  Rabs (rval x) <= Rabs (rval a) \/ is_int k /\ rval a = top k /\ rval g = - top k - 1.
Proof.
  intros Va Vg Hx. destruct (k_cases k) as [I|I].
  - destruct (mul_code k a g I) as (x' & E & Cx). rewrite Hx in E. injection E as <-. pose proof (imax_pos k).
    pose proof (code_range k a I). pose proof (code_range k g I).
    destruct (Z.eq_dec (code g) (- imax k - 1)) as [G|G].
    + destruct (Z.eq_dec (code a) (imax k)) as [A|A].
      * right. split; [exact I|]. rewrite !(int_code k), (int_top k I) by exact I. rewrite A, G, <- opp_IZR, <- minus_IZR. auto.
      * left. rewrite !(int_code k) by exact I. rewrite <- !abs_IZR. apply IZR_le. rewrite Cx, G.
        set (q := Z.quot (code a * (- imax k - 1)) (imax k)).
        assert (Q : (Z.abs q <= Z.abs (code a) \/ (code a <= - imax k) /\ 0 <= q)%Z).
        { destruct (quot_near (code a * (- imax k - 1)) (imax k) ltac:(lia)) as (N1 & N2 & N3). fold q in N1, N2, N3.
          destruct (Z.le_gt_cases (code a) (- imax k)); [right; split; [lia|nia]|left]. nia. }
        unfold clampZ. destruct (Z.ltb_spec q (- imax k - 1)); [lia|]. destruct (Z.ltb_spec (imax k) q); lia.
    + left. rewrite !(int_code k) by exact I. rewrite <- !abs_IZR. apply IZR_le. rewrite Cx.
      pose proof (quot_abs_le (code a) (code g) (imax k) ltac:(lia) ltac:(lia)).
      unfold clampZ. destruct (Z.ltb_spec (Z.quot (code a * code g) (imax k)) (- imax k - 1)); [lia|].
      destruct (Z.ltb_spec (imax k) (Z.quot (code a * code g) (imax k))); lia.
  - left. destruct (float_mul_valid k I a g Va Vg) as (x' & E & _ & Rx). rewrite Hx in E. injection E as <-. rewrite Rx.
    assert (G : Rabs (rval g) <= 1) by (apply Rabs_le; destruct I as [-> | ->]; exact (proj2 Vg)).
    assert (B : Rabs (rval a * rval g) <= Rabs (rval a)). { rewrite Rabs_mult. pose proof (Rabs_pos (rval a)). nra. }
    destruct I as [-> | ->]; cbn [round_k rval] in *.
    + apply (rnd_abs_le 24 128); [|exact B]. apply generic_format_abs. apply generic_format_B2R.
    + apply (rnd_abs_le 53 1024); [|exact B]. apply generic_format_abs. apply generic_format_B2R.
Qed.

(** Products of samples within +-MAX: within one code (towards zero), or half a step, of the real product. *)
Lemma mul_within k (a g : chan k) : within a -> within g -> exists x, c_mul a g = Ok x /\ within x /\
  (is_int k -> code x = Z.quot (code a * code g) (imax k)) /\
  (is_float k -> Rabs (rval x - rval a * rval g) <= step k / 2).
Proof.
  intros Wa Wg. destruct (k_cases k) as [I|I].
  - destruct (mul_code k a g I) as (x & E & Cx). exists x. split; [exact E|]. pose proof (imax_pos k).
    pose proof (code_within k a I Wa). pose proof (code_within k g I Wg).
    pose proof (quot_abs_le (code a) (code g) (imax k) ltac:(lia) ltac:(lia)).
    assert (C : code x = Z.quot (code a * code g) (imax k)).
    { rewrite Cx. unfold clampZ. destruct (Z.ltb_spec (Z.quot (code a * code g) (imax k)) (- imax k - 1)); [lia|].
      destruct (Z.ltb_spec (imax k) (Z.quot (code a * code g) (imax k))); lia. }
    split; [split|split].
    + destruct I as [-> | ->]; exact Logic.I.
    + rewrite (int_code k x I), (int_top k I), <- abs_IZR. apply IZR_le. lia.
    + intros _. exact C.
    + intros F. destruct I as [-> | ->], F; discriminate.
  - destruct Wa as [Va Ha], Wg as [Vg Hg]. destruct (float_mul_valid k I a g Va Vg) as (x & E & Vx & Rx). exists x. split; [exact E|].
    assert (T : top k = 1) by (destruct I as [-> | ->]; reflexivity). rewrite T in *.
    split; [split; [exact Vx|]|split].
    + rewrite T. apply Rabs_le. destruct I as [-> | ->]; exact (proj2 Vx).
    + intros J. destruct I as [-> | ->], J; discriminate.
    + intros _. rewrite Rx. assert (B : Rabs (rval a * rval g) <= 1). { rewrite Rabs_mult. pose proof (Rabs_pos (rval a)). pose proof (Rabs_pos (rval g)). nra. }
      destruct I as [-> | ->]; cbn [round_k step].
      * replace (bpow radix2 (-24) / 2) with (bpow radix2 (-25)) by (change (bpow radix2 (-24)) with (bpow radix2 (1 + -25)); rewrite bpow_plus; change (bpow radix2 1) with 2; field).
        apply (rnd_error 24 128 _ 0); [exact B|lia].
      * replace (bpow radix2 (-53) / 2) with (bpow radix2 (-54)) by (change (bpow radix2 (-53)) with (bpow radix2 (1 + -54)); rewrite bpow_plus; change (bpow radix2 1) with 2; field).
        apply (rnd_error 53 1024 _ 0); [exact B|lia].
Qed.
Lemma step_pos k : 0 < step k. Proof. destruct k; cbn [step]; try lra; apply bpow_gt_0. Qed.
Lemma quot_sign s x m : (0 < m)%Z -> (s = 1 \/ s = -1)%Z -> Z.quot (s * x) m = (s * Z.quot x m)%Z.
Proof. intros H [-> | ->]; [now rewrite !Z.mul_1_l|]. replace (-1 * x)%Z with (- x)%Z by ring. rewrite Z.quot_opp_l by lia. ring. Qed.
Lemma sign_form a : exists s b, (a = s * b /\ 0 <= b /\ b = Z.abs a /\ (s = 1 \/ s = -1))%Z.
Proof. destruct (Z.le_gt_cases 0 a); [exists 1%Z, a|exists (-1)%Z, (- a)%Z]; repeat split; lia. Qed.
Lemma chain_pos a g h m : (0 < m)%Z -> (0 <= a <= m)%Z -> (0 <= g)%Z -> (0 <= h <= m)%Z ->
  (Z.abs (Z.quot (Z.quot (a * g) m * h) m - Z.quot (a * Z.quot (g * h) m) m) <= 1)%Z.
Proof.
  intros Hm Ha Hg Hh.
  assert (N : forall x, (0 <= x)%Z -> (0 <= Z.quot x m /\ m * Z.quot x m <= x < m * Z.quot x m + m)%Z).
  { intros x Hx. pose proof (Z.quot_pos x m Hx Hm). pose proof (Z.quot_rem x m ltac:(lia)). pose proof (Z.rem_bound_pos x m Hx Hm). lia. }
  destruct (N (a * g)%Z) as (P & E1). { apply Z.mul_nonneg_nonneg; lia. } destruct (N (g * h)%Z) as (Q & E2). { apply Z.mul_nonneg_nonneg; lia. }
  set (p := Z.quot (a * g) m) in *. set (q := Z.quot (g * h) m) in *.
  destruct (N (p * h)%Z) as (U & E3). { apply Z.mul_nonneg_nonneg; lia. } destruct (N (a * q)%Z) as (V & E4). { apply Z.mul_nonneg_nonneg; lia. }
  set (u := Z.quot (p * h) m) in *. set (v := Z.quot (a * q) m) in *.
  assert (F1 : (m * (m * u) <= a * g * h)%Z). { apply Z.le_trans with (m * (p * h))%Z; [apply Z.mul_le_mono_nonneg_l; lia|]. replace (m * (p * h))%Z with (m * p * h)%Z by ring. apply Z.mul_le_mono_nonneg_r; lia. }
  assert (F2 : (m * (m * v) <= a * g * h)%Z). { apply Z.le_trans with (m * (a * q))%Z; [apply Z.mul_le_mono_nonneg_l; lia|]. replace (m * (a * q))%Z with (a * (m * q))%Z by ring. replace (a * g * h)%Z with (a * (g * h))%Z by ring. apply Z.mul_le_mono_nonneg_l; lia. }
  assert (F3 : (a * g * h < m * (m * u) + 2 * (m * m))%Z).
  { assert (X : (a * g * h <= (m * p + m) * h)%Z) by (apply Z.mul_le_mono_nonneg_r; lia).
    assert (Y : (m * (p * h) < m * (m * u + m))%Z) by (apply Z.mul_lt_mono_pos_l; lia). assert (Z : (m * h <= m * m)%Z) by (apply Z.mul_le_mono_nonneg_l; lia).
    replace ((m * p + m) * h)%Z with (m * (p * h) + m * h)%Z in X by ring. replace (m * (m * u + m))%Z with (m * (m * u) + m * m)%Z in Y by ring. lia. }
  assert (F4 : (a * g * h < m * (m * v) + 2 * (m * m))%Z).
  { assert (X : (a * (g * h) <= a * (m * q + m))%Z) by (apply Z.mul_le_mono_nonneg_l; lia).
    assert (Y : (m * (a * q) < m * (m * v + m))%Z) by (apply Z.mul_lt_mono_pos_l; lia). assert (Z : (m * a <= m * m)%Z) by (apply Z.mul_le_mono_nonneg_l; lia).
    replace (a * (m * q + m))%Z with (m * (a * q) + m * a)%Z in X by ring. replace (m * (m * v + m))%Z with (m * (m * v) + m * m)%Z in Y by ring. replace (a * g * h)%Z with (a * (g * h))%Z by ring. lia. }
  clear - F1 F2 F3 F4 Hm. set (x := (a * g * h)%Z) in *. clearbody x.
  assert (M : (0 < m * m)%Z) by (apply Z.mul_pos_pos; lia).
  assert (G1 : (m * m * u < m * m * (v + 2))%Z) by (replace (m * m * (v + 2))%Z with (m * (m * v) + 2 * (m * m))%Z by ring; replace (m * m * u)%Z with (m * (m * u))%Z by ring; lia).
  assert (G2 : (m * m * v < m * m * (u + 2))%Z) by (replace (m * m * (u + 2))%Z with (m * (m * u) + 2 * (m * m))%Z by ring; replace (m * m * v)%Z with (m * (m * v))%Z by ring; lia).
  apply Z.mul_lt_mono_pos_l in G1, G2; lia.
Qed.
Lemma chain_int a g h m : (0 < m)%Z -> (Z.abs a <= m)%Z -> (Z.abs h <= m)%Z ->
  (Z.abs (Z.quot (Z.quot (a * g) m * h) m - Z.quot (a * Z.quot (g * h) m) m) <= 1)%Z.
Proof.
  intros Hm Ha Hh. destruct (sign_form a) as (s & a' & -> & A & Ea & S). destruct (sign_form g) as (t & g' & -> & G & _ & T). destruct (sign_form h) as (w & h' & -> & H & Eh & W).
  pose proof (chain_pos a' g' h' m Hm ltac:(lia) G ltac:(lia)) as C. assert (ST : (s * t = 1 \/ s * t = -1)%Z) by lia. assert (TW : (t * w = 1 \/ t * w = -1)%Z) by lia.
  assert (STW : (s * t * w = 1 \/ s * t * w = -1)%Z) by lia.
  replace (s * a' * (t * g'))%Z with (s * t * (a' * g'))%Z by ring. replace (t * g' * (w * h'))%Z with (t * w * (g' * h'))%Z by ring.
  rewrite (quot_sign (s * t)), (quot_sign (t * w)) by assumption. set (p := Z.quot (a' * g') m) in *. set (q := Z.quot (g' * h') m) in *.
  replace (s * t * p * (w * h'))%Z with (s * t * w * (p * h'))%Z by ring. replace (s * a' * (t * w * q))%Z with (s * t * w * (a' * q))%Z by ring.
  rewrite !(quot_sign (s * t * w)) by assumption. rewrite <- Z.mul_sub_distr_l, Z.abs_mul. destruct STW as [-> | ->]; cbn [Z.abs]; lia.
Qed.
Lemma gain_chain k (a g h : chan k) : within a -> within g -> within h ->
  exists ag gh x y, c_mul a g = Ok ag /\ c_mul ag h = Ok x /\ c_mul g h = Ok gh /\ c_mul a gh = Ok y /\ Rabs (rval x - rval y) <= slack k 2.
Proof.
  intros Wa Wg Wh. destruct (mul_within k a g Wa Wg) as (ag & E1 & W1 & I1 & F1). destruct (mul_within k ag h W1 Wh) as (x & E2 & W2 & I2 & F2).
  destruct (mul_within k g h Wg Wh) as (gh & E3 & W3 & I3 & F3). destruct (mul_within k a gh Wa W3) as (y & E4 & W4 & I4 & F4).
  exists ag, gh, x, y. do 4 (split; [assumption|]). pose proof (step_pos k). destruct (k_cases k) as [I|I].
  - rewrite !(int_code k) by exact I. rewrite <- minus_IZR, <- abs_IZR. apply Rle_trans with 1; [|rewrite (int_slack k _ I); lra]. apply IZR_le.
    rewrite (I2 I), (I4 I), (I1 I), (I3 I). pose proof (code_within k a I Wa). pose proof (code_within k h I Wh). apply chain_int; [apply imax_pos|lia|lia].
  - specialize (F1 I). specialize (F2 I). specialize (F3 I). specialize (F4 I).
    assert (T : top k = 1) by (destruct I as [-> | ->]; reflexivity). destruct Wa as [_ Ha], Wh as [_ Hh]. rewrite T in *.
    assert (A : Rabs ((rval ag - rval a * rval g) * rval h) <= step k / 2). { rewrite Rabs_mult. pose proof (Rabs_pos (rval ag - rval a * rval g)). pose proof (Rabs_pos (rval h)). nra. }
    assert (B : Rabs (rval a * (rval gh - rval g * rval h)) <= step k / 2). { rewrite Rabs_mult. pose proof (Rabs_pos (rval gh - rval g * rval h)). pose proof (Rabs_pos (rval a)). nra. }
    apply Rabs_le_inv in A, B, F2, F4. rewrite (float_slack k 2 I). apply Rabs_le. lra.
Qed.

(** Gain after mixing, and before. *)
Lemma quot_lin x m : (0 < m)%Z -> ((0 <= x -> 0 <= m * Z.quot x m <= x) /\ (x <= 0 -> x <= m * Z.quot x m <= 0) /\ - m < m * Z.quot x m - x < m)%Z.
Proof. intros H. destruct (quot_near x m H) as (A & B & C). split; [|split]; [intros; nia|intros; nia|lia]. Qed.
Lemma mix_int x y m : (0 < m)%Z -> (Z.abs (Z.quot (x + y) m - (Z.quot x m + Z.quot y m)) <= 1)%Z.
Proof.
  intros H. destruct (quot_lin x m H) as (A1 & A2 & A3). destruct (quot_lin y m H) as (B1 & B2 & B3). destruct (quot_lin (x + y) m H) as (C1 & C2 & C3).
  set (p := Z.quot x m) in *. set (q := Z.quot y m) in *. set (r := Z.quot (x + y) m) in *.
  assert (X : (m * r < m * (p + q + 2))%Z) by lia. assert (Y : (m * (p + q - 2) < m * r)%Z) by lia.
  apply Z.mul_lt_mono_pos_l in X, Y; lia.
Qed.
Lemma gain_mix k (a b g : chan k) : valid a -> valid b -> within g -> Rabs (rval a) + Rabs (rval b) <= top k ->
  exists x ag bg, c_mul (c_add a b) g = Ok x /\ c_mul a g = Ok ag /\ c_mul b g = Ok bg /\ Rabs (rval x - rval (c_add ag bg)) <= slack k 4.
Proof.
  intros Va Vb Wg S. pose proof (Rabs_pos (rval a)). pose proof (Rabs_pos (rval b)).
  assert (Wa : within a) by (split; [exact Va|lra]). assert (Wb : within b) by (split; [exact Vb|lra]).
  destruct (mul_within k a g Wa Wg) as (ag & E1 & W1 & I1 & F1). destruct (mul_within k b g Wb Wg) as (bg & E2 & W2 & I2 & F2).
  pose proof (step_pos k). destruct (k_cases k) as [I|I].
  - assert (Es : rval (c_add a b) = rval a + rval b) by (apply add_int; [exact I|]; eapply Rle_trans; [apply Rabs_triang|exact S]).
    assert (Ws : within (c_add a b)).
    { split; [destruct I as [-> | ->]; exact Logic.I|]. rewrite Es. eapply Rle_trans; [apply Rabs_triang|exact S]. }
    destruct (mul_within k (c_add a b) g Ws Wg) as (x & E3 & W3 & I3 & F3). exists x, ag, bg. do 3 (split; [assumption|]).
    apply Rle_trans with 1; [|rewrite (int_slack k _ I); lra]. rewrite !(int_code k) in * by exact I. rewrite <- minus_IZR, <- abs_IZR. apply IZR_le.
    rewrite (add_code k ag bg I). rewrite <- plus_IZR in Es. apply eq_IZR in Es. specialize (I1 I). specialize (I2 I). specialize (I3 I). rewrite Es in I3.
    pose proof (mix_int (code a * code g) (code b * code g) (imax k) (imax_pos k)) as M. rewrite <- Z.mul_add_distr_r, <- I1, <- I2, <- I3 in M.
    pose proof (code_within k x I W3). unfold clampZ. destruct (Z.ltb_spec (code ag + code bg) (- imax k - 1)); [lia|]. destruct (Z.ltb_spec (imax k) (code ag + code bg)); lia.
  - assert (T : top k = 1) by (destruct I as [-> | ->]; reflexivity). rewrite T in *.
    assert (ST : add_error k = step k) by (destruct I as [-> | ->]; reflexivity).
    assert (Z0 : Rabs (rval a - rval a) <= 0) by (rewrite Rminus_diag_eq, Rabs_R0 by reflexivity; lra).
    destruct (add_float k a b (rval a) 0 I Va Vb Z0) as [Vs Es]. { eapply Rle_trans; [apply Rabs_triang|exact S]. } rewrite ST in Es.
    assert (Ws : within (c_add a b)). { split; [exact Vs|]. rewrite T. apply Rabs_le. destruct I as [-> | ->]; exact (proj2 Vs). }
    destruct (mul_within k (c_add a b) g Ws Wg) as (x & E3 & W3 & I3 & F3). exists x, ag, bg. do 3 (split; [assumption|]).
    specialize (F1 I). specialize (F2 I). specialize (F3 I). destruct Wg as [Vg Hg]. rewrite T in Hg.
    set (s := rval a * rval g + rval b * rval g - rval bg).
    assert (Zs : Rabs (rval ag - s) <= step k). { apply Rabs_le_inv in F1, F2. apply Rabs_le. unfold s. lra. }
    assert (Ys : Rabs (s + rval bg) <= 1).
    { replace (s + rval bg) with ((rval a + rval b) * rval g) by (unfold s; ring). rewrite Rabs_mult.
      pose proof (Rabs_triang (rval a) (rval b)). pose proof (Rabs_pos (rval a + rval b)). pose proof (Rabs_pos (rval g)). nra. }
    destruct (add_float k ag bg s (step k) I (proj1 W1) (proj1 W2) Zs Ys) as [_ Er]. rewrite ST in Er. replace (s + rval bg) with ((rval a + rval b) * rval g) in Er by (unfold s; ring).
    assert (X : Rabs ((rval (c_add a b) - (rval a + rval b)) * rval g) <= step k).
    { rewrite Rabs_mult. pose proof (Rabs_pos (rval (c_add a b) - (rval a + rval b))). pose proof (Rabs_pos (rval g)). nra. }
    rewrite (float_slack k 4 I). apply Rabs_le_inv in F3, Er, X. apply Rabs_le. lra.
Qed.

(** ** Streams *)
Lemma amplify_total l k : total_op Amplify l k.
Proof. apply (builtin_total l k Amplify (mkTrig (fun x => x) (fun x => x))). tauto. Qed.
Lemma amplify_given l k (a b t : stream l k) n j c : blend a b Amplify = Ok t ->
  (given t n j c <-> exists x y, given a n j x /\ given b n j y /\ c_mul x y = Ok c).
Proof.
  intros H. split.
  - intros (ms & m & S & N & C). apply (blend_sound l k l k a b Amplify t ms H) in S as (xs & ys & A & B & M).
    destruct (mixes_nth _ _ _ _ _ _ _ _ _ _ M N) as (x & y & Nx & Ny & (y' & Cy & Mx)).
    rewrite convert_self in Cy. injection Cy as <-.
    assert (J : (j < nchan l)%nat) by (exact (FrameProofs.nth_some _ _ _ _ _ C)).
    destruct (nth_ex l k x j J) as (cx & Hx). destruct (nth_ex l k y j J) as (cy & Hy).
    exists cx, cy. split; [exists xs, x; auto|]. split; [exists ys, y; auto|].
    destruct (mix_amplify_spec l k x y) as (out & E & _ & P). rewrite E in Mx. injection Mx as <-.
    destruct (P j cx cy Hx Hy) as (d & Ed & Nd). congruence.
  - intros (x & y & Gx & Gy & E). apply given_short in Gx as (xs & fx & A & Lx & Nx & Cx), Gy as (ys & fy & B & Ly & Ny & Cy).
    destruct (mixes_ex l k l k Amplify xs ys (amplify_total l k)) as (ms & M); [congruence|].
    assert (S : starts t ms) by (apply (blend_starts_iff l k l k a b Amplify t ms H); eauto).
    pose proof (mixes_length _ _ _ _ _ _ _ _ M) as [Lm _].
    destruct (nth_error ms n) as [m|] eqn:Nm; [|apply nth_error_None in Nm; lia].
    destruct (mixes_nth _ _ _ _ _ _ _ _ _ _ M Nm) as (x' & y' & Nx' & Ny' & (y2 & C2 & M2)).
    rewrite convert_self in C2. injection C2 as <-. 
    rewrite Nx in Nx'. injection Nx' as <-. rewrite Ny in Ny'. injection Ny' as <-.
    destruct (mix_amplify_spec l k fx fy) as (out & Eo & _ & P). rewrite Eo in M2. injection M2 as <-.
    destruct (P j x y Cx Cy) as (d & Ed & Nd). exists ms, out. split; [exact S|]. split; [exact Nm|]. congruence.
Qed.

Lemma op_ok l k r n m (a b : stream l k) op : total_op op l k -> feq r r = true -> regular r n a -> regular r m b ->
  exists t, blend a b op = Ok t /\ regular r (shorter n m) t.
Proof.
  intros To Hr (Ra & La & Ha) (Rb & Lb & Hb). pose proof (blend_cases l k l k a b op) as C. rewrite Ra, Rb in C. pose proof (proj1 C Hr) as E.
  exists (SBlend a b op). split; [exact E|]. split; [exact Ra|]. split; [rewrite blend_len; congruence|]. exact (blend_honest l k l k a b op _ E To Ha Hb).
Qed.
Lemma shorter_twice a b c : shorter (shorter a c) (shorter b c) = shorter (shorter a b) c.
Proof. destruct a, b, c; cbn; f_equal; lia. Qed.
Lemma track_regular l k r (s : stream l k) : sample_rate s = Some r /\ honest s -> regular r (slen s) s.
Proof. intros [A B]. repeat split; auto. Qed.
Lemma fade_mix l k r (a b g : stream l k) : tracks_at r [a; b; g] -> exists t u, mix_then_fade a b g = Ok t /\ fade_then_mix a b g = Ok u /\
  regular r (shortest [a; b; g]) t /\ regular r (shortest [a; b; g]) u /\
  forall n j c d, given t n j c -> given u n j d -> exists x y z, given a n j x /\ given b n j y /\ given g n j z /\
    (valid x -> valid y -> within z -> Rabs (rval x) + Rabs (rval y) <= top k -> Rabs (rval c - rval d) <= slack k 4).
Proof.
  intros [Hr F]. inversion F as [|? ? Ta F1]; subst. inversion F1 as [|? ? Tb F2]; subst. inversion F2 as [|? ? Tg F3]; subst.
  apply track_regular in Ta, Tb, Tg. pose proof (plus_total l k) as P. pose proof (amplify_total l k) as A.
  destruct (op_ok l k r _ _ a b Plus P Hr Ta Tb) as (ab & Eab & Rab). destruct (op_ok l k r _ _ ab g Amplify A Hr Rab Tg) as (t & Et & Rt).
  destruct (op_ok l k r _ _ a g Amplify A Hr Ta Tg) as (ag & Eag & Rag). destruct (op_ok l k r _ _ b g Amplify A Hr Tb Tg) as (bg & Ebg & Rbg).
  destruct (op_ok l k r _ _ ag bg Plus P Hr Rag Rbg) as (u & Eu & Ru).
  assert (L : shorter (shorter (slen a) (slen b)) (slen g) = shortest [a; b; g]) by (cbn [shortest]; rewrite shorter_none; apply shorter_assoc).
  rewrite shorter_twice in Ru. rewrite L in Rt, Ru.
  exists t, u. unfold mix_then_fade, fade_then_mix. rewrite Eab, Eag. cbn [bind]. rewrite Ebg. cbn [bind]. do 4 (split; [assumption|]).
  intros n j c d Gc Gd. apply (amplify_given l k ab g t n j c Et) in Gc as (s & z & Gs & Gz & Mc). apply (blend_given l k a b ab n j s Eab) in Gs as (x & y & Gx & Gy & ->).
  apply (blend_given l k ag bg u n j d Eu) in Gd as (p & q & Gp & Gq & ->).
  apply (amplify_given l k a g ag n j p Eag) in Gp as (x' & z' & Gx' & Gz' & Mp). apply (amplify_given l k b g bg n j q Ebg) in Gq as (y' & z'' & Gy' & Gz'' & Mq).
  pose proof (given_det _ _ _ _ _ _ _ Gx Gx'). pose proof (given_det _ _ _ _ _ _ _ Gy Gy'). pose proof (given_det _ _ _ _ _ _ _ Gz Gz'). pose proof (given_det _ _ _ _ _ _ _ Gz Gz''). subst x' y' z' z''.
  exists x, y, z. do 3 (split; [assumption|]). intros Vx Vy Wz S. destruct (gain_mix k x y z Vx Vy Wz S) as (v & xz & yz & E1 & E2 & E3 & B). congruence.
Qed.
Lemma fade_chain l k r (a g h : stream l k) : tracks_at r [a; g; h] -> exists t u, fade_twice a g h = Ok t /\ fade_once a g h = Ok u /\
  regular r (shortest [a; g; h]) t /\ regular r (shortest [a; g; h]) u /\
  forall n j c d, given t n j c -> given u n j d -> exists x y z, given a n j x /\ given g n j y /\ given h n j z /\
    (within x -> within y -> within z -> Rabs (rval c - rval d) <= slack k 2).
Proof.
  intros [Hr F]. inversion F as [|? ? Ta F1]; subst. inversion F1 as [|? ? Tg F2]; subst. inversion F2 as [|? ? Th F3]; subst.
  apply track_regular in Ta, Tg, Th. pose proof (amplify_total l k) as A.
  destruct (op_ok l k r _ _ a g Amplify A Hr Ta Tg) as (ag & Eag & Rag). destruct (op_ok l k r _ _ ag h Amplify A Hr Rag Th) as (t & Et & Rt).
  destruct (op_ok l k r _ _ g h Amplify A Hr Tg Th) as (gh & Egh & Rgh). destruct (op_ok l k r _ _ a gh Amplify A Hr Ta Rgh) as (u & Eu & Ru).
  assert (L : shorter (slen a) (shorter (slen g) (slen h)) = shortest [a; g; h]) by (cbn [shortest]; now rewrite shorter_none).
  rewrite shorter_assoc in Rt. rewrite L in Rt, Ru.
  exists t, u. unfold fade_twice, fade_once. rewrite Eag, Egh. cbn [bind]. do 4 (split; [assumption|]).
  intros n j c d Gc Gd. apply (amplify_given l k ag h t n j c Et) in Gc as (s & z & Gs & Gz & Mc). apply (amplify_given l k a g ag n j s Eag) in Gs as (x & y & Gx & Gy & Ms).
  apply (amplify_given l k a gh u n j d Eu) in Gd as (x' & q & Gx' & Gq & Md). apply (amplify_given l k g h gh n j q Egh) in Gq as (y' & z' & Gy' & Gz' & Mq).
  pose proof (given_det _ _ _ _ _ _ _ Gx Gx'). pose proof (given_det _ _ _ _ _ _ _ Gy Gy'). pose proof (given_det _ _ _ _ _ _ _ Gz Gz'). subst x' y' z'.
  exists x, y, z. do 3 (split; [assumption|]). intros Wx Wy Wz. destruct (gain_chain k x y z Wx Wy Wz) as (xy & yz & v & w & E1 & E2 & E3 & E4 & B). congruence.
Qed.

(** ** Examples *)
Lemma within8 z : (-127 <= z <= 127)%Z -> within (as_sint W8 z : chan K8).
Proof.
  intros H. split; [exact I|]. cbn [rval top]. rewrite sv_as8 by lia. rewrite <- abs_IZR. apply IZR_le. lia.
Qed.
Lemma mul8_case a b z : (-128 <= a <= 127)%Z -> (-128 <= b <= 127)%Z -> (-128 <= z <= 127)%Z ->
  clampZ (-128) 127 (Z.quot (a * b) 127) = z -> c_mul (as_sint W8 a : chan K8) (as_sint W8 b) = Ok (as_sint W8 z : chan K8).
Proof.
  intros A B C E. destruct (mul8_spec (as_sint W8 a) (as_sint W8 b)) as (c & Ec & S). rewrite Ec. f_equal. apply sint_eq.
  rewrite S, !sv_as8 by lia. exact E.
Qed.
Lemma chain_inexact : exists a g h ag gh x y : chan K8, within a /\ within g /\ within h /\
  c_mul a g = Ok ag /\ c_mul ag h = Ok x /\ c_mul g h = Ok gh /\ c_mul a gh = Ok y /\ x <> y.
Proof.
  exists (as_sint W8 3), (as_sint W8 70), (as_sint W8 100), (as_sint W8 1), (as_sint W8 55), (as_sint W8 0), (as_sint W8 1).
  do 3 (split; [apply within8; lia|]). do 4 (split; [apply mul8_case; [lia|lia|lia|reflexivity]|]).
  intros E. apply (f_equal (@sv W8)) in E. vm_compute in E. discriminate E.
Qed.
Lemma mix_inexact : exists a b g x ag bg : chan K8, within g /\ Rabs (rval a) + Rabs (rval b) <= 127 /\
  c_mul (c_add a b) g = Ok x /\ c_mul a g = Ok ag /\ c_mul b g = Ok bg /\ x <> c_add ag bg.
Proof.
  exists (as_sint W8 1), (as_sint W8 1), (as_sint W8 64), (as_sint W8 1), (as_sint W8 0), (as_sint W8 0).
  split; [apply within8; lia|]. split. { cbn [rval]. rewrite sv_as8 by lia. rewrite Rabs_R1. lra. }
  assert (E : c_add (as_sint W8 1 : chan K8) (as_sint W8 1) = as_sint W8 2) by (apply sint_eq; vm_compute; reflexivity). rewrite E.
  do 3 (split; [apply mul8_case; [lia|lia|lia|reflexivity]|]).
  intros E'. apply (f_equal (@sv W8)) in E'. vm_compute in E'. discriminate E'.
Qed.
