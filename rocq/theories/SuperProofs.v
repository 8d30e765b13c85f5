(** * SuperProofs.v -- lowering the rate is linear (C83) *)
From Coq Require Import ZArith NArith Reals List Lia Lra Psatz.
From Flocq Require Import Core.Core IEEE754.BinarySingleNaN.
From Verif Require Import Rust Float Chan Frame Ops Stream Audio FloatProofs SpecChan SpecFrame SpecStream SpecSink SpecAudio SpecMore
  IntProofs ChanProofs FChanProofs FrameProofs FArithProofs FloorProofs PlaceProofs ResampleProofs CopyProofs OpsProofs
  WholeProofs SinkProofs SinkMore SinkTerm StreamProofs AudioProofs MoreProofs GainProofs LevelProofs.
Import ListNotations.
Open Scope R_scope.

(** ** Weighted sums as real sums *)
Definition at_level {l k} (i : nat) (f : frame l k) : R := match nth_error (channels f) i with Some x => level x | None => 0 end.
Definition real_sum {l k} (i : nat) (cs : list (frame l k * f64)) : R :=
  fold_right (fun c t => at_level i (fst c) * B2R (snd c) + t) 0 cs.
Lemma at_level_some l k i (f : frame l k) x : nth_error (channels f) i = Some x -> at_level i f = level x.
Proof. unfold at_level. now intros ->. Qed.
Lemma clamp_near lo s z d : lo <= 1 -> 0 <= d -> lo - d <= s <= 1 + d -> Rabs (Rmax lo (Rmin 1 z) - s) <= Rabs (z - s) + d.
Proof.
  intros L D H. unfold Rmax, Rmin. destruct (Rle_dec 1 z), (Rle_dec lo _); apply Rabs_le; pose proof (Rle_abs (z - s)); pose proof (Rle_abs (- (z - s))) as X;
    rewrite Rabs_Ropp in X; lra.
Qed.
Lemma wnum_nonneg {A} (cs : list (A * f64)) : 0 <= wnum cs.
Proof.
  induction cs as [|c cs IH]; [apply Rle_refl|]. change (wnum (c :: cs)) with ((if Req_EM_T (B2R (snd c)) 0 then 0 else 1) + wnum cs).
  destruct (Req_EM_T _ _); lra.
Qed.
Lemma ws_real l k i (acc out : frame l k) cs d W T N a y : weighted_sum acc cs out ->
  frame_valid acc -> 0 <= d -> 0 <= W -> W + wtot cs <= 1 + d -> bottom k * W <= T <= W -> 0 <= N ->
  (forall c, In c cs -> is_finite (snd c) = true /\ 0 <= B2R (snd c) <= 1 /\
     forall x, nth_error (channels (fst c)) i = Some x -> valid x) ->
  nth_error (channels acc) i = Some a -> nth_error (channels out) i = Some y ->
  Rabs (level a - T) <= N * (step k + 2 * d) ->
  Rabs (level y - (T + real_sum i cs)) <= (N + wnum cs) * (step k + 2 * d).
Proof.
  intros Ws. revert W T N a. induction Ws as [acc|acc f w p r out Hp Ws IH]; intros W T N a Va D W0 Wt Tt N0 Hc Ha Hy L.
  - assert (a = y) by congruence. subst a. change (real_sum i []) with 0. change (wnum []) with 0. rewrite !Rplus_0_r. exact L.
  - destruct (Hc (f, w) (or_introl eq_refl)) as (Fw & Bw & Lx). cbn [fst snd] in Fw, Bw, Lx.
    change (wtot ((f, w) :: r)) with (B2R w + wtot r) in *.
    change (wnum ((f, w) :: r)) with ((if Req_EM_T (B2R w) 0 then 0 else 1) + wnum r) in *.
    change (real_sum i ((f, w) :: r)) with (at_level i f * B2R w + real_sum i r).
    pose proof (nth_some _ _ _ _ _ Ha) as Hn. destruct (nth_ex l k f i Hn) as (x & Hx). rewrite (at_level_some _ _ _ _ _ Hx).
    pose proof (Lx x Hx) as Vx. pose proof (level_range k x Vx) as Rx.
    assert (Vac : valid a) by (eapply frame_valid_nth; eauto).
    destruct (step_level k a x w Vac Vx Fw Bw) as (q & Hq & z & Ez & Lz).
    destruct (nth_ex l k (frame_from_f64 l k w) i Hn) as (wc & Hwc).
    destruct (proj1 (proj2 (frame_ops_channelwise l k f (frame_from_f64 l k w)))) as (zz & Hz & Z).
    rewrite Hp in Hz. injection Hz as <-. destruct (Z i x wc Hx Hwc) as (q' & Hmul & Hq').
    rewrite frame_from_f64_all in Hwc. apply repeat_nth in Hwc as ->. rewrite Hq in Hmul. injection Hmul as <-.
    pose proof (proj1 (proj1 (frame_ops_channelwise l k acc p) i a q Ha Hq')) as Hs.
    assert (Wr : 0 <= wtot r). { apply wtot_nonneg. intros c I. apply (Hc c (or_intror I)). }
    pose proof (step_pos k) as Sp. pose proof (bottom_range k) as Bb.
    replace (T + (level x * B2R w + real_sum i r)) with ((T + level x * B2R w) + real_sum i r) by ring.
    set (g := if Req_EM_T (B2R w) 0 then 0 else 1) in *.
    replace (N + (g + wnum r)) with ((N + g) + wnum r) by ring.
    assert (X1 : bottom k * B2R w <= level x * B2R w) by (apply Rmult_le_compat_r; lra).
    assert (X2 : level x * B2R w <= 1 * B2R w) by (apply Rmult_le_compat_r; lra).
    assert (T2 : bottom k * (W + B2R w) <= T + level x * B2R w <= W + B2R w) by lra.
    apply (IH (W + B2R w) _ (N + g) (c_add a q)); try assumption; try lra.
    + apply frame_add_valid.
    + unfold g. destruct (Req_EM_T _ _); lra.
    + intros c I. apply Hc. now right.
    + unfold err in Ez. unfold g. destruct (Req_EM_T (B2R w) 0) as [E0|E0].
      * assert (Zz : z = level a). { rewrite E0 in Ez. apply Rabs_le_inv in Ez. lra. }
        rewrite Lz, Zz, E0, Rmult_0_r, !Rplus_0_r. pose proof (level_range k a Vac). rewrite Rmin_right by lra. rewrite Rmax_right by lra. exact L.
      * rewrite Lz.
        assert (C2 : bottom k - 2 * d <= T + level x * B2R w <= 1 + 2 * d).
        { split; [|lra]. apply Rle_trans with (2 := proj1 T2). nra. }
        pose proof (clamp_near (bottom k) (T + level x * B2R w) z (2 * d) ltac:(lra) ltac:(lra) C2) as Cl.
        assert (Tr : Rabs (z - (T + level x * B2R w)) <= step k + N * (step k + 2 * d)).
        { replace (z - (T + level x * B2R w)) with ((z - (level a + level x * B2R w)) + (level a - T)) by ring.
          apply Rle_trans with (1 := Rabs_triang _ _). lra. }
        lra.
Qed.

(** ** Three sets of contributions with the same weights *)
Definition reaches (ratio : f64) (q : Z) (i : nat) : Prop :=
  floor_index (place ratio (flit 0 0) i) = q \/ ceil_index (place ratio (flit 0 0) i) = q.
Lemma real_sum_app l k i (a b : list (frame l k * f64)) : real_sum i (a ++ b) = real_sum i a + real_sum i b.
Proof.
  induction a as [|x a IH]; [change (real_sum i []) with 0; cbn [app]; ring|].
  change (real_sum i ((x :: a) ++ b)) with (at_level i (fst x) * B2R (snd x) + real_sum i (a ++ b)). rewrite IH.
  change (real_sum i (x :: a)) with (at_level i (fst x) * B2R (snd x) + real_sum i a). ring.
Qed.
Lemma three_sums al be t u1 u2 u3 v1 v2 v3 A1 A2 A3 wu wv w : Rabs (u3 - (al * u1 + be * u2)) <= t * wu -> Rabs (v3 - (al * v1 + be * v2)) <= t * wv ->
  Rabs (A3 - (al * A1 + be * A2)) <= t * w ->
  Rabs ((u3 + (v3 + A3)) - (al * (u1 + (v1 + A1)) + be * (u2 + (v2 + A2)))) <= t * (wu + (wv + w)).
Proof. intros H1 H2 H3. apply Rabs_le_inv in H1, H2, H3. apply Rabs_le. lra. Qed.
Lemma linear_sum l k c ratio q al be t (f1 f2 f3 : list (frame l k)) : 0 <= t -> length f1 = length f2 -> length f1 = length f3 -> forall i,
  (forall a x1 x2 x3, nth_error f1 a = Some x1 -> nth_error f2 a = Some x2 -> nth_error f3 a = Some x3 -> reaches ratio q (i + a) ->
     Rabs (at_level c x3 - (al * at_level c x1 + be * at_level c x2)) <= t /\
     0 <= B2R (lower_weight ratio (place ratio (flit 0 0) (i + a))) /\ 0 <= B2R (upper_weight ratio (place ratio (flit 0 0) (i + a)))) ->
  Rabs (real_sum c (contributions q ratio (flit 0 0) i f3) -
    (al * real_sum c (contributions q ratio (flit 0 0) i f1) + be * real_sum c (contributions q ratio (flit 0 0) i f2)))
    <= t * wtot (contributions q ratio (flit 0 0) i f3).
Proof.
  intros T0. revert f2 f3. induction f1 as [|x1 f1 IH]; intros [|x2 f2] [|x3 f3] L2 L3 i H; try discriminate.
  - cbn [contributions]. change (real_sum c []) with 0. change (wtot []) with 0. rewrite !Rmult_0_r, Rplus_0_r, Rminus_0_r, Rabs_R0. lra.
  - cbn [contributions]. injection L2 as L2. injection L3 as L3.
    assert (Hr := IH f2 f3 L2 L3 (S i)). assert (H0 := H 0%nat x1 x2 x3 eq_refl eq_refl eq_refl). rewrite Nat.add_0_r in H0.
    assert (Hs : forall a y1 y2 y3, nth_error f1 a = Some y1 -> nth_error f2 a = Some y2 -> nth_error f3 a = Some y3 -> reaches ratio q (S i + a) ->
      Rabs (at_level c y3 - (al * at_level c y1 + be * at_level c y2)) <= t /\
      0 <= B2R (lower_weight ratio (place ratio (flit 0 0) (S i + a))) /\ 0 <= B2R (upper_weight ratio (place ratio (flit 0 0) (S i + a)))).
    { intros a y1 y2 y3. replace (S i + a)%nat with (i + S a)%nat by lia. exact (H (S a) y1 y2 y3). }
    specialize (Hr Hs). clear Hs H IH. rewrite !real_sum_app, !wtot_app.
    set (A1 := real_sum c (contributions q ratio (flit 0 0) (S i) f1)) in *. set (A2 := real_sum c (contributions q ratio (flit 0 0) (S i) f2)) in *.
    set (A3 := real_sum c (contributions q ratio (flit 0 0) (S i) f3)) in *. set (Wt := wtot (contributions q ratio (flit 0 0) (S i) f3)) in *.
    assert (P : forall (b : bool) w, (b = true -> Rabs (at_level c x3 - (al * at_level c x1 + be * at_level c x2)) <= t /\ 0 <= B2R w) ->
      Rabs (real_sum c (if b then [(x3, w)] else []) - (al * real_sum c (if b then [(x1, w)] else []) + be * real_sum c (if b then [(x2, w)] else [])))
        <= t * wtot (if b then [(x3, w)] else [])).
    { intros [] w Hw; cbn [real_sum wtot fold_right fst snd].
      - destruct (Hw eq_refl) as [X Y]. rewrite !Rplus_0_r.
        replace (_ - _) with ((at_level c x3 - (al * at_level c x1 + be * at_level c x2)) * B2R w) by ring.
        rewrite Rabs_mult, (Rabs_pos_eq (B2R w) Y). now apply Rmult_le_compat_r.
      - rewrite !Rmult_0_r, Rplus_0_r, Rminus_0_r, Rabs_R0. lra. }
    assert (P1 := P (Z.eqb (floor_index (place ratio (flit 0 0) i)) q) (lower_weight ratio (place ratio (flit 0 0) i))).
    assert (P2 := P (Z.eqb (ceil_index (place ratio (flit 0 0) i)) q) (upper_weight ratio (place ratio (flit 0 0) i))).
    clear P. specialize (P1 ltac:(intros E; apply Z.eqb_eq in E; destruct (H0 (or_introl E)) as (U & V & _); auto)).
    specialize (P2 ltac:(intros E; apply Z.eqb_eq in E; destruct (H0 (or_intror E)) as (U & _ & V); auto)).
    exact (three_sums _ _ _ _ _ _ _ _ _ _ _ _ _ _ _ P1 P2 Hr).
Qed.

Section Lower.
Context (rate src : f64) (R S : Z).
Hypothesis HR : whole_rate rate R.
Hypothesis HS : whole_rate src S.
Hypothesis S50 : (S <= 2 ^ 50)%Z.
Hypothesis RS : (R <= S)%Z.
Notation ratio := (fdiv rate src).
Notation r := (B2R ratio).
Let S51 : (S <= 2 ^ 51)%Z. Proof. lia. Qed.

(** What a frame gets is the real weighted sum, up to the roundings. *)
Lemma extend_real l k ls ks (a a' : audio l k) (s it : stream ls ks) n all (fs : list (frame l k)) p c b y :
  s_rate a = rate -> sample_rate s = Some src -> honest s -> slen s = Some n -> yields s all -> converted all fs ->
  (R * Z.of_N n <= 2 ^ 51)%Z -> extend (Datatypes.S (N.to_nat n)) a s = (a', Ok it) ->
  ((Z.of_nat p + 1) * S < R * Z.of_N n)%Z ->
  (forall i f x, nth_error fs i = Some f -> (Z.abs (R * Z.of_nat i - S * Z.of_nat p) <= S)%Z ->
     nth_error (channels f) c = Some x -> valid x) ->
  audio_get a' (audio_len a + p) = Some b -> nth_error (channels b) c = Some y ->
  length fs = N.to_nat n /\
  exists m, leaves ratio (Z.min (floor_index (fmul ratio (fofZ (Z.of_N n)))) ((R * Z.of_N n + S - 1) / S)) m /\ (m <= N.to_nat n)%nat /\
    (forall i, (i < m)%nat -> reaches ratio (Z.of_nat p) i -> (Z.abs (R * Z.of_nat i - S * Z.of_nat p) <= S)%Z /\
      0 <= B2R (lower_weight ratio (place ratio (flit 0 0) i)) /\ 0 <= B2R (upper_weight ratio (place ratio (flit 0 0) i))) /\
    let cs := contributions (Z.of_nat p) ratio (flit 0 0) 0 (firstn m fs) in
    let d := (INR p + 6) * bpow radix2 (-50) in
    0 <= wtot cs <= 1 + d /\ Rabs (level y - real_sum c cs) <= (IZR S / IZR R + 6) * (step k + 2 * d).
Proof.
  intros Ea Er Ho Hl Ya Cv Hn He Hp Lv Hb Hy.
  pose proof (proj2 (proj2 HR)) as BR. pose proof (proj2 (proj2 HS)) as BS.
  destruct (lower_ratio rate src R S HR HS S50 RS) as (Fr & r0 & r1 & Rr & _ & Ri & D). pose proof (lower_precise rate src R S HR HS S50 RS p n Hp Hn) as Pr.
  assert (Sk : sinkable s) by (left; rewrite Er; discriminate).
  destruct (extend_values l k ls ks a a' s it n all fs Sk Ho Hl Ya Cv He) as (m & Hm & Lf & _ & V).
  specialize (V p b Hb). destruct V as [V _].
  rewrite Er, Ea in Lf, V. cbn [ratio_for] in Lf, V. rewrite (frames_for_exact rate src R S HR HS S51 n Hn) in Lf, V.
  pose proof (covered_nearly rate src R S HR HS S51 n Hn) as Cn.
  set (d := ((R * Z.of_N n + S - 1) / S)%Z) in *.
  assert (Dd : (Z.of_nat p + 2 <= d)%Z). { apply Z.div_le_lower_bound; lia. }
  set (e := Z.min _ d) in *. assert (Pe : (Z.of_nat p < e)%Z) by (unfold e; lia). specialize (V Pe).
  assert (Hm2 : (Z.of_nat m <= 2 ^ 51)%Z) by nia.
  pose proof (yields_count _ _ _ _ _ Ho Hl Ya) as La.
  assert (Lfs : length fs = N.to_nat n) by (rewrite (converted_length _ _ _ _ _ _ Cv); exact La).
  assert (Lm : length (firstn m fs) = m) by (rewrite firstn_length; lia).
  split; [exact Lfs|]. exists m. split; [exact Lf|]. split; [exact Hm|].
  assert (Wb : forall i, (i < m)%nat -> let j := place ratio (flit 0 0) i in 0 <= B2R (lower_weight ratio j) <= r /\ 0 <= B2R (upper_weight ratio j) <= r /\
    is_finite (lower_weight ratio j) = true /\ is_finite (upper_weight ratio j) = true).
  { intros i Hi. destruct (pos_val ratio Fr r0 r1 i ltac:(lia)) as [Ev Fj].
    assert (J0 : 0 <= B2R (place ratio (flit 0 0) i)). { rewrite Ev. apply (rnd_nonneg 53 1024). pose proof (pos_INR i). nra. }
    destruct (weights_at ratio Fr r0 r1 (place ratio (flit 0 0) i) Fj J0) as (_ & _ & _ & W). exact W. }
  assert (Nr : forall i, (i < m)%nat -> reaches ratio (Z.of_nat p) i -> (Z.abs (R * Z.of_nat i - S * Z.of_nat p) <= S)%Z).
  { intros i Hi Hq. apply (near rate src R S HR HS S51 (Z.of_nat p) i); [nia|exact Hq]. }
  split. { intros i Hi Hq. destruct (Wb i Hi) as (A & B & _). split; [now apply Nr|]. lra. }
  destruct Lf as [_ Lf].
  pose proof (total_weight ratio Fr r0 r1 (Z.of_nat p) m Pr ltac:(lia) ltac:(lia)) as Tw.
  pose proof (total_count ratio Fr r0 r1 (Z.of_nat p) m Pr ltac:(lia)) as Tn.
  destruct (contributions_total (Z.of_nat p) ratio (firstn m fs) 0) as [W1 W2]. rewrite Lm in W1, W2. cbn [Nat.add sumf] in W1, W2. rewrite Rplus_0_l in W1, W2.
  rewrite <- W1 in Tw. rewrite <- W2 in Tn. clear W1 W2.
  set (cs := contributions (Z.of_nat p) ratio (flit 0 0) 0 (firstn m fs)) in *. cbv zeta.
  set (dl := (INR p + 6) * bpow radix2 (-50)).
  assert (Ppos : 0 <= INR p) by apply pos_INR.
  assert (Dv : 4 * slack (Z.of_nat p) <= dl).
  { unfold dl, slack. rewrite <- INR_IZR_INZ. rewrite u53_val. change (bpow radix2 (-52)) with (/ 4503599627370496). change (bpow radix2 (-50)) with (/ 1125899906842624). lra. }
  assert (D0 : 0 <= dl). { unfold dl. apply Rmult_le_pos; [lra|apply bpow_ge_0]. }
  assert (Hc : forall cc, In cc cs -> is_finite (snd cc) = true /\ 0 <= B2R (snd cc) <= 1 /\ forall x, nth_error (channels (fst cc)) c = Some x -> valid x).
  { intros [f w] I. cbn [fst snd]. destruct (contributions_at_position _ _ _ _ _ _ _ I) as (i & Hf & Hw). cbn [Nat.add] in Hw.
    assert (Hi : (i < m)%nat) by (rewrite <- Lm; apply nth_error_Some; congruence).
    destruct (Wb i Hi) as (LB & UB & F1 & F2). rewrite firstn_nth in Hf by exact Hi.
    assert (N : (Z.abs (R * Z.of_nat i - S * Z.of_nat p) <= S)%Z) by (apply Nr; [exact Hi|unfold reaches; tauto]).
    assert (Lc : forall x, nth_error (channels f) c = Some x -> valid x) by (intros x Hx; exact (Lv i f x Hf N Hx)).
    destruct Hw as [[_ ->]|[_ ->]]; (split; [assumption|split; [lra|exact Lc]]). }
  assert (Wp : 0 <= wtot cs) by (apply wtot_nonneg; intros cc I; apply (Hc cc I)).
  assert (Wt : wtot cs <= 1 + dl). { apply Rabs_le_inv in Tw. destruct (_ =? 0)%Z in Tw; lra. }
  split; [lra|].
  assert (Dy : nth_error (channels (frame_default l k)) c = Some (chan_default k)).
  { destruct (nth_ex l k (frame_default l k) c (nth_some _ _ _ _ _ Hy)) as (z & Hz). rewrite Hz. f_equal. now apply nth_default in Hz. }
  pose proof (step_pos k) as Sp.
  assert (K : Rabs (level y - (0 + real_sum c cs)) <= (0 + wnum cs) * (step k + 2 * dl)).
  { apply (ws_real l k c (frame_default l k) b cs dl 0 0 0 (chan_default k) y V); try lra; try assumption.
    - apply frame_default_valid.
    - rewrite level_default, Rmult_0_l, Rminus_0_r, Rabs_R0. lra. }
  rewrite !Rplus_0_l in K. apply Rle_trans with (1 := K). apply Rmult_le_compat_r; lra.
Qed.

Lemma extend_linear l k l1 k1 l2 k2 l3 k3 (a1 a1' a2 a2' a3 a3' : audio l k) (s1 it1 : stream l1 k1) (s2 it2 : stream l2 k2) (s3 it3 : stream l3 k3)
    n all1 all2 all3 (f1 f2 f3 : list (frame l k)) p c al be t b1 b2 b3 y1 y2 y3 :
  s_rate a1 = rate -> s_rate a2 = rate -> s_rate a3 = rate ->
  sample_rate s1 = Some src -> honest s1 -> slen s1 = Some n -> yields s1 all1 -> converted all1 f1 ->
  sample_rate s2 = Some src -> honest s2 -> slen s2 = Some n -> yields s2 all2 -> converted all2 f2 ->
  sample_rate s3 = Some src -> honest s3 -> slen s3 = Some n -> yields s3 all3 -> converted all3 f3 ->
  (R * Z.of_N n <= 2 ^ 51)%Z -> ((Z.of_nat p + 1) * S < R * Z.of_N n)%Z ->
  extend (Datatypes.S (N.to_nat n)) a1 s1 = (a1', Ok it1) -> extend (Datatypes.S (N.to_nat n)) a2 s2 = (a2', Ok it2) ->
  extend (Datatypes.S (N.to_nat n)) a3 s3 = (a3', Ok it3) ->
  0 <= t ->
  (forall i g1 g2 g3 x1 x2 x3, nth_error f1 i = Some g1 -> nth_error f2 i = Some g2 -> nth_error f3 i = Some g3 ->
     (Z.abs (R * Z.of_nat i - S * Z.of_nat p) <= S)%Z ->
     nth_error (channels g1) c = Some x1 -> nth_error (channels g2) c = Some x2 -> nth_error (channels g3) c = Some x3 ->
     valid x1 /\ valid x2 /\ valid x3 /\ Rabs (level x3 - (al * level x1 + be * level x2)) <= t) ->
  audio_get a1' (audio_len a1 + p) = Some b1 -> audio_get a2' (audio_len a2 + p) = Some b2 -> audio_get a3' (audio_len a3 + p) = Some b3 ->
  nth_error (channels b1) c = Some y1 -> nth_error (channels b2) c = Some y2 -> nth_error (channels b3) c = Some y3 ->
  let d := (INR p + 6) * bpow radix2 (-49) in
  Rabs (level y3 - (al * level y1 + be * level y2)) <=
    (1 + Rabs al + Rabs be) * (IZR S / IZR R + 6) * (step k + d) + t * (1 + d).
Proof.
  intros Ea1 Ea2 Ea3 Er1 Ho1 Hl1 Ya1 Cv1 Er2 Ho2 Hl2 Ya2 Cv2 Er3 Ho3 Hl3 Ya3 Cv3 Hn Hp He1 He2 He3 T0 Lv Hb1 Hb2 Hb3 Hy1 Hy2 Hy3 d.
  assert (Ln : forall ls ks (s : stream ls ks) all (f : list (frame l k)), honest s -> slen s = Some n -> yields s all -> converted all f -> length f = N.to_nat n).
  { intros ls ks s all f Ho Hl Ya Cv. rewrite (converted_length _ _ _ _ _ _ Cv). exact (yields_count _ _ _ _ _ Ho Hl Ya). }
  pose proof (Ln _ _ _ _ _ Ho1 Hl1 Ya1 Cv1) as N1. pose proof (Ln _ _ _ _ _ Ho2 Hl2 Ya2 Cv2) as N2. pose proof (Ln _ _ _ _ _ Ho3 Hl3 Ya3 Cv3) as N3. clear Ln.
  pose proof (nth_some _ _ _ _ _ Hy1) as Hc.
  assert (All : forall i, (i < N.to_nat n)%nat -> exists g1 g2 g3 x1 x2 x3, nth_error f1 i = Some g1 /\ nth_error f2 i = Some g2 /\ nth_error f3 i = Some g3 /\
    nth_error (channels g1) c = Some x1 /\ nth_error (channels g2) c = Some x2 /\ nth_error (channels g3) c = Some x3).
  { intros i Hi. destruct (nth_lt_some f1 i) as (g1 & G1); [lia|]. destruct (nth_lt_some f2 i) as (g2 & G2); [lia|]. destruct (nth_lt_some f3 i) as (g3 & G3); [lia|].
    destruct (nth_ex l k g1 c Hc) as (x1 & X1). destruct (nth_ex l k g2 c Hc) as (x2 & X2). destruct (nth_ex l k g3 c Hc) as (x3 & X3). exists g1, g2, g3, x1, x2, x3. tauto. }
  assert (V1 : forall i f x, nth_error f1 i = Some f -> (Z.abs (R * Z.of_nat i - S * Z.of_nat p) <= S)%Z -> nth_error (channels f) c = Some x -> valid x).
  { intros i f x Hf Nr Hx. destruct (All i) as (g1 & g2 & g3 & x1 & x2 & x3 & G1 & G2 & G3 & X1 & X2 & X3); [rewrite <- N1; apply nth_error_Some; congruence|].
    destruct (Lv i g1 g2 g3 x1 x2 x3 G1 G2 G3 Nr X1 X2 X3) as (A & B & C & _). congruence. }
  assert (V2 : forall i f x, nth_error f2 i = Some f -> (Z.abs (R * Z.of_nat i - S * Z.of_nat p) <= S)%Z -> nth_error (channels f) c = Some x -> valid x).
  { intros i f x Hf Nr Hx. destruct (All i) as (g1 & g2 & g3 & x1 & x2 & x3 & G1 & G2 & G3 & X1 & X2 & X3); [rewrite <- N2; apply nth_error_Some; congruence|].
    destruct (Lv i g1 g2 g3 x1 x2 x3 G1 G2 G3 Nr X1 X2 X3) as (A & B & C & _). congruence. }
  assert (V3 : forall i f x, nth_error f3 i = Some f -> (Z.abs (R * Z.of_nat i - S * Z.of_nat p) <= S)%Z -> nth_error (channels f) c = Some x -> valid x).
  { intros i f x Hf Nr Hx. destruct (All i) as (g1 & g2 & g3 & x1 & x2 & x3 & G1 & G2 & G3 & X1 & X2 & X3); [rewrite <- N3; apply nth_error_Some; congruence|].
    destruct (Lv i g1 g2 g3 x1 x2 x3 G1 G2 G3 Nr X1 X2 X3) as (A & B & C & _). congruence. }
  destruct (extend_real l k l1 k1 a1 a1' s1 it1 n all1 f1 p c b1 y1 Ea1 Er1 Ho1 Hl1 Ya1 Cv1 Hn He1 Hp V1 Hb1 Hy1) as (_ & m & Lf & Hm & W & _ & K1).
  destruct (extend_real l k l2 k2 a2 a2' s2 it2 n all2 f2 p c b2 y2 Ea2 Er2 Ho2 Hl2 Ya2 Cv2 Hn He2 Hp V2 Hb2 Hy2) as (_ & m2 & Lf2 & _ & _ & _ & K2).
  destruct (extend_real l k l3 k3 a3 a3' s3 it3 n all3 f3 p c b3 y3 Ea3 Er3 Ho3 Hl3 Ya3 Cv3 Hn He3 Hp V3 Hb3 Hy3) as (_ & m3 & Lf3 & _ & _ & Wt & K3).
  pose proof (leaves_unique _ _ _ _ Lf Lf2) as <-. pose proof (leaves_unique _ _ _ _ Lf Lf3) as <-. clear Lf Lf2 Lf3.
  cbv zeta in *. assert (Dd : 2 * ((INR p + 6) * bpow radix2 (-50)) = d).
  { unfold d. change (bpow radix2 (-50)) with (/ 1125899906842624). change (bpow radix2 (-49)) with (/ 562949953421312). lra. }
  rewrite Dd in K1, K2, K3.
  assert (D0 : 0 <= d). { unfold d. apply Rmult_le_pos; [pose proof (pos_INR p); lra|apply bpow_ge_0]. }
  assert (L : Rabs (real_sum c (contributions (Z.of_nat p) ratio (flit 0 0) 0 (firstn m f3)) -
    (al * real_sum c (contributions (Z.of_nat p) ratio (flit 0 0) 0 (firstn m f1)) + be * real_sum c (contributions (Z.of_nat p) ratio (flit 0 0) 0 (firstn m f2))))
    <= t * wtot (contributions (Z.of_nat p) ratio (flit 0 0) 0 (firstn m f3))).
  { apply linear_sum; [exact T0|rewrite !firstn_length; lia|rewrite !firstn_length; lia|].
    intros i g1 g2 g3 G1 G2 G3 Rc. cbn [Nat.add] in *.
    assert (Hi : (i < m)%nat). { assert (X : (i < length (firstn m f1))%nat) by (apply nth_error_Some; congruence). rewrite firstn_length in X. lia. }
    rewrite firstn_nth in G1, G2, G3 by exact Hi. destruct (W i Hi Rc) as [Nr Wp]. split; [|exact Wp].
    destruct (nth_ex l k g1 c Hc) as (x1 & X1). destruct (nth_ex l k g2 c Hc) as (x2 & X2). destruct (nth_ex l k g3 c Hc) as (x3 & X3).
    rewrite (at_level_some _ _ _ _ _ X1), (at_level_some _ _ _ _ _ X2), (at_level_some _ _ _ _ _ X3).
    apply (Lv i g1 g2 g3 x1 x2 x3 G1 G2 G3 Nr X1 X2 X3). }
  set (C1 := real_sum c (contributions _ _ _ _ (firstn m f1))) in *. set (C2 := real_sum c (contributions _ _ _ _ (firstn m f2))) in *.
  set (C3 := real_sum c (contributions _ _ _ _ (firstn m f3))) in *. set (wt := wtot _) in *. clearbody C1 C2 C3 wt.
  set (Q := (IZR S / IZR R + 6) * (step k + d)) in *.
  replace ((1 + Rabs al + Rabs be) * (IZR S / IZR R + 6) * (step k + d)) with (Q + Rabs al * Q + Rabs be * Q) by (unfold Q; ring). clearbody Q.
  assert (Tw : t * wt <= t * (1 + d)) by (apply Rmult_le_compat_l; lra).
  assert (A1 : Rabs (al * (level y1 - C1)) <= Rabs al * Q) by (rewrite Rabs_mult; apply Rmult_le_compat_l; [apply Rabs_pos|exact K1]).
  assert (A2 : Rabs (be * (level y2 - C2)) <= Rabs be * Q) by (rewrite Rabs_mult; apply Rmult_le_compat_l; [apply Rabs_pos|exact K2]).
  apply Rabs_le_inv in A1, A2, K3, L. apply Rabs_le. lra.
Qed.
End Lower.

(** ** Mixing and fading before or after *)
From Verif Require Import LawProofs StreamMore SpecMix MixProofs SpecFade FadeProofs.
Import SpecMore GainProofs LevelProofs.
Lemma level_rval k (x : chan k) : level x = rval x / top k.
Proof. destruct k; cbn [level rval top]; [reflexivity|reflexivity|field|field]. Qed.
Lemma top_pos k : 1 <= top k. Proof. destruct k; cbn; lra. Qed.
Lemma converted_same l k (fs : list (frame l k)) : converted fs fs.
Proof. induction fs as [|f fs IH]; constructor; [apply convert_self|exact IH]. Qed.
Lemma given_nth l k (s : stream l k) all i f j x : yields s all -> nth_error all i = Some f -> nth_error (channels f) j = Some x -> given s i j x.
Proof. intros Y N C. exists all, f. split; [now apply yields_starts|auto]. Qed.
Lemma add_level k (x y : chan k) : valid x -> valid y -> Rabs (rval x + rval y) <= top k -> Rabs (level (c_add x y) - (1 * level x + 1 * level y)) <= step k.
Proof.
  intros Vx Vy H. pose proof (step_pos k) as Sp. rewrite !level_rval. destruct (k_cases k) as [K|K].
  - rewrite (add_int k x y K H). pose proof (top_pos k). replace (_ - _) with 0 by (field; lra). rewrite Rabs_R0. lra.
  - assert (T : top k = 1) by (destruct K as [-> | ->]; reflexivity). rewrite T in *.
    pose proof (add_float k x y (rval x) 0 K Vx Vy) as A. rewrite Rminus_eq_0, Rabs_R0 in A. specialize (A (Rle_refl 0) H).
    replace (_ - _) with (rval (c_add x y) - (rval x + rval y)) by field. apply Rle_trans with (add_error k); [lra|].
    destruct K as [-> | ->]; cbn [add_error step]; apply bpow_le; lia.
Qed.

Lemma mul_level k (x g : chan k) : SpecFade.within x -> SpecFade.within g -> exists y, c_mul x g = Ok y /\ valid y /\ Rabs (level y - (level g * level x + 0 * level x)) <= step k.
Proof.
  intros Wx Wg. destruct (mul_within k x g Wx Wg) as (y & E & Wy & I & F). exists y. split; [exact E|]. split; [apply Wy|].
  rewrite !level_rval. pose proof (top_pos k) as T. destruct (k_cases k) as [K|K].
  - specialize (I K). pose proof (imax_pos k) as M. destruct (quot_near (code x * code g) (imax k) M) as (Q & _ & _). rewrite <- I in Q.
    rewrite !(int_code k _ K), (int_top k K) in *. apply Z.lt_le_incl, IZR_le in Q. rewrite abs_IZR, minus_IZR, !mult_IZR in Q.
    set (m := IZR (imax k)) in *. assert (M1 : 1 <= m) by lra.
    assert (St : 2.5 / m = step k). { unfold m. destruct K as [-> | ->]; cbn [imax step]; lra. }
    rewrite <- St.
    replace (IZR (code y) / m - (IZR (code g) / m * (IZR (code x) / m) + 0 * (IZR (code x) / m)))
      with ((m * IZR (code y) - IZR (code x) * IZR (code g)) / (m * m)) by (field; lra).
    unfold Rdiv. rewrite Rabs_mult, (Rabs_pos_eq (/ (m * m))) by (apply Rlt_le, Rinv_0_lt_compat; nra).
    apply Rle_trans with (m * / (m * m)); [apply Rmult_le_compat_r; [apply Rlt_le, Rinv_0_lt_compat; nra|exact Q]|].
    replace (m * / (m * m)) with (/ m) by (field; lra). assert (0 < / m) by (apply Rinv_0_lt_compat; lra). lra.
  - specialize (F K). assert (T1 : top k = 1) by (destruct K as [-> | ->]; reflexivity). rewrite T1 in *.
    replace (_ - _) with (rval y - rval x * rval g) by field. apply Rle_trans with (1 := F).
    destruct K as [-> | ->]; cbn [SpecFade.step step].
    + pose proof (bpow_gt_0 radix2 (-24)). assert (bpow radix2 (-24) <= bpow radix2 (-23)) by (apply bpow_le; lia). lra.
    + pose proof (bpow_gt_0 radix2 (-53)). assert (bpow radix2 (-53) <= bpow radix2 (-52)) by (apply bpow_le; lia). lra.
Qed.

Section Both.
Context (rate src : f64) (R S : Z).
Hypothesis HR : whole_rate rate R.
Hypothesis HS : whole_rate src S.
Hypothesis S50 : (S <= 2 ^ 50)%Z.
Hypothesis RS : (R <= S)%Z.

Lemma step_le1 k : step k <= 1.
Proof. destruct k; cbn [step]; try lra; (apply Rle_trans with (bpow radix2 0); [apply bpow_le; lia|cbn; lra]). Qed.
Lemma collect k q d : 0 <= d -> step k * (1 + d) + q <= (step k + d) + q.
Proof. intros D. pose proof (step_le1 k). pose proof (step_pos k). nra. Qed.
Lemma mix_either_way l k (s1 s2 t it1 it2 it3 : stream l k) (a a1 a2 a3 : audio l k) n p c b1 b2 b3 y1 y2 y3 :
  s_rate a = rate -> tracks_at src [s1; s2] -> slen s1 = Some n -> slen s2 = Some n -> blend s1 s2 Plus = Ok t ->
  (R * Z.of_N n <= 2 ^ 51)%Z -> ((Z.of_nat p + 1) * S < R * Z.of_N n)%Z ->
  (forall i x1 x2, (Z.abs (R * Z.of_nat i - S * Z.of_nat p) <= S)%Z -> given s1 i c x1 -> given s2 i c x2 ->
     valid x1 /\ valid x2 /\ Rabs (rval x1 + rval x2) <= top k) ->
  extend (Datatypes.S (N.to_nat n)) a s1 = (a1, Ok it1) -> extend (Datatypes.S (N.to_nat n)) a s2 = (a2, Ok it2) ->
  extend (Datatypes.S (N.to_nat n)) a t = (a3, Ok it3) ->
  audio_get a1 (audio_len a + p) = Some b1 -> audio_get a2 (audio_len a + p) = Some b2 -> audio_get a3 (audio_len a + p) = Some b3 ->
  nth_error (channels b1) c = Some y1 -> nth_error (channels b2) c = Some y2 -> nth_error (channels b3) c = Some y3 ->
  Rabs (level y3 - (level y1 + level y2)) <= (3 * (IZR S / IZR R + 6) + 1) * (step k + (INR p + 6) * bpow radix2 (-49)).
Proof.
  intros Ea [Fr Tr] L1 L2 Bl Hn Hp Q E1 E2 E3 B1 B2 B3 Y1 Y2 Y3.
  inversion Tr as [|? ? [R1 H1] Tr2]; subst. inversion Tr2 as [|? ? [R2 H2] _]; subst. clear Tr Tr2.
  destruct (op_ok l k src _ _ s1 s2 Plus (plus_total l k) Fr (conj R1 (conj L1 H1)) (conj R2 (conj L2 H2))) as (t' & Bl' & R3 & L3 & H3).
  rewrite Bl in Bl'. injection Bl' as <-. replace (shorter (Some n) (Some n)) with (Some n) in L3 by (cbn; f_equal; lia).
  assert (Y : forall s : stream l k, honest s -> slen s = Some n -> exists all, yields s all).
  { intros s H L. unfold honest in H. rewrite L in H. destruct H as (fs & H & _). eauto. }
  destruct (Y _ H1 L1) as (all1 & A1). destruct (Y _ H2 L2) as (all2 & A2). destruct (Y _ H3 L3) as (all3 & A3). clear Y.
  pose proof (extend_linear (s_rate a) src R S HR HS S50 RS l k l k l k l k a a1 a a2 a a3 s1 it1 s2 it2 t it3 n all1 all2 all3 all1 all2 all3 p c 1 1 (step k)
    b1 b2 b3 y1 y2 y3 eq_refl eq_refl eq_refl R1 H1 L1 A1 (converted_same _ _ _) R2 H2 L2 A2 (converted_same _ _ _) R3 H3 L3 A3 (converted_same _ _ _)
    Hn Hp E1 E2 E3 (Rlt_le _ _ (step_pos k))) as M.
  assert (Z : forall i g1 g2 g3 x1 x2 x3, nth_error all1 i = Some g1 -> nth_error all2 i = Some g2 -> nth_error all3 i = Some g3 ->
     (Z.abs (R * Z.of_nat i - S * Z.of_nat p) <= S)%Z ->
     nth_error (channels g1) c = Some x1 -> nth_error (channels g2) c = Some x2 -> nth_error (channels g3) c = Some x3 ->
     valid x1 /\ valid x2 /\ valid x3 /\ Rabs (level x3 - (1 * level x1 + 1 * level x2)) <= step k).
  { intros i g1 g2 g3 x1 x2 x3 G1 G2 G3 Nr X1 X2 X3.
    pose proof (given_nth _ _ _ _ _ _ _ _ A1 G1 X1) as W1. pose proof (given_nth _ _ _ _ _ _ _ _ A2 G2 X2) as W2. pose proof (given_nth _ _ _ _ _ _ _ _ A3 G3 X3) as W3.
    apply (blend_given l k s1 s2 t i c x3 Bl) in W3 as (u & v & U & V & ->).
    rewrite (given_det _ _ _ _ _ _ _ U W1), (given_det _ _ _ _ _ _ _ V W2).
    destruct (Q i x1 x2 Nr W1 W2) as (V1 & V2 & Sm). split; [exact V1|]. split; [exact V2|]. split; [apply add_valid|]; try assumption. now apply add_level. }
  specialize (M Z B1 B2 B3 Y1 Y2 Y3). cbv zeta in M. clear Z.
  assert (D0 : 0 <= (INR p + 6) * bpow radix2 (-49)) by (apply Rmult_le_pos; [pose proof (pos_INR p); lra|apply bpow_ge_0]).
  rewrite !Rmult_1_l, Rabs_R1 in M. apply Rle_trans with (1 := M). rewrite Rplus_comm. apply Rle_trans with (1 := collect k _ _ D0). apply Req_le. ring.
Qed.
Lemma fade_either_way l k (s g t it1 it3 : stream l k) (a a1 a3 : audio l k) ga n p c b1 b3 y1 y3 :
  s_rate a = rate -> tracks_at src [s; g] -> slen s = Some n -> slen g = None \/ slen g = Some n -> blend s g Amplify = Ok t ->
  (R * Z.of_N n <= 2 ^ 51)%Z -> ((Z.of_nat p + 1) * S < R * Z.of_N n)%Z ->
  (forall i x z, (Z.abs (R * Z.of_nat i - S * Z.of_nat p) <= S)%Z -> given s i c x -> given g i c z -> SpecFade.within x /\ SpecFade.within z /\ level z = ga) ->
  extend (Datatypes.S (N.to_nat n)) a s = (a1, Ok it1) -> extend (Datatypes.S (N.to_nat n)) a t = (a3, Ok it3) ->
  audio_get a1 (audio_len a + p) = Some b1 -> audio_get a3 (audio_len a + p) = Some b3 ->
  nth_error (channels b1) c = Some y1 -> nth_error (channels b3) c = Some y3 ->
  Rabs (level y3 - ga * level y1) <= ((1 + Rabs ga) * (IZR S / IZR R + 6) + 1) * (step k + (INR p + 6) * bpow radix2 (-49)).
Proof.
  intros Ea [Fr Tr] L1 L2 Bl Hn Hp Q E1 E3 B1 B3 Y1 Y3.
  inversion Tr as [|? ? [R1 H1] Tr2]; subst. inversion Tr2 as [|? ? [R2 H2] _]; subst. clear Tr Tr2.
  destruct (op_ok l k src _ _ s g Amplify (amplify_total l k) Fr (conj R1 (conj L1 H1)) (conj R2 (conj eq_refl H2))) as (t' & Bl' & R3 & L3 & H3).
  rewrite Bl in Bl'. injection Bl' as <-. assert (L3' : slen t = Some n) by (destruct L2 as [E|E]; rewrite E in L3; rewrite L3; cbn; f_equal; lia). clear L3. rename L3' into L3.
  assert (Y : forall s : stream l k, honest s -> slen s = Some n -> exists all, yields s all).
  { intros u H L. unfold honest in H. rewrite L in H. destruct H as (fs & H & _). eauto. }
  destruct (Y _ H1 L1) as (all1 & A1). destruct (Y _ H3 L3) as (all3 & A3). clear Y.
  pose proof (extend_linear (s_rate a) src R S HR HS S50 RS l k l k l k l k a a1 a a1 a a3 s it1 s it1 t it3 n all1 all1 all3 all1 all1 all3 p c ga 0 (step k)
    b1 b1 b3 y1 y1 y3 eq_refl eq_refl eq_refl R1 H1 L1 A1 (converted_same _ _ _) R1 H1 L1 A1 (converted_same _ _ _) R3 H3 L3 A3 (converted_same _ _ _)
    Hn Hp E1 E1 E3 (Rlt_le _ _ (step_pos k))) as M.
  assert (Z : forall i g1 g2 g3 x1 x2 x3, nth_error all1 i = Some g1 -> nth_error all1 i = Some g2 -> nth_error all3 i = Some g3 ->
     (Z.abs (R * Z.of_nat i - S * Z.of_nat p) <= S)%Z ->
     nth_error (channels g1) c = Some x1 -> nth_error (channels g2) c = Some x2 -> nth_error (channels g3) c = Some x3 ->
     valid x1 /\ valid x2 /\ valid x3 /\ Rabs (level x3 - (ga * level x1 + 0 * level x2)) <= step k).
  { intros i g1 g2 g3 x1 x2 x3 G1 G2 G3 Nr X1 X2 X3. rewrite G1 in G2. injection G2 as <-. rewrite X1 in X2. injection X2 as <-.
    pose proof (given_nth _ _ _ _ _ _ _ _ A1 G1 X1) as W1. pose proof (given_nth _ _ _ _ _ _ _ _ A3 G3 X3) as W3.
    apply (amplify_given l k s g t i c x3 Bl) in W3 as (u & v & U & V & Ml).
    rewrite (given_det _ _ _ _ _ _ _ U W1) in Ml. destruct (Q i x1 v Nr W1 V) as (V1 & V2 & Lg).
    destruct (mul_level k x1 v V1 V2) as (y & Ey & Vy & Le). rewrite Ml in Ey. injection Ey as <-. rewrite <- Lg.
    split; [apply V1|]. split; [apply V1|]. split; [exact Vy|exact Le]. }
  specialize (M Z B1 B1 B3 Y1 Y1 Y3). cbv zeta in M. clear Z.
  assert (D0 : 0 <= (INR p + 6) * bpow radix2 (-49)) by (apply Rmult_le_pos; [pose proof (pos_INR p); lra|apply bpow_ge_0]).
  rewrite Rabs_R0, Rmult_0_l, Rplus_0_r in M. apply Rle_trans with (1 := M). rewrite Rplus_comm. apply Rle_trans with (1 := collect k _ _ D0). apply Req_le. ring.
Qed.
End Both.

(** ** Concrete buffers *)
Definition codes_of {T} (r : res (audio Mono K16 * T)) : list (list Z) :=
  match r with Ok (a, _) => map (fun f : frame Mono K16 => map sv (channels f)) (frames a) | _ => [] end.
Lemma first_code T (r : res (audio Mono K16 * T)) z zs : codes_of r = [z] :: zs ->
  exists a it x, r = Ok (a, it) /\ audio_get a 0 = Some ((x, tt) : frame Mono K16) /\ sv x = z.
Proof.
  unfold codes_of. destruct r as [[a it]|p|]; try discriminate. unfold audio_get. destruct (frames a) as [|[x []] f] eqn:F; [discriminate|].
  intros V. injection V as V _. exists a, it, x. rewrite F. auto.
Qed.
Lemma sum_differs (x1 x2 x3 : chan K16) z1 z2 z3 : sv x1 = z1 -> sv x2 = z2 -> sv x3 = z3 -> (-32768 <= z1 + z2 <= 32767)%Z -> z3 <> (z1 + z2)%Z ->
  ((x3, tt) : frame Mono K16) <> frame_add ((x1, tt) : frame Mono K16) ((x2, tt) : frame Mono K16).
Proof.
  intros S1 S2 S3 B N E. apply N. assert (C : x3 = c_add x1 x2 :> chan K16) by exact (f_equal fst E).
  apply (f_equal (@sv W16)) in C. rewrite S3, add16_spec, S1, S2 in C. rewrite C. now apply clampZ_same.
Qed.
Lemma plus_ok l k (s1 s2 : stream l k) r : tracks_at r [s1; s2] -> exists t, blend s1 s2 Plus = Ok t.
Proof. intros T. destruct (mixdown_ok l k r s1 [s2] T) as (t & E & _). cbn [mixdown bind] in E. destruct (blend s1 s2 Plus) as [u|p|]; try discriminate. eauto. Qed.
