(** * SinkTerm.v -- infinite streams (C55) and chunked streaming (C40) *)
From Coq Require Import ZArith NArith Reals List Bool Lia Lra.
From Flocq Require Import Core.Core IEEE754.BinarySingleNaN.
From Verif Require Import Rust Float Math Chan Frame Ops Stream SpecChan SpecFrame SpecStream SpecSink
  IntProofs FloatProofs FloorProofs FArithProofs ChanProofs FChanProofs FrameProofs OpsProofs StreamProofs SinkProofs PlaceProofs CopyProofs
  EqualProofs WeightProofs SinkMore.
Import ListNotations.
Open Scope Z_scope.

(** ** Signs *)
Lemma round64_0 : round64 0 = 0%R. Proof. exact (rnd_0 53 1024). Qed.
Definition low (x : f64) : Prop :=
  match x with B754_nan => True | B754_infinity s => s = true | _ => (B2R x <= 0)%R end.
Definition above (z : Z) (x : f64) : Prop :=
  match x with B754_nan => False | B754_infinity s => s = false | _ => (IZR z <= B2R x)%R end.
Lemma low_not_positive x : ~ positive x -> low x.
Proof. destruct x as [s|s| |s m e H]; cbn; intros P; try lra; try exact I. destruct s; [reflexivity|now elim P]. Qed.
Lemma low_finite x : is_finite x = true -> (B2R x <= 0)%R -> low x.
Proof. destruct x; cbn; try discriminate; auto. Qed.
Lemma above_finite z x : is_finite x = true -> (IZR z <= B2R x)%R -> above z x.
Proof. destruct x; cbn; try discriminate; auto. Qed.
Lemma floor_low x : low x -> floor_index x = 0.
Proof.
  destruct x as [s|s| |s m e H]; cbn [low floor_index]; intros L; try reflexivity.
  - rewrite clampZ_maxmin by lia. cbn [B2R]. rewrite (Ztrunc_IZR 0). lia.
  - now subst s.
  - rewrite clampZ_maxmin by lia. pose proof (Ztrunc_le _ _ L). rewrite (Ztrunc_IZR 0) in H0. lia.
Qed.
Lemma floor_above z x : 0 <= z <= 2 ^ 64 - 1 -> above z x -> z <= floor_index x.
Proof.
  intros Hz H. destruct x as [s|s| |s m e He]; cbn [above] in H.
  - apply floor_big; [exact Hz|reflexivity|exact H].
  - subst s. cbn [floor_index]. lia.
  - easy.
  - apply floor_big; [exact Hz|reflexivity|exact H].
Qed.
Lemma fofZ_above z : 0 <= z -> above 0 (fofZ z).
Proof.
  intros Hz. unfold fofZ. pose proof (binary_normalize_correct 53 1024 _ _ mode_NE z 0 false) as C. cbv zeta in C.
  rewrite F2R_nonneg_exp in C by lia. rewrite Z.pow_0_r, Z.mul_1_r in C.
  destruct (Rlt_bool _ _) in C.
  - destruct C as (C1 & C2 & _). apply above_finite; [exact C2|]. rewrite C1.
    change (round radix2 _ _ (IZR z)) with (round64 (IZR z)). apply (rnd_nonneg 53 1024). now apply (IZR_le 0).
  - assert (E : Rlt_bool (IZR z) 0 = false) by (apply Rlt_bool_false, (IZR_le 0); lia).
    rewrite E in C. apply (B2SF_inf 53 1024) in C. now rewrite C.
Qed.

(** The result of a product or sum of finite floats: rounded, or an infinity of
    the right sign. *)
Lemma fmul_cases (x y : f64) : is_finite x = true -> is_finite y = true ->
  (is_finite (fmul x y) = true /\ B2R (fmul x y) = round64 (B2R x * B2R y)) \/
  exists s, fmul x y = B754_infinity s /\ (if s then (B2R x * B2R y < 0)%R else (0 < B2R x * B2R y)%R).
Proof.
  intros Fx Fy. pose proof (Bmult_correct 53 1024 _ _ mode_NE x y) as C.
  change (round radix2 (SpecFloat.fexp 53 1024) (round_mode mode_NE)) with round64 in C.
  destruct (Rlt_bool_spec (Rabs (round64 (B2R x * B2R y))) (bpow radix2 1024)) as [H|H].
  - destruct C as (C1 & C2 & _). left. rewrite Fx, Fy in C2. now split.
  - apply (B2SF_inf 53 1024) in C. right. eexists. split; [exact C|].
    assert (N : (B2R x * B2R y <> 0)%R).
    { intros N. rewrite N in H. rewrite round64_0, Rabs_R0 in H. pose proof (bpow_gt_0 radix2 1024). lra. }
    destruct (Bsign x) eqn:Sx, (Bsign y) eqn:Sy; cbn [xorb];
      try pose proof (Bsign_nonpos 53 1024 x Fx Sx); try pose proof (Bsign_nonneg 53 1024 x Fx Sx);
      try pose proof (Bsign_nonpos 53 1024 y Fy Sy); try pose proof (Bsign_nonneg 53 1024 y Fy Sy);
      destruct (Rle_or_lt (B2R x * B2R y) 0); try lra; nra.
Qed.
Lemma fadd_cases (x y : f64) : is_finite x = true -> is_finite y = true ->
  (is_finite (fadd x y) = true /\ B2R (fadd x y) = round64 (B2R x + B2R y)) \/
  exists s, fadd x y = B754_infinity s /\ (if s then (B2R x + B2R y < 0)%R else (0 < B2R x + B2R y)%R).
Proof.
  intros Fx Fy. pose proof (Bplus_correct 53 1024 _ _ mode_NE x y Fx Fy) as C.
  change (round radix2 (SpecFloat.fexp 53 1024) (round_mode mode_NE)) with round64 in C.
  destruct (Rlt_bool_spec (Rabs (round64 (B2R x + B2R y))) (bpow radix2 1024)) as [H|H].
  - destruct C as (C1 & C2 & _). left. now split.
  - destruct C as (C & Sg). apply (B2SF_inf 53 1024) in C. right. eexists. split; [exact C|].
    assert (N : (B2R x + B2R y <> 0)%R).
    { intros N. rewrite N in H. rewrite round64_0, Rabs_R0 in H. pose proof (bpow_gt_0 radix2 1024). lra. }
    destruct (Bsign x) eqn:Sx;
      try pose proof (Bsign_nonpos 53 1024 x Fx Sx); try pose proof (Bsign_nonneg 53 1024 x Fx Sx);
      try pose proof (Bsign_nonpos 53 1024 y Fy ltac:(congruence)); try pose proof (Bsign_nonneg 53 1024 y Fy ltac:(congruence)); lra.
Qed.
Lemma finite_cases (x : f64) : is_finite x = true \/ is_nan x = true \/ x = B754_infinity true \/ x = B754_infinity false.
Proof. destruct x as [s|[]| |s m e H]; auto. Qed.
Lemma fmul_low (x y : f64) : low x -> above 0 y -> low (fmul x y).
Proof.
  intros Hx Hy. destruct (is_finite x && is_finite y)%bool eqn:F.
  - apply andb_prop in F as [Fx Fy].
    assert (Lx : (B2R x <= 0)%R) by (destruct x; try discriminate; exact Hx).
    assert (Ly : (0 <= B2R y)%R) by (destruct y; try discriminate; exact Hy).
    destruct (fmul_cases x y Fx Fy) as [(F1 & E)|(s & E & Hs)].
    + apply low_finite; [exact F1|]. rewrite E. apply (rnd_nonpos 53 1024). nra.
    + rewrite E. cbn. destruct s; [reflexivity|nra].
  - destruct x as [s|s| |s m e H], y as [s'|s'| |s' m' e' H']; cbn in *; try discriminate; try easy; try (subst; reflexivity).
    + subst s. destruct s'; [|reflexivity]. exfalso. pose proof (F2R_lt_0 radix2 (Float radix2 (Z.neg m') e') eq_refl) as G. cbn in Hy. lra.
    + subst s'. destruct s; [reflexivity|]. exfalso. pose proof (F2R_gt_0 radix2 (Float radix2 (Z.pos m) e) eq_refl) as G. cbn in Hx. lra.
Qed.
Lemma fadd_low (x : f64) : low x -> low (fadd x (B754_zero false)).
Proof.
  intros Hx. destruct (is_finite x) eqn:Fx.
  - assert (Lx : (B2R x <= 0)%R) by (destruct x; try discriminate; exact Hx).
    destruct (fadd_zero 53 1024 x (B754_zero false) Fx eq_refl eq_refl) as [F E].
    apply low_finite; [exact F|]. now rewrite E.
  - destruct x; try discriminate; exact Hx.
Qed.
Lemma fmul_above z (x y : f64) : 0 <= z <= 2 ^ 53 -> is_finite x = true -> is_finite y = true -> (IZR z <= B2R x * B2R y)%R -> above z (fmul x y).
Proof.
  intros Hz Fx Fy H. destruct (fmul_cases x y Fx Fy) as [(F1 & E)|(s & E & Hs)].
  - apply above_finite; [exact F1|]. rewrite E, <- (rnd64_Z z) by lia. now apply (rnd_mono 53 1024).
  - rewrite E. cbn. destruct s; [|reflexivity]. assert (0 <= IZR z)%R by (apply (IZR_le 0); lia). lra.
Qed.
Lemma fadd_above z (x y : f64) : 0 <= z <= 2 ^ 53 -> above z x -> above 0 y -> above z (fadd x y).
Proof.
  intros Hz Hx Hy. assert (P : (0 <= IZR z)%R) by (apply (IZR_le 0); lia).
  destruct (is_finite x && is_finite y)%bool eqn:F.
  - apply andb_prop in F as [Fx Fy].
    assert (Lx : (IZR z <= B2R x)%R) by (destruct x; try discriminate; exact Hx).
    assert (Ly : (0 <= B2R y)%R) by (destruct y; try discriminate; exact Hy).
    destruct (fadd_cases x y Fx Fy) as [(F1 & E)|(s & E & Hs)].
    + apply above_finite; [exact F1|]. rewrite E, <- (rnd64_Z z) by lia. apply (rnd_mono 53 1024). lra.
    + rewrite E. cbn. destruct s; [lra|reflexivity].
  - destruct x as [s|s| |s m e H], y as [s'|s'| |s' m' e' H']; cbn in *; try discriminate; try easy; try (subst; reflexivity).
Qed.
Lemma place_low ratio i : ~ positive ratio -> floor_index (place ratio (B754_zero false) i) = 0.
Proof. intros P. apply floor_low, fadd_low, fmul_low; [now apply low_not_positive|apply fofZ_above; lia]. Qed.
Lemma place_above ratio off (i : nat) z : is_finite ratio = true -> above 0 off -> 0 <= z <= 2 ^ 53 -> Z.of_nat i <= 2 ^ 53 ->
  (IZR z <= B2R ratio * INR i)%R -> z <= floor_index (place ratio off i).
Proof.
  intros Fr Ho Hz Hi H. apply floor_above; [lia|]. apply fadd_above; [exact Hz| |exact Ho].
  destruct (fofZ53 (Z.of_nat i) ltac:(lia)) as [E F]. apply fmul_above; [exact Hz|exact Fr|exact F|]. rewrite E, <- INR_IZR_INZ. exact H.
Qed.

(** ** C55 *)
Lemma infinite_fills l k ls ks (sk : sink l k) (s : stream ls ks) fs : sinkable s -> slen s = None -> starts s fs ->
  let ratio := ratio_for (sk_rate sk) (sample_rate s) in
  is_finite ratio = true -> above 0 (resampler_index (sk_res sk)) ->
  Z.of_nat (length (sk_buf sk)) <= 2 ^ 53 -> Z.of_nat (length fs) <= 2 ^ 53 ->
  (INR (length (sk_buf sk)) <= B2R ratio * INR (length fs))%R ->
  exists sk' it s' srcs rest, fs = srcs ++ rest /\ negotiated sk s ratio s' /\ pulls s' srcs it /\
    forall fuel, (length fs < fuel)%nat -> sink_stream fuel sk s = Ok (sk', it).
Proof.
  intros Hs Hl Hf ratio Fr Ho Hb Hn H. destruct (sinkable_negotiated _ _ _ _ sk s Hs) as (s' & Ng & Ls & _ & St). fold ratio in Ng.
  destruct (St _ Hf) as (t & P). set (off := resampler_index (sk_res sk)) in *. rewrite Hl in Ls.
  set (e := Z.of_nat (length (sk_buf sk))) in *.
  assert (Top : e <= floor_index (place ratio off (length fs))).
  { apply place_above; try assumption; [lia|]. unfold e. now rewrite <- INR_IZR_INZ. }
  destruct (scan (fun i => floor_index (place ratio off i) < e) (fun i => Z_lt_dec _ _) (length fs)) as [(m & Hm & Nm & Lm)|A].
  2: { specialize (A (length fs) (le_n _)). lia. }
  rewrite <- (firstn_skipn m fs) in P. apply pulls_app_inv in P as (it & P & _).
  assert (Lp : length (firstn m fs) = m) by (rewrite firstn_length; lia).
  destruct (converted_ex l k _ _ (firstn m fs)) as (gs & Cv).
  destruct (stream_forward _ _ _ _ sk s s' it ratio (firstn m fs) gs (N.of_nat m) Ng) as (sk' & _ & Run); [|exact Cv|].
  { rewrite Ls. cbn [covered]. fold e off. split; [intros i Hi; apply Lm; lia|]. left. rewrite Lp. split; [exact P|]. split; [lia|reflexivity]. }
  exists sk', it, s', (firstn m fs), (skipn m fs). split; [now rewrite firstn_skipn|]. split; [exact Ng|]. split; [exact P|].
  intros fuel Hfuel. apply Run. lia.
Qed.
Lemma infinite_hangs l k ls ks (sk : sink l k) (s : stream ls ks) fuel : sinkable s -> slen s = None -> honest s -> fresh sk ->
  sk_buf sk <> [] -> ~ positive (ratio_for (sk_rate sk) (sample_rate s)) -> sink_stream fuel sk s = OutOfFuel.
Proof.
  intros Hs Hl Hh Hf Hb Hp. set (ratio := ratio_for _ _) in *.
  destruct (sinkable_negotiated _ _ _ _ sk s Hs) as (s' & Ng & Ls & _ & St). fold ratio in Ng. rewrite Hl in Ls.
  rewrite (sink_stream_eq _ _ _ _ fuel sk s s' ratio Ng). rewrite Ls. cbn [covered]. set (e := Z.of_nat (length (sk_buf sk))).
  assert (He : 1 <= e) by (unfold e; destruct (sk_buf sk); [easy|cbn [length]; lia]).
  assert (Off : offseti (sk_res (prepared e sk)) = B754_zero false).
  { unfold prepared. cbn. rewrite Hf. cbn. apply flit_0. }
  assert (Fl : forall a, floor_index (place ratio (offseti (sk_res (prepared e sk))) a) = 0).
  { intros a. rewrite Off. now apply place_low. }
  destruct (loop_inv _ _ _ _ ratio e fuel 0 (prepared e sk) s' None) as (srcs & it1 & fs & P & Cv & _ & C).
  { rewrite prepared_length; unfold e; lia. }
  destruct C as [(C & _)|[(_ & C)|(C & _)]].
  - rewrite Fl in C. lia.
  - assert (Nx : exists f t, next it1 = Ok (Some f, t)).
    { destruct (honest_none _ _ _ Hh Hl (length srcs + 1)%nat) as (gs & Sg & Lg). destruct (St _ Sg) as (t & Pg).
      rewrite <- (firstn_skipn (length srcs) gs) in Pg. apply pulls_app_inv in Pg as (u & P1 & P2).
      destruct (pulls_det _ _ _ _ _ _ _ P P1) as [_ <-]; [rewrite firstn_length; lia|].
      pose proof (skipn_length (length srcs) gs) as L. destruct (skipn (length srcs) gs) as [|g r]; cbn in L; [lia|].
      apply pulls_cons_inv in P2 as (v & N & _). eauto. }
    destruct Nx as (f & t & Nx). destruct C as [(it2 & N & _)|[(p & N & _)|(N & C)]]; try congruence.
  - rewrite C. reflexivity.
Qed.

(** ** C40 *)
Lemma nth_error_firstn_lt {A} n (xs : list A) i : (i < n)%nat -> nth_error (firstn n xs) i = nth_error xs i.
Proof.
  revert xs i; induction n as [|n IH]; intros xs i H; [lia|]. destruct xs as [|x xs]; [now destruct i|].
  destruct i as [|i]; [reflexivity|]. cbn. apply IH. lia.
Qed.
Lemma equal_rate_same l k ls ks (sk sk' : sink l k) (s : stream ls ks) : sk_rate sk' = sk_rate sk -> equal_rate sk s -> equal_rate sk' s.
Proof. unfold equal_rate. now intros ->. Qed.
Lemma chunks l k l1 k1 l2 k2 (sk : sink l k) (s1 : stream l1 k1) (s2 : stream l2 k2) xs ys n m :
  fresh sk -> equal_rate sk s1 -> equal_rate sk s2 -> yields s1 xs -> yields s2 ys ->
  slen s1 = Some n -> slen s2 = Some m -> N.of_nat (length xs) = n -> N.of_nat (length ys) = m ->
  (length xs <= length (sk_buf sk))%nat -> (1 <= length ys <= length (sk_buf sk))%nat -> Z.of_nat (length (sk_buf sk)) <= 2 ^ 53 ->
  let fuel := S (length xs + length ys) in
  exists sk1 it1 sk2 s2' it2, sink_stream fuel sk s1 = Ok (sk1, it1) /\ sink_stream fuel sk1 s2 = Ok (sk2, it2) /\
    negotiated sk1 s2 (flit 1 0) s2' /\ pulls s2' (firstn (length ys - length xs) ys) it2 /\
    length (sk_buf sk2) = length (sk_buf sk) /\
    (forall p, (p < length xs)%nat -> (p < length ys)%nat -> nth_error (sk_buf sk2) p = Some (frame_default l k)) /\
    (forall p x, (length ys <= p)%nat -> nth_error xs p = Some x ->
       exists f b, convert l k x = Ok f /\ nth_error (sk_buf sk2) p = Some b /\ copied f b) /\
    (forall i y, (length xs + i < length ys)%nat -> nth_error ys i = Some y ->
       exists f b, convert l k y = Ok f /\ nth_error (sk_buf sk2) (length xs + i) = Some b /\ copied f b) /\
    (forall p, (length xs <= p)%nat -> (length ys <= p)%nat -> nth_error (sk_buf sk2) p = nth_error (sk_buf sk) p).
Proof.
  intros Hf E1 E2 Y1 Y2 L1 L2 <- <- B1 B2 HB fuel.
  destruct Y1 as (t1 & u1 & P1 & _). destruct Y2 as (t2 & u2 & P2 & _).
  destruct (fresh_copy _ _ _ _ sk s1 xs E1 Hf HB) as (sk1 & s1' & it1 & N1 & Pu1 & R1 & Len1 & Cp1 & Rest1 & _ & Rs1).
  { now exists t1. } { rewrite L1. cbn. lia. }
  destruct (stream_backward _ _ _ _ _ _ _ _ _ (R1 fuel ltac:(unfold fuel; lia))) as (ra & sa & sb & sc & sd & _ & _ & _ & St & _).
  pose proof (st_rate _ _ _ _ _ _ St) as Rt. clear ra sa sb sc sd St.
  destruct (equal_copy _ _ _ _ sk1 s2 (length xs) (firstn (length ys - length xs) ys)) as
    (sk2 & s2' & it2 & N2 & Pu2 & R2 & _ & Len2 & Sil2 & Cp2 & Rest2 & _).
  { now apply (equal_rate_same _ _ _ _ sk). } { rewrite Rs1. reflexivity. } { lia. } { rewrite Len1. exact HB. }
  { eapply pulls_firstn. exact P2. } { rewrite L2, Len1, firstn_length. cbn. lia. }
  rewrite L2, Len1 in *. cbn [available] in *. rewrite Nnat.Nat2N.id in *.
  exists sk1, it1, sk2, s2', it2. split; [apply R1; unfold fuel; lia|]. split; [apply R2; unfold fuel; rewrite firstn_length; lia|].
  split; [exact N2|]. split; [exact Pu2|]. split; [exact Len2|]. split; [|split; [|split]].
  - intros p H1 H2. apply Sil2; lia.
  - intros p x Hp Ex. rewrite Rest2 by lia. now apply Cp1.
  - intros i y Hi Ey. apply (Cp2 i). rewrite nth_error_firstn_lt by lia. exact Ey.
  - intros p H1 H2. rewrite Rest2 by lia. apply Rest1; lia.
Qed.

(** ** Forms of the property theorems *)
Lemma nonneg_above (x : f64) : is_finite x = true -> (0 <= B2R x)%R -> above 0 x.
Proof. apply above_finite. Qed.
Lemma infinite_fills_prop l k ls ks (sk : sink l k) (s : stream ls ks) fs : sinkable s -> slen s = None -> starts s fs ->
  let ratio := ratio_for (sk_rate sk) (sample_rate s) in let index := resampler_index (sk_res sk) in
  is_finite ratio = true -> is_finite index = true -> (0 <= B2R index)%R ->
  Z.of_nat (length (sk_buf sk)) <= 2 ^ 53 -> Z.of_nat (length fs) <= 2 ^ 53 ->
  (INR (length (sk_buf sk)) <= B2R ratio * INR (length fs))%R ->
  exists sk' it s' srcs rest, fs = srcs ++ rest /\ negotiated sk s ratio s' /\ pulls s' srcs it /\
    forall fuel, (length fs < fuel)%nat -> sink_stream fuel sk s = Ok (sk', it).
Proof. intros. apply infinite_fills; auto. now apply nonneg_above. Qed.
Lemma stream_books l k ls ks fuel (sk sk' : sink l k) (s it : stream ls ks) : sink_stream fuel sk s = Ok (sk', it) ->
  let ratio := ratio_for (sk_rate sk) (sample_rate s) in
  exists s' srcs fs n, negotiated sk s ratio s' /\ converted srcs fs /\
    ((pulls s' srcs it /\ n = N.of_nat (length srcs) /\
        covered ratio (slen s) (length (sk_buf sk)) <= floor_index (place ratio (resampler_index (sk_res sk)) (length srcs))) \/
     (exists t, pulls s' srcs t /\ next t = Ok (None, it) /\ slen s = Some n)) /\
    resampler_index (sk_res sk') = fadd (resampler_index (sk_res sk)) (fmul ratio (fofZ (Z.of_N n))) /\
    weighted_sum (resampler_frame (sk_res sk))
      (overhang (covered ratio (slen s) (length (sk_buf sk))) ratio (resampler_index (sk_res sk)) 0 fs)
      (resampler_frame (sk_res sk')).
Proof.
  intros H ratio. destruct (stream_backward _ _ _ _ _ _ _ _ _ H) as (ratio' & s' & srcs & fs & n & Ng & R & Cv & St & _).
  destruct (negotiated_ratio _ _ _ _ _ _ _ _ Ng) as (Er & Ls & _). subst ratio'. fold ratio in Ng, R, St. rewrite Ls in R, St.
  exists s', srcs, fs, n. split; [exact Ng|]. split; [exact Cv|]. split; [|split; [exact (st_index _ _ _ _ _ _ St)|exact (st_frame _ _ _ _ _ _ St)]].
  destruct R as (_ & [(P & F & ->)|(t & P & N & _ & L)]); [left; auto|right; exists t]. split; [exact P|]. split; [exact N|congruence].
Qed.
Lemma finite_or_panic l k ls ks (sk : sink l k) (s : stream ls ks) n : honest s -> slen s = Some n ->
  (sinkable s -> exists sk' it, sink_stream (S (N.to_nat n)) sk s = Ok (sk', it)) /\
  (~ sinkable s -> forall fuel, sink_stream fuel sk s = Panic ExplicitPanic).
Proof.
  intros Hh Hl. split.
  - intros Hs. destruct (finite_stream _ _ _ _ sk s n Hs Hh Hl) as (sk' & it & _ & _ & _ & E & _). eauto.
  - intros Hs fuel. now apply unsinkable.
Qed.
Lemma ceil_index_def (j : f64) : ceil_usize j = Ok (ceil_index j) /\ f64_as_usize j = floor_index j /\
  ((frac j <= bpow radix2 (-52))%R -> ceil_index j = floor_index j) /\
  ((bpow radix2 (-52) < frac j)%R -> ceil_index j = floor_index j + 1) /\ 0 <= floor_index j /\ ceil_index j <= 2 ^ 64 - 1.
Proof.
  split; [apply ceil_index_correct|]. split; [apply floor_index_correct|].
  pose proof (ceil_index_bounds j). pose proof (floor_index_bounds j). unfold ceil_index in *. destruct Rlt_dec; repeat split; intros; try lra; lia.
Qed.
Lemma weighted_sum_unique l k acc (r : list (frame l k * f64)) :
  exists x, weighted_sum acc r x /\ forall y, weighted_sum acc r y -> y = x.
Proof. exists (ws_fn acc r). split; [apply ws_fn_ok|]. intros y H. now apply ws_fun. Qed.
Lemma audio_pulled_in l k r (xs : list (frame l k)) : forall fs t, pulls (SAudio r xs) fs t -> forall x, In x fs -> In x xs.
Proof.
  induction xs as [|a xs IH]; intros fs t P x Hx; destruct fs as [|f fs]; try now destruct Hx.
  - apply pulls_cons_inv in P as (s' & N & _). discriminate.
  - apply pulls_cons_inv in P as (s' & N & P). injection N as -> <-. destruct Hx as [->|Hx]; [now left|right; eauto].
Qed.
Lemma silence_infinite : exists (sk sk' : sink Mono K32) (s it : stream Mono K32) b,
  sink_stream 10 sk s = Ok (sk', it) /\ (forall src fs t, pulls s fs t -> In src fs -> src = frame_default Mono K32) /\
  nth_error (sk_buf sk') 0 = Some b /\ b <> frame_default Mono K32.
Proof.
  set (sk := mkSink (flit 48000 0) [frame_default Mono K32] (resampler_default Mono K32)).
  set (s := SAudio (flit 0 0) [frame_default Mono K32]).
  assert (V : match sink_stream 10 sk s with
    | Ok (sk', _) => map (fun f : frame Mono K32 => map (fun c => B2SF c) (channels f)) (sk_buf sk') = [[B2SF (flit 1 0 : f32)]]
    | _ => False end) by (vm_compute; reflexivity).
  destruct (sink_stream 10 sk s) as [[sk' it]| |] eqn:E; try easy.
  destruct (sk_buf sk') as [|b bs] eqn:Eb; [discriminate|].
  exists sk, sk', s, it, b. split; [exact E|]. split; [|split; [rewrite Eb; reflexivity|]].
  - intros src fs t P Hin. apply (audio_pulled_in Mono K32 _ _ _ _ P) in Hin as [<-|[]]. reflexivity.
  - intros ->. cbn [map] in V. injection V as V _. vm_compute in V. discriminate.
Qed.
Lemma user_constant_starts l k r c (f : frame l k) n : forall p,
  exists t, pulls (SUser (mkUser r c None (fun _ => Ok (Some f)) p)) (repeat f n) t.
Proof.
  induction n as [|n IH]; intros p; [eexists; constructor|]. destruct (IH (S p)) as (t & P). exists t. cbn [repeat].
  econstructor; [reflexivity|exact P].
Qed.
Lemma covered_compute ratio len n : covered ratio len n =
  match len with Some m => Z.min (f64_as_usize (fmul ratio (fofZ (Z.of_N m)))) (Z.of_nat n) | None => Z.of_nat n end.
Proof. destruct len; cbn; [now rewrite floor_index_correct|reflexivity]. Qed.
