(** * AudioProofs.v -- lemmas about audio buffers (C43 - C48, C53) *)
From Coq Require Import ZArith NArith Reals List Bool Lia Lra Arith.
From Flocq Require Import Core.Core IEEE754.BinarySingleNaN.
From Verif Require Import Rust Float Math Chan Frame Ops Stream Audio Heap SpecChan SpecFrame SpecStream SpecSink SpecAudio
  IntProofs FloatProofs FloorProofs FArithProofs ChanProofs FChanProofs FrameProofs OpsProofs StreamProofs SinkProofs PlaceProofs CopyProofs
  EqualProofs WeightProofs SinkMore SinkTerm.
Import ListNotations.
Open Scope Z_scope.

(** ** C43 *)
Lemma with_frame_spec l k r n (f : frame l k) : audio_len (with_frame r n f) = n /\ audio_sample_rate (with_frame r n f) = r /\
  (forall i, (i < n)%nat -> audio_get (with_frame r n f) i = Some f) /\
  (forall i, (n <= i)%nat -> audio_get (with_frame r n f) i = None).
Proof.
  split; [apply repeat_length|]. split; [reflexivity|]. split; intros i H; unfold audio_get; cbn.
  - now apply nth_repeat.
  - apply nth_error_None. now rewrite repeat_length.
Qed.
Lemma with_silence_spec l k r n : audio_len (with_silence l k r n) = n /\ audio_sample_rate (with_silence l k r n) = r /\
  (forall i, (i < n)%nat -> audio_get (with_silence l k r n) i = Some (frame_default l k)) /\
  (forall i, (n <= i)%nat -> audio_get (with_silence l k r n) i = None).
Proof. apply with_frame_spec. Qed.
Lemma with_frames_spec l k r (fs : list (frame l k)) : into_frames (with_frames r fs) = fs /\ audio_sample_rate (with_frames r fs) = r /\
  audio_len (with_frames r fs) = length fs /\ (forall i, audio_get (with_frames r fs) i = nth_error fs i) /\
  audio_iter (with_frames r fs) = fs /\ audio_as_slice (with_frames r fs) = fs.
Proof. repeat split. Qed.
Lemma get_some l k (a : audio l k) i : (exists f, audio_get a i = Some f) <-> (i < audio_len a)%nat.
Proof.
  unfold audio_get, audio_len. split.
  - intros (f & E). apply nth_error_Some. congruence.
  - intros H. destruct (nth_error (frames a) i) eqn:E; [eauto|]. apply nth_error_None in E. lia.
Qed.
Lemma update_at_oob {A} i (g : A -> A) l : (length l <= i)%nat -> forall l', update_at i g l <> Ok l'.
Proof.
  revert l; induction i as [|i IH]; intros [|a l] H l'; cbn in H |- *; try discriminate; try lia.
  specialize (IH l ltac:(lia)). destruct (update_at i g l); cbn; try discriminate. now destruct (IH a0).
Qed.
Lemma set_spec l k (a : audio l k) i v : audio_len (audio_set a i v) = audio_len a /\
  audio_sample_rate (audio_set a i v) = audio_sample_rate a /\
  ((i < audio_len a)%nat -> audio_get (audio_set a i v) i = Some v) /\
  (forall j, j <> i -> audio_get (audio_set a i v) j = audio_get a j) /\
  ((audio_len a <= i)%nat -> audio_set a i v = a).
Proof.
  unfold audio_set, audio_len, audio_get, audio_sample_rate. destruct (Nat.ltb_spec i (length (frames a))) as [H|H].
  - destruct (update_at_set i v _ H) as (l' & E & L & N). rewrite E. cbn. split; [exact L|]. split; [reflexivity|].
    split; [intros _; now rewrite N, Nat.eqb_refl|]. split; [|lia]. intros j Hj. rewrite N. destruct (Nat.eqb_spec j i); [easy|reflexivity].
  - pose proof (update_at_oob i (fun _ => v) _ H) as O.
    destruct (update_at i (fun _ => v) (frames a)); [now destruct (O a0)| |]; repeat split; auto; lia.
Qed.
Lemma mapi_nth {A} (g : nat -> A -> A) (fs : list A) : forall i p, nth_error (mapi g i fs) p = option_map (g (i + p)%nat) (nth_error fs p).
Proof.
  induction fs as [|f fs IH]; intros i p; [now destruct p|]. destruct p as [|p]; cbn; [now rewrite Nat.add_0_r|].
  rewrite IH. now replace (S i + p)%nat with (i + S p)%nat by lia.
Qed.
Lemma mapi_length {A} (g : nat -> A -> A) (fs : list A) : forall i, length (mapi g i fs) = length fs.
Proof. induction fs; intros i; cbn; [reflexivity|now rewrite IHfs]. Qed.
Lemma iter_mut_spec l k g (a : audio l k) : audio_len (audio_iter_mut g a) = audio_len a /\
  audio_sample_rate (audio_iter_mut g a) = audio_sample_rate a /\
  forall i, audio_get (audio_iter_mut g a) i = option_map (g i) (audio_get a i).
Proof. split; [apply mapi_length|]. split; [reflexivity|]. intros i. apply (mapi_nth g (frames a) 0 i). Qed.
Lemma is_empty_spec l k (a : audio l k) : audio_is_empty a = true <-> audio_len a = 0%nat.
Proof. apply Nat.eqb_eq. Qed.

(** ** C44, C45, C53 *)
Lemma frame_size_bytes l k : Z.of_nat (frame_size l k) = bytes_per_frame l k.
Proof. destruct l, k; reflexivity. Qed.
Lemma big_is_int (x : f64) : (bpow radix2 53 <= Rabs (B2R x))%R -> exists z, B2R x = IZR z.
Proof.
  intros H. pose proof (fmt_B2R 53 1024 x) as G. red in G. rewrite G.
  set (e := cexp _ _ _). assert (He : 0 <= e).
  { unfold e, cexp, FLT_exp. pose proof (mag_ge_bpow radix2 (B2R x) 54) as M.
    replace (54 - 1) with 53 in M by lia. specialize (M H). lia. }
  eexists. apply F2R_nonneg_exp. exact He.
Qed.
Lemma fsub_rem (x : f64) : is_finite x = true ->
  B2R (fsub x (frem1 x)) = IZR (Ztrunc (B2R x)) /\ is_finite (fsub x (frem1 x)) = true.
Proof.
  intros F. destruct (frem1_correct 53 1024 x F) as [R1 R2].
  assert (G : round64 (B2R x - B2R (frem1 x)) = IZR (Ztrunc (B2R x)) /\ (Rabs (IZR (Ztrunc (B2R x))) < bpow radix2 1024)%R).
  { rewrite R1. replace (B2R x - (B2R x - IZR (Ztrunc (B2R x))))%R with (IZR (Ztrunc (B2R x))) by ring.
    destruct (Rle_or_lt (bpow radix2 53) (Rabs (B2R x))) as [H|H].
    - destruct (big_is_int x H) as (z & E). rewrite E, Ztrunc_IZR, <- E.
      split; [apply (rnd_fmt 53 1024), (fmt_B2R 53 1024)|]. apply abs_B2R_lt_emax.
    - assert (A : Z.abs (Ztrunc (B2R x)) <= 2 ^ 53).
      { apply le_IZR. rewrite abs_IZR. pose proof (frac_abs x) as Fa.
        assert (B : (Rabs (IZR (Ztrunc (B2R x))) <= Rabs (B2R x))%R).
        { destruct (Rle_dec 0 (B2R x)) as [P|P].
          - rewrite Ztrunc_floor by exact P. pose proof (Zfloor_lb (B2R x)).
            assert (0 <= Zfloor (B2R x)) by (rewrite <- (Zfloor_IZR 0); now apply Zfloor_le).
            apply (IZR_le 0) in H1. rewrite !Rabs_pos_eq by lra. lra.
          - rewrite Ztrunc_ceil by lra. pose proof (Zceil_ub (B2R x)).
            assert (Zceil (B2R x) <= 0) by (rewrite <- (Zceil_IZR 0); apply Zceil_le; lra).
            apply (IZR_le _ 0) in H1. rewrite !Rabs_left1 by lra. lra. }
        change (IZR (2 ^ 53)) with (bpow radix2 53). lra. }
      split; [now apply rnd64_Z|now apply B2R_lt_emax]. }
  destruct G as [G1 G2]. destruct (fsub_correct 53 1024 x (frem1 x) F R2) as [A B].
  { change (round_to 53 1024) with round64. rewrite G1. exact G2. }
  split; [|exact B]. rewrite A. exact G1.
Qed.
Lemma floor_index_finite (x : f64) : is_finite x = true -> floor_index x = clampZ 0 (2 ^ 64 - 1) (Ztrunc (B2R x)).
Proof. destruct x; try discriminate; reflexivity. Qed.
(** [ceil(x) as usize]. *)
Lemma ceil_cast (x : f64) : f64_as_usize (ceil x) = if is_finite x then ceil_index x else 0.
Proof.
  destruct (is_finite x) eqn:F.
  - destruct (fsub_rem x F) as [W1 W2]. unfold ceil. cbv zeta. unfold ceil_index. rewrite floor_index_correct.
    destruct (Rlt_dec (bpow radix2 (-52)) (frac x)) as [L|L].
    + rewrite (proj2 (flt_eps_frac x) L). destruct (frac_small x L) as [Hs _].
      destruct (one_correct 53 1024) as [O1 O2].
      assert (G : round64 (B2R (fsub x (frem1 x)) + B2R (flit 1 0 : f64)) = IZR (Ztrunc (B2R x) + 1)).
      { rewrite W1, O1, <- plus_IZR. apply rnd64_Z. lia. }
      destruct (fadd_correct 53 1024 (fsub x (frem1 x)) (flit 1 0) W2 O2) as [A B].
      { change (round_to 53 1024) with round64. rewrite G. apply B2R_lt_emax. lia. }
      assert (A' : B2R (fadd (fsub x (frem1 x)) (flit 1 0)) = IZR (Ztrunc (B2R x) + 1)) by (rewrite A; exact G).
      rewrite (floor_index_Z _ _ B A') by lia. rewrite floor_index_finite by exact F. rewrite clampZ_maxmin by lia. lia.
    + destruct (flt eps64 (frem1 x)) eqn:E; [apply flt_eps_frac in E; easy|].
      rewrite !floor_index_finite, W1, Ztrunc_IZR by assumption. reflexivity.
  - destruct x as [s|s| |s m e H]; try discriminate; reflexivity.
Qed.
Lemma dstlen_frames_for l k rate (s : stream l k) n : extend_dstlen rate s n = frames_for rate (sample_rate s) n.
Proof. unfold extend_dstlen, frames_for. destruct (sample_rate s); [apply ceil_cast|reflexivity]. Qed.
Lemma frames_for_bounds rate src n : 0 <= frames_for rate src n /\ (src = None \/ frames_for rate src n <= 2 ^ 64 - 1).
Proof.
  unfold frames_for. destruct src as [r|]; [|split; [lia|now left]]. set (q := fdiv _ _).
  pose proof (ceil_index_bounds q). pose proof (floor_index_bounds q). destruct (is_finite q); split; auto; try right; lia.
Qed.

(** The sink [extend] streams into. *)
Definition tail_sink (l : layout) (k : ck) (rate : f64) (d : Z) : sink l k :=
  mkSink rate (repeat (frame_default l k) (Z.to_nat d)) (resampler_default l k).
Lemma extend_internal_eq l k ls ks fuel (a : audio l k) (s : stream ls ks) n : slen s = Some n ->
  let d := frames_for (s_rate a) (sample_rate s) n in
  allocatable l k (Z.of_nat (length (frames a)) + d) ->
  extend_internal fuel a s =
    ('(sk, it) <- sink_stream fuel (tail_sink l k (s_rate a) d) s ;; sk <- flush sk ;;
     Ok (mkAudio (s_rate a) (frames a ++ sk_buf sk), it)).
Proof.
  intros Hl d Ha. unfold extend_internal. rewrite Hl. cbn [of_opt bind]. rewrite dstlen_frames_for. fold d.
  destruct (frames_for_bounds (s_rate a) (sample_rate s) n) as [Bd _]. fold d in Bd.
  unfold allocatable in Ha. rewrite <- frame_size_bytes in Ha.
  assert (P : 1 <= Z.of_nat (frame_size l k)) by (destruct l, k; cbn; lia).
  unfold checked, usize_max, isize_max.
  destruct (Z.leb_spec 0 (Z.of_nat (length (frames a)) + d)); [|lia].
  destruct (Z.leb_spec (Z.of_nat (length (frames a)) + d) 18446744073709551615); [|nia]. cbn [andb bind].
  destruct (Z.ltb_spec 9223372036854775807 ((Z.of_nat (length (frames a)) + d) * Z.of_nat (frame_size l k))); [lia|].
  unfold audio_sink. cbn [frames with_frames s_rate range_bounds].
  rewrite app_length, repeat_length.
  destruct (N.leb_spec (N.of_nat (length (frames a))) (N.of_nat (length (frames a) + Z.to_nat d))); [|lia].
  rewrite N.leb_refl. cbn [andb bind]. rewrite !Nnat.Nat2N.id.
  rewrite firstn_app, firstn_all, Nat.sub_diag, firstn_O, app_nil_r.
  rewrite skipn_app, skipn_all, Nat.sub_diag. cbn [skipn app].
  replace (length (frames a) + Z.to_nat d - length (frames a))%nat with (Z.to_nat d) by lia.
  rewrite firstn_all2 by (rewrite repeat_length; lia). fold (tail_sink l k (s_rate a) d).
  destruct (sink_stream fuel (tail_sink l k (s_rate a) d) s) as [[sk it]| |]; cbn [bind]; try reflexivity.
  destruct (flush sk) as [sk'| |]; cbn [bind]; try reflexivity.
  unfold audio_unsink. cbn [s_rate]. rewrite skipn_all2 by (rewrite app_length, repeat_length; lia). now rewrite app_nil_r.
Qed.
Lemma extend_too_long l k ls ks fuel (a : audio l k) (s : stream ls ks) n : slen s = Some n ->
  ~ allocatable l k (Z.of_nat (length (frames a)) + frames_for (s_rate a) (sample_rate s) n) ->
  exists p, extend_internal fuel a s = Panic p /\ (p = CapacityOverflow \/ p = ArithOverflow).
Proof.
  intros Hl Ha. unfold extend_internal. rewrite Hl. cbn [of_opt bind]. rewrite dstlen_frames_for.
  destruct (frames_for_bounds (s_rate a) (sample_rate s) n) as [Bd _]. set (d := frames_for _ _ _) in *.
  unfold allocatable in Ha. rewrite <- frame_size_bytes in Ha. unfold checked.
  destruct (_ && _)%bool; cbn [bind]; [|eauto]. unfold isize_max.
  destruct (Z.ltb_spec 9223372036854775807 ((Z.of_nat (length (frames a)) + d) * Z.of_nat (frame_size l k))); [eauto|lia].
Qed.
Lemma flush_length l k (sk sk' : sink l k) : flush sk = Ok sk' -> length (sk_buf sk') = length (sk_buf sk) /\ sk_rate sk' = sk_rate sk.
Proof.
  intros H. destruct (flush_spec l k sk) as (F1 & F2 & F3). set (j := resampler_index (sk_res sk)) in *.
  destruct (Rle_or_lt (Rabs (frac j)) (bpow radix2 (-52))) as [L|L].
  - rewrite (F1 L) in H. injection H as <-. auto.
  - destruct (Z.lt_ge_cases (floor_index j) (Z.of_nat (length (sk_buf sk)))) as [L2|L2].
    + destruct (F2 L L2) as (sk2 & E & R & _ & Len & _). rewrite E in H. injection H as <-. auto.
    + rewrite (F3 L L2) in H. discriminate.
Qed.
Lemma stream_length l k ls ks fuel (sk sk' : sink l k) (s it : stream ls ks) : sink_stream fuel sk s = Ok (sk', it) ->
  length (sk_buf sk') = length (sk_buf sk) /\ sk_rate sk' = sk_rate sk.
Proof.
  intros H. destruct (stream_backward _ _ _ _ _ _ _ _ _ H) as (ratio & s' & srcs & fs & n & _ & _ & _ & St & _).
  split; [exact (st_length _ _ _ _ _ _ St)|exact (st_rate _ _ _ _ _ _ St)].
Qed.
Lemma extend_ok_inv l k ls ks fuel (a a' : audio l k) (s it : stream ls ks) : extend fuel a s = (a', Ok it) ->
  extend_internal fuel a s = Ok (a', it).
Proof. unfold extend. destruct (extend_internal fuel a s) as [[x y]| |]; intros H; injection H; congruence. Qed.
Lemma extend_appends l k ls ks fuel (a a' : audio l k) (s it : stream ls ks) : extend fuel a s = (a', Ok it) ->
  exists n added, slen s = Some n /\ frames a' = frames a ++ added /\ s_rate a' = s_rate a /\
    Z.of_nat (length added) = frames_for (s_rate a) (sample_rate s) n.
Proof.
  intros H. apply extend_ok_inv in H. destruct (slen s) as [n|] eqn:Hl.
  2: { unfold extend_internal in H. rewrite Hl in H. discriminate. }
  exists n. destruct (Z_le_dec ((Z.of_nat (length (frames a)) + frames_for (s_rate a) (sample_rate s) n) * bytes_per_frame l k) (2 ^ 63 - 1)) as [A|A].
  2: { destruct (extend_too_long l k ls ks fuel a s n Hl A) as (p & E & _). congruence. }
  rewrite (extend_internal_eq l k ls ks fuel a s n Hl A) in H. set (d := frames_for _ _ _) in *.
  destruct (sink_stream fuel (tail_sink l k (s_rate a) d) s) as [[sk1 it1]| |] eqn:E1; cbn [bind] in H; try discriminate.
  destruct (flush sk1) as [sk2| |] eqn:E2; cbn [bind] in H; try discriminate. injection H as <- <-.
  exists (sk_buf sk2). split; [reflexivity|]. split; [reflexivity|]. split; [reflexivity|].
  rewrite (proj1 (flush_length _ _ _ _ E2)), (proj1 (stream_length _ _ _ _ _ _ _ _ _ E1)).
  cbn [tail_sink sk_buf]. rewrite repeat_length. pose proof (proj1 (frames_for_bounds (s_rate a) (sample_rate s) n)) as Bd. fold d in Bd. lia.
Qed.
Lemma extend_valid l k ls ks fuel (a a' : audio l k) (s it : stream ls ks) : extend fuel a s = (a', Ok it) ->
  forall p f, (audio_len a <= p)%nat -> audio_get a' p = Some f -> frame_valid f.
Proof.
  intros H p f Hp G. pose proof H as H0. apply extend_appends in H0 as (n & added & Hl & Ef & _ & _).
  apply extend_ok_inv in H. destruct (Z_le_dec ((Z.of_nat (length (frames a)) + frames_for (s_rate a) (sample_rate s) n) * bytes_per_frame l k) (2 ^ 63 - 1)) as [A|A].
  2: { destruct (extend_too_long l k ls ks fuel a s n Hl A) as (q & E & _). congruence. }
  rewrite (extend_internal_eq l k ls ks fuel a s n Hl A) in H. set (d := frames_for (s_rate a) (sample_rate s) n) in *.
  destruct (sink_stream fuel (tail_sink l k (s_rate a) d) s) as [[sk it0]|q|] eqn:S; try discriminate. cbn [bind] in H.
  destruct (flush sk) as [sk2|q|] eqn:Fl; try discriminate. cbn [bind] in H. injection H as <- <-.
  unfold audio_get, audio_len in *. cbn [frames] in *. rewrite nth_error_app2 in G by exact Hp. set (i := (p - length (frames a))%nat) in *.
  assert (V1 : forall i b, nth_error (sk_buf sk) i = Some b -> frame_valid b).
  { intros j b Hb. destruct (stream_valid _ _ _ _ _ _ _ _ _ S j b Hb) as [V|V]; [exact V|].
    cbn [tail_sink sk_buf] in V. apply repeat_nth in V as ->. apply frame_default_valid. }
  assert (V2 : frame_valid (resampler_frame (sk_res sk))).
  { destruct (stream_backward _ _ _ _ _ _ _ _ _ S) as (ratio & s' & srcs & fs & m & _ & _ & _ & St & _).
    apply (ws_valid _ _ _ _ _ (st_frame _ _ _ _ _ _ St)). apply frame_default_valid. }
  destruct (flush_spec l k sk) as (F1 & F2 & F3). set (j := resampler_index (sk_res sk)) in *.
  destruct (Rle_or_lt (Rabs (frac j)) (bpow radix2 (-52))) as [L|L].
  - rewrite (F1 L) in Fl. injection Fl as <-. eauto.
  - destruct (Z.lt_ge_cases (floor_index j) (Z.of_nat (length (sk_buf sk)))) as [L2|L2].
    + destruct (F2 L L2) as (sk3 & E & _ & _ & _ & E1 & E2). rewrite E in Fl. injection Fl as <-.
      destruct (Z.eq_dec (Z.of_nat i) (floor_index j)) as [Q|Q].
      * rewrite <- Q, Nat2Z.id in E1. rewrite G in E1. injection E1 as ->. exact V2.
      * rewrite (E2 i Q) in G. eauto.
    + rewrite (F3 L L2) in Fl. discriminate.
Qed.
Lemma extend_panic l k ls ks fuel (a a' : audio l k) (s : stream ls ks) p : extend fuel a s = (a', Panic p) ->
  audio_len a' = 0%nat /\ audio_sample_rate a' = flit 0 0.
Proof.
  unfold extend. destruct (extend_internal fuel a s) as [[x y]| |]; intros H; try discriminate H; injection H as <- _; split; reflexivity.
Qed.
Lemma extend_infinite l k ls ks fuel (a : audio l k) (s : stream ls ks) : slen s = None ->
  exists a', extend fuel a s = (a', Panic UnwrapNone).
Proof. intros Hl. unfold extend, extend_internal. rewrite Hl. cbn. eauto. Qed.

(** The outcome of [extend] on an honest stream. *)
Lemma leaves_unique ratio e m m' : leaves ratio e m -> leaves ratio e m' -> m = m'.
Proof.
  intros [A B] [C D]. destruct (Nat.lt_trichotomy m m') as [H|[H|H]]; [|exact H|].
  - specialize (C m H). lia.
  - specialize (A m' H). lia.
Qed.
Lemma place_0 ratio m : fadd (flit 0 0) (fmul ratio (fofZ (Z.of_N (N.of_nat m)))) = place ratio (flit 0 0) m.
Proof. unfold place. rewrite nat_N_Z. apply (fadd_comm 53 1024). Qed.
Lemma floor_add_0 (x : f64) : floor_index (fadd x (flit 0 0)) = floor_index x.
Proof.
  rewrite flit_0. destruct (is_finite x) eqn:F.
  - destruct (fadd_zero 53 1024 x (B754_zero false) F eq_refl eq_refl) as [F1 E1].
    now rewrite !floor_index_finite, E1 by assumption.
  - destruct x; try discriminate; reflexivity.
Qed.
Lemma tail_outcome l k ls ks (s : stream ls ks) rate n d : sinkable s -> honest s -> slen s = Some n -> 0 <= d ->
  let ratio := ratio_for rate (sample_rate s) in
  let sk := tail_sink l k rate d in
  let e := Z.min (floor_index (fmul ratio (fofZ (Z.of_N n)))) d in
  exists m sk' it s' srcs fs, (m <= N.to_nat n)%nat /\ leaves ratio e m /\
    sink_stream (S (N.to_nat n)) sk s = Ok (sk', it) /\ negotiated sk s ratio s' /\ pulls s' srcs it /\ length srcs = m /\
    converted srcs fs /\ streamed sk ratio e fs (N.of_nat m) sk' /\
    resampler_index (sk_res sk') = place ratio (flit 0 0) m.
Proof.
  intros Hs Hh Hl Hd ratio sk e. destruct (sinkable_negotiated _ _ _ _ sk s Hs) as (s' & Ng & Ls & Y & _).
  change (sk_rate sk) with rate in Ng. fold ratio in Ng.
  destruct (honest_some _ _ _ _ Hh Hl) as (all & Ya & La). rewrite Hl in Ls.
  destruct (stream_finite _ _ _ _ sk s s' _ all n Ng (Y _ Ya) Ls) as (sk' & srcs & fs & m & it & H & R & (rest & Er) & Cv & St).
  replace (length all) with (N.to_nat n) in H by lia.
  assert (Ee : covered ratio (slen s') (length (sk_buf sk)) = e).
  { rewrite Ls. cbn [covered sk tail_sink sk_buf]. rewrite repeat_length. unfold e. lia. }
  rewrite Ee in R, St. change (resampler_index (sk_res sk)) with (flit 0 0 : f64) in R.
  destruct R as (Lt & [(P & Ge & ->)|(t & P & Nx & Lx & _)]).
  - exists (length srcs), sk', it, s', srcs, fs. split; [rewrite Er, app_length in La; lia|].
    split; [split; assumption|]. split; [exact H|]. split; [exact Ng|]. split; [exact P|]. split; [reflexivity|].
    split; [exact Cv|]. split; [exact St|]. rewrite (st_index _ _ _ _ _ _ St). apply place_0.
  - exfalso. assert (Ys : yields s' srcs) by (exists t, it; now split).
    pose proof (yields_det _ _ _ _ _ Ys (Y _ Ya)) as ->. unfold place in Lx. rewrite floor_add_0 in Lx.
    replace (Z.of_nat (length all)) with (Z.of_N n) in Lx by lia. unfold e in Lx. lia.
Qed.
Lemma extend_outcome l k ls ks (a : audio l k) (s : stream ls ks) n : sinkable s -> honest s -> slen s = Some n ->
  let d := frames_for (s_rate a) (sample_rate s) n in
  let ratio := ratio_for (s_rate a) (sample_rate s) in
  let result := extend (S (N.to_nat n)) a s in
  (~ allocatable l k (Z.of_nat (length (frames a)) + d) ->
     exists p, snd result = Panic p /\ (p = CapacityOverflow \/ p = ArithOverflow)) /\
  (allocatable l k (Z.of_nat (length (frames a)) + d) ->
   exists m, (m <= N.to_nat n)%nat /\ leaves ratio (Z.min (floor_index (fmul ratio (fofZ (Z.of_N n)))) d) m /\
     let index := place ratio (flit 0 0) m in
     ((bpow radix2 (-52) < Rabs (frac index))%R /\ d <= floor_index index -> snd result = Panic IndexOutOfBounds) /\
     (~ ((bpow radix2 (-52) < Rabs (frac index))%R /\ d <= floor_index index) -> exists it, snd result = Ok it)).
Proof.
  intros Hs Hh Hl d ratio result. destruct (frames_for_bounds (s_rate a) (sample_rate s) n) as [Bd _]. fold d in Bd. split.
  - intros A. destruct (extend_too_long l k ls ks (S (N.to_nat n)) a s n Hl A) as (p & E & Hp).
    exists p. split; [|exact Hp]. unfold result, extend. now rewrite E.
  - intros A. destruct (tail_outcome l k ls ks s (s_rate a) n d Hs Hh Hl Bd) as (m & sk' & it & s' & srcs & fs & Hm & Lv & H & _ & _ & _ & _ & St & Ix).
    fold ratio in Lv, St, Ix. exists m. split; [exact Hm|]. split; [exact Lv|]. intros index.
    pose proof (extend_internal_eq l k ls ks (S (N.to_nat n)) a s n Hl A) as Eq. fold d in Eq. rewrite H in Eq. cbn [bind] in Eq.
    destruct (flush_spec l k sk') as (F1 & F2 & F3). rewrite Ix in F1, F2, F3. fold index in F1, F2, F3.
    assert (Lb : Z.of_nat (length (sk_buf sk')) = d).
    { rewrite (st_length _ _ _ _ _ _ St). cbn [tail_sink sk_buf]. rewrite repeat_length. lia. }
    rewrite Lb in F2, F3. split.
    + intros [A1 A2]. unfold result, extend. rewrite Eq, (F3 A1 A2). reflexivity.
    + intros Hn. destruct (Rle_or_lt (Rabs (frac index)) (bpow radix2 (-52))) as [L|L].
      * exists it. unfold result, extend. rewrite Eq, (F1 L). reflexivity.
      * destruct (Z.lt_ge_cases (floor_index index) d) as [L2|L2]; [|elim Hn; split; [exact L|exact L2]].
        destruct (F2 L L2) as (sk2 & E & _). exists it. unfold result, extend. rewrite Eq, E. reflexivity.
Qed.
Lemma extend_unsinkable l k ls ks fuel (a : audio l k) (s : stream ls ks) n : ~ sinkable s -> slen s = Some n ->
  exists p, snd (extend fuel a s) = Panic p.
Proof.
  intros Hs Hl. destruct (Z_le_dec ((Z.of_nat (length (frames a)) + frames_for (s_rate a) (sample_rate s) n) * bytes_per_frame l k) (2 ^ 63 - 1)) as [A|A].
  - unfold extend. rewrite (extend_internal_eq l k ls ks fuel a s n Hl A), (unsinkable _ _ _ _ _ _ _ Hs). cbn. eauto.
  - destruct (extend_too_long l k ls ks fuel a s n Hl A) as (p & E & _). unfold extend. rewrite E. cbn. eauto.
Qed.

(** ** C46 *)
Lemma range_bounds_spec r len : (len <= 2 ^ 64 - 1)%N ->
  (forall a b, range_bounds r len = Ok (a, b) <-> region r len a b) /\
  (forall p, range_bounds r len = Panic p -> p = IndexOutOfBounds) /\ range_bounds r len <> OutOfFuel.
Proof.
  intros HL. assert (M : Z.to_N usize_max = (2 ^ 64 - 1)%N) by reflexivity.
  unfold range_bounds, region. rewrite M.
  destruct r as [|x|y|x y|y|x y];
    repeat match goal with |- context [N.leb ?u ?v] => destruct (N.leb_spec u v) | |- context [N.eqb ?u ?v] => destruct (N.eqb_spec u v) end;
    cbn [andb]; (split; [|split; [intros p Hp; congruence|discriminate]]);
    intros a b; split; intros Q; try discriminate Q; try (injection Q as <- <-); try lia; f_equal; try f_equal; lia.
Qed.
Lemma used_length l k (sk sk' : sink l k) : used sk sk' -> length (sk_buf sk') = length (sk_buf sk) /\ sk_rate sk' = sk_rate sk.
Proof.
  induction 1 as [sk|ls ks fuel s it sk sk' sk'' H U [I1 I2]|sk sk' sk'' H U [I1 I2]]; [auto| |].
  - destruct (stream_length _ _ _ _ _ _ _ _ _ H). split; congruence.
  - destruct (flush_length _ _ _ _ H). split; congruence.
Qed.
Lemma audio_sink_spec l k (a : audio l k) r : Z.of_nat (length (frames a)) <= 2 ^ 64 - 1 ->
  ((exists x y, region r (N.of_nat (audio_len a)) x y) -> exists pre sk post, audio_sink a r = Ok (pre, sk, post)) /\
  (~ (exists x y, region r (N.of_nat (audio_len a)) x y) -> audio_sink a r = Panic IndexOutOfBounds).
Proof.
  intros HL. unfold audio_len. destruct (range_bounds_spec r (N.of_nat (length (frames a))) ltac:(lia)) as (R1 & R2 & R3). unfold audio_sink. split.
  - intros (x & y & H). rewrite (proj2 (R1 x y) H). cbn [bind]. eauto.
  - intros H. destruct (range_bounds r (N.of_nat (length (frames a)))) as [[x y]|p|] eqn:E; [|now rewrite (R2 p eq_refl)|easy].
    elim H. exists x, y. now apply R1.
Qed.
Lemma audio_sink_confined l k (a : audio l k) r pre (sk sk' : sink l k) post : Z.of_nat (length (frames a)) <= 2 ^ 64 - 1 ->
  audio_sink a r = Ok (pre, sk, post) -> used sk sk' ->
  exists x y, region r (N.of_nat (audio_len a)) x y /\
    (fresh sk /\ sk_rate sk = audio_sample_rate a /\ length (sk_buf sk) = N.to_nat (y - x) /\
     forall i, (i < N.to_nat (y - x))%nat -> nth_error (sk_buf sk) i = audio_get a (N.to_nat x + i)) /\
    let a' := audio_unsink a pre sk' post in
    audio_len a' = audio_len a /\ audio_sample_rate a' = audio_sample_rate a /\
    (forall p, (p < N.to_nat x)%nat \/ (N.to_nat y <= p)%nat -> audio_get a' p = audio_get a p) /\
    (forall i, (i < N.to_nat (y - x))%nat -> audio_get a' (N.to_nat x + i) = nth_error (sk_buf sk') i).
Proof.
  intros HL H U. destruct (used_length _ _ _ _ U) as [Lu _].
  pose proof (proj1 (range_bounds_spec r (N.of_nat (length (frames a))) ltac:(lia))) as R1.
  unfold audio_sink in H. destruct (range_bounds r (N.of_nat (length (frames a)))) as [[x y]|p|] eqn:E; try discriminate.
  cbn [bind] in H. injection H as <- <- <-. cbn [sk_buf] in Lu. pose proof (proj1 (R1 x y) eq_refl) as E'. clear E. rename E' into E.
  assert (B : (x <= y <= N.of_nat (length (frames a)))%N) by apply E. clear R1.
  exists x, y. split; [exact E|]. clear E.
  assert (Lr : length (firstn (N.to_nat y - N.to_nat x) (skipn (N.to_nat x) (frames a))) = N.to_nat (y - x)).
  { rewrite firstn_length, skipn_length. lia. }
  split; [split; [reflexivity|]; split; [reflexivity|]; split; [exact Lr|]|].
  - intros i Hi. cbn [sk_buf]. rewrite nth_error_firstn_lt by lia. rewrite nth_skipn. reflexivity.
  - rewrite Lr in Lu. unfold audio_unsink, audio_len, audio_get, audio_sample_rate. cbn [frames s_rate].
    assert (L1 : length (firstn (N.to_nat x) (frames a)) = N.to_nat x) by (rewrite firstn_length; lia).
    split; [|split; [reflexivity|split]].
    + rewrite !app_length, L1, Lu, skipn_length. lia.
    + intros p [Hp|Hp].
      * rewrite nth_error_app1 by lia. apply nth_error_firstn_lt. exact Hp.
      * rewrite nth_error_app2 by lia. rewrite nth_error_app2 by lia. rewrite nth_skipn. f_equal. lia.
    + intros i Hi. rewrite nth_error_app2 by lia. rewrite nth_error_app1 by lia. f_equal. lia.
Qed.
