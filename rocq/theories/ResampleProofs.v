(** * ResampleProofs.v -- proofs about [with_stream] at simple ratios (C50-C52) *)
From Coq Require Import ZArith NArith Reals List Lia Bool Lra.
From Flocq Require Import Core.Core IEEE754.BinarySingleNaN.
From Verif Require Import Rust Float Chan Frame Ops Stream Audio Heap SpecChan SpecFrame SpecStream SpecSink SpecAudio.
From Verif Require Import FloatProofs FArithProofs ChanProofs FChanProofs FrameProofs OpsProofs StreamProofs SinkProofs PlaceProofs
  CopyProofs EqualProofs WeightProofs SinkMore SinkTerm AudioProofs DrainProofs.
Import ListNotations.
Open Scope Z_scope.

(** ** Exact arithmetic *)
Lemma mul_exact (x y : f64) v : is_finite x = true -> is_finite y = true -> (B2R x * B2R y)%R = v ->
  generic_format radix2 (FLT_exp (3 - 1024 - 53) 53) v -> (Rabs v < bpow radix2 1024)%R ->
  B2R (fmul x y) = v /\ is_finite (fmul x y) = true /\ Bsign (fmul x y) = xorb (Bsign x) (Bsign y).
Proof.
  intros Fx Fy E Fm Hv. pose proof (Bmult_correct 53 1024 _ _ mode_NE x y) as C.
  change (round radix2 (SpecFloat.fexp 53 1024) (round_mode mode_NE)) with (round_to 53 1024) in C.
  rewrite E, (rnd_fmt 53 1024 _ Fm) in C. rewrite Rlt_bool_true in C by exact Hv.
  change (Bmult mode_NE x y) with (fmul x y) in C. rewrite Fx, Fy in C. destruct C as (A & B & D).
  split; [exact A|]. split; [exact B|]. apply D. now destruct (fmul x y).
Qed.
Lemma div_exact (x y : f64) v : is_finite x = true -> B2R y <> 0%R -> (B2R x / B2R y)%R = v ->
  generic_format radix2 (FLT_exp (3 - 1024 - 53) 53) v -> (Rabs v < bpow radix2 1024)%R ->
  B2R (fdiv x y) = v /\ is_finite (fdiv x y) = true /\ Bsign (fdiv x y) = xorb (Bsign x) (Bsign y).
Proof.
  intros Fx Ny E Fm Hv. pose proof (Bdiv_correct 53 1024 _ _ mode_NE x y Ny) as C.
  change (round radix2 (SpecFloat.fexp 53 1024) (round_mode mode_NE)) with (round_to 53 1024) in C.
  rewrite E, (rnd_fmt 53 1024 _ Fm) in C. rewrite Rlt_bool_true in C by exact Hv.
  change (Bdiv mode_NE x y) with (fdiv x y) in C. rewrite Fx in C. destruct C as (A & B & D).
  split; [exact A|]. split; [exact B|]. apply D. now destruct (fdiv x y).
Qed.
Lemma fofZ_all z : 0 <= z <= 2 ^ 53 -> B2R (fofZ z : f64) = IZR z /\ is_finite (fofZ z : f64) = true /\ Bsign (fofZ z : f64) = false.
Proof. intros H. destruct (fofZ53 z ltac:(lia)). split; [assumption|]. split; [assumption|]. now apply fofZ_sign. Qed.
Lemma mul_int a b : 0 <= a <= 2 ^ 53 -> 0 <= b <= 2 ^ 53 -> a * b <= 2 ^ 53 -> fmul (fofZ a) (fofZ b) = (fofZ (a * b) : f64).
Proof.
  intros Ha Hb Hab. destruct (fofZ_all a Ha) as (A1 & A2 & A3), (fofZ_all b Hb) as (B1 & B2 & B3).
  destruct (fofZ_all (a * b) ltac:(nia)) as (C1 & C2 & C3).
  destruct (mul_exact (fofZ a) (fofZ b) (IZR (a * b)) A2 B2) as (D1 & D2 & D3).
  - rewrite A1, B1. symmetry. apply mult_IZR.
  - apply (fmt_Z 53 1024). nia.
  - apply B2R_lt_emax. nia.
  - apply B2R_Bsign_inj; try assumption; [congruence|]. rewrite D3, A3, B3, C3. reflexivity.
Qed.
Lemma div_int a b : 0 <= a -> 0 < b <= 2 ^ 53 -> a * b <= 2 ^ 53 -> fdiv (fofZ (a * b)) (fofZ b) = (fofZ a : f64).
Proof.
  intros Ha Hb Hab.
  assert (a <= 2 ^ 53) by nia.
  destruct (fofZ_all a ltac:(lia)) as (A1 & A2 & A3), (fofZ_all b ltac:(lia)) as (B1 & B2 & B3).
  destruct (fofZ_all (a * b) ltac:(nia)) as (C1 & C2 & C3).
  assert (Nb : IZR b <> 0%R) by (apply IZR_neq; lia).
  destruct (div_exact (fofZ (a * b)) (fofZ b) (IZR a) C2) as (D1 & D2 & D3).
  - now rewrite B1.
  - rewrite B1, C1, mult_IZR. field. exact Nb.
  - apply (fmt_Z 53 1024). lia.
  - apply B2R_lt_emax. lia.
  - apply B2R_Bsign_inj; try assumption; [congruence|]. rewrite D3, A3, B3, C3. reflexivity.
Qed.
Lemma whole_fofZ r z : whole_rate r z -> r = fofZ z.
Proof. intros (F & E & H). now apply is_fofZ. Qed.

(** ** One call of [with_stream] *)
Lemma with_stream_run l k ls ks rate (s : stream ls ks) n : sinkable s -> honest s -> slen s = Some n ->
  let d := frames_for rate (sample_rate s) n in
  let ratio := ratio_for rate (sample_rate s) in
  let e := Z.min (floor_index (fmul ratio (fofZ (Z.of_N n)))) d in
  allocatable l k d ->
  exists m sk' it srcs fs, (m <= N.to_nat n)%nat /\ leaves ratio e m /\ starts s srcs /\ length srcs = m /\
    converted srcs fs /\ streamed (tail_sink l k rate d) ratio e fs (N.of_nat m) sk' /\
    resampler_index (sk_res sk') = place ratio (flit 0 0) m /\
    ((Rabs (frac (place ratio (flit 0 0) m)) <= bpow radix2 (-52))%R ->
      with_stream l k (S (N.to_nat n)) rate s = Ok (mkAudio rate (sk_buf sk'), it)).
Proof.
  intros Hs Hh Hl d ratio e A. destruct (frames_for_bounds rate (sample_rate s) n) as [Bd _]. fold d in Bd.
  destruct (tail_outcome l k ls ks s rate n d Hs Hh Hl Bd) as (m & sk' & it & s' & srcs & fs & Hm & Lv & H & Ng & P & Ls & Cv & St & Ix).
  fold ratio in Lv, St, Ix, Ng. fold e in Lv, St.
  exists m, sk', it, srcs, fs. split; [exact Hm|]. split; [exact Lv|]. split; [|split; [exact Ls|split; [exact Cv|split; [exact St|split; [exact Ix|]]]]].
  - destruct Ng as [(r & _ & _ & ->)|(_ & _ & E)]; [now exists it|].
    destruct (set_rate_pulls_inv _ _ _ _ _ _ _ E P) as (t & Pt & _). now exists t.
  - intros Fr. unfold with_stream, extend.
    rewrite (extend_internal_eq l k ls ks _ (with_frames rate []) s n Hl A).
    cbn [with_frames s_rate frames app]. fold d. rewrite H. cbn [bind].
    rewrite (proj1 (flush_spec l k sk')) by (now rewrite Ix). reflexivity.
Qed.
Lemma leaves_at ratio e m m' : leaves ratio e m -> (forall i, (i < m')%nat -> floor_index (place ratio (flit 0 0) i) < e) ->
  e <= floor_index (place ratio (flit 0 0) m') -> m = m'.
Proof. intros H A B. apply (leaves_unique ratio e m m' H). now split. Qed.
Lemma starts_yields l k (s : stream l k) xs all : starts s xs -> yields s all -> length xs = length all -> xs = all.
Proof. intros (t & P) (u & v & Q & _) L. now destruct (pulls_det _ _ _ _ _ _ _ P Q L). Qed.
Lemma yields_count l k (s : stream l k) n all : honest s -> slen s = Some n -> yields s all -> length all = N.to_nat n.
Proof.
  intros Hh Hl Y. destruct (honest_some _ _ _ _ Hh Hl) as (fs & Yf & L). rewrite (yields_det _ _ _ _ _ Y Yf). lia.
Qed.
Lemma place_off0 ratio i : place ratio (flit 0 0) i = place ratio (fofZ 0) i.
Proof. reflexivity. Qed.
Lemma place_whole m i : 0 <= m <= 2 ^ 53 -> m * Z.of_nat i <= 2 ^ 53 -> Z.of_nat i <= 2 ^ 53 ->
  place (fofZ m) (flit 0 0) i = fofZ (m * Z.of_nat i).
Proof.
  intros H1 H2 H3. rewrite place_off0. unfold place. rewrite place_int by lia. f_equal. lia.
Qed.
Lemma tail_nth l k rate d p : (p < Z.to_nat d)%nat -> nth_error (sk_buf (tail_sink l k rate d)) p = Some (frame_default l k).
Proof. intros H. cbn [tail_sink sk_buf]. now apply nth_repeat. Qed.
Lemma nth_lt_some {A} (xs : list A) p : (p < length xs)%nat -> exists x, nth_error xs p = Some x.
Proof. intros H. destruct (nth_error xs p) eqn:E; [eauto|]. apply nth_error_None in E. lia. Qed.
Lemma converted_nth l k ls ks (srcs : list (frame ls ks)) (fs : list (frame l k)) i src : converted srcs fs ->
  nth_error srcs i = Some src -> exists f, nth_error fs i = Some f /\ convert l k src = Ok f.
Proof.
  intros H. revert i. induction H as [|x y xs ys E _ IH]; intros [|i] Hi; try discriminate; cbn in *; [|eauto].
  injection Hi as ->. eauto.
Qed.

(** ** Whole ratios *)
Lemma add_default_l k (p : chan k) : is_float k -> fin p = true -> rval (c_add (chan_default k) p) = clampR (round_k k (rval p)).
Proof.
  intros Hk Fp. destruct (float_ops_value k Hk (chan_default k) p (valid_fin _ _ (default_valid k)) Fp) as (E & _).
  rewrite E. replace (rval (chan_default k)) with 0%R; [now rewrite Rplus_0_l|]. destruct Hk as [-> | ->]; reflexivity.
Qed.
Lemma round_k_idem k x : is_float k -> round_k k (round_k k x) = round_k k x.
Proof.
  intros [-> | ->]; cbn [round_k].
  - apply (rnd_fmt 24 128), (fmt_rnd 24 128).
  - apply (rnd_fmt 53 1024), (fmt_rnd 53 1024).
Qed.
Lemma from_f64_whole k m : is_float k -> 0 <= m <= 2 ^ 53 -> (k = K32 -> m <= 2 ^ 24) ->
  fin (from_f64 k (fofZ m)) = true /\ rval (from_f64 k (fofZ m)) = IZR m.
Proof.
  intros [-> | ->] H1 H2; destruct (fofZ53 m ltac:(lia)) as [E F].
  - specialize (H2 eq_refl). destruct from_f64_raw as (_ & R & _). specialize (R (fofZ m) F). rewrite E in R.
    assert (Q : round32 (IZR m) = IZR m) by (apply (rnd_Z 24 128); lia). rewrite Q in R. cbn [fin rval]. apply and_comm. 
    destruct R as [R1 R2]; [|now split]. rewrite <- abs_IZR. change (bpow radix2 128) with (IZR (2 ^ 128)). apply IZR_lt. lia.
  - destruct from_f64_raw as (R & _). destruct (R (fofZ m)) as [-> _]. cbn [fin rval]. now split.
Qed.
Lemma mul_whole k (a w : chan k) m : is_float k -> valid a -> 0 <= m <= 2 ^ 53 -> fin w = true -> rval w = IZR m ->
  exists p, c_mul a w = Ok p /\ fin p = true /\ rval p = round_k k (IZR m * rval a).
Proof.
  intros [-> | ->] [Fa Ha] H Fw Ew; cbn [valid fin rval c_mul round_k] in *; eexists; (split; [reflexivity|]); apply and_comm.
  - destruct (fmul_correct 24 128 (a : f32) (w : f32) Fa Fw) as [A B].
    + apply (rnd_small_lt 24 128). rewrite Rabs_mult, Ew. rewrite (Rabs_pos_eq (IZR m)) by (apply IZR_le; lia).
      assert (Rabs (B2R (a : f32)) <= 1)%R by now apply Rabs_le.
      assert (IZR m <= IZR (2 ^ 53))%R by (apply IZR_le; lia). assert (0 <= IZR m)%R by (apply IZR_le; lia).
      change (bpow radix2 (128 - 1)) with (IZR (2 ^ 127)). assert (IZR (2 ^ 53) <= IZR (2 ^ 127))%R by (apply IZR_le; lia).
      pose proof (Rabs_pos (B2R (a : f32))). nra.
    + split; [|exact B]. unfold ch32_mul. rewrite A, Ew, Rmult_comm. reflexivity.
  - destruct (fmul_correct 53 1024 (a : f64) (w : f64) Fa Fw) as [A B].
    + apply (rnd_small_lt 53 1024). rewrite Rabs_mult, Ew. rewrite (Rabs_pos_eq (IZR m)) by (apply IZR_le; lia).
      assert (Rabs (B2R (a : f64)) <= 1)%R by now apply Rabs_le.
      assert (IZR m <= IZR (2 ^ 53))%R by (apply IZR_le; lia). assert (0 <= IZR m)%R by (apply IZR_le; lia).
      assert (IZR (2 ^ 53) <= bpow radix2 (1024 - 1))%R by (change (IZR (2 ^ 53)) with (bpow radix2 53); apply bpow_le; lia).
      pose proof (Rabs_pos (B2R (a : f64))). nra.
    + split; [|exact B]. unfold ch64_mul. rewrite A, Ew, Rmult_comm. reflexivity.
Qed.
Lemma ws_zero_tail l k (acc b : frame l k) r z : weighted_sum acc (r ++ z) b ->
  (forall f w, In (f, w) z -> frame_fin f /\ w = B754_zero false) -> 
  exists out, weighted_sum acc r out /\ (frame_valid out -> vals b = vals out /\ frame_valid b).
Proof.
  intros H Hz. apply ws_fun in H. rewrite ws_fn_app in H. exists (ws_fn acc r). split; [apply ws_fn_ok|].
  revert H. generalize (ws_fn acc r). clear acc r. induction z as [|[f w] z IH]; intros acc H V; [cbn in H; subst b; auto|].
  destruct (Hz f w (or_introl eq_refl)) as [Ff ->].
  change (ws_fn acc ((f, B754_zero false) :: z)) with (ws_fn (frame_add acc (fmulp f (B754_zero false))) z) in H.
  destruct (IH (fun f w I => Hz f w (or_intror I)) _ H (frame_add_valid _ _ _ _)) as [A B]. split; [|exact B].
  rewrite A. destruct (frame_mul_zero l k f Ff) as (q & Q & Z). pose proof (fmulp_ok f (B754_zero false)) as M.
  rewrite frame_from_f64_zero, Q in M. injection M as <-. now apply frame_add_zero.
Qed.
Lemma ws_scaled l k m (f b : frame l k) : 1 <= m <= 2 ^ 53 -> (k = K32 -> m <= 2 ^ 24) ->
  weighted_sum (frame_default l k) [(f, fofZ m); (f, B754_zero false)] b -> scaled m f b.
Proof.
  intros Hm Hm2 H. split.
  - intros Hk. assert (V : frame_valid f) by now apply int_frame_valid. apply (vals_int_eq l k b f Hk).
    assert (E : frame_from_f64 l k (fofZ m) = frame_from_f64 l k (flit 1 0)).
    { apply frame_ext. rewrite !frame_from_f64_all. f_equal. destruct (fofZ53 m ltac:(lia)) as [E F]. destruct (one_correct 53 1024) as [O1 O2].
      rewrite from_f64_1. apply (proj1 (from_f64_sat k Hk (fofZ m))). apply (fle_correct 53 1024); auto. rewrite E, O1. apply IZR_le. lia. }
    apply ws_copy; [|exact V]. apply ws_two in H as (p & q & Hp & Hq & ->). rewrite E in Hp.
    econstructor; [exact Hp|]. econstructor; [exact Hq|]. constructor.
  - intros Hk V c x y Hx Hy. change [(f, fofZ m); (f, B754_zero false)] with ([(f, fofZ m)] ++ [(f, B754_zero false)]) in H.
    apply ws_zero_tail in H as (out & Ho & Hv).
    2: { intros g w [Q|[]]. injection Q as <- <-. split; [now apply valid_frame_fin|reflexivity]. }
    apply ws_one in Ho as (p & Hp & ->). destruct (Hv (frame_add_valid _ _ _ _)) as [Vb _].
    pose proof (nth_some _ _ _ _ _ Hx) as Hc.
    destruct (nth_ex l k p c Hc) as (pc & Hpc), (nth_ex l k (frame_default l k) c Hc) as (dc & Hdc).
    destruct (nth_ex l k (frame_from_f64 l k (fofZ m)) c Hc) as (wc & Hwc).
    pose proof (proj1 (proj1 (frame_ops_channelwise l k (frame_default l k) p) c dc pc Hdc Hpc)) as Ha.
    rewrite (vals_nth_inv l k b _ c y _ Vb Hy Ha). apply nth_default in Hdc as ->.
    destruct (proj1 (proj2 (frame_ops_channelwise l k f (frame_from_f64 l k (fofZ m))))) as (z & Hz & Z).
    rewrite Hp in Hz. injection Hz as <-. destruct (Z c x wc Hx Hwc) as (pc' & Hmul & Hpc'). rewrite Hpc in Hpc'. injection Hpc' as <-.
    rewrite frame_from_f64_all in Hwc. apply repeat_nth in Hwc as ->.
    destruct (from_f64_whole k m Hk ltac:(lia) Hm2) as [Fw Ew].
    destruct (mul_whole k x (from_f64 k (fofZ m)) m Hk) as (p2 & Hp2 & Fp & Ep); try assumption; [|lia|].
    { eapply frame_valid_nth; eauto. }
    rewrite Hmul in Hp2. injection Hp2 as <-. rewrite (add_default_l k pc Hk Fp), Ep. now rewrite round_k_idem.
Qed.
Lemma with_stream_up l k ls ks (s : stream ls ks) rate src r m n all : sample_rate s = Some src -> whole_rate src r ->
  whole_rate rate (m * r) -> 1 <= m -> (k = K32 -> m <= 2 ^ 24) -> m * r * Z.of_N n <= 2 ^ 53 ->
  honest s -> slen s = Some n -> allocatable l k (m * Z.of_N n) -> yields s all ->
  exists a it, with_stream l k (S (N.to_nat n)) rate s = Ok (a, it) /\ audio_sample_rate a = rate /\
    Z.of_nat (audio_len a) = m * Z.of_N n /\
    (forall i x, nth_error all i = Some x -> exists f b, convert l k x = Ok f /\
       audio_get a (Z.to_nat m * i) = Some b /\ scaled m f b) /\
    (forall p, (p < audio_len a)%nat -> Z.of_nat p mod m <> 0 -> audio_get a p = Some (frame_default l k)).
Proof.
  intros Hr Ws Wr Hm Hm2 Hb Hh Hl A Y.
  assert (Br : 0 < r <= 2 ^ 53) by apply Ws. assert (Bm : 0 < m * r <= 2 ^ 53) by apply Wr.
  assert (Bm1 : m <= 2 ^ 53) by nia.
  apply whole_fofZ in Ws, Wr. subst src rate. set (N' := Z.of_N n) in *.
  assert (Rt : ratio_for (fofZ (m * r)) (sample_rate s) = fofZ m) by (rewrite Hr; apply div_int; lia).
  assert (BN : m * N' <= 2 ^ 53) by nia. assert (BN2 : N' <= 2 ^ 53) by nia. assert (BN3 : 0 <= N') by lia.
  assert (D : frames_for (fofZ (m * r)) (sample_rate s) n = m * N').
  { rewrite Hr. unfold frames_for. fold N'. rewrite mul_int by nia.
    replace (m * r * N') with (m * N' * r) by ring. rewrite div_int by nia.
    destruct (fofZ53 (m * N') ltac:(nia)) as [_ F]. rewrite F. apply ceil_fofZ. nia. }
  assert (Sk : sinkable s) by (left; rewrite Hr; discriminate).
  destruct (with_stream_run l k ls ks (fofZ (m * r)) s n Sk Hh Hl) as (c & sk' & it & srcs & fs & Hc & Lv & St & Ls & Cv & Sd & Ix & W).
  { now rewrite D. }
  rewrite Rt, D in Lv, Sd. rewrite Rt in Ix, W. change (Z.of_N n) with N' in Lv, Sd.
  rewrite mul_int in Lv, Sd by lia. rewrite floor_fofZ in Lv, Sd by nia. rewrite Z.min_id in Lv, Sd.
  assert (c = N.to_nat n) as ->.
  { apply (leaves_at _ _ _ _ Lv).
    - intros i Hi. rewrite place_whole, floor_fofZ by nia. nia.
    - rewrite place_whole, floor_fofZ by nia. nia. }
  pose proof (yields_count _ _ _ _ _ Hh Hl Y) as La.
  assert (srcs = all) as -> by (apply (starts_yields _ _ _ _ _ St Y); congruence).
  assert (Lf : length fs = N.to_nat n) by (rewrite (converted_length _ _ _ _ _ _ Cv); exact La).
  assert (Lb : length (sk_buf sk') = Z.to_nat (m * N')).
  { rewrite (st_length _ _ _ _ _ _ Sd). cbn [tail_sink sk_buf]. apply repeat_length. }
  assert (Lt : lattice (fofZ m) (fofZ 0) m 0 (fofZ m) (B754_zero false) 0 (length fs)) by (apply lattice_int; rewrite ?Lf; nia).
  exists (mkAudio (fofZ (m * r)) (sk_buf sk')), it. split; [apply W|].
  { rewrite place_whole by nia. rewrite (frac_Z _ (m * Z.of_nat (N.to_nat n))); [rewrite Rabs_R0; apply bpow_ge_0|].
    apply fofZ53. nia. }
  split; [reflexivity|]. unfold audio_len, audio_get. cbn [frames]. split; [rewrite Lb; nia|]. split.
  - intros i x Hx. destruct (converted_nth _ _ _ _ _ _ _ _ Cv Hx) as (f & Hf & Ef).
    assert (i < N.to_nat n)%nat by (rewrite <- La; apply nth_error_Some; congruence).
    destruct (nth_lt_some (sk_buf sk') (Z.to_nat m * i)) as (b & Eb). { rewrite Lb. nia. }
    exists f, b. split; [exact Ef|]. split; [exact Eb|]. apply ws_scaled; [lia|exact Hm2|].
    pose proof (st_covered _ _ _ _ _ _ Sd (Z.to_nat m * i) b ltac:(nia) Eb) as Ws.
    change (resampler_index (sk_res (tail_sink l k (fofZ (m * r)) (m * N')))) with (fofZ 0 : f64) in Ws.
    replace (Z.of_nat (Z.to_nat m * i)) with (0 + m * Z.of_nat (0 + i)) in Ws by nia.
    now rewrite (contributions_at (fofZ m) (fofZ 0) m 0 (fofZ m) (B754_zero false) fs 0 i f ltac:(lia) Lt Hf) in Ws.
  - intros p Hp Hmod. destruct (nth_lt_some (sk_buf sk') p Hp) as (b & Eb). rewrite Eb. f_equal.
    pose proof (st_covered _ _ _ _ _ _ Sd p b ltac:(lia) Eb) as Ws.
    change (resampler_index (sk_res (tail_sink l k (fofZ (m * r)) (m * N')))) with (fofZ 0 : f64) in Ws.
    rewrite (contributions_none (fofZ m) (fofZ 0) m 0 (fofZ m) (B754_zero false) fs 0 _ Lt) in Ws; [now apply ws_nil_inv in Ws|].
    intros a _ Q. apply Hmod. rewrite Q, Z.add_0_l, Z.mul_comm. apply Z.mod_mul. lia.
Qed.

(** ** Equal rates *)
Lemma default_add_chan k : c_add (chan_default k) (chan_default k) = chan_default k.
Proof.
  destruct (kind_cases k) as [Hk|Hk].
  - apply (int_rval_eq k _ _ Hk). rewrite <- MID_default. apply add_mid_all. rewrite MID_default. apply default_valid.
  - destruct Hk as [-> | ->]; apply B2SF_inj; vm_compute; reflexivity.
Qed.
Lemma default_add_frame l k : frame_add (frame_default l k) (frame_default l k) = frame_default l k.
Proof.
  apply frame_ext, list_nth_ext. intros i. destruct (Nat.lt_ge_cases i (nchan l)) as [Hi|Hi].
  - destruct (nth_ex l k (frame_default l k) i Hi) as (z & Ez).
    rewrite (proj1 (proj1 (frame_ops_channelwise l k (frame_default l k) (frame_default l k)) i z z Ez Ez)). rewrite Ez.
    apply nth_default in Ez as ->. f_equal. apply default_add_chan.
  - rewrite !(proj2 (nth_error_None _ _)); [reflexivity|rewrite channels_length; exact Hi..].
Qed.
Lemma with_stream_equal l k ls ks (s : stream ls ks) rate n all :
  match sample_rate s with Some r => is_finite r = true /\ B2R r <> 0%R /\ rate = r | None => configurable s end ->
  honest s -> slen s = Some n -> Z.of_N n <= 2 ^ 53 ->
  let d := frames_for rate (sample_rate s) n in
  allocatable l k d -> yields s all ->
  exists a it, with_stream l k (S (N.to_nat n)) rate s = Ok (a, it) /\ audio_sample_rate a = rate /\
    Z.of_nat (audio_len a) = d /\
    (forall i x, (i < audio_len a)%nat -> nth_error all i = Some x -> exists f b, convert l k x = Ok f /\
       audio_get a i = Some b /\ copied f b) /\
    (forall p, (length all <= p < audio_len a)%nat -> audio_get a p = Some (frame_default l k)).
Proof.
  intros Hr Hh Hl Hn d A Y. assert (Sk : sinkable s) by (unfold sinkable; destruct (sample_rate s); [left; discriminate|now right]).
  destruct (frames_for_bounds rate (sample_rate s) n) as [Bd _]. fold d in Bd.
  assert (Rt : ratio_for rate (sample_rate s) = fofZ 1).
  { destruct (sample_rate s) as [r|]; [|reflexivity]. destruct Hr as (F & N & ->). now apply ratio_one. }
  destruct (with_stream_run l k ls ks rate s n Sk Hh Hl A) as (c & sk' & it & srcs & fs & Hc & Lv & St & Ls & Cv & Sd & Ix & W).
  fold d in Lv, Sd. rewrite Rt in Lv, Sd, Ix, W.
  rewrite mul_int in Lv, Sd by lia. rewrite floor_fofZ in Lv, Sd by lia.
  replace (1 * Z.of_N n) with (Z.of_N n) in Lv, Sd by lia. set (e := Z.min (Z.of_N n) d) in *.
  assert (c = Z.to_nat e) as ->.
  { apply (leaves_at _ _ _ _ Lv); intros; rewrite place_whole, floor_fofZ by lia; lia. }
  pose proof (yields_count _ _ _ _ _ Hh Hl Y) as La.
  assert (Es : srcs = firstn (Z.to_nat e) all).
  { destruct St as (t & P), Y as (u & v & Q & _). rewrite <- (firstn_skipn (Z.to_nat e) all) in Q.
    apply pulls_app_inv in Q as (w & Q & _). refine (proj1 (pulls_det _ _ _ _ _ _ _ P Q _)). rewrite firstn_length. lia. }
  assert (Lf : length fs = Z.to_nat e) by (rewrite (converted_length _ _ _ _ _ _ Cv); exact Ls).
  assert (Lb : length (sk_buf sk') = Z.to_nat d).
  { rewrite (st_length _ _ _ _ _ _ Sd). cbn [tail_sink sk_buf]. apply repeat_length. }
  assert (Cp := fun H1 H2 H3 H4 => proj1 (proj2 (equal_streamed (tail_sink l k rate d) sk' 0 e fs _ H1 H2 H3 H4 eq_refl Sd))).
  specialize (Cp ltac:(lia) ltac:(cbn [tail_sink sk_buf]; rewrite repeat_length; lia) ltac:(lia) ltac:(lia)).
  exists (mkAudio rate (sk_buf sk')), it. split; [apply W|].
  { rewrite place_whole by lia. rewrite (frac_Z _ (1 * Z.of_nat (Z.to_nat e))); [rewrite Rabs_R0; apply bpow_ge_0|]. apply fofZ53. lia. }
  split; [reflexivity|]. unfold audio_len, audio_get. cbn [frames]. split; [lia|]. split.
  - intros i x Hi Hx. assert (i < length all)%nat by (apply nth_error_Some; congruence).
    assert (Hx' : nth_error srcs i = Some x) by (rewrite Es, nth_error_firstn_lt by lia; exact Hx).
    destruct (converted_nth _ _ _ _ _ _ _ _ Cv Hx') as (f & Hf & Ef). exists f.
    destruct (nth_lt_some (sk_buf sk') i Hi) as (b & Eb). exists b. split; [exact Ef|]. split; [exact Eb|].
    apply vals_copied. intros V. destruct (Cp i f ltac:(lia) ltac:(lia)) as (b' & Eb' & R); [|exact V|].
    + change (Z.to_nat 0) with 0%nat. now rewrite Nat.sub_0_r.
    + rewrite Eb in Eb'. injection Eb' as <-. exact R.
  - intros p Hp. destruct (Nat.eq_dec p 0) as [->|Np].
    + assert (e = 0) by lia. rewrite (st_first _ _ _ _ _ _ Sd H (frame_default l k)) by (apply tail_nth; lia).
      f_equal. apply default_add_frame.
    + rewrite (st_rest _ _ _ _ _ _ Sd p ltac:(lia) Np). apply tail_nth. lia.
Qed.
Lemma frames_for_whole rate z n : whole_rate rate z -> z * Z.of_N n <= 2 ^ 53 -> frames_for rate (Some rate) n = Z.of_N n.
Proof.
  intros W Hb. pose proof W as (_ & _ & Hz). apply whole_fofZ in W. subst rate. unfold frames_for.
  assert (Z.of_N n <= 2 ^ 53) by nia. rewrite mul_int by lia. rewrite Z.mul_comm, div_int by lia.
  rewrite (proj2 (fofZ53 (Z.of_N n) ltac:(lia))). apply ceil_fofZ. lia.
Qed.

(** ** Half the rate *)
Notation half := (flit 1 (-1) : f64).
Lemma half_all : B2R half = (/ 2)%R /\ is_finite half = true /\ Bsign half = false.
Proof.
  destruct (flit_correct 53 1024 1 (-1)) as [A B].
  - apply (fmt_F2R 53 1024); lia.
  - unfold F2R. cbn [Fnum Fexp]. rewrite Rmult_1_l, Rabs_pos_eq by apply bpow_ge_0. apply bpow_lt. lia.
  - split; [|split; [exact B|]].
    + rewrite A. unfold F2R. cbn. lra.
    + vm_compute. reflexivity.
Qed.
Lemma half_Z z : 0 <= z <= 2 ^ 53 -> 
  B2R (fmul half (fofZ z)) = (IZR z / 2)%R /\ is_finite (fmul half (fofZ z)) = true /\ Bsign (fmul half (fofZ z)) = false.
Proof.
  intros H. destruct half_all as (H1 & H2 & H3), (fofZ_all z H) as (Z1 & Z2 & Z3).
  destruct (mul_exact half (fofZ z) (IZR z / 2)%R H2 Z2) as (A & B & C).
  - rewrite H1, Z1. lra.
  - destruct (Z.eq_dec z (2 ^ 53)) as [->|N].
    + replace (IZR (2 ^ 53) / 2)%R with (IZR (2 ^ 52)); [apply (fmt_Z 53 1024); lia|].
      change (2 ^ 53) with (2 * 2 ^ 52). rewrite mult_IZR. lra.
    + replace (IZR z / 2)%R with (F2R (Float radix2 z (-1))); [apply (fmt_F2R 53 1024); lia|].
      unfold F2R. cbn. lra.
  - assert (IZR z <= IZR (2 ^ 53))%R by (apply IZR_le; lia). assert (0 <= IZR z)%R by (apply IZR_le; lia).
    rewrite Rabs_pos_eq by lra. change (IZR (2 ^ 53)) with (bpow radix2 53) in *.
    pose proof (bpow_lt radix2 53 1024 ltac:(lia)). lra.
  - split; [exact A|]. split; [exact B|]. rewrite C, H3, Z3. reflexivity.
Qed.
Lemma place_half i : Z.of_nat i <= 2 ^ 53 ->
  B2R (place half (flit 0 0) i) = (IZR (Z.of_nat i) / 2)%R /\ is_finite (place half (flit 0 0) i) = true /\ Bsign (place half (flit 0 0) i) = false.
Proof.
  intros H. unfold place. destruct (half_Z (Z.of_nat i) ltac:(lia)) as (A & B & C). rewrite flit_0.
  destruct (fadd_zero 53 1024 _ (B754_zero false) B eq_refl eq_refl) as [D E]. split; [congruence|]. split; [exact D|].
  destruct (fmul half (fofZ (Z.of_nat i))) as [sg|sg| |sg mm ee He]; try discriminate; cbn in C; subst sg; [reflexivity|].
  destruct (Bsign (fadd (B754_finite false mm ee He) (B754_zero false))) eqn:Q; [|reflexivity].
  pose proof (Bsign_nonpos 53 1024 _ D Q) as N. rewrite E in N. exfalso.
  apply (Rle_not_lt _ _ N). now apply F2R_gt_0.
Qed.
Lemma place_even i : Z.of_nat (2 * i) <= 2 ^ 53 -> place half (flit 0 0) (2 * i) = fofZ (Z.of_nat i).
Proof.
  intros H. destruct (place_half (2 * i) H) as (A & B & C), (fofZ_all (Z.of_nat i) ltac:(lia)) as (D & E & F).
  apply B2R_Bsign_inj; try assumption; [|congruence]. rewrite A, D, Nat2Z.inj_mul, mult_IZR. change (Z.of_nat 2) with 2. lra.
Qed.
Lemma place_odd i : Z.of_nat (2 * i + 1) <= 2 ^ 53 -> let j := place half (flit 0 0) (2 * i + 1) in
  floor_index j = Z.of_nat i /\ ceil_index j = Z.of_nat i + 1 /\ frac j = (/ 2)%R /\ upper_weight half j = half /\ lower_weight half j = B754_zero false.
Proof.
  intros H j. destruct (place_half (2 * i + 1) H) as (A & B & _). fold j in A, B.
  assert (T : Ztrunc (B2R j) = Z.of_nat i).
  { rewrite A. rewrite Ztrunc_floor by (assert (0 <= IZR (Z.of_nat (2 * i + 1)))%R by (apply IZR_le; lia); lra).
    apply Zfloor_imp. rewrite Nat2Z.inj_add, Nat2Z.inj_mul, !plus_IZR, mult_IZR. change (Z.of_nat 2) with 2. change (Z.of_nat 1) with 1. lra. }
  assert (Fr : frac j = (/ 2)%R).
  { unfold frac. rewrite T, A. rewrite Nat2Z.inj_add, Nat2Z.inj_mul, plus_IZR, mult_IZR. change (Z.of_nat 2) with 2. change (Z.of_nat 1) with 1. lra. }
  assert (Fl : floor_index j = Z.of_nat i).
  { rewrite floor_index_finite by exact B. rewrite T, clampZ_maxmin by lia. lia. }
  destruct half_all as (H1 & H2 & H3).
  assert (U : upper_weight half j = half).
  { destruct (upper_weight_real half j H2 B) as [U1 U2]. apply (finite_eq 53 1024); auto; rewrite U1, Fr, H1; [|]; rewrite Rmin_left by lra; lra. }
  split; [exact Fl|]. split; [|split; [exact Fr|split; [exact U|]]].
  - unfold ceil_index. rewrite Fl, Fr. destruct (Rlt_dec (bpow radix2 (-52)) (/ 2)) as [_|N]; [reflexivity|]. elim N.
    change (/ 2)%R with (/ IZR 2)%R. replace (/ IZR 2)%R with (bpow radix2 (-1)) by (cbn; lra). apply bpow_lt. lia.
  - unfold lower_weight. rewrite U. apply B2SF_inj. vm_compute. reflexivity.
Qed.
Lemma even_facts i : Z.of_nat (2 * i) <= 2 ^ 53 -> let j := place half (flit 0 0) (2 * i) in
  floor_index j = Z.of_nat i /\ ceil_index j = Z.of_nat i /\ upper_weight half j = B754_zero false /\ lower_weight half j = half.
Proof.
  intros H j. unfold j. rewrite (place_even i H). destruct half_all as (_ & F & S).
  destruct (weights_int half (Z.of_nat i) F S ltac:(lia)) as [A B]. rewrite floor_fofZ, ceil_fofZ by lia. auto.
Qed.
Lemma half_range i : Z.of_nat i <= 2 ^ 53 -> let j := place half (flit 0 0) i in
  floor_index j = Z.of_nat i / 2 /\ Z.of_nat i / 2 <= ceil_index j <= (Z.of_nat i + 1) / 2.
Proof.
  intros H j. destruct (Nat.Even_or_Odd i) as [[h E]|[h E]]; subst i; unfold j.
  - destruct (even_facts h ltac:(lia)) as (A & B & _). rewrite A, B. split; [|split]; lia.
  - destruct (place_odd h ltac:(lia)) as (A & B & _). rewrite A, B. split; [|split]; lia.
Qed.
Lemma contributions_app {l k} p ratio off (xs ys : list (frame l k)) : forall i,
  contributions p ratio off i (xs ++ ys) = contributions p ratio off i xs ++ contributions p ratio off (i + length xs) ys.
Proof.
  induction xs as [|x xs IH]; intros i; cbn [app contributions length]; [now rewrite Nat.add_0_r|].
  rewrite IH, <- !app_assoc. do 3 f_equal. f_equal. lia.
Qed.
Lemma contributions_empty {l k} p ratio off (xs : list (frame l k)) : forall i,
  (forall a, (i <= a < i + length xs)%nat -> floor_index (place ratio off a) <> p /\ ceil_index (place ratio off a) <> p) ->
  contributions p ratio off i xs = [].
Proof.
  induction xs as [|x xs IH]; intros i H; [reflexivity|]. cbn [contributions]. destruct (H i ltac:(cbn; lia)) as [A B].
  apply Z.eqb_neq in A, B. rewrite A, B. cbn [app]. apply IH. intros a Ha. apply H. cbn [length]. lia.
Qed.

Lemma half_contributions {l k} (fs : list (frame l k)) p f : Z.of_nat (length fs) <= 2 ^ 53 -> (2 * p + 1 < length fs)%nat ->
  nth_error fs (2 * p) = Some f ->
  exists x, nth_error fs (2 * p + 1) = Some x /\
    contributions (Z.of_nat p) half (flit 0 0) 0 fs = (before fs p ++ [(f, half)]) ++ [(f, B754_zero false); (x, B754_zero false)].
Proof.
  intros HL Hp Hf. destruct (nth_lt_some fs (2 * p + 1) Hp) as (x & Hx). exists x. split; [exact Hx|].
  assert (Tail : forall q, (2 * p + 2 <= q)%nat -> contributions (Z.of_nat p) half (flit 0 0) q (skipn q fs) = []).
  { intros q Hq. apply contributions_empty. intros a Ha. rewrite skipn_length in Ha. 
    destruct (Nat.le_gt_cases (length fs) q); [lia|].
    destruct (half_range a ltac:(lia)) as [A B]. rewrite A. 
    assert (Z.of_nat p + 1 <= Z.of_nat a / 2) by (apply Z.div_le_lower_bound; lia). lia. }
  assert (Two : contributions (Z.of_nat p) half (flit 0 0) (2 * p) (skipn (2 * p) fs) = [(f, half); (f, B754_zero false); (x, B754_zero false)]).
  { destruct (skipn (2 * p) fs) as [|f' [|x' r]] eqn:E.
    - assert (Q : nth_error (skipn (2 * p) fs) 0 = Some f) by (rewrite nth_skipn, Nat.add_0_r; exact Hf). rewrite E in Q. discriminate.
    - assert (Q : nth_error (skipn (2 * p) fs) 1 = Some x) by (rewrite nth_skipn; exact Hx). rewrite E in Q. discriminate.
    - assert (f' = f). { assert (Q : nth_error (skipn (2 * p) fs) 0 = Some f) by (rewrite nth_skipn, Nat.add_0_r; exact Hf). rewrite E in Q. now injection Q. }
      assert (x' = x). { assert (Q : nth_error (skipn (2 * p) fs) 1 = Some x) by (rewrite nth_skipn; exact Hx). rewrite E in Q. now injection Q. }
      subst f' x'. assert (Er : r = skipn (2 * p + 2) fs).
      { replace (2 * p + 2)%nat with (2 + 2 * p)%nat by lia. rewrite <- skipn_skipn, E. reflexivity. }
      cbn [contributions]. destruct (even_facts p ltac:(lia)) as (A1 & A2 & A3 & A4). rewrite A1, A2, A3, A4, Z.eqb_refl. cbn [app].
      replace (S (2 * p)) with (2 * p + 1)%nat by lia. destruct (place_odd p ltac:(lia)) as (B1 & B2 & _ & _ & B3).
      rewrite B1, B2, B3, Z.eqb_refl. replace (Z.of_nat p + 1 =? Z.of_nat p) with false by (symmetry; apply Z.eqb_neq; lia). cbn [app].
      replace (S (2 * p + 1)) with (2 * p + 2)%nat by lia. rewrite Er, Tail by lia. reflexivity. }
  destruct p as [|q].
  - cbn [before app]. exact Two.
  - cbn [before]. destruct (nth_lt_some fs (2 * q + 1) ltac:(lia)) as (g & Hg). rewrite Hg.
    rewrite <- (firstn_skipn (2 * q + 1) fs) at 1. rewrite contributions_app.
    rewrite contributions_empty.
    2: { intros a Ha. rewrite firstn_length in Ha. destruct (half_range a ltac:(lia)) as [A B]. rewrite A.
         assert (Z.of_nat a / 2 <= Z.of_nat q) by (apply Z.div_le_upper_bound; lia).
         assert ((Z.of_nat a + 1) / 2 < Z.of_nat (S q)) by (apply Z.div_lt_upper_bound; lia). lia. }
    rewrite firstn_length, Nat.min_l by lia. cbn [app Nat.add].
    destruct (skipn (2 * q + 1) fs) as [|g' r] eqn:E.
    + assert (Q : nth_error (skipn (2 * q + 1) fs) 0 = Some g) by (rewrite nth_skipn, Nat.add_0_r; exact Hg). rewrite E in Q. discriminate.
    + assert (g' = g) as ->. { assert (Q : nth_error (skipn (2 * q + 1) fs) 0 = Some g) by (rewrite nth_skipn, Nat.add_0_r; exact Hg). rewrite E in Q. now injection Q. }
      assert (Er : r = skipn (2 * S q) fs).
      { replace (2 * S q)%nat with (1 + (2 * q + 1))%nat by lia. rewrite <- skipn_skipn, E. reflexivity. }
      cbn [contributions]. destruct (place_odd q ltac:(lia)) as (B1 & B2 & _ & B3 & _). rewrite B1, B2, B3.
      replace (Z.of_nat q =? Z.of_nat (S q)) with false by (symmetry; apply Z.eqb_neq; lia).
      replace (Z.of_nat q + 1 =? Z.of_nat (S q)) with true by (symmetry; apply Z.eqb_eq; lia). cbn [app].
      replace (S (2 * q + 1)) with (2 * S q)%nat by lia. rewrite Er, Two. reflexivity.
Qed.
Lemma with_stream_half l k ls ks (s : stream ls ks) rate src r n all (fs : list (frame l k)) :
  sample_rate s = Some src -> whole_rate src (2 * r) -> whole_rate rate r -> r * Z.of_N n <= 2 ^ 53 ->
  honest s -> slen s = Some n -> allocatable l k ((Z.of_N n + 1) / 2) -> yields s all -> converted all fs ->
  (is_float k -> Forall frame_valid fs) ->
  exists a it, with_stream l k (S (N.to_nat n)) rate s = Ok (a, it) /\ audio_sample_rate a = rate /\
    Z.of_nat (audio_len a) = (Z.of_N n + 1) / 2 /\
    (forall p f x, nth_error fs (2 * p) = Some f -> nth_error fs (2 * p + 1) = Some x ->
       exists out b, weighted_sum (frame_default l k) (before fs p ++ [(f, half)]) out /\ audio_get a p = Some b /\ copied out b) /\
    (forall p, Z.of_N n = 2 * Z.of_nat p + 1 -> audio_get a p = Some (frame_default l k)).
Proof.
  intros Hr Ws Wr Hb Hh Hl A Y Cv0 Vd.
  assert (Bs : 0 < 2 * r <= 2 ^ 53) by apply Ws. assert (Br : 0 < r <= 2 ^ 53) by apply Wr.
  assert (Bn : Z.of_N n <= 2 ^ 53) by nia.
  apply whole_fofZ in Ws, Wr. subst src rate.
  destruct half_all as (H1 & H2 & H3).
  destruct (fofZ_all r ltac:(lia)) as (R1 & R2 & R3), (fofZ_all (2 * r) ltac:(lia)) as (S1 & S2 & S3).
  assert (Nr : (IZR (2 * r) <> 0)%R) by (apply IZR_neq; lia).
  assert (Rt : ratio_for (fofZ r) (sample_rate s) = half).
  { rewrite Hr. cbn [ratio_for]. destruct (div_exact (fofZ r) (fofZ (2 * r)) (/ 2)%R R2) as (A1 & A2 & A3).
    - now rewrite S1.
    - rewrite R1, S1, mult_IZR. field. apply IZR_neq. lia.
    - rewrite <- H1. apply (fmt_B2R 53 1024).
    - rewrite <- H1. apply (abs_B2R_lt_emax 53 1024).
    - apply B2R_Bsign_inj; try assumption; [congruence|]. rewrite A3, R3, S3, H3. reflexivity. }
  destruct (half_Z (Z.of_N n) ltac:(lia)) as (Q1 & Q2 & Q3).
  assert (Qe : fdiv (fmul (fofZ r) (fofZ (Z.of_N n))) (fofZ (2 * r)) = fmul half (fofZ (Z.of_N n))).
  { rewrite mul_int by lia. destruct (fofZ_all (r * Z.of_N n) ltac:(lia)) as (T1 & T2 & T3).
    destruct (div_exact (fofZ (r * Z.of_N n)) (fofZ (2 * r)) (IZR (Z.of_N n) / 2)%R T2) as (A1 & A2 & A3).
    - now rewrite S1.
    - rewrite T1, S1, !mult_IZR. field. apply IZR_neq. lia.
    - rewrite <- Q1. apply (fmt_B2R 53 1024).
    - rewrite <- Q1. apply (abs_B2R_lt_emax 53 1024).
    - apply B2R_Bsign_inj; try assumption; [congruence|]. rewrite A3, T3, S3, Q3. reflexivity. }
  assert (Hn : Z.of_N n = Z.of_nat (N.to_nat n)) by lia.
  assert (Pn : forall g : f64 -> Z, (forall j : f64, g (fadd j (flit 0 0)) = g j) -> g (fmul half (fofZ (Z.of_N n))) = g (place half (flit 0 0) (N.to_nat n))).
  { intros g Hg. unfold place. rewrite <- Hn, Hg. reflexivity. }
  assert (Fl : floor_index (fmul half (fofZ (Z.of_N n))) = Z.of_N n / 2).
  { rewrite (Pn _ floor_add_0). rewrite (proj1 (half_range (N.to_nat n) ltac:(lia))). now rewrite <- Hn. }
  assert (Ce : ceil_index (fmul half (fofZ (Z.of_N n))) = (Z.of_N n + 1) / 2).
  { assert (CF : ceil_index (fmul half (fofZ (Z.of_N n))) = ceil_index (place half (flit 0 0) (N.to_nat n))).
    { unfold ceil_index. rewrite Fl. rewrite (proj1 (half_range (N.to_nat n) ltac:(lia))), <- Hn.
      assert (Fe : frac (fmul half (fofZ (Z.of_N n))) = frac (place half (flit 0 0) (N.to_nat n))); [|now rewrite Fe].
      unfold frac. destruct (place_half (N.to_nat n) ltac:(lia)) as (P1 & _). now rewrite P1, Q1, Hn. }
    rewrite CF. destruct (Nat.Even_or_Odd (N.to_nat n)) as [[h E]|[h E]]; rewrite E.
    - rewrite (proj1 (proj2 (even_facts h ltac:(lia)))). replace (Z.of_N n) with (2 * Z.of_nat h) by lia. 
      apply Z.div_unique with 1; lia.
    - rewrite (proj1 (proj2 (place_odd h ltac:(lia)))). replace (Z.of_N n) with (2 * Z.of_nat h + 1) by lia. 
      apply Z.div_unique with 0; lia. }
  assert (D : frames_for (fofZ r) (sample_rate s) n = (Z.of_N n + 1) / 2).
  { rewrite Hr. unfold frames_for. rewrite Qe, Q2. exact Ce. }
  assert (Sk : sinkable s) by (left; rewrite Hr; discriminate).
  destruct (with_stream_run l k ls ks (fofZ r) s n Sk Hh Hl) as (c & sk' & it & srcs & gs & Hc & Lv & St & Ls & Cv & Sd & Ix & W).
  { now rewrite D. }
  rewrite Rt, D, Fl in Lv, Sd. rewrite Rt in Ix, W.
  assert (Me : Z.min (Z.of_N n / 2) ((Z.of_N n + 1) / 2) = Z.of_N n / 2).
  { apply Z.min_l. apply Z.div_le_mono; lia. }
  rewrite Me in Lv, Sd.
  set (h := Z.to_nat (Z.of_N n / 2)).
  assert (Hh2 : Z.of_N n / 2 = Z.of_nat h). { unfold h. rewrite Z2Nat.id; [reflexivity|]. apply Z.div_pos; lia. }
  assert (Hdm : Z.of_N n = 2 * Z.of_nat h \/ Z.of_N n = 2 * Z.of_nat h + 1).
  { rewrite <- Hh2. pose proof (Z.div_mod (Z.of_N n) 2 ltac:(lia)). pose proof (Z.mod_pos_bound (Z.of_N n) 2 ltac:(lia)). lia. }
  rewrite Hh2 in Lv, Sd.
  assert (c = (2 * h)%nat) as ->.
  { apply (leaves_at _ _ _ _ Lv).
    - intros i Hi. rewrite (proj1 (half_range i ltac:(lia))). apply Z.div_lt_upper_bound; lia.
    - rewrite (proj1 (even_facts h ltac:(lia))). lia. }
  pose proof (yields_count _ _ _ _ _ Hh Hl Y) as La.
  assert (Lf0 : length fs = N.to_nat n) by (rewrite (converted_length _ _ _ _ _ _ Cv0); exact La).
  assert (Es : srcs = firstn (2 * h) all).
  { destruct St as (t & P), Y as (u & v & Q & _). rewrite <- (firstn_skipn (2 * h) all) in Q.
    apply pulls_app_inv in Q as (w & Q & _). refine (proj1 (pulls_det _ _ _ _ _ _ _ P Q _)). rewrite firstn_length. lia. }
  assert (Eg : gs = firstn (2 * h) fs).
  { apply (converted_fun _ _ _ _ srcs); [exact Cv|]. rewrite Es. clear - Cv0. unfold converted in *. revert fs Cv0.
    generalize (2 * h)%nat as q. induction all as [|x xs IH]; intros q ys H; inversion H; subst; destruct q; cbn [firstn]; constructor; auto. }
  assert (Lg : length gs = (2 * h)%nat) by (rewrite (converted_length _ _ _ _ _ _ Cv); exact Ls).
  assert (Lb : Z.of_nat (length (sk_buf sk')) = (Z.of_N n + 1) / 2).
  { rewrite (st_length _ _ _ _ _ _ Sd). cbn [tail_sink sk_buf]. rewrite repeat_length, Z2Nat.id; [reflexivity|]. apply Z.div_pos; lia. }
  assert (Lh : Z.of_nat h <= Z.of_nat (length (sk_buf sk'))).
  { rewrite Lb, <- Hh2. apply Z.div_le_mono; lia. }
  exists (mkAudio (fofZ r) (sk_buf sk')), it. split; [apply W|].
  { rewrite place_even by lia. rewrite (frac_Z _ (Z.of_nat h)); [rewrite Rabs_R0; apply bpow_ge_0|]. apply fofZ53. lia. }
  split; [reflexivity|]. unfold audio_len, audio_get. cbn [frames]. split; [exact Lb|]. split.
  - intros p f x Hf Hx. assert (2 * p + 1 < length fs)%nat by (apply nth_error_Some; congruence).
    assert (p < h)%nat by lia. destruct (nth_lt_some (sk_buf sk') p ltac:(lia)) as (b & Eb).
    pose proof (st_covered _ _ _ _ _ _ Sd p b ltac:(lia) Eb) as Ws.
    change (resampler_index (sk_res (tail_sink l k (fofZ r) ((Z.of_N n + 1) / 2)))) with (flit 0 0 : f64) in Ws.
    assert (Hf' : nth_error gs (2 * p) = Some f) by (rewrite Eg, nth_error_firstn_lt by lia; exact Hf).
    destruct (half_contributions gs p f) as (x' & Hx' & Ec); [lia|lia|exact Hf'|]. rewrite Ec in Ws.
    assert (Bf : before gs p = before fs p).
    { destruct p as [|q]; [reflexivity|]. cbn [before]. now rewrite Eg, nth_error_firstn_lt by lia. }
    rewrite Bf in Ws. 
    assert (Va : forall i y, nth_error fs i = Some y -> frame_fin y).
    { intros i y Hy. apply valid_frame_fin. destruct (kind_cases k) as [Hk|Hk]; [now apply int_frame_valid|].
      specialize (Vd Hk). rewrite Forall_forall in Vd. apply Vd. eapply nth_error_In; eauto. }
    apply ws_zero_tail in Ws as (out & Ho & Hv).
    2: { intros y w [Q|[Q|[]]]; injection Q as <- <-; (split; [|reflexivity]); [now apply (Va (2 * p)%nat)|].
         apply (Va (2 * p + 1)%nat). rewrite Eg, nth_error_firstn_lt in Hx' by lia. exact Hx'. }
    exists out, b. split; [exact Ho|]. split; [exact Eb|]. apply vals_copied. exact Hv.
  - intros p Hp. assert (p = h) as -> by lia. destruct (Nat.eq_dec h 0) as [H0|H0].
    + rewrite H0. assert (L1 : (Z.of_N n + 1) / 2 = 1) by (replace (Z.of_N n) with 1 by lia; reflexivity).
      rewrite (st_first _ _ _ _ _ _ Sd ltac:(lia) (frame_default l k)) by (apply tail_nth; lia). f_equal. apply default_add_frame.
    + rewrite (st_rest _ _ _ _ _ _ Sd h ltac:(lia) H0). apply tail_nth. 
      assert (Z.of_nat h + 1 <= (Z.of_N n + 1) / 2) by (apply Z.div_le_lower_bound; lia). lia.
Qed.
