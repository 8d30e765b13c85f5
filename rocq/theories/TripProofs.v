(** * TripProofs.v -- doubling and halving the sample rate (C76) *)
From Coq Require Import ZArith NArith Reals List Lia Bool Lra.
From Flocq Require Import Core.Core IEEE754.BinarySingleNaN.
From Verif Require Import Rust Float Math Chan Frame Ops Stream Audio Heap SpecChan SpecFrame SpecStream SpecSink SpecAudio SpecMore SpecTrip.
From Verif Require Import IntProofs FloatProofs FArithProofs ChanProofs FChanProofs FrameProofs OpsProofs StreamProofs SinkProofs PlaceProofs CopyProofs AudioProofs ResampleProofs RoundTripProofs MoreProofs.
Import ListNotations.
Open Scope R_scope.

Section Format.
Context (prec emax : Z) {Hp : FLX.Prec_gt_0 prec} {He : Prec_lt_emax prec emax}.
Lemma double_fmt x : generic_format radix2 (FLT_exp (3 - emax - prec) prec) x -> generic_format radix2 (FLT_exp (3 - emax - prec) prec) (2 * x).
Proof.
  intros H. apply FLT_format_generic in H; [|exact Hp]. destruct H as [[m e] E1 E2 E3]. cbn in E2, E3.
  apply generic_format_FLT. exists (Float radix2 m (e + 1)); [|exact E2|cbn; lia].
  rewrite E1. unfold F2R. cbn [Fnum Fexp]. rewrite bpow_plus. change (bpow radix2 1) with 2. ring.
Qed.
End Format.

Definition in_k (k : ck) (x : R) : Prop := match k with
  | K32 => generic_format radix2 (FLT_exp (3 - 128 - 24) 24) x | _ => generic_format radix2 (FLT_exp (3 - 1024 - 53) 53) x end.
Lemma round_in k x : is_float k -> in_k k x -> round_k k x = x.
Proof. intros [-> | ->] H; [apply (rnd_fmt 24 128)|apply (rnd_fmt 53 1024)]; exact H. Qed.
Lemma rval_in k (x : chan k) : is_float k -> in_k k (rval x).
Proof. intros [-> | ->]; [apply (fmt_B2R 24 128)|apply (fmt_B2R 53 1024)]. Qed.
Lemma double_in k x : is_float k -> in_k k x -> in_k k (2 * x).
Proof. intros [-> | ->]; [apply (double_fmt 24 128)|apply (double_fmt 53 1024)]; reflexivity. Qed.
Lemma half_in k : is_float k -> in_k k (/ 2) /\ in_k k (- / 2).
Proof.
  intros Hk. assert (H : in_k k (/ 2)).
  { destruct Hk as [-> | ->]; change (/ 2) with (bpow radix2 (-1)); [apply (fmt_bpow 24 128)|apply (fmt_bpow 53 1024)]; lia. }
  split; [exact H|]. destruct Hk as [-> | ->]; now apply generic_format_opp.
Qed.

(** The weight. *)
Lemma half_weight k : is_float k -> valid (from_f64 k (flit 1 (-1))) /\ rval (from_f64 k (flit 1 (-1))) = / 2.
Proof.
  intros Hk. assert (E : fin (from_f64 k (flit 1 (-1))) = true /\ rval (from_f64 k (flit 1 (-1))) = / 2).
  { destruct Hk as [-> | ->]; (split; [vm_compute; reflexivity|]); cbn [rval].
    - transitivity (SF2R radix2 (B2SF (from_f64 K32 (flit 1 (-1)) : f32))); [symmetry; apply SF2R_B2SF|].
      replace (B2SF (from_f64 K32 (flit 1 (-1)) : f32)) with (B2SF (flit 1 (-1) : f32)) by (vm_compute; reflexivity).
      vm_compute (B2SF _). cbn. unfold F2R. cbn. lra.
    - transitivity (SF2R radix2 (B2SF (from_f64 K64 (flit 1 (-1)) : f64))); [symmetry; apply SF2R_B2SF|].
      replace (B2SF (from_f64 K64 (flit 1 (-1)) : f64)) with (B2SF (flit 1 (-1) : f64)) by (vm_compute; reflexivity).
      vm_compute (B2SF _). cbn. unfold F2R. cbn. lra. }
  destruct E as [F E]. split; [|exact E]. destruct Hk as [-> | ->]; (split; [exact F|]); cbn [rval] in E; rewrite E; lra.
Qed.
Definition silent {k} (d : chan k) : Prop := valid d /\ rval d = 0.
Lemma default_silent k : silent (chan_default k).
Proof. split; [apply default_valid|]. destruct k; reflexivity. Qed.
Lemma silent_float k (pd : chan k) : is_float k -> c_mul (chan_default k) (from_f64 k (flit 1 (-1))) = Ok pd -> silent (c_add (chan_default k) pd).
Proof.
  intros Hk H. destruct (half_weight k Hk) as [Vw Ew]. destruct (default_silent k) as [Vd Ed].
  destruct (float_mul_valid k Hk _ _ Vd Vw) as (p & Hp & Vp & Ep). rewrite H in Hp. injection Hp as <-.
  assert (Fi : forall c : chan k, valid c -> fin c = true) by (destruct Hk as [-> | ->]; intros c Vc; apply Vc).
  assert (Z0 : round_k k 0 = 0) by (apply (round_in k 0 Hk); destruct Hk as [-> | ->]; apply generic_format_0).
  split; [apply (float_ops_valid k Hk)|]. rewrite (proj1 (float_ops_value k Hk _ _ (Fi _ Vd) (Fi _ Vp))), Ep, Ed.
  rewrite Rmult_0_l, Z0, Rplus_0_l, Z0. unfold clampR. repeat destruct Rlt_dec; lra.
Qed.
Lemma silent_step k (pd : chan k) : c_mul (chan_default k) (from_f64 k (flit 1 (-1))) = Ok pd -> silent (c_add (chan_default k) pd).
Proof.
  intros H. destruct k.
  - destruct (mul8_spec (chan_default K8) (from_f64 K8 (flit 1 (-1)))) as (c & Hc & V). rewrite H in Hc. injection Hc as <-.
    split; [exact I|]. cbn [rval]. rewrite add8_spec, V. reflexivity.
  - destruct (mul16_spec (chan_default K16) (from_f64 K16 (flit 1 (-1)))) as (c & Hc & V). rewrite H in Hc. injection Hc as <-.
    split; [exact I|]. cbn [rval]. rewrite add16_spec, V. reflexivity.
  - apply silent_float; [now left|exact H].
  - apply silent_float; [now right|exact H].
Qed.
Lemma quot_small a b w m lo hi : (0 <= w <= m)%Z -> (0 < m)%Z -> (lo <= 0 <= hi)%Z -> (lo <= a <= hi)%Z -> b = Z.quot (w * a) m -> (lo <= b <= hi)%Z.
Proof.
  intros Hw Hm Hl Ha ->. destruct (Z_le_dec 0 a).
  - assert (0 <= Z.quot (w * a) m)%Z by (apply Z.quot_pos; nia).
    assert (Z.quot (w * a) m <= a)%Z by (apply Z.quot_le_upper_bound; nia). lia.
  - replace (w * a)%Z with (- (w * - a))%Z by ring. rewrite Z.quot_opp_l by lia.
    assert (0 <= Z.quot (w * - a) m)%Z by (apply Z.quot_pos; nia).
    assert (Z.quot (w * - a) m <= - a)%Z by (apply Z.quot_le_upper_bound; nia). lia.
Qed.

(** One channel: [u] is [x] after doubling, [d] the silence it is added to. *)
Lemma trip_chan k (x u d pf y : chan k) : valid x -> valid u -> (is_int k -> u = x) ->
  (is_float k -> rval u = clampR (round_k k (IZR 2 * rval x))) -> silent d ->
  c_mul u (from_f64 k (flit 1 (-1))) = Ok pf -> rval y = rval (c_add d pf) -> trip x y.
Proof.
  intros Vx Vu Hi Hf [Vd Ed] Hm Ey.
  assert (F : is_float k -> rval y = Rmax (- / 2) (Rmin (/ 2) (rval x))).
  { intros Hk. destruct (half_weight k Hk) as [Vw Ew]. destruct (float_mul_valid k Hk _ _ Vu Vw) as (p & Hp & Vp & Ep).
    rewrite Hm in Hp. injection Hp as <-.
    assert (Fi : forall c : chan k, valid c -> fin c = true) by (destruct Hk as [-> | ->]; intros c Vc; apply Vc).
    rewrite Ey, (proj1 (float_ops_value k Hk _ _ (Fi _ Vd) (Fi _ Vp))), Ed, Rplus_0_l, Ep, Ew, (Hf Hk).
    pose proof (rval_in k x Hk) as Ix. rewrite (round_in k (IZR 2 * rval x) Hk) by now apply double_in.
    destruct (half_in k Hk) as [H1 H2].
    assert (Q : clampR (IZR 2 * rval x) * / 2 = Rmax (- / 2) (Rmin (/ 2) (rval x))).
    { unfold clampR, Rmax, Rmin. repeat destruct Rlt_dec; repeat destruct Rle_dec; lra. }
    rewrite Q. assert (I : in_k k (Rmax (- / 2) (Rmin (/ 2) (rval x)))).
    { unfold Rmax, Rmin. repeat destruct Rle_dec; assumption. }
    rewrite !(round_in k _ Hk I). unfold clampR, Rmax, Rmin. repeat destruct Rle_dec; repeat destruct Rlt_dec; lra. }
  destruct k.
  - rewrite (Hi (or_introl eq_refl)) in Hm. destruct (mul8_spec x (from_f64 K8 (flit 1 (-1)))) as (c & Hc & V). rewrite Hm in Hc. injection Hc as <-.
    cbn [rval trip] in *. apply eq_IZR in Ey, Ed. rewrite Ey, add8_spec, Ed, V.
    replace (sv (from_f64 K8 (flit 1 (-1)))) with 63%Z by (vm_compute; reflexivity).
    pose proof (i8_range x) as Rx. rewrite (Z.mul_comm (sv x)).
    pose proof (quot_small (sv x) _ 63 127 (-128) 127 ltac:(lia) ltac:(lia) ltac:(lia) Rx eq_refl).
    rewrite !clampZ_minmax by lia. lia.
  - rewrite (Hi (or_intror eq_refl)) in Hm. destruct (mul16_spec x (from_f64 K16 (flit 1 (-1)))) as (c & Hc & V). rewrite Hm in Hc. injection Hc as <-.
    cbn [rval trip] in *. apply eq_IZR in Ey, Ed. rewrite Ey, add16_spec, Ed, V.
    replace (sv (from_f64 K16 (flit 1 (-1)))) with 16383%Z by (vm_compute; reflexivity).
    pose proof (i16_range x) as Rx. rewrite (Z.mul_comm (sv x)).
    pose proof (quot_small (sv x) _ 16383 32767 (-32768) 32767 ltac:(lia) ltac:(lia) ltac:(lia) Rx eq_refl).
    rewrite !clampZ_minmax by lia. lia.
  - apply F. now left.
  - apply F. now right.
Qed.

(** ** Frames *)
Lemma mul_nth l k (f g p : frame l k) c x y : frame_mul f g = Ok p -> nth_error (channels f) c = Some x -> nth_error (channels g) c = Some y ->
  exists z, c_mul x y = Ok z /\ nth_error (channels p) c = Some z.
Proof.
  intros H Hx Hy. destruct (proj1 (proj2 (frame_ops_channelwise l k f g))) as (z & Hz & Z). rewrite H in Hz. injection Hz as <-. exact (Z c x y Hx Hy).
Qed.
Lemma trip_frame l k (f u out b : frame l k) more : frame_valid f -> frame_valid u -> scaled 2 f u ->
  more = [] \/ more = [(frame_default l k, flit 1 (-1))] ->
  weighted_sum (frame_default l k) (more ++ [(u, flit 1 (-1))]) out -> copied out b -> frame_trip f b.
Proof.
  intros Vf Vu [Si Sf] Hm W C c x y Hx Hy. pose proof (FrameProofs.nth_some _ _ _ _ _ Hx) as Hc.
  pose proof (copied_same _ _ _ _ (ws_valid _ _ _ _ _ W (frame_default_valid l k)) C) as Cs.
  destruct (nth_ex l k u c Hc) as (uc & Hu), (nth_ex l k (frame_default l k) c Hc) as (dc & Hd), (nth_ex l k out c Hc) as (oc & Ho).
  destruct (nth_ex l k (frame_from_f64 l k (flit 1 (-1))) c Hc) as (wc & Hw).
  pose proof (proj2 (proj2 (fsame_nth _ _ _ _ _ _ _ Cs Hy Ho))) as Ey.
  pose proof Hd as Hd'. apply nth_default in Hd'. subst dc.
  pose proof Hw as Hw'. rewrite frame_from_f64_all in Hw'. apply repeat_nth in Hw'. subst wc.
  assert (G : forall d0 : frame l k, forall dd pf, nth_error (channels d0) c = Some dd -> silent dd ->
    frame_mul u (frame_from_f64 l k (flit 1 (-1))) = Ok pf -> out = frame_add d0 pf -> trip x y).
  { intros d0 dd pf Hdd Sd Hpf ->. destruct (mul_nth _ _ _ _ _ _ _ _ Hpf Hu Hw) as (z & Hz & Hpz).
    pose proof (proj1 (proj1 (frame_ops_channelwise l k d0 pf) c dd z Hdd Hpz)) as Ha. rewrite Ho in Ha. injection Ha as ->.
    apply (trip_chan k x uc dd z y); auto.
    - exact (frame_valid_nth _ _ _ _ _ Vf Hx).
    - exact (frame_valid_nth _ _ _ _ _ Vu Hu).
    - intros Hk. specialize (Si Hk). subst u. congruence.
    - intros Hk. exact (Sf Hk Vf c x uc Hx Hu). }
  destruct Hm as [-> | ->].
  - apply ws_one in W as (p & Hp & ->). apply (G _ _ p Hd (default_silent k) Hp eq_refl).
  - apply ws_two in W as (p & q & Hp & Hq & ->). destruct (mul_nth _ _ _ _ _ _ _ _ Hp Hd Hw) as (z & Hz & Hpz).
    pose proof (proj1 (proj1 (frame_ops_channelwise l k (frame_default l k) p) c _ z Hd Hpz)) as Ha.
    apply (G _ _ q Ha (silent_step k z Hz) Hq eq_refl).
Qed.

Open Scope Z_scope.
Lemma up_down l k ls ks (s : stream ls ks) up back src r n all (fs : list (frame l k)) :
  sample_rate s = Some src -> whole_rate src r -> whole_rate up (2 * r) -> whole_rate back r -> 2 * r * Z.of_N n <= 2 ^ 53 ->
  honest s -> slen s = Some n -> allocatable l k (2 * Z.of_N n) -> yields s all -> converted all fs ->
  (is_float k -> Forall frame_valid fs) ->
  exists a b it it2, with_stream l k (S (N.to_nat n)) up s = Ok (a, it) /\
    with_stream l k (S (audio_len a)) back (audio_stream a) = Ok (b, it2) /\
    audio_sample_rate b = back /\ audio_len b = length fs /\
    (forall p f, nth_error fs p = Some f -> exists y, audio_get b p = Some y /\ frame_trip f y).
Proof.
  intros Hr Ws Wu Wb Hb Hh Hl A Y Cv Vd.
  destruct (with_stream_up l k ls ks s up src r 2 n all Hr Ws Wu ltac:(lia) ltac:(lia) Hb Hh Hl A Y) as (a & it & E & Ra & La & Ev & Od).
  assert (Lf : length fs = N.to_nat n).
  { rewrite (converted_length _ _ _ _ _ _ Cv). exact (yields_count _ _ _ _ _ Hh Hl Y). }
  assert (Va : Forall frame_valid (frames a)).
  { apply Forall_forall. intros g Hg. apply In_nth_error in Hg as (i & Hi). unfold with_stream in E.
    destruct (extend (S (N.to_nat n)) (with_frames up []) s) as [a' [it'|q|]] eqn:Ex; try discriminate. cbn [bind] in E. injection E as -> ->.
    exact (extend_valid _ _ _ _ _ _ _ _ _ Ex i g (Nat.le_0_l i) Hi). }
  destruct (with_stream_half l k l k (audio_stream a) back (audio_sample_rate a) r (N.of_nat (audio_len a)) (frames a) (frames a)) as (b & it2 & E2 & Rb & Lb & Pv & _).
  - reflexivity.
  - rewrite Ra. exact Wu.
  - exact Wb.
  - rewrite nat_N_Z, La. lia.
  - apply well_formed_honest; exact I.
  - reflexivity.
  - rewrite nat_N_Z, La. replace (2 * Z.of_N n + 1) with (1 + Z.of_N n * 2) by ring. rewrite Z.div_add by lia. change (1 / 2) with 0. unfold allocatable in *.
    assert (0 <= bytes_per_frame l k) by (unfold bytes_per_frame; destruct l, k; cbn; lia). pose proof (N2Z.is_nonneg n). nia.
  - apply audio_yields.
  - unfold converted. clear. induction (frames a); constructor; [apply convert_self|assumption].
  - intros _. exact Va.
  - rewrite nat_N_Z, La in Lb. rewrite Nat2N.id in E2.
    exists a, b, it, it2. split; [exact E|]. split; [exact E2|]. split; [exact Rb|]. split.
    { rewrite Lf. replace (2 * Z.of_N n + 1) with (1 + Z.of_N n * 2) in Lb by ring. rewrite Z.div_add in Lb by lia. change (1 / 2) with 0 in Lb. lia. }
    intros p f Hf. assert (Hp : (p < N.to_nat n)%nat) by (rewrite <- Lf; apply nth_error_Some; congruence).
    assert (exists x, nth_error all p = Some x) as (x & Hx).
    { destruct (nth_error all p) eqn:Q; [eauto|]. apply (converted_nth_none _ _ _ _ _ _ _ Cv) in Q. congruence. }
    destruct (converted_nth _ _ _ _ _ _ _ _ Cv Hx) as (f' & Hf' & Ef). rewrite Hf in Hf'. injection Hf' as <-.
    destruct (Ev p x Hx) as (f' & u & Ef' & Hu & Su). rewrite Ef in Ef'. injection Ef' as <-. change (Z.to_nat 2) with 2%nat in Hu.
    assert (Hz : audio_get a (2 * p + 1) = Some (frame_default l k)).
    { apply Od; [lia|]. replace (Z.of_nat (2 * p + 1)) with (1 + Z.of_nat p * 2) by lia. rewrite Z.mod_add by lia. cbn. lia. }
    destruct (Pv p u _ Hu Hz) as (out & y & W & Hy & C). exists y. split; [exact Hy|].
    assert (Vf : frame_valid f).
    { assert (D : is_int k \/ is_float k) by (unfold is_int, is_float; destruct k; auto). destruct D as [D|D]; [now apply int_frame_valid|].
      specialize (Vd D). rewrite Forall_forall in Vd. apply Vd. eapply nth_error_In. exact Hf. }
    assert (Vu : frame_valid u). { rewrite Forall_forall in Va. apply Va. eapply nth_error_In. exact Hu. }
    apply (trip_frame l k f u out y (before (frames a) p) Vf Vu Su); auto.
    destruct p as [|q]; [now left|]. right. cbn [before].
    assert (Hq : audio_get a (2 * q + 1) = Some (frame_default l k)).
    { apply Od; [lia|]. replace (Z.of_nat (2 * q + 1)) with (1 + Z.of_nat q * 2) by lia. rewrite Z.mod_add by lia. cbn. lia. }
    unfold audio_get in Hq. rewrite Hq. reflexivity.
Qed.

(** Halving and doubling: every other frame is silence. *)
Lemma down_up l k ls ks (s : stream ls ks) down back src r n all (fs : list (frame l k)) :
  sample_rate s = Some src -> whole_rate src (2 * r) -> whole_rate down r -> whole_rate back (2 * r) -> 2 * r * (Z.of_N n + 1) <= 2 ^ 53 ->
  honest s -> slen s = Some n -> allocatable l k (Z.of_N n + 1) -> yields s all -> converted all fs ->
  (is_float k -> Forall frame_valid fs) ->
  exists a b it it2, with_stream l k (S (N.to_nat n)) down s = Ok (a, it) /\
    with_stream l k (S (audio_len a)) back (audio_stream a) = Ok (b, it2) /\
    audio_sample_rate b = back /\ Z.of_nat (audio_len b) = 2 * ((Z.of_N n + 1) / 2) /\
    (forall p, (2 * p + 1 < audio_len b)%nat -> audio_get b (2 * p + 1) = Some (frame_default l k)).
Proof.
  intros Hr Ws Wd Wb Hb Hh Hl A Y Cv Vd. pose proof (N2Z.is_nonneg n) as Hn.
  assert (Br : 0 < r) by apply Wd.
  assert (Bb : 0 <= bytes_per_frame l k) by (unfold bytes_per_frame; destruct l, k; cbn; lia).
  pose proof (Z.mul_div_le (Z.of_N n + 1) 2 ltac:(lia)) as D2. pose proof (Z.div_pos (Z.of_N n + 1) 2 ltac:(lia) ltac:(lia)) as D0.
  unfold allocatable in A.
  destruct (with_stream_half l k ls ks s down src r n all fs Hr Ws Wd ltac:(nia) Hh Hl ltac:(unfold allocatable; nia) Y Cv Vd) as (a & it & E & Ra & La & _).
  assert (W2 : whole_rate (audio_sample_rate a) r) by now rewrite Ra.
  assert (B2 : 2 * r * Z.of_N (N.of_nat (audio_len a)) <= 2 ^ 53) by (rewrite nat_N_Z, La; nia).
  assert (A2 : allocatable l k (2 * Z.of_N (N.of_nat (audio_len a)))) by (unfold allocatable; rewrite nat_N_Z, La; nia).
  assert (H2 : honest (audio_stream a)) by (apply well_formed_honest; exact I).
  destruct (with_stream_up l k l k (audio_stream a) back (audio_sample_rate a) r 2 (N.of_nat (audio_len a)) (frames a)
    eq_refl W2 Wb ltac:(lia) ltac:(lia) B2 H2 eq_refl A2 (audio_yields _ _ _ _)) as (b & it2 & E2 & Rb & Lb & _ & Od).
  rewrite Nat2N.id in E2. rewrite nat_N_Z, La in Lb. exists a, b, it, it2.
    split; [exact E|]. split; [exact E2|]. split; [exact Rb|]. split; [exact Lb|]. intros p Hp. apply Od; [exact Hp|].
    replace (Z.of_nat (2 * p + 1)) with (1 + Z.of_nat p * 2) by lia. rewrite Z.mod_add by lia. cbn. lia.
Qed.

Lemma list_nth_all {A} (xs ys : list A) : length xs = length ys -> (forall p, (p < length xs)%nat -> nth_error xs p = nth_error ys p) -> xs = ys.
Proof.
  revert ys. induction xs as [|x xs IH]; intros [|y ys] L H; cbn in L; try discriminate; [reflexivity|].
  pose proof (H 0%nat ltac:(cbn; lia)) as E. cbn in E. injection E as ->. f_equal. apply IH; [lia|].
  intros p Hp. exact (H (S p) ltac:(cbn; lia)).
Qed.
(** Raising the rate in two steps is raising it in one, in integer formats. *)
Lemma up_up l k ls ks (s : stream ls ks) mid top src r m1 m2 n all : is_int k ->
  sample_rate s = Some src -> whole_rate src r -> whole_rate mid (m1 * r) -> whole_rate top (m2 * (m1 * r)) -> 1 <= m1 -> 1 <= m2 ->
  m2 * (m1 * r) * Z.of_N n * m1 <= 2 ^ 53 -> honest s -> slen s = Some n -> allocatable l k (m2 * m1 * Z.of_N n) -> yields s all ->
  exists a b it it2 it3, with_stream l k (S (N.to_nat n)) mid s = Ok (a, it) /\
    with_stream l k (S (audio_len a)) top (audio_stream a) = Ok (b, it2) /\ with_stream l k (S (N.to_nat n)) top s = Ok (b, it3).
Proof.
  intros Hk Hr Ws Wm Wt H1 H2 Hb Hh Hl A Y. pose proof (N2Z.is_nonneg n) as Hn.
  assert (Br : 0 < r) by apply Ws.
  assert (Bb : 0 <= bytes_per_frame l k) by (unfold bytes_per_frame; destruct l, k; cbn; lia). unfold allocatable in A.
  assert (Ki : k = K32 -> False) by (intros ->; destruct Hk; discriminate).
  assert (B0 : 0 <= m1 * r * Z.of_N n) by nia.
  assert (B1 : m1 * r * Z.of_N n <= 2 ^ 53) by nia.
  assert (B2 : m2 * (m1 * r) * Z.of_N n <= 2 ^ 53) by nia.
  assert (A1 : m1 * Z.of_N n * bytes_per_frame l k <= 2 ^ 63 - 1) by nia.
  destruct (with_stream_up l k ls ks s mid src r m1 n all Hr Ws Wm H1 ltac:(tauto) B1 Hh Hl A1 Y) as (a & it & E & Ra & La & Ev & Od).
  assert (W1 : whole_rate (audio_sample_rate a) (m1 * r)) by now rewrite Ra.
  assert (B3 : m2 * (m1 * r) * Z.of_N (N.of_nat (audio_len a)) <= 2 ^ 53) by (rewrite nat_N_Z, La; nia).
  assert (A2 : allocatable l k (m2 * Z.of_N (N.of_nat (audio_len a)))) by (unfold allocatable; rewrite nat_N_Z, La; nia).
  assert (Hh2 : honest (audio_stream a)) by (apply well_formed_honest; exact I).
  destruct (with_stream_up l k l k (audio_stream a) top (audio_sample_rate a) (m1 * r) m2 (N.of_nat (audio_len a)) (frames a)
    eq_refl W1 Wt H2 ltac:(tauto) B3 Hh2 eq_refl A2 (audio_yields _ _ _ _)) as (b & it2 & E2 & Rb & Lb & Ev2 & Od2).
  assert (Wt' : whole_rate top (m2 * m1 * r)) by (now rewrite <- Z.mul_assoc).
    destruct (with_stream_up l k ls ks s top src r (m2 * m1) n all Hr Ws Wt' ltac:(nia) ltac:(tauto) ltac:(nia) Hh Hl A Y) as (c & it3 & E3 & Rc & Lc & Ev3 & Od3).
    rewrite Nat2N.id in E2. rewrite nat_N_Z, La in Lb.
    assert (Q : c = b); [|subst c; now exists a, b, it, it2, it3].
    destruct c as [rc fc], b as [rb fb]. unfold audio_sample_rate, audio_len, audio_get in *. cbn [s_rate frames] in *. subst rc rb. f_equal.
    apply list_nth_all; [nia|]. intros p Hp.
    assert (Iz : forall m, 1 <= m -> forall q, Z.of_nat q mod m = 0 -> exists t, q = (Z.to_nat m * t)%nat).
    { intros m Hm q Hq. apply Z.mod_divide in Hq; [|lia]. destruct Hq as (t & Ht). exists (Z.to_nat t). nia. }
    destruct (Z.eq_dec (Z.of_nat p mod m2) 0) as [M2|M2].
    + destruct (Iz m2 H2 p M2) as (q & ->).
      assert (Lq : (q < length (frames a))%nat) by nia.
      destruct (nth_error (frames a) q) as [g|] eqn:Eg; [|apply nth_error_None in Eg; lia].
      destruct (Ev2 q g Eg) as (g' & y & Cg & Hy & [Sy _]). rewrite convert_self in Cg. injection Cg as <-. rewrite (Sy Hk) in Hy. rewrite Hy.
      destruct (Z.eq_dec (Z.of_nat q mod m1) 0) as [M1|M1].
      * destruct (Iz m1 H1 q M1) as (i & ->).
        destruct (nth_error all i) as [x|] eqn:Ex.
        2: { exfalso. apply nth_error_None in Ex. pose proof (yields_count _ _ _ _ _ Hh Hl Y). nia. }
        destruct (Ev i x Ex) as (f & u & Cf & Hu & [Su _]), (Ev3 i x Ex) as (f3 & u3 & Cf3 & Hu3 & [Su3 _]).
        rewrite Eg in Hu. injection Hu as <-. rewrite Cf in Cf3. injection Cf3 as <-. rewrite (Su Hk), (Su3 Hk) in *.
        replace (Z.to_nat (m2 * m1) * i)%nat with (Z.to_nat m2 * (Z.to_nat m1 * i))%nat in Hu3 by (rewrite Z2Nat.inj_mul by lia; ring). exact Hu3.
      * rewrite (Od q Lq M1) in Eg. injection Eg as <-. apply Od3; [nia|]. intros D. apply M1.
        apply Z.mod_divide in D; [|nia]. destruct D as (t & Ht). apply Z.mod_divide; [lia|]. exists t. nia.
    + rewrite (Od2 p ltac:(nia) M2). apply Od3; [exact Hp|]. intros D. apply M2.
      apply Z.mod_divide in D; [|nia]. destruct D as (t & Ht). apply Z.mod_divide; [lia|]. exists (m1 * t). nia.
Qed.
