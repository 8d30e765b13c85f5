(** * RoundTripProofs.v -- buffers survive a trip through a wider format (C60) *)
From Coq Require Import ZArith NArith Reals List Lia Bool Lra.
From Flocq Require Import Core.Core IEEE754.BinarySingleNaN.
From Verif Require Import Rust Float Math Chan Frame Ops Stream Audio Heap SpecChan SpecFrame SpecStream SpecSink SpecAudio SpecMore.
From Verif Require Import IntProofs FloatProofs FloorProofs ConvProofs FArithProofs ChanProofs FChanProofs FrameProofs StreamProofs SinkProofs AudioProofs ResampleProofs PanicProofs.
Import ListNotations.
Open Scope R_scope.

Lemma fromf_near M c lo hi (x : f64) : (3 <= M <= 65535)%Z -> (- (M + 1) <= 2 * c <= M - 1)%Z ->
  (lo <= 0 <= hi)%Z -> (lo <= c <= hi)%Z -> in_range x ->
  Rabs (B2R x - IZR (2 * c + 1) / IZR M) <= 3 / 16777216 ->
  fromf 53 1024 M lo hi eps64 x = c.
Proof.
  intros HM Hc Hlh Hlc Hr T. destruct eps64_small as [Es1 Es2].
  rewrite (fromf_correct 53 1024 ltac:(lia) ltac:(lia)) by (auto; apply eps64_correct).
  destruct (scale_correct 53 1024 ltac:(lia) ltac:(lia) M _ HM Hr) as (S1 & S2 & S3 & S4).
  rewrite S2 in S4. pose proof (bpow_prec_small 53 ltac:(lia)) as Hu. set (u := bpow radix2 (- (53))) in *.
  apply Rabs_le_inv in T. apply Rabs_le_inv in S4.
  assert (HMr : 3 <= IZR M <= 65535) by (split; apply IZR_le; lia).
  set (t := B2R x) in *. set (y := round_to 53 1024 (t * (IZR M / 2))) in *.
  assert (Hv : IZR (2 * c + 1) / IZR M * (IZR M / 2) = IZR c + / 2).
  { rewrite plus_IZR, mult_IZR. field. lra. }
  set (v := IZR (2 * c + 1) / IZR M) in *.
  assert (Ht : Rabs ((t - v) * (IZR M / 2)) <= 3 / 16777216 * 32768).
  { rewrite Rabs_mult. apply Rmult_le_compat; try apply Rabs_pos.
    - apply Rabs_le. lra.
    - rewrite Rabs_pos_eq; lra. }
  apply Rabs_le_inv in Ht.
  rewrite (floor_eps_unique _ _ c).
  - lia.
  - lra.
  - replace (t * (IZR M / 2)) with ((t - v) * (IZR M / 2) + (IZR c + / 2)) in S4 by (rewrite <- Hv; ring).
    lra.
Qed.

(** Through an f32. *)
Lemma via32 (x : f64) : in_range x -> in_range (f64_as_f32 x) /\ in_range (f32_as_f64 (f64_as_f32 x)) /\
  B2R (f64_as_f32 x) = round32 (B2R x) /\ B2R (f32_as_f64 (f64_as_f32 x)) = round32 (B2R x).
Proof.
  intros [F B]. assert (A : Rabs (B2R x) <= 1) by (apply Rabs_le; lra).
  assert (A2 : Rabs (round32 (B2R x)) <= 1) by (apply (rnd_abs_le 24 128); [exact (fmt_1 24 128)|exact A]).
  destruct (fconv_correct 53 1024 24 128 x F) as (E1 & E2 & _).
  { apply Rle_lt_trans with (1 := A2). exact (one_lt_emax 24 128). }
  change (f64_as_f32 x) with (fconv x : f32).
  destruct (f32_as_f64_exact (fconv x) E2) as (G1 & G2 & _).
  unfold round32. rewrite G1, E1. unfold in_range. rewrite G1, E1. apply Rabs_le_inv in A2. auto.
Qed.
Lemma via32_error (x : f64) : in_range x -> Rabs (B2R (f32_as_f64 (f64_as_f32 x)) - B2R x) <= / 33554432.
Proof.
  intros H. destruct (via32 x H) as (_ & _ & _ & ->). destruct H as [_ B].
  change (/ 33554432) with (bpow radix2 (0 - 24 - 1)). apply (rnd_error 24 128); [|lia].
  change (bpow radix2 0) with 1. apply Rabs_le. lra.
Qed.

(** ** One channel there and back *)
Lemma there_back k1 k2 (c : chan k1) : holds k1 k2 -> valid c -> from_f64 k1 (to_f64 (from_f64 k2 (to_f64 c))) = c.
Proof.
  intros H V. destruct k1, k2; try elim H; try (rewrite self_conv; apply self_conv); try exact (self_conv _ c).
  - (* 8 -> 16 *)
    assert (All : forallb (fun n => sv (from_f64 K8 (to_f64 (from_f64 K16 (to_f64 (as_sint W8 (Z.of_nat n - 128) : chan K8))))) =? (Z.of_nat n - 128))%Z (seq 0 256) = true)
      by (vm_compute; reflexivity).
    rewrite forallb_forall in All. pose proof (i8_range c) as Rc. specialize (All (Z.to_nat (sv c + 128))).
    rewrite in_seq in All. specialize (All ltac:(lia)). replace (Z.of_nat (Z.to_nat (sv c + 128)) - 128)%Z with (sv c) in All by lia.
    assert (Ec : (as_sint W8 (sv c) : chan K8) = c) by (apply sint_eq; now apply sv_as8). rewrite Ec in All.
    apply sint_eq. now apply Z.eqb_eq.
  - (* 8 -> 32 *)
    pose proof (i8_range c) as Rc. pose proof (to64_8_range c) as Hr.
    destruct (via32 _ Hr) as (_ & Hr2 & _). pose proof (via32_error _ Hr) as E.
    cbn [from_f64 to_f64]. unfold ch8_from_f64, ch32_to_f64, ch32_from_f64, ch8_to_f64. rewrite new64_id by exact Hr2.
    apply sint_eq. rewrite from64_8. rewrite (fromf_near 255 (sv c)); [now apply sv_as8|lia|lia|lia|lia|exact Hr2|].
    destruct (tof_correct 53 1024 ltac:(lia) ltac:(lia) 255 (sv c) ltac:(lia) ltac:(lia)) as [_ T]. rewrite <- to64_8 in T.
    change (bpow radix2 (- (53))) with (/ 9007199254740992) in T. apply Rabs_le_inv in T. apply Rabs_le_inv in E. apply Rabs_le. lra.
  - (* 16 -> 32 *)
    pose proof (i16_range c) as Rc. pose proof (to64_16_range c) as Hr.
    destruct (via32 _ Hr) as (_ & Hr2 & _). pose proof (via32_error _ Hr) as E.
    cbn [from_f64 to_f64]. unfold ch16_from_f64, ch32_to_f64, ch32_from_f64, ch16_to_f64. rewrite new64_id by exact Hr2.
    apply sint_eq. rewrite from64_16. rewrite (fromf_near 65535 (sv c)); [now apply sv_as16|lia|lia|lia|lia|exact Hr2|].
    destruct (tof_correct 53 1024 ltac:(lia) ltac:(lia) 65535 (sv c) ltac:(lia) ltac:(lia)) as [_ T]. rewrite <- to64_16 in T.
    change (bpow radix2 (- (53))) with (/ 9007199254740992) in T. apply Rabs_le_inv in T. apply Rabs_le_inv in E. apply Rabs_le. lra.
Qed.

(** ** The same sample up to the sign of zero *)
Definition same {k} (x y : chan k) : Prop := valid x /\ valid y /\ rval x = rval y.
Lemma same_refl k (x : chan k) : valid x -> same x x. Proof. intros V. split; [exact V|]. split; [exact V|reflexivity]. Qed.
Lemma same_trans k (x y z : chan k) : same x y -> same y z -> same x z.
Proof. intros (A & _ & B) (_ & C & D). split; [exact A|]. split; [exact C|congruence]. Qed.
Lemma same_int k (x y : chan k) : is_int k -> same x y -> x = y.
Proof. intros [->| ->] (_ & _ & E); apply sint_eq; apply eq_IZR; exact E. Qed.
Lemma same_eqb k (x y : chan k) : same x y -> c_eqb x y = true.
Proof.
  intros (A & B & E). destruct k; cbn in *.
  - apply Z.eqb_eq. now apply eq_IZR.
  - apply Z.eqb_eq. now apply eq_IZR.
  - apply (feq_correct 24 128); [apply A|apply B|exact E].
  - apply (feq_correct 53 1024); [apply A|apply B|exact E].
Qed.
Lemma feq_finite prec emax {Hp : FLX.Prec_gt_0 prec} {He : Prec_lt_emax prec emax} (x y : binary_float prec emax) :
  feq x y = true -> is_finite y = true -> is_finite x = true.
Proof. destruct x as [s|s| |s m e H], y as [s'|s'| |s' m' e' H']; cbn; try discriminate; try reflexivity; destruct s; discriminate. Qed.
Lemma eqb_same k (x y : chan k) : c_eqb x y = true -> valid y -> same x y.
Proof.
  intros E V. destruct k; cbn in E.
  - apply Z.eqb_eq in E. split; [exact I|]. split; [exact I|]. cbn. now rewrite E.
  - apply Z.eqb_eq in E. split; [exact I|]. split; [exact I|]. cbn. now rewrite E.
  - pose proof (feq_finite 24 128 _ _ E (proj1 V)) as F. apply (feq_correct 24 128) in E; [|exact F|apply V].
    split; [|split; [exact V|exact E]]. split; [exact F|]. rewrite E. apply V.
  - pose proof (feq_finite 53 1024 _ _ E (proj1 V)) as F. apply (feq_correct 53 1024) in E; [|exact F|apply V].
    split; [|split; [exact V|exact E]]. split; [exact F|]. rewrite E. apply V.
Qed.
Lemma to_f64_same k (x y : chan k) : same x y -> in_range (to_f64 x) /\ in_range (to_f64 y) /\ B2R (to_f64 x) = B2R (to_f64 y).
Proof.
  intros (A & B & E). split; [now apply to_f64_range|]. split; [now apply to_f64_range|].
  destruct k; cbn in *.
  - assert (x = y) by (apply sint_eq; now apply eq_IZR). now subst.
  - assert (x = y) by (apply sint_eq; now apply eq_IZR). now subst.
  - unfold ch32_to_f64. destruct (f32_as_f64_exact x (proj1 A)) as (-> & _). destruct (f32_as_f64_exact y (proj1 B)) as (-> & _). exact E.
  - exact E.
Qed.
Lemma from_f64_same k (u v : f64) : in_range u -> in_range v -> B2R u = B2R v -> same (from_f64 k u) (from_f64 k v).
Proof.
  intros A B E. 
  assert (Va : forall w, in_range w -> valid (from_f64 k w)).
  { intros w Hw. destruct k; try exact I; [exact (proj1 (via32 w Hw))|exact Hw]. }
  split; [now apply Va|]. split; [now apply Va|].
  destruct (Req_dec (B2R u) 0) as [Z|NZ].
  2:{ now rewrite (finite_eq 53 1024 u v (proj1 A) (proj1 B) E NZ). }
  assert (Zu : forall w : f64, is_finite w = true -> B2R w = 0 -> exists s, w = B754_zero s).
  { intros [s|s| |s m e H] F W; try discriminate; [now exists s|]. cbn in W. apply eq_0_F2R in W. destruct s; discriminate. }
  destruct (Zu u (proj1 A) Z) as (s & ->). destruct (Zu v (proj1 B)) as (s' & ->); [congruence|].
  destruct k, s, s'; try reflexivity; vm_compute; reflexivity.
Qed.
Lemma avg_same (a b c d : f64) : in_range a -> in_range b -> in_range c -> in_range d -> B2R a = B2R c -> B2R b = B2R d ->
  in_range (average a b) /\ in_range (average c d) /\ B2R (average a b) = B2R (average c d).
Proof.
  intros A B C D E F. destruct (avg_correct a b A B) as [G1 G2], (avg_correct c d C D) as [H1 H2].
  rewrite G2, H2, E, F. auto.
Qed.

(** ** Frames *)
Definition fsame {l k} (f g : frame l k) : Prop := Forall2 same (channels f) (channels g).
Lemma fsame_nth l k (f g : frame l k) i x y : fsame f g -> nth_error (channels f) i = Some x -> nth_error (channels g) i = Some y -> same x y.
Proof. unfold fsame. intros H. revert i. induction H; intros [|i] Hx Hy; cbn in *; try discriminate; [congruence|eauto]. Qed.
Lemma convert_same l1 k1 l2 k2 (f g : frame l1 k1) f' g' : fsame f g -> convert l2 k2 f = Ok f' -> convert l2 k2 g = Ok g' -> fsame f' g'.
Proof.
  intros H Cf Cg. destruct (convert_map l1 k1 l2 k2 f) as (f2 & E1 & M1). destruct (convert_map l1 k1 l2 k2 g) as (g2 & E2 & M2).
  assert (f2 = f') by congruence. assert (g2 = g') by congruence. subst f2 g2. unfold fsame.
  revert M1 M2. generalize (channels f') (channels g') (channel_map l1 l2). intros xs ys m M1. revert ys.
  induction M1 as [|s x m xs Sx M1 IH]; intros ys M2; inversion M2 as [|s' y m' ys' Sy M2' ]; subst; constructor; [|now apply IH].
  destruct s as [|i|i j]; cbn in Sx, Sy.
  - subst. apply same_refl. rewrite MID_default. apply default_valid.
  - destruct Sx as (a & Ha & ->), Sy as (b & Hb & ->). destruct (to_f64_same _ _ _ (fsame_nth _ _ _ _ _ _ _ H Ha Hb)) as (A & B & C). now apply from_f64_same.
  - destruct Sx as (a & c & Ha & Hc & ->), Sy as (b & d & Hb & Hd & ->).
    destruct (to_f64_same _ _ _ (fsame_nth _ _ _ _ _ _ _ H Ha Hb)) as (A1 & A2 & A3).
    destruct (to_f64_same _ _ _ (fsame_nth _ _ _ _ _ _ _ H Hc Hd)) as (B1 & B2 & B3).
    destruct (avg_same _ _ _ _ A1 B1 A2 B2 A3 B3) as (C1 & C2 & C3). now apply from_f64_same.
Qed.
Lemma fsame_refl l k (f : frame l k) : frame_valid f -> fsame f f.
Proof. unfold frame_valid, fsame. induction 1; constructor; [now apply same_refl|assumption]. Qed.
Lemma fsame_trans l k (f g h : frame l k) : fsame f g -> fsame g h -> fsame f h.
Proof.
  unfold fsame. generalize (channels f) (channels g) (channels h). intros xs ys zs H. revert zs.
  induction H; intros zs G; inversion G; subst; constructor; eauto using same_trans.
Qed.
Lemma fsame_valid l k (f g : frame l k) : fsame f g -> frame_valid f /\ frame_valid g.
Proof. unfold frame_valid, fsame. induction 1 as [|x y xs ys (A & B & _) _ [IH1 IH2]]; split; constructor; assumption. Qed.
Lemma copied_same l k (f b : frame l k) : frame_valid f -> copied f b -> fsame b f.
Proof.
  intros V [_ C]. specialize (C V). unfold frame_valid, frame_eqv, fsame in *. revert V C. generalize (channels f) (channels b).
  intros xs ys V C. induction C; inversion V; subst; constructor; auto using eqb_same.
Qed.
Lemma fsame_end l k (f g : frame l k) : fsame f g -> frame_eqv f g /\ (is_int k -> f = g).
Proof.
  intros H. split.
  - unfold fsame, frame_eqv in *. induction H; constructor; auto using same_eqb.
  - intros Hi. apply frame_ext. unfold fsame in H. induction H; [reflexivity|]. f_equal; auto using same_int.
Qed.
Lemma frames_there_back l1 k1 l2 k2 (f : frame l1 k1) : holds k1 k2 -> (nchan l1 <= nchan l2)%nat -> frame_valid f ->
  exists g, convert l2 k2 f = Ok g /\ frame_valid g /\ convert l1 k1 g = Ok f.
Proof.
  intros Hk Hl Hv. destruct (StreamProofs.convert_total l1 k1 l2 k2 f) as (g & Eg). exists g. split; [exact Eg|].
  split; [exact (proj1 (fsame_valid _ _ _ _ (convert_same _ _ _ _ _ _ _ _ (fsame_refl _ _ f Hv) Eg Eg)))|].
  revert g Eg.
  destruct l1, l2; cbn in Hl; try lia; frame_cases f;
    unfold frame_valid in Hv; cbn [channels nchan vlist fst snd] in Hv;
    repeat match goal with H : Forall _ (_ :: _) |- _ => inversion H; clear H; subst end;
    conv_simpl; intros g Eg; injection Eg as <-; conv_simpl; rewrite ?there_back by assumption; try reflexivity;
    change (fmul (fadd ?x ?y) (flit 1 (-1))) with (average x y);
    rewrite ?avg_self by (apply to_f64_range; destruct k2; try exact I; [exact (proj1 (via32 _ (to_f64_range _ _ ltac:(eassumption))))|now apply to_f64_range]);
    rewrite ?there_back by assumption; reflexivity.
Qed.

Open Scope Z_scope.

(** ** Buffers *)
Lemma with_stream_whole l k l1 k1 (a : audio l1 k1) rate z :
  s_rate a = rate -> whole_rate rate z -> z * Z.of_nat (audio_len a) <= 2 ^ 53 -> allocatable l k (Z.of_nat (audio_len a)) ->
  exists b it, with_stream l k (S (audio_len a)) rate (audio_stream a) = Ok (b, it) /\ s_rate b = rate /\ audio_len b = audio_len a /\
    (forall i x, audio_get a i = Some x -> exists f y, convert l k x = Ok f /\ audio_get b i = Some y /\ copied f y).
Proof.
  intros Er W Hb A. pose proof W as (W2 & W1 & W3).
  destruct (with_stream_equal l k l1 k1 (audio_stream a) rate (N.of_nat (audio_len a)) (frames a)) as (b & it & E & R & L & V & _).
  - cbn [audio_stream sample_rate]. rewrite Er. split; [exact W2|]. split; [|reflexivity]. rewrite W1. apply IZR_neq. lia.
  - apply well_formed_honest; exact I.
  - reflexivity.
  - nia.
  - cbn [audio_stream sample_rate]. rewrite Er, (frames_for_whole rate z) by (try assumption; lia). now rewrite nat_N_Z.
  - apply audio_yields.
  - rewrite Nat2N.id in E. cbn [audio_stream sample_rate] in L. rewrite Er, (frames_for_whole rate z) in L by (try assumption; lia).
    exists b, it. split; [exact E|]. split; [exact R|]. split; [lia|]. intros i x Hx. apply (V i x); [|exact Hx].
    apply (f_equal (fun o => o)) in Hx. unfold audio_get in Hx. assert (i < length (frames a))%nat by (apply nth_error_Some; congruence).
    unfold audio_len in L |- *. lia.
Qed.

Lemma strict_nonzero (x : f64) : is_finite_strict x = true -> B2R x <> 0%R.
Proof.
  destruct x as [| | |b m e H]; try discriminate. intros _ Z0. cbn in Z0. apply (eq_0_F2R radix2) in Z0. destruct b; discriminate Z0.
Qed.
(** Equal fractional rates can add a frame: 3 frames at 44100000/1001 Hz. *)
Lemma pulldown_lengthens l k l1 k1 (a : audio l1 k1) :
  audio_sample_rate a = fdiv (flit 44100000 0) (flit 1001 0) -> audio_len a = 3%nat ->
  exists b it, with_stream l k 4 (audio_sample_rate a) (audio_stream a) = Ok (b, it) /\ audio_len b = 4%nat /\
    audio_get b 3 = Some (frame_default l k).
Proof.
  intros Er El. set (rate := audio_sample_rate a) in *.
  assert (Fr : is_finite rate = true) by (rewrite Er; vm_compute; reflexivity).
  assert (Ef : frames_for rate (Some rate) (N.of_nat (audio_len a)) = 4%Z) by (rewrite El, Er; exact pulldown_length).
  destruct (with_stream_equal l k l1 k1 (audio_stream a) rate (N.of_nat (audio_len a)) (frames a)) as (b & it & E & _ & L & _ & D).
  - cbn [audio_stream sample_rate]. split; [exact Fr|]. split; [|reflexivity].
    apply strict_nonzero. change (s_rate a) with rate. rewrite Er. vm_compute. reflexivity.
  - apply well_formed_honest; exact I.
  - reflexivity.
  - rewrite El. cbn. lia.
  - change (allocatable l k (frames_for rate (Some rate) (N.of_nat (audio_len a)))). rewrite Ef.
    unfold allocatable, bytes_per_frame. destruct l, k; cbn; lia.
  - apply audio_yields.
  - change (Z.of_nat (audio_len b) = frames_for rate (Some rate) (N.of_nat (audio_len a))) in L. rewrite Ef in L. rewrite El in E.
    exists b, it. split; [exact E|]. split; [lia|]. apply D. unfold audio_len in El, L |- *. lia.
Qed.
Lemma buffer_there_back l1 k1 l2 k2 (a : audio l1 k1) rate z :
  holds k1 k2 -> (nchan l1 <= nchan l2)%nat -> Forall frame_valid (frames a) ->
  audio_sample_rate a = rate -> whole_rate rate z -> z * Z.of_nat (audio_len a) <= 2 ^ 53 ->
  allocatable l1 k1 (Z.of_nat (audio_len a)) -> allocatable l2 k2 (Z.of_nat (audio_len a)) ->
  exists b c it1 it2, with_stream l2 k2 (S (audio_len a)) rate (audio_stream a) = Ok (b, it1) /\
    with_stream l1 k1 (S (audio_len a)) rate (audio_stream b) = Ok (c, it2) /\
    audio_sample_rate c = rate /\ audio_len c = audio_len a /\
    Forall2 frame_eqv (frames c) (frames a) /\ (is_int k1 -> c = a).
Proof.
  intros Hk Hl V Er W Hb A1 A2.
  destruct (with_stream_whole l2 k2 l1 k1 a rate z Er W Hb A2) as (b & it1 & E1 & R1 & L1 & V1).
  assert (Hb' := Hb). assert (A1' := A1). rewrite <- L1 in Hb', A1'.
  destruct (with_stream_whole l1 k1 l2 k2 b rate z R1 W Hb' A1') as (c & it2 & E2 & R2 & L2 & V2).
  rewrite L1 in E2, L2.
  assert (S : Forall2 fsame (frames c) (frames a)).
  { unfold audio_len in L2. unfold audio_get in V1, V2.
    assert (H : forall i x y, nth_error (frames a) i = Some x -> nth_error (frames c) i = Some y -> fsame y x).
    { intros i x y Hx Hy. assert (Vx : frame_valid x) by (rewrite Forall_forall in V; apply V; eapply nth_error_In; eassumption).
      destruct (V1 i x Hx) as (f & g & Cf & Hg & Cg). destruct (V2 i g Hg) as (h & y' & Ch & Hy' & Cy). rewrite Hy in Hy'. injection Hy' as <-.
      destruct (frames_there_back l1 k1 l2 k2 x Hk Hl Vx) as (f' & Cf' & Vf & Back). rewrite Cf in Cf'. injection Cf' as <-.
      pose proof (copied_same _ _ _ _ Vf Cg) as S1. pose proof (convert_same _ _ _ _ _ _ _ _ S1 Ch Back) as S2.
      destruct (fsame_valid _ _ _ _ S2) as [Vh _]. exact (fsame_trans _ _ _ _ _ (copied_same _ _ _ _ Vh Cy) S2). }
    clear - H L2. revert H L2. generalize (frames a) (frames c). intros xs ys. revert ys.
    induction xs as [|x xs IH]; intros [|y ys] H L; cbn in L; try discriminate; constructor.
    - exact (H 0%nat x y eq_refl eq_refl).
    - apply IH; [|lia]. intros i u v. exact (H (Datatypes.S i) u v). }
  exists b, c, it1, it2. split; [exact E1|]. split; [exact E2|]. split; [exact R2|]. split; [exact L2|]. split.
  - clear - S. induction S; constructor; [now apply fsame_end|assumption].
  - intros Hi. destruct c as [rc fc], a as [ra fa]. unfold audio_sample_rate in Er. cbn [frames s_rate] in *. f_equal; [congruence|].
    clear - S Hi. induction S; [reflexivity|]. f_equal; [now apply fsame_end|assumption].
Qed.
