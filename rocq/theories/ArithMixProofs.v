(** * ArithMixProofs.v -- mixing buffers and converting them, in both orders (C88) *)
From Coq Require Import ZArith NArith Reals List Lia Bool Lra.
From Flocq Require Import Core.Core IEEE754.BinarySingleNaN.
From Verif Require Import Rust Float Math Chan Frame Ops Stream Audio SpecChan SpecFrame SpecStream SpecSink SpecAudio SpecLaw SpecMix SpecFade SpecArith.
From Verif Require Import FloatProofs FArithProofs FrameProofs StreamProofs StreamMore LawProofs AudioProofs ResampleProofs RoundTripProofs RelProofs RangeProofs MixedProofs MixProofs FadeProofs SuperProofs ArithProofs.
Import ListNotations.
Open Scope R_scope.

Lemma feq_fin prec emax {Hp : FLX.Prec_gt_0 prec} {He : Prec_lt_emax prec emax} (x y : binary_float prec emax) : is_finite y = true -> feq x y = true -> is_finite x = true.
Proof. destruct x as [s|s| |s m e H], y as [t|t| |t m' e' H']; try reflexivity; try discriminate; intros _; destruct s; try destruct t; discriminate. Qed.
Lemma eqb_amp k (a b : chan k) : valid b -> c_eqb a b = true -> amplitude a = amplitude b.
Proof.
  intros Vb E. destruct k; cbn [c_eqb amplitude] in *.
  - apply Z.eqb_eq in E. now rewrite E.
  - apply Z.eqb_eq in E. now rewrite E.
  - now apply (feq_correct 24 128 a b (feq_fin 24 128 _ _ (proj1 Vb) E) (proj1 Vb)).
  - now apply (feq_correct 53 1024 a b (feq_fin 53 1024 _ _ (proj1 Vb) E) (proj1 Vb)).
Qed.
Lemma F2_nth {A B} (P : A -> B -> Prop) xs ys i y : Forall2 P xs ys -> nth_error ys i = Some y -> exists x, nth_error xs i = Some x /\ P x y.
Proof. intros F. revert i; induction F; intros [|i] E; cbn in *; try discriminate; [injection E as <-; eauto|eauto]. Qed.
Lemma F2_nth_l {A B} (P : A -> B -> Prop) xs ys i x : Forall2 P xs ys -> nth_error xs i = Some x -> exists y, nth_error ys i = Some y /\ P x y.
Proof. intros F. revert i; induction F; intros [|i] E; cbn in *; try discriminate; [injection E as <-; eauto|eauto]. Qed.

(** One stream converted at its own rate. *)
Lemma converted_given l k k2 (s : stream l k) rate z n : whole_rate rate z -> sample_rate s = Some rate -> honest s -> slen s = Some n ->
  (z * Z.of_N n <= 2 ^ 53)%Z -> allocatable l k2 (Z.of_N n) -> (forall i j c, given s i j c -> valid c) ->
  exists m it, with_stream l k2 (S (N.to_nat n)) rate s = Ok (m, it) /\ s_rate m = rate /\ audio_len m = N.to_nat n /\
    forall i j d, given (audio_stream m) i j d -> exists c, given s i j c /\ valid c /\ valid d /\ amplitude d = amplitude (to_kind ByFrame k2 c).
Proof.
  intros W Sr Hs Sl Z A V. pose proof Hs as Hs'. unfold honest in Hs'. rewrite Sl in Hs'. destruct Hs' as (all & Y & Ln).
  pose proof W as (W2 & W1 & W3).
  destruct (with_stream_equal l k2 l k s rate n all) as (m & it & E & R & L & Vl & _).
  - rewrite Sr. split; [exact W2|]. split; [|reflexivity]. rewrite W1. apply IZR_neq. lia.
  - exact Hs.
  - exact Sl.
  - nia.
  - rewrite Sr, (frames_for_whole rate z) by (try assumption; lia). exact A.
  - exact Y.
  - rewrite Sr, (frames_for_whole rate z) in L by (try assumption; lia).
    assert (Lm : audio_len m = N.to_nat n) by lia.
    exists m, it. split; [exact E|]. split; [exact R|]. split; [exact Lm|]. intros i j d G.
    apply given_audio in G as (y & Ny & Cy). assert (Hi : (i < audio_len m)%nat) by (apply nth_error_Some; congruence).
    destruct (nth_error all i) as [x|] eqn:Nx; [|apply nth_error_None in Nx; unfold audio_len in *; lia].
    destruct (Vl i x Hi Nx) as (f & b & Cf & Gb & Cp). change (nth_error (frames m) i = Some b) in Gb. assert (b = y) by congruence. subst b.
    destruct (RelProofs.convert_same l k k2 x) as (f' & Cf' & Ch). assert (f' = f) by congruence. subst f'.
    assert (Vx : Forall valid (channels x)).
    { apply FrameProofs.Forall_nth. intros j' c Hc. apply (V i j' c). exact (given_nth l k s all i x j' c Y Nx Hc). }
    assert (Vf : frame_valid f).
    { unfold frame_valid. rewrite Ch. apply Forall_forall. intros c' Hc. apply in_map_iff in Hc as (c & <- & Hc). rewrite Forall_forall in Vx.
      exact (proj1 (kind_amp ByFrame k k2 c (Vx c Hc))). }
    pose proof (proj2 Cp Vf) as Q. destruct (F2_nth_l _ _ _ j d Q Cy) as (e & Ne & Q'). rewrite Ch in Ne.
    rewrite nth_error_map in Ne. destruct (nth_error (channels x) j) as [c|] eqn:Nc; [|discriminate Ne]. injection Ne as <-.
    exists c. split; [exact (given_nth l k s all i x j c Y Nx Nc)|].
    assert (Vc : valid c) by (rewrite Forall_forall in Vx; apply Vx; eapply nth_error_In; exact Nc). split; [exact Vc|].
    pose proof (proj1 (kind_amp ByFrame k k2 c Vc)) as Vk. pose proof (eqb_amp k2 d _ Vk Q') as EA. split; [|exact EA].
    destruct (kind_cases k2) as [I|F]; [now apply int_valid|].
    rewrite !amp_float in EA by exact F. destruct F as [-> | ->]; cbn [c_eqb] in Q'.
    + split; [exact (feq_fin 24 128 _ _ (proj1 Vk) Q')|]. change (-1 <= rval d <= 1). rewrite EA. exact (proj2 Vk).
    + split; [exact (feq_fin 53 1024 _ _ (proj1 Vk) Q')|]. change (-1 <= rval d <= 1). rewrite EA. exact (proj2 Vk).
Qed.

Lemma track_valid l k (a : audio l k) i j c : Forall frame_valid (frames a) -> given (audio_stream a) i j c -> valid c.
Proof.
  intros V G. apply given_audio in G as (x & N & C). apply nth_error_In in N. rewrite Forall_forall in V. specialize (V x N). unfold frame_valid in V.
  rewrite Forall_forall in V. apply V. now apply nth_error_In in C.
Qed.
Lemma tracks_converted l k k2 rate z (as_ : list (audio l k)) : whole_rate rate z -> Forall (fit_track k2 rate z) as_ -> exists bs : list (audio l k2),
  each_converted rate as_ bs /\ map audio_len bs = map audio_len as_ /\ Forall (fun b => s_rate b = rate) bs /\
  forall i j ds, together (map audio_stream bs) i j ds -> exists cs, together (map audio_stream as_) i j cs /\ Forall valid cs /\ Forall valid ds /\
    Forall2 (fun c d => amplitude d = amplitude (to_kind ByFrame k2 c)) cs ds.
Proof.
  intros W. induction 1 as [|a as_ (R & Z & A & V) Fs (bs & Eb & Lb & Rb & Tb)].
  - exists []. split; [constructor|]. split; [reflexivity|]. split; [constructor|]. intros i j ds T. inversion T; subst. exists []. repeat constructor.
  - destruct (converted_given l k k2 (audio_stream a) rate z (N.of_nat (audio_len a)) W) as (b & it & E & R' & L' & G).
    + cbn [audio_stream sample_rate]. now rewrite R.
    + apply audio_honest.
    + reflexivity.
    + now rewrite nat_N_Z.
    + now rewrite nat_N_Z.
    + intros i j c. now apply track_valid.
    + rewrite Nat2N.id in E, L'. exists (b :: bs). split; [econstructor; eassumption|]. split; [cbn; now rewrite L', Lb|]. split; [now constructor|].
      intros i j ds T. cbn [map] in T. inversion T as [|? d ? ds' Gd Td]; subst. destruct (G i j d Gd) as (c & Gc & Vc & Vd & Q).
      destruct (Tb i j ds' Td) as (cs & Tc & Vcs & Vds & Qs). exists (c :: cs). split; [now constructor|]. repeat (split; [now constructor|]). now constructor.
Qed.
Lemma shortest_same l k l2 k2 (as_ : list (audio l k)) (bs : list (audio l2 k2)) : map audio_len bs = map audio_len as_ ->
  shortest (map audio_stream bs) = shortest (map audio_stream as_).
Proof.
  revert bs; induction as_ as [|a as_ IH]; intros [|b bs] E; cbn in E; try discriminate; [reflexivity|].
  injection E as E1 E2. cbn [map shortest]. rewrite (IH bs E2). f_equal. change (Some (N.of_nat (audio_len b)) = Some (N.of_nat (audio_len a))). now rewrite E1.
Qed.
Lemma shortest_some l k (a : audio l k) as_ : exists n, shortest (map audio_stream (a :: as_)) = Some n /\ (n <= N.of_nat (audio_len a))%N.
Proof.
  cbn [map shortest]. destruct (shortest (map audio_stream as_)) as [m|].
  - exists (N.min (N.of_nat (audio_len a)) m). split; [reflexivity|lia].
  - exists (N.of_nat (audio_len a)). split; [reflexivity|lia].
Qed.
Lemma together_len l k (ts : list (stream l k)) i j cs : together ts i j cs -> length cs = length ts.
Proof. intros T. symmetry. exact (F2_length _ _ _ _ _ T). Qed.
Lemma together_fun l k (ts : list (stream l k)) i j cs ds : together ts i j cs -> together ts i j ds -> cs = ds.
Proof.
  intros T. revert ds; induction T as [|s c ts cs G T IH]; intros ds D; inversion D as [|? d ? ds' Gd Td]; subst; [reflexivity|].
  f_equal; [exact (given_det l k s i j c d G Gd)|now apply IH].
Qed.
Lemma mixes l k k2 rate z (a : audio l k) as_ : whole_rate rate z -> Forall (fit_track k2 rate z) (a :: as_) ->
  exists n t (m : audio l k2) it (b : audio l k2) bs (u : stream l k2), shortest (map audio_stream (a :: as_)) = Some n /\
    mixdown (audio_stream a) (map audio_stream as_) = Ok t /\ with_stream l k2 (S (N.to_nat n)) rate t = Ok (m, it) /\ audio_len m = N.to_nat n /\
    each_converted rate (a :: as_) (b :: bs) /\ mixdown (audio_stream b) (map audio_stream bs) = Ok u /\ honest u /\ slen u = Some n /\
    forall i j c d, given (audio_stream m) i j c -> given u i j d -> Rabs (amplitude c - amplitude d) <= mix_error k k2 (length as_).
Proof.
  intros W F. destruct (shortest_some l k a as_) as (n & Sn & Ln).
  destruct (tracks_converted l k k2 rate z (a :: as_) W F) as (bs0 & Eb & Lb & Rb & Tb). destruct bs0 as [|b bs]; [inversion Eb|].
  assert (Q : feq rate rate = true). { apply (feq_correct 53 1024); try exact (proj1 W). reflexivity. }
  assert (Ta : tracks_at rate (audio_stream a :: map audio_stream as_)).
  { split; [exact Q|]. change (audio_stream a :: map audio_stream as_) with (map audio_stream (a :: as_)). clear -F.
    induction F as [|x xs (R & _) Fs IH]; constructor; [|exact IH]. split; [cbn [audio_stream sample_rate]; now rewrite R|apply audio_honest]. }
  assert (Tb' : tracks_at rate (audio_stream b :: map audio_stream bs)).
  { split; [exact Q|]. change (audio_stream b :: map audio_stream bs) with (map audio_stream (b :: bs)). clear -Rb.
    induction Rb as [|x xs R Fs IH]; constructor; [|exact IH]. split; [cbn [audio_stream sample_rate]; now rewrite R|apply audio_honest]. }
  destruct (mixdown_ends l k rate _ _ Ta) as (t & Et & Rt & Ht & St & Gt).
  destruct (mixdown_ends l k2 rate _ _ Tb') as (u & Eu & Ru & Hu & Su & Gu).
  change (audio_stream a :: map audio_stream as_) with (map audio_stream (a :: as_)) in St, Gt. rewrite Sn in St.
  change (audio_stream b :: map audio_stream bs) with (map audio_stream (b :: bs)) in Su, Gu.
  rewrite (shortest_same l k l k2 (a :: as_) (b :: bs) Lb), Sn in Su.
  assert (Vt : forall i j cs, together (map audio_stream (a :: as_)) i j cs -> Forall valid cs).
  { intros i j cs T. clear -F T. revert cs T. induction F as [|x xs (_ & _ & _ & V) Fs IH]; intros cs T; cbn [map] in T; inversion T as [|? c ? cs' G T']; subst; constructor; [exact (track_valid l k x i j c V G)|now apply IH]. }
  assert (Vs : forall x ys, Forall (@valid k) (x :: ys) -> valid (sum_up x ys)).
  { intros x ys. revert x; induction ys as [|y ys IH]; intros x V; [now inversion V|]. change (sum_up x (y :: ys)) with (sum_up (c_add x y) ys).
    apply IH. inversion V as [|? ? ? V']; subst. inversion V'; subst. constructor; [apply add_valid|assumption]. }
  pose proof (Forall_inv F) as (_ & Za & Aa & _).
  destruct (converted_given l k k2 t rate z n W Rt Ht St) as (m & it & Em & Rm & Lm & Gm).
  - destruct W as (_ & _ & W3). nia.
  - unfold allocatable in *. assert (0 <= bytes_per_frame l k2)%Z by (destruct l, k2; vm_compute; discriminate). nia.
  - intros i j c G. apply Gt in G as (x & ys & T & ->). apply Vs. exact (Vt i j _ T).
  - exists n, t, m, it, b, bs, u. repeat (split; [assumption|]). intros i j c d Gc Gd.
    destruct (Gm i j c Gc) as (c0 & G0 & V0 & _ & E0). apply Gt in G0 as (x & ys & T0 & ->).
    apply Gu in Gd as (d0 & ds & Td & ->). destruct (Tb i j (d0 :: ds) Td) as (cs & Tc & Vc & Vd & Qs).
    pose proof (together_fun _ _ _ _ _ _ _ T0 Tc) as <-. inversion Qs as [|? ? ? ? Q0 Q1]; subst. rewrite E0.
    pose proof (Forall_inv Vc) as Vx. pose proof (Forall_inv_tail Vc) as Vys. pose proof (Forall_inv Vd) as Vd0. pose proof (Forall_inv_tail Vd) as Vds.
    assert (Ly : length as_ = length ys) by (apply together_len in T0; cbn in T0; rewrite map_length in T0; congruence).
    destruct (sum_amp_aux k k2 x ys d0 ds (conversion_error k k2) (conversion_error k k2) Vx Vd0 Vys Vds) as [V E].
    + rewrite Q0. apply near_sym. exact (proj2 (kind_amp ByFrame k k2 x Vx)).
    + clear -Q1 Vys. revert Vys; induction Q1 as [|c d cs ds Q Qs IH]; intros V; constructor; [|apply IH; now inversion V].
      rewrite Q. apply near_sym. exact (proj2 (kind_amp ByFrame k k2 c (Forall_inv V))).
    + pose proof (near _ _ _ _ _ (proj2 (kind_amp ByFrame k k2 _ V)) E) as H. eapply Rle_trans; [exact H|]. unfold mix_error. rewrite Ly. lra.
Qed.
