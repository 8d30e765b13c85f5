(** * OpsProofs.v -- lemmas about the blend operators *)
From Coq Require Import ZArith Reals Lia Lra List Bool.
From Flocq Require Import Core.Core IEEE754.BinarySingleNaN.
From Verif Require Import Rust Float Math Chan Frame Ops SpecChan SpecFrame IntProofs FloatProofs FArithProofs ChanProofs FChanProofs FrameProofs.
Import ListNotations.

(** ** Src, Dest, Clear (C23) *)
Lemma mix_src_dest_clear l k (d s : frame l k) :
  mix_frames Src d s = Ok s /\ mix_frames Dest d s = Ok d /\ mix_frames Clear d s = Ok (frame_default l k).
Proof.
  split; [|split]; apply (vmap2M_ok (nchan l)); intros i a b Ha Hb; cbn [mix].
  - eauto.
  - eauto.
  - exists (chan_default k). split; [reflexivity|].
    pose proof (nth_some _ _ _ _ _ Ha) as Hi. destruct (nth_ex l k (frame_default l k) i Hi) as (c & Hc).
    pose proof Hc as Hc'. apply nth_default in Hc' as ->. exact Hc.
Qed.

(** ** Plus (C24) *)
Lemma mix_plus l k (d s : frame l k) : mix_frames Plus d s = Ok (frame_add d s).
Proof.
  apply (vmap2M_ok (nchan l)). intros i a b Ha Hb. cbn [mix]. exists (c_add b a). split; [reflexivity|].
  rewrite add_comm_all. exact (proj1 (proj1 (frame_ops_channelwise l k d s) i a b Ha Hb)).
Qed.
Lemma frame_add_comm l k (x y : frame l k) : frame_add x y = frame_add y x.
Proof.
  apply frame_ext_nth. intros i u v Hu Hv. pose proof (nth_some _ _ _ _ _ Hu) as Hi.
  destruct (nth_ex l k x i Hi) as (a & Ha), (nth_ex l k y i Hi) as (b & Hb).
  rewrite (proj1 (proj1 (frame_ops_channelwise l k x y) i a b Ha Hb)) in Hu.
  rewrite (proj1 (proj1 (frame_ops_channelwise l k y x) i b a Hb Ha)) in Hv.
  injection Hu as <-. injection Hv as <-. apply add_comm_all.
Qed.
Lemma add_default_int k (a : chan k) : is_int k -> c_add a (chan_default k) = a.
Proof. intros Hk. rewrite <- MID_default. exact (proj1 (proj2 (add_int_laws k Hk a a a))). Qed.
Lemma frame_add_default_int l k (x : frame l k) : is_int k -> frame_add x (frame_default l k) = x.
Proof.
  intros Hk. apply frame_ext_nth. intros i u v Hu Hv. pose proof (nth_some _ _ _ _ _ Hu) as Hi.
  destruct (nth_ex l k (frame_default l k) i Hi) as (b & Hb).
  rewrite (proj1 (proj1 (frame_ops_channelwise l k x (frame_default l k)) i v b Hv Hb)) in Hu.
  apply nth_default in Hb as ->. injection Hu as <-. now apply add_default_int.
Qed.
(** Rust equality and values *)
Lemma eqb_rval k (a b : chan k) : fin a = true -> fin b = true -> (c_eqb a b = true <-> rval a = rval b).
Proof.
  destruct k; cbn [c_eqb fin rval]; intros Fa Fb.
  - rewrite Z.eqb_eq. split; [now intros ->|apply eq_IZR].
  - rewrite Z.eqb_eq. split; [now intros ->|apply eq_IZR].
  - exact (feq_correct 24 128 a b Fa Fb).
  - exact (feq_correct 53 1024 a b Fa Fb).
Qed.
Lemma Forall2_nth {A B} (P : A -> B -> Prop) xs ys : length xs = length ys ->
  (forall i a b, nth_error xs i = Some a -> nth_error ys i = Some b -> P a b) -> Forall2 P xs ys.
Proof.
  revert ys; induction xs as [|x xs IH]; intros [|y ys] Hl H; try discriminate; constructor.
  - exact (H 0%nat x y eq_refl eq_refl).
  - apply IH; [now injection Hl|]. intros i. exact (H (S i)).
Qed.
Lemma frame_valid_nth l k (f : frame l k) i a : frame_valid f -> nth_error (channels f) i = Some a -> valid a.
Proof. intros H Ha. apply nth_error_In in Ha. unfold frame_valid in H. rewrite Forall_forall in H. auto. Qed.
Lemma frame_add_default_eqv l k (x : frame l k) : frame_valid x -> frame_eqv (frame_add x (frame_default l k)) x.
Proof.
  intros Hx. apply Forall2_nth; [now rewrite !channels_length|].
  intros i u v Hu Hv. pose proof (nth_some _ _ _ _ _ Hu) as Hi.
  destruct (nth_ex l k (frame_default l k) i Hi) as (b & Hb).
  rewrite (proj1 (proj1 (frame_ops_channelwise l k x (frame_default l k)) i v b Hv Hb)) in Hu.
  apply nth_default in Hb as ->. injection Hu as <-.
  pose proof (frame_valid_nth _ _ _ _ _ Hx Hv) as Vv.
  destruct (add_mid_all k v Vv) as [E1 E2]. rewrite MID_default in E1, E2.
  apply eqb_rval; auto using valid_fin.
Qed.

(** ** Amplify (C24) *)
Lemma mix_amplify l k (d s : frame l k) : mix_frames Amplify d s = frame_mul d s.
Proof.
  destruct (frame_ops_channelwise l k d s) as (_ & (z & Hz & Hc) & _). rewrite Hz.
  apply (vmap2M_ok (nchan l)). intros i a b Ha Hb. cbn [mix]. rewrite mul_comm_all. eauto.
Qed.
Lemma frame_mul_comm l k (x y : frame l k) : frame_mul x y = frame_mul y x.
Proof.
  destruct (frame_ops_channelwise l k y x) as (_ & (z & Hz & Hc) & _). rewrite Hz.
  apply (vmap2M_ok (nchan l)). intros i a b Ha Hb. unfold c_mul_assign. rewrite mul_comm_all. eauto.
Qed.
Lemma frame_mul_max l k (x : frame l k) : frame_fin x -> frame_mul x (from_channel l k (MAX k)) = Ok x.
Proof.
  intros Hx. apply (vmap2M_ok (nchan l)). intros i a b Ha Hb.
  change (vlist (from_channel l k (MAX k))) with (channels (from_channel l k (MAX k))) in Hb.
  rewrite from_channel_all in Hb. apply repeat_nth in Hb as ->. exists a. split; [|exact Ha].
  apply mul_max_all. unfold frame_fin in Hx. rewrite Forall_forall in Hx. apply Hx. eapply nth_error_In. exact Ha.
Qed.
Lemma mul_mid_all k (a : chan k) : fin a = true -> exists c, c_mul a (MID k) = Ok c /\ rval c = 0%R /\ fin c = true.
Proof.
  destruct k; cbn [fin]; intros H.
  - exists (MID K8). split; [|split; reflexivity]. exact (proj2 (proj2 (proj2 (mul_int_laws K8 (or_introl eq_refl) a a)))).
  - exists (MID K16). split; [|split; reflexivity]. exact (proj2 (proj2 (proj2 (mul_int_laws K16 (or_intror eq_refl) a a)))).
  - eexists. split; [reflexivity|]. destruct (zero_correct 24 128) as [Z1 Z2].
    destruct (fmul_zero 24 128 a _ H Z2 Z1) as [E1 E2]. split; [exact E2|exact E1].
  - eexists. split; [reflexivity|]. destruct (zero_correct 53 1024) as [Z1 Z2].
    destruct (fmul_zero 53 1024 a _ H Z2 Z1) as [E1 E2]. split; [exact E2|exact E1].
Qed.
Lemma rval_default k : rval (chan_default k) = 0%R.
Proof.
  destruct k; cbn [rval chan_default].
  - reflexivity.
  - reflexivity.
  - exact (proj1 (zero_correct 24 128)).
  - exact (proj1 (zero_correct 53 1024)).
Qed.
Lemma frame_mul_mid l k (x : frame l k) : frame_fin x ->
  exists z, frame_mul x (frame_default l k) = Ok z /\ frame_eqv z (frame_default l k).
Proof.
  intros Hx. destruct (frame_ops_channelwise l k x (frame_default l k)) as (_ & (z & Hz & Hc) & _).
  exists z. split; [exact Hz|]. apply Forall2_nth; [now rewrite !channels_length|].
  intros i u v Hu Hv. pose proof (nth_some _ _ _ _ _ Hu) as Hi. destruct (nth_ex l k x i Hi) as (a & Ha).
  destruct (Hc i a v Ha Hv) as (c & Hm & Hn). rewrite Hu in Hn. injection Hn as <-.
  apply nth_default in Hv as ->. rewrite <- MID_default in Hm.
  unfold frame_fin in Hx. rewrite Forall_forall in Hx.
  destruct (mul_mid_all k a) as (c' & Hc' & Hr & Hf); [apply Hx; eapply nth_error_In; exact Ha|].
  rewrite Hm in Hc'. injection Hc' as <-. apply eqb_rval; auto.
  - apply valid_fin, default_valid.
  - now rewrite rval_default.
Qed.

(** ** Plus and Amplify through [mix_frames] *)
Lemma mix_plus_spec l k (d s : frame l k) : exists out, mix_frames Plus d s = Ok out /\ mix_frames Plus s d = Ok out /\
  forall i a b, nth_error (channels d) i = Some a -> nth_error (channels s) i = Some b ->
    nth_error (channels out) i = Some (c_add a b).
Proof.
  exists (frame_add d s). rewrite !mix_plus, (frame_add_comm l k s d). split; [reflexivity|]. split; [reflexivity|].
  intros i a b Ha Hb. exact (proj1 (proj1 (frame_ops_channelwise l k d s) i a b Ha Hb)).
Qed.
Lemma mix_plus_neutral l k (x : frame l k) :
  (is_int k -> mix_frames Plus x (frame_default l k) = Ok x) /\
  (frame_valid x -> exists z, mix_frames Plus x (frame_default l k) = Ok z /\ frame_eqv z x).
Proof.
  rewrite mix_plus. split; intros H.
  - now rewrite frame_add_default_int.
  - eexists. split; [reflexivity|]. now apply frame_add_default_eqv.
Qed.
Lemma mix_amplify_spec l k (d s : frame l k) : exists out, mix_frames Amplify d s = Ok out /\ mix_frames Amplify s d = Ok out /\
  forall i a b, nth_error (channels d) i = Some a -> nth_error (channels s) i = Some b ->
    exists c, c_mul a b = Ok c /\ nth_error (channels out) i = Some c.
Proof.
  destruct (frame_ops_channelwise l k d s) as (_ & (z & Hz & Hc) & _). exists z.
  rewrite !mix_amplify, (frame_mul_comm l k s d). auto.
Qed.
Lemma mix_amplify_neutral l k (x : frame l k) : frame_fin x ->
  mix_frames Amplify x (from_channel l k (MAX k)) = Ok x /\
  exists z, mix_frames Amplify x (frame_default l k) = Ok z /\ frame_eqv z (frame_default l k).
Proof. intros H. rewrite !mix_amplify. exact (conj (frame_mul_max l k x H) (frame_mul_mid l k x H)). Qed.

(** ** Compress (C25) *)
Lemma mix_compress l k (d s : frame l k) : mix_frames Compress d s = Panic NotImplemented.
Proof. destruct l; reflexivity. Qed.

(** ** Pan (C26, C27) *)
Lemma vupdate_ok {A} n i (f : A -> res A) (v : vec A n) a b : nth_error (vlist v) i = Some a -> f a = Ok b ->
  exists w, vupdate i f v = Ok w /\ nth_error (vlist w) i = Some b /\
    forall j, j <> i -> nth_error (vlist w) j = nth_error (vlist v) j.
Proof.
  revert i; induction n as [|n IH]; cbn; intros i Ha Hf; [now destruct i|].
  destruct i as [|i]; cbn in Ha.
  - injection Ha as <-. rewrite Hf. cbn [bind]. eexists. split; [reflexivity|]. cbn. split; [reflexivity|].
    intros [|j] H; [now elim H|reflexivity].
  - destruct (IH (snd v) i Ha Hf) as (w & -> & H1 & H2). cbn [bind]. eexists. split; [reflexivity|]. cbn.
    split; [exact H1|]. intros [|j] H; [reflexivity|]. apply H2. congruence.
Qed.

(** The two speaker numbers chosen for a pan position. *)
Definition speakers_front (l : layout) : nat * nat := (0, Nat.modulo 1 (length (config l)))%nat.
Definition speakers_back (l : layout) : nat * nat := (length (config l) - 1, 0)%nat.

Lemma pan_search_sorted s i locs dflt :
  (forall l0 ls, locs = l0 :: ls -> fle l0 s = false -> Forall (fun x => fle x s = false) ls) ->
  pan_search s i locs dflt = match locs with [] => dflt | l0 :: _ => if fle l0 s then i else dflt end.
Proof.
  destruct locs as [|l0 ls]; [reflexivity|]. cbn. intros H.
  destruct (fle l0 s) eqn:E; [reflexivity|]. specialize (H l0 ls eq_refl E).
  revert i; induction H as [|x xs Hx _ IH]; intros i; cbn; [reflexivity|]. now rewrite Hx.
Qed.
Lemma fle_trans (a b c : f64) : fle a b = true -> fle b c = true -> fle a c = true.
Proof.
  intros H1 H2.
  destruct (is_finite a) eqn:Fa, (is_finite b) eqn:Fb, (is_finite c) eqn:Fc.
  - apply fle_correct in H1; auto. apply fle_correct in H2; auto. apply fle_correct; auto. lra.
  - destruct c as [?|[]| |? ? ? ?]; try discriminate; destruct b as [?|[]| |[] ? ? ?]; try discriminate;
      destruct a as [?|[]| |[] ? ? ?]; try discriminate; reflexivity.
  - destruct b as [?|[]| |? ? ? ?]; try discriminate; destruct a as [?|[]| |[] ? ? ?]; try discriminate;
      destruct c as [?|[]| |[] ? ? ?]; discriminate.
  - destruct c as [?|[]| |? ? ? ?]; try discriminate; destruct b as [?|[]| |[] ? ? ?]; try discriminate;
      destruct a as [?|[]| |[] ? ? ?]; try discriminate; reflexivity.
  - destruct a as [?|[]| |? ? ? ?]; try discriminate; destruct b as [?|[]| |[] ? ? ?]; try discriminate;
      destruct c as [?|[]| |[] ? ? ?]; try discriminate; reflexivity.
  - destruct a as [?|[]| |? ? ? ?]; try discriminate; destruct b as [?|[]| |[] ? ? ?]; try discriminate;
      destruct c as [?|[]| |[] ? ? ?]; try discriminate; reflexivity.
  - destruct b as [?|[]| |? ? ? ?]; try discriminate; destruct a as [?|[]| |[] ? ? ?]; try discriminate;
      destruct c as [?|[]| |[] ? ? ?]; try discriminate; reflexivity.
  - destruct a as [?|[]| |? ? ? ?]; try discriminate; destruct b as [?|[]| |[] ? ? ?]; try discriminate;
      destruct c as [?|[]| |[] ? ? ?]; try discriminate; reflexivity.
Qed.
Lemma pan_route_cases l s :
  pan_route l s = if fle (hd (flit 0 0) (config l)) s then speakers_front l else speakers_back l.
Proof.
  unfold pan_route. rewrite pan_search_sorted.
  - destruct l; cbn [config hd]; destruct (fle _ s); reflexivity.
  - assert (HH : forall l0 x, fle l0 x = true -> fle l0 s = false -> fle x s = false).
    { intros l0 x Hx H. destruct (fle x s) eqn:E; [|reflexivity]. now rewrite (fle_trans _ _ _ Hx E) in H. }
    assert (B : forallb (fle (hd (flit 0 0) (config l))) (tl (config l)) = true) by (destruct l; vm_compute; reflexivity).
    intros l0 ls E H. rewrite E in B. cbn [hd tl] in B. rewrite forallb_forall in B.
    apply Forall_forall. intros x Hx. exact (HH _ _ (B x Hx) H).
Qed.
Lemma pan_angle_total l s : exists a, pan_angle l s = Ok a.
Proof.
  unfold pan_angle. rewrite pan_route_cases. destruct l; destruct (fle _ s); cbv [speakers_front speakers_back];
    cbn [config length Nat.sub Nat.modulo Nat.divmod nth_error of_opt bind snd fst]; eauto.
Qed.

Lemma pan_plan_correct l s :
  pan_route l s = fst (pan_plan l s) /\ pan_angle l s = Ok (snd (pan_plan l s)).
Proof.
  unfold pan_angle. rewrite pan_route_cases. destruct l; cbn [config hd pan_plan].
  - destruct (fle _ s); split; reflexivity.
  - destruct (fle _ s); split; try reflexivity.
  - destruct (fle _ s); split; try reflexivity.
Qed.

Lemma accum_app k (c c' c'' : chan k) ps qs : accum c ps c' -> accum c' qs c'' -> accum c (ps ++ qs) c''.
Proof. induction 1; cbn; [trivial|]. econstructor; eauto. Qed.
Lemma pan_plan_bounds l s : (fst (fst (pan_plan l s)) < nchan l)%nat /\ (snd (fst (pan_plan l s)) < nchan l)%nat.
Proof. destruct l; cbn [pan_plan]; try (destruct (fle _ s)); cbn; lia. Qed.

Lemma pan_put_ok l k i (d x : chan k) (out : frame l k) : (i < nchan l)%nat ->
  exists out', pan_put i d x out = Ok out' /\
    forall j c, nth_error (channels out) j = Some c ->
      exists c', nth_error (channels out') j = Some c' /\ accum c (if Nat.eqb i j then [(d, x)] else []) c'.
Proof.
  intros Hi. unfold pan_put. destruct (mul_total k d x) as (p & Hp). rewrite Hp. cbn [bind].
  destruct (nth_ex l k out i Hi) as (a & Ha).
  destruct (vupdate_ok (nchan l) i (fun c => Ok (c_add_assign c p)) out a (c_add a p) Ha eq_refl) as (w & Hw & H1 & H2).
  exists w. split; [exact Hw|]. intros j c Hc. destruct (Nat.eqb_spec i j) as [<-|N].
  - rewrite Ha in Hc. injection Hc as <-. exists (c_add a p). split; [exact H1|].
    econstructor; [exact Hp|constructor].
  - exists c. split; [|constructor]. rewrite <- Hc. apply H2. congruence.
Qed.

Lemma pan_loop_ok l k t (ds ss : list (chan k)) (out : frame l k) :
  exists out', pan_loop t out ds ss = Ok out' /\
    forall i c, nth_error (channels out) i = Some c ->
      exists c', nth_error (channels out') i = Some c' /\
        accum c (pan_reaches l (t_cos t) (t_sin t) i ds ss) c'.
Proof.
  revert ss out; induction ds as [|d ds IH]; intros ss out; cbn [pan_loop pan_reaches].
  - exists out. split; [reflexivity|]. intros i c Hc. exists c. split; [exact Hc|constructor].
  - destruct ss as [|s ss].
    + exists out. split; [reflexivity|]. intros i c Hc. exists c. split; [exact Hc|constructor].
    + unfold pan_step. destruct (pan_plan_correct l (to_f64 s)) as [E1 E2].
      destruct (pan_plan_bounds l (to_f64 s)) as [B1 B2].
      rewrite E2. cbn [bind]. rewrite E1. destruct (pan_plan l (to_f64 s)) as [[a b] ang]. cbn [fst snd] in *.
      destruct (pan_put_ok l k a d (from_f64 k (t_cos t ang)) out B1) as (o1 & -> & P1). cbn [bind].
      destruct (pan_put_ok l k b d (from_f64 k (t_sin t ang)) o1 B2) as (o2 & -> & P2). cbn [bind].
      destruct (IH ss o2) as (o3 & -> & P3). exists o3. split; [reflexivity|].
      intros i c Hc. destruct (P1 i c Hc) as (c1 & H1 & A1), (P2 i c1 H1) as (c2 & H2 & A2), (P3 i c2 H2) as (c3 & H3 & A3).
      exists c3. split; [exact H3|]. eapply accum_app; [exact A1|]. eapply accum_app; eassumption.
Qed.

Lemma mix_pan l k t (d s : frame l k) : exists out, mix_frames (Pan_ t) d s = Ok out /\
  forall i c, nth_error (channels out) i = Some c ->
    accum (MID k) (pan_reaches l (t_cos t) (t_sin t) i (channels d) (channels s)) c.
Proof.
  destruct (pan_loop_ok l k t (channels d) (channels s) (frame_default l k)) as (out & H & P).
  exists out. split; [exact H|]. intros i c Hc. pose proof (nth_some _ _ _ _ _ Hc) as Hi.
  destruct (nth_ex l k (frame_default l k) i Hi) as (z & Hz).
  destruct (P i z Hz) as (c' & Hc' & A). rewrite Hc in Hc'. injection Hc' as <-.
  apply nth_default in Hz as ->. now rewrite MID_default.
Qed.

(** Speakers that nothing reaches. *)
Lemma pan_unreached l k cos sin i (ds ss : list (chan k)) :
  (forall s, In s ss -> fst (fst (pan_plan l (to_f64 s))) <> i /\ snd (fst (pan_plan l (to_f64 s))) <> i) ->
  pan_reaches l cos sin i ds ss = [].
Proof.
  revert ss; induction ds as [|d ds IH]; intros [|s ss] H; try reflexivity. cbn [pan_reaches].
  destruct (H s (or_introl eq_refl)) as [H1 H2]. destruct (pan_plan l (to_f64 s)) as [[a b] ang]. cbn [fst snd] in *.
  apply Nat.eqb_neq in H1, H2. rewrite H1, H2. cbn. apply IH. intros s' Hs'. apply H. now right.
Qed.
Lemma mix_pan_surround_silent k t (d s : frame Surround k) : exists out, mix_frames (Pan_ t) d s = Ok out /\
  (forall i, i = 2%nat \/ i = 3%nat \/ i = 5%nat -> nth_error (channels out) i = Some (MID k)) /\
  ((forall c, In c (channels s) -> fle (fdiv (flit (-2) 0) (flit 3 0)) (to_f64 c) = true) ->
   nth_error (channels out) 4 = Some (MID k)).
Proof.
  destruct (mix_pan Surround k t d s) as (out & H & P). exists out. split; [exact H|].
  assert (Q : forall i, (i < 6)%nat -> (forall s', In s' (channels s) ->
     fst (fst (pan_plan Surround (to_f64 s'))) <> i /\ snd (fst (pan_plan Surround (to_f64 s'))) <> i) ->
     nth_error (channels out) i = Some (MID k)).
  { intros i Hi Hs. destruct (nth_ex Surround k out i Hi) as (c & Hc). specialize (P i c Hc).
    rewrite pan_unreached in P by exact Hs. inversion P; subst. exact Hc. }
  split.
  - intros i Hi. apply Q; [lia|]. intros s' _. cbn [pan_plan]. destruct (fle _ _); cbn; lia.
  - intros Hs. apply Q; [lia|]. intros s' Hs'. cbn [pan_plan]. rewrite (Hs s' Hs'). cbn. lia.
Qed.

(** Mono: the position does not matter. *)
Definition libm_nonfinite (t : trig) : Prop := forall x : f64, is_finite x = false ->
  t_cos t x = B754_nan /\ t_sin t x = B754_nan.
Lemma mono_angle (s : f64) : is_finite (snd (pan_plan Mono s)) = false.
Proof.
  cbn [pan_plan snd].
  replace (fsub (flit 0 0) (flit 0 0) : f64) with (B754_zero false : f64) by (apply B2SF_inj; vm_compute; reflexivity).
  assert (Hd : forall y : f64, is_finite (fdiv y (B754_zero false)) = false) by (intros [?|?| |? ? ? ?]; reflexivity).
  specialize (Hd (fsub s (flit 0 0))). destruct (fdiv _ _) as [?|s'| |? ? ? ?]; try discriminate.
  - destruct s'; vm_compute; reflexivity.
  - reflexivity.
Qed.
Lemma mix_pan_mono k t (d s : frame Mono k) (x : chan k) : libm_nonfinite t -> channels d = [x] ->
  exists out c, mix_frames (Pan_ t) d s = Ok out /\ channels out = [c] /\
    (is_int k -> c = c_add x x) /\ (is_float k -> c = MAX k).
Proof.
  intros Ht Hd. destruct (mix_pan Mono k t d s) as (out & H & P). exists out.
  frame_cases s. frame_cases out. rename c into y, c0 into z. exists z. split; [exact H|]. split; [reflexivity|].
  specialize (P 0%nat z eq_refl). rewrite Hd in P. cbn [channels vlist nchan fst snd pan_reaches] in P.
  pose proof (mono_angle (to_f64 y)) as Hn.
  destruct (pan_plan Mono (to_f64 y)) as [[a b] ang] eqn:E.
  assert (a = 0%nat /\ b = 0%nat) as [-> ->] by (cbn [pan_plan] in E; now injection E as <- <- _).
  cbn [snd] in Hn. destruct (Ht ang Hn) as [C S]. rewrite C, S in P. cbn in P.
  inversion P as [|? ? ? p1 ? ? M1 P1]; subst. inversion P1 as [|? ? ? p2 ? ? M2 P2]; subst. inversion P2; subst.
  rewrite M1 in M2. injection M2 as <-. split.
  - intros Hk. assert (En : from_f64 k B754_nan = MAX k) by (apply (from_f64_sat k Hk B754_nan); reflexivity).
    rewrite En, mul_max_all in M1 by now destruct Hk as [-> | ->]. injection M1 as <-.
    f_equal. rewrite add_comm_all, MID_default. now apply add_default_int.
  - intros Hk. assert (isnan p1 = true).
    { destruct Hk as [-> | ->]; cbn [c_mul] in M1; injection M1 as <-; destruct x; reflexivity. }
    exact (proj1 (float_nan_to_max k Hk _ p1 (or_intror H0))).
Qed.

Lemma one_channel k (d s : chan k) : mix Src d s = Ok s /\ mix Dest d s = Ok d /\ mix Clear d s = Ok (MID k).
Proof. split; [reflexivity|]. split; [reflexivity|]. now destruct k. Qed.
Lemma pan_one_channel k t (d s : chan k) : mix (Pan_ t) d s = Panic ExplicitPanic.
Proof. reflexivity. Qed.
