(** * FrameProofs.v -- lemmas about frames *)
From Coq Require Import ZArith Reals Lia Lra List Bool.
From Flocq Require Import Core.Core IEEE754.BinarySingleNaN.
Require Flocq.Prop.Plus_error.
From Verif Require Import Rust Float Math Chan Frame SpecChan SpecFrame IntProofs FloatProofs FloorProofs ConvProofs FArithProofs ChanProofs FChanProofs.
Import ListNotations.

Lemma list_nth_ext {A} (xs ys : list A) : (forall i, nth_error xs i = nth_error ys i) -> xs = ys.
Proof.
  revert ys; induction xs as [|x xs IH]; intros [|y ys] H; try reflexivity.
  - specialize (H 0%nat). discriminate.
  - specialize (H 0%nat). discriminate.
  - pose proof (H 0%nat) as E. injection E as ->. f_equal. apply IH. intros i. exact (H (S i)).
Qed.

(** ** Arrays *)
Section Vec.
Context {A B : Type}.
Lemma vlist_length n (v : vec A n) : length (vlist v) = n.
Proof. induction n as [|n IH]; cbn; [reflexivity|]. now rewrite IH. Qed.
Lemma vlist_inj n (v w : vec A n) : vlist v = vlist w -> v = w.
Proof.
  induction n as [|n IH]; cbn.
  - now destruct v, w.
  - destruct v as [a v], w as [b w]; cbn. intros E. injection E as -> E. now rewrite (IH v w E).
Qed.
Lemma vlist_const n (a : A) : vlist (vconst n a) = repeat a n.
Proof. induction n as [|n IH]; cbn; [reflexivity|]. now rewrite IH. Qed.
Lemma vmap2_nth n (f : A -> B -> A) (v : vec A n) (w : vec B n) i a b :
  nth_error (vlist v) i = Some a -> nth_error (vlist w) i = Some b ->
  nth_error (vlist (vmap2 f v w)) i = Some (f a b).
Proof.
  revert i; induction n as [|n IH]; cbn; intros i; [now destruct i|].
  destruct i as [|i]; cbn; [|apply IH]. now intros [= ->] [= ->].
Qed.
Lemma vmap2M_ok n (f : A -> B -> res A) (v : vec A n) (w : vec B n) z :
  vmap2M f v w = Ok z <->
  (forall i a b, nth_error (vlist v) i = Some a -> nth_error (vlist w) i = Some b ->
     exists c, f a b = Ok c /\ nth_error (vlist z) i = Some c).
Proof.
  induction n as [|n IH]; cbn.
  - split.
    + intros _ i a b H. now destruct i.
    + intros _. now destruct z.
  - destruct v as [a v], w as [b w], z as [c z]; cbn. split.
    + destruct (f a b) as [x| |] eqn:E; try discriminate. cbn [bind].
      destruct (vmap2M f v w) as [r| |] eqn:Er; try discriminate. cbn [bind]. intros [= -> ->].
      intros [|i] a' b'; cbn.
      * intros [= <-] [= <-]. eauto.
      * apply IH. exact Er.
    + intros H. destruct (H 0%nat a b eq_refl eq_refl) as (x & -> & [= ->]). cbn [bind].
      rewrite (proj2 (IH v w z)); [reflexivity|]. intros i. exact (H (S i)).
Qed.
Lemma vmap2M_panic n (f : A -> B -> res A) (v : vec A n) (w : vec B n) :
  (forall a b, f a b <> OutOfFuel) ->
  ((exists p, vmap2M f v w = Panic p) <->
   (exists i a b p, nth_error (vlist v) i = Some a /\ nth_error (vlist w) i = Some b /\ f a b = Panic p)) /\
  vmap2M f v w <> OutOfFuel.
Proof.
  intros Hf. induction n as [|n IH]; cbn.
  - split; [|discriminate]. split; [intros [p H]; discriminate|].
    intros (i & a & b & p & H & _). now destruct i.
  - destruct v as [a v], w as [b w]; cbn. destruct (IH v w) as [[IH1 IH2] IH3].
    destruct (f a b) as [x|q|] eqn:E; cbn [bind]; [| |now destruct (Hf a b)].
    + split; [split|].
      * intros [p H]. destruct (vmap2M f v w) as [r|q|] eqn:Er; try discriminate.
        destruct IH1 as (i & a' & b' & p' & H1 & H2 & H3); [eauto|].
        now exists (S i), a', b', p'.
      * intros (i & a' & b' & p' & H1 & H2 & H3). destruct i as [|i]; cbn in H1, H2.
        { injection H1 as <-. injection H2 as <-. congruence. }
        destruct IH2 as [q Hq]; [eauto 8|]. exists q. now rewrite Hq.
      * destruct (vmap2M f v w); try discriminate. now elim IH3.
    + split; [|discriminate]. split; [|eauto]. intros _. now exists 0%nat, a, b, q.
Qed.
Lemma vmap2M_total n (f : A -> B -> res A) (v : vec A n) (w : vec B n) :
  (forall a b, exists c, f a b = Ok c) -> exists z, vmap2M f v w = Ok z.
Proof.
  intros H. induction n as [|n IH]; cbn; [eauto|].
  destruct v as [a v], w as [b w]; cbn. destruct (H a b) as (c & ->). cbn [bind].
  destruct (IH v w) as (z & ->). cbn. eauto.
Qed.
Lemma vmapM_ok n (f : A -> res A) (v z : vec A n) :
  vmapM f v = Ok z <->
  (forall i a, nth_error (vlist v) i = Some a -> exists c, f a = Ok c /\ nth_error (vlist z) i = Some c).
Proof.
  induction n as [|n IH]; cbn.
  - split; [intros _ i a H; now destruct i|]. intros _. now destruct z.
  - destruct v as [a v], z as [c z]; cbn. split.
    + destruct (f a) as [x| |] eqn:E; try discriminate. cbn [bind].
      destruct (vmapM f v) as [r| |] eqn:Er; try discriminate. cbn [bind]. intros [= -> ->].
      intros [|i] a'; cbn.
      * intros [= <-]. eauto.
      * apply IH. exact Er.
    + intros H. destruct (H 0%nat a eq_refl) as (x & -> & [= ->]). cbn [bind].
      rewrite (proj2 (IH v z)); [reflexivity|]. intros i. exact (H (S i)).
Qed.
Lemma vmapM_total n (f : A -> res A) (v : vec A n) :
  (forall a, exists c, f a = Ok c) -> exists z, vmapM f v = Ok z.
Proof.
  intros H. induction n as [|n IH]; cbn; [eauto|].
  destruct v as [a v]; cbn. destruct (H a) as (c & ->). cbn [bind].
  destruct (IH v) as (z & ->). cbn. eauto.
Qed.
Lemma vof_list_ok n (xs : list A) (v : vec A n) :
  vof_list n xs = Ok v <-> (n <= length xs)%nat /\ vlist v = firstn n xs.
Proof.
  revert xs; induction n as [|n IH]; intros xs; cbn.
  - destruct v. split; [|reflexivity]. intros _. split; [lia|reflexivity].
  - destruct v as [a v]; cbn. destruct xs as [|x xs]; cbn.
    + split; [discriminate|]. intros [H _]. lia.
    + destruct (vof_list n xs) as [r| |] eqn:E; cbn [bind].
      * apply IH in E as [E1 E2]. split.
        { intros [= -> ->]. split; [lia|]. now rewrite E2. }
        { intros [H1 [= -> H2]]. f_equal. f_equal. apply vlist_inj. congruence. }
      * split; [discriminate|]. intros [H1 [= -> H2]].
        assert (Ev : @Panic (vec A n) p = Ok v); [|discriminate].
        rewrite <- E. apply IH. split; [lia|exact H2].
      * split; [discriminate|]. intros [H1 [= -> H2]].
        assert (Ev : @OutOfFuel (vec A n) = Ok v); [|discriminate].
        rewrite <- E. apply IH. split; [lia|exact H2].
Qed.
Lemma vof_list_panic n (xs : list A) p :
  vof_list n xs = Panic p <-> (length xs < n)%nat /\ p = IndexOutOfBounds.
Proof.
  revert xs; induction n as [|n IH]; intros xs; cbn; [split; [discriminate|lia]|].
  destruct xs as [|x xs]; cbn.
  - split; [intros [= <-]; split; [lia|reflexivity]|]. now intros [_ ->].
  - rewrite <- Nat.succ_lt_mono, <- IH. destruct (vof_list n xs) as [r|q|]; cbn [bind].
    + split; discriminate.
    + split; now intros [= ->].
    + split; discriminate.
Qed.
Lemma vof_list_vlist n (v : vec A n) : vof_list n (vlist v) = Ok v.
Proof. apply vof_list_ok. rewrite vlist_length. split; [lia|]. symmetry. apply firstn_all2. rewrite vlist_length. lia. Qed.
End Vec.

Lemma vmap2_const {A B} n (c : A) (v : vec A n) (w : vec B n) : vlist (vmap2 (fun _ _ => c) v w) = repeat c n.
Proof. induction n as [|n IH]; cbn; [reflexivity|]. now rewrite IH. Qed.

(** ** Frames through their channel lists *)
Lemma frame_ext l k (f g : frame l k) : channels f = channels g -> f = g.
Proof. apply vlist_inj. Qed.
Lemma channels_length l k (f : frame l k) : length (channels f) = nchan l.
Proof. apply vlist_length. Qed.
Lemma channels_default l k : channels (frame_default l k) = repeat (chan_default k) (nchan l).
Proof. apply vlist_const. Qed.
Lemma nth_default l k i a : nth_error (channels (frame_default l k)) i = Some a -> a = chan_default k.
Proof. rewrite channels_default. intros H. apply nth_error_In in H. now apply repeat_spec in H. Qed.
Lemma nth_some l k (f : frame l k) i a : nth_error (channels f) i = Some a -> (i < nchan l)%nat.
Proof. intros H. rewrite <- (channels_length l k f). apply nth_error_Some. congruence. Qed.
Lemma nth_ex l k (f : frame l k) i : (i < nchan l)%nat -> exists a, nth_error (channels f) i = Some a.
Proof.
  intros H. rewrite <- (channels_length l k f) in H. apply nth_error_Some in H.
  destruct (nth_error (channels f) i); [eauto|congruence].
Qed.
Lemma frame_ext_nth l k (f g : frame l k) :
  (forall i a b, nth_error (channels f) i = Some a -> nth_error (channels g) i = Some b -> a = b) -> f = g.
Proof.
  intros H. apply frame_ext. apply list_nth_ext. intros i.
  destruct (nth_error (channels f) i) as [a|] eqn:Ea.
  - pose proof (nth_some _ _ _ _ _ Ea) as Hi. destruct (nth_ex l k g i Hi) as (b & Eb). rewrite Eb.
    f_equal. exact (H i a b Ea Eb).
  - destruct (nth_error (channels g) i) as [b|] eqn:Eb; [|reflexivity].
    pose proof (nth_some _ _ _ _ _ Eb) as Hi. destruct (nth_ex l k f i Hi) as (a & Ea'). congruence.
Qed.

(** ** Operators (C18) *)
Lemma div_not_fuel k (a b : chan k) : c_div a b <> OutOfFuel.
Proof.
  destruct k; cbn [c_div]; try discriminate.
  - destruct (div8_spec a b) as (c & H & _). cbn [c_div] in H. rewrite H. discriminate.
  - unfold ch16_div, int_div. destruct (negb _); [|discriminate].
    destruct (sv b =? 0)%Z; [discriminate|]. destruct (_ && _); discriminate.
Qed.
Lemma neg_total k (a : chan k) : exists c, c_neg a = Ok c.
Proof.
  destruct k; cbn [c_neg]; eauto.
  - destruct (neg8_spec a) as (c & H & _). eauto.
  - destruct (neg16_spec a) as (c & H & _). eauto.
Qed.

Lemma frame_ops_channelwise l k (x y : frame l k) :
  (forall i a b, nth_error (channels x) i = Some a -> nth_error (channels y) i = Some b ->
     nth_error (channels (frame_add x y)) i = Some (c_add a b) /\
     nth_error (channels (frame_sub x y)) i = Some (c_sub a b)) /\
  (exists z, frame_mul x y = Ok z /\
     forall i a b, nth_error (channels x) i = Some a -> nth_error (channels y) i = Some b ->
       exists c, c_mul a b = Ok c /\ nth_error (channels z) i = Some c) /\
  (exists z, frame_neg x = Ok z /\
     forall i a, nth_error (channels x) i = Some a ->
       exists c, c_neg a = Ok c /\ nth_error (channels z) i = Some c).
Proof.
  split; [|split].
  - intros i a b Ha Hb. split; now apply vmap2_nth.
  - destruct (vmap2M_total (nchan l) (@c_mul_assign k) x y (mul_total k)) as (z & Hz).
    exists z. split; [exact Hz|]. exact (proj1 (vmap2M_ok (nchan l) _ x y z) Hz).
  - destruct (vmapM_total (nchan l) (@c_neg k) x (neg_total k)) as (z & Hz).
    exists z. split; [exact Hz|]. exact (proj1 (vmapM_ok (nchan l) _ x z) Hz).
Qed.
Lemma frame_div_channelwise l k (x y : frame l k) :
  (forall z, frame_div x y = Ok z <->
     (forall i a b, nth_error (channels x) i = Some a -> nth_error (channels y) i = Some b ->
       exists c, c_div a b = Ok c /\ nth_error (channels z) i = Some c)) /\
  ((exists p, frame_div x y = Panic p) <->
   (exists i a b p, nth_error (channels x) i = Some a /\ nth_error (channels y) i = Some b /\ c_div a b = Panic p)).
Proof.
  split; [intros z; apply (vmap2M_ok (nchan l) (@c_div_assign k) x y z)|]. apply (vmap2M_panic (nchan l) (@c_div_assign k) x y). apply div_not_fuel.
Qed.
Lemma vlerp_ok k n (x y t z : vec (chan k) n) : vlerp x y t = Ok z ->
  forall i a b c, nth_error (vlist x) i = Some a -> nth_error (vlist y) i = Some b -> nth_error (vlist t) i = Some c ->
    exists r, c_lerp a b c = Ok r /\ nth_error (vlist z) i = Some r.
Proof.
  induction n as [|n IH]; cbn.
  - intros _ i a b c H. now destruct i.
  - destruct x as [x xs], y as [y ys], t as [t ts], z as [z zs]; cbn.
    destruct (c_lerp x y t) as [r| |] eqn:E; cbn [bind]; try discriminate.
    destruct (vlerp xs ys ts) as [rs| |] eqn:Er; cbn [bind]; try discriminate.
    intros [= -> ->] [|i] a b c; cbn.
    + intros [= <-] [= <-] [= <-]. eauto.
    + apply IH. exact Er.
Qed.
Lemma frame_lerp_channelwise l k (x y t : frame l k) : exists z, frame_lerp x y t = Ok z /\
  forall i a b c, nth_error (channels x) i = Some a -> nth_error (channels y) i = Some b ->
    nth_error (channels t) i = Some c -> exists r, c_lerp a b c = Ok r /\ nth_error (channels z) i = Some r.
Proof.
  assert (exists z, frame_lerp x y t = Ok z) as (z & Hz).
  { unfold frame_lerp, frame in *. revert x y t. generalize (nchan l) as n. intros n.
    induction n as [|n IH]; cbn [vlerp]; intros x y t; [eauto|].
    destruct (lerp_total k (fst x) (fst y) (fst t)) as (c & ->). cbn [bind].
    destruct (IH (snd x) (snd y) (snd t)) as (r & ->). cbn. eauto. }
  exists z. split; [exact Hz|]. exact (vlerp_ok k (nchan l) x y t z Hz).
Qed.

(** ** Validity is kept by frame operations *)
Lemma add_valid k (a b : chan k) : valid (c_add a b).
Proof.
  destruct k; try exact I.
  - exact (proj1 (float_ops_valid K32 (or_introl eq_refl) a b)).
  - exact (proj1 (float_ops_valid K64 (or_intror eq_refl) a b)).
Qed.
Lemma default_valid k : valid (chan_default k).
Proof.
  destruct k; try exact I; cbn [valid chan_default].
  - destruct (zero_correct 24 128) as [H1 H2]. split; [exact H2|]. rewrite H1. lra.
  - destruct (zero_correct 53 1024) as [H1 H2]. split; [exact H2|]. rewrite H1. lra.
Qed.
Lemma valid_fin k (c : chan k) : valid c -> fin c = true.
Proof. destruct k; try reflexivity; now intros [H _]. Qed.
Lemma Forall_nth {A} (P : A -> Prop) l : (forall i a, nth_error l i = Some a -> P a) -> Forall P l.
Proof. intros H. apply Forall_forall. intros x Hx. apply In_nth_error in Hx as [i Hi]. eauto. Qed.
Lemma frame_add_valid l k (x y : frame l k) : frame_valid (frame_add x y).
Proof.
  apply Forall_nth. intros i a Ha. pose proof (nth_some _ _ _ _ _ Ha) as Hi.
  destruct (nth_ex l k x i Hi) as (u & Hu), (nth_ex l k y i Hi) as (v & Hv).
  pose proof (proj1 (frame_ops_channelwise l k x y) i u v Hu Hv) as [H _].
  rewrite Ha in H. injection H as ->. apply add_valid.
Qed.
Lemma frame_default_valid l k : frame_valid (frame_default l k).
Proof. apply Forall_nth. intros i a Ha. apply nth_default in Ha as ->. apply default_valid. Qed.

(** ** Halving *)
Lemma round_half (x : R) : (bpow radix2 (-1021) <= Rabs x)%R -> round64 (x * / 2) = (round64 x * / 2)%R.
Proof.
  intros H. change (/ 2)%R with (bpow radix2 (-1)).
  assert (Hx : x <> 0%R).
  { intros ->. rewrite Rabs_R0 in H. pose proof (bpow_gt_0 radix2 (-1021)). lra. }
  assert (Hm : (-1020 <= mag radix2 x)%Z) by (apply mag_ge_bpow; exact H).
  assert (Hc : cexp radix2 (FLT_exp (3 - 1024 - 53) 53) (x * bpow radix2 (-1)) =
               (cexp radix2 (FLT_exp (3 - 1024 - 53) 53) x + -1)%Z).
  { unfold cexp, FLT_exp. rewrite mag_mult_bpow by exact Hx. lia. }
  unfold round64, round_to, round, scaled_mantissa. rewrite Hc. unfold F2R; cbn [Fnum Fexp].
  rewrite Rmult_assoc, <- bpow_plus.
  replace (-1 + - (cexp radix2 (FLT_exp (3 - 1024 - 53) 53) x + -1))%Z with
    (- cexp radix2 (FLT_exp (3 - 1024 - 53) 53) x)%Z by lia.
  now rewrite bpow_plus, Rmult_assoc.
Qed.
Lemma fmt_small_sum (x y : R) : generic_format radix2 (FLT_exp (3 - 1024 - 53) 53) x ->
  generic_format radix2 (FLT_exp (3 - 1024 - 53) 53) y -> (Rabs (x + y) <= bpow radix2 (-1021))%R ->
  generic_format radix2 (FLT_exp (3 - 1024 - 53) 53) (x + y).
Proof. intros Hx Hy H. apply Plus_error.FLT_format_plus_small; auto. exact eq_refl. Qed.

(** ** Conversion (C19) *)
Lemma avg_correct (a b : f64) : in_range a -> in_range b ->
  in_range (average a b) /\
  B2R (average a b) = round64 ((B2R a + B2R b) / 2)%R.
Proof.
  unfold average. intros [Fa Ra] [Fb Rb].
  assert (Hs : (Rabs (B2R a + B2R b) <= 2)%R) by (apply Rabs_le; lra).
  destruct (fadd_correct 53 1024 a b Fa Fb) as [S1 S2].
  { apply (rnd_small_lt 53 1024). eapply Rle_trans; [exact Hs|]. change 2%R with (bpow radix2 1). apply bpow_le. lia. }
  destruct (flit_correct 53 1024 1 (-1)) as [L1 L2].
  { apply (fmt_F2R 53 1024); [vm_compute; reflexivity|lia]. }
  { rewrite F2R_bpow. rewrite Rabs_pos_eq by apply bpow_ge_0. apply bpow_lt. lia. }
  rewrite F2R_bpow in L1. change (bpow radix2 (-1)) with (/ 2)%R in L1.
  assert (Hr : (Rabs (round64 (B2R a + B2R b)) <= 2)%R).
  { apply (rnd_abs_le 53 1024); [|exact Hs]. apply (fmt_Z 53 1024 2). vm_compute. discriminate. }
  assert (E : round64 (round64 (B2R a + B2R b) * / 2) = round64 ((B2R a + B2R b) / 2)).
  { set (x := (B2R a + B2R b)%R) in *.
    destruct (Rle_or_lt (bpow radix2 (-1021)) (Rabs x)) as [Hx|Hx].
    - assert (Hh : round64 (x / 2) = (round64 x / 2)%R).
      { apply round_half. exact Hx. }
      rewrite Hh. change (round64 x * / 2)%R with (round64 x / 2)%R. rewrite <- Hh.
      unfold round64. apply (rnd_fmt 53 1024), (fmt_rnd 53 1024).
    - assert (Hf : round64 x = x).
      { apply (rnd_fmt 53 1024). apply fmt_small_sum; [apply (fmt_B2R 53 1024)|apply (fmt_B2R 53 1024)|now apply Rlt_le]. }
      rewrite Hf. reflexivity. }
  destruct (fmul_correct 53 1024 (fadd a b) (flit 1 (-1)) S2 L2) as [M1 M2].
  { rewrite S1, L1. apply (rnd_small_lt 53 1024).
    apply Rle_trans with 1%R; [|apply (bpow_le radix2 0); lia].
    rewrite Rabs_mult, (Rabs_pos_eq (/ 2)) by lra. fold (round64 (B2R a + B2R b)). lra. }
  rewrite S1, L1 in M1. fold (round64 (B2R a + B2R b)) in M1.
  change (round_to 53 1024 (round64 (B2R a + B2R b) * / 2)) with (round64 (round64 (B2R a + B2R b) * / 2)) in M1.
  rewrite E in M1. split; [|exact M1]. split; [exact M2|]. rewrite M1.
  assert (Rabs (round64 ((B2R a + B2R b) / 2)) <= 1)%R.
  { apply (rnd_abs_le 53 1024); [apply (fmt_1 53 1024)|]. apply Rabs_le. lra. }
  apply Rabs_le_inv in H. lra.
Qed.

Lemma convert_map l1 k1 l2 k2 (f : frame l1 k1) : exists g, convert l2 k2 f = Ok g /\
  Forall2 (from_source f) (channel_map l1 l2) (channels g).
Proof.
  destruct l1, l2; cbv [frame nchan vec] in f;
    repeat match goal with x : (_ * _)%type |- _ => destruct x | x : unit |- _ => destruct x end;
    (eexists; split; [cbn [convert chan_f64 channels nchan vlist fst snd nth_error of_opt bind
      from_channels convert_into repeat vof_list]; reflexivity|]);
    cbn [channel_map channels nchan vlist fst snd]; repeat constructor; cbn [from_source];
    repeat match goal with
    | |- exists a, _ => eexists
    | |- _ /\ _ => split
    end; reflexivity.
Qed.

(** Conversion of one channel to its own type. *)
Lemma self_conv k (c : chan k) : from_f64 k (to_f64 c) = c.
Proof.
  destruct k.
  - exact (proj1 (int_f64_roundtrip K8 (or_introl eq_refl) c)).
  - exact (proj1 (int_f64_roundtrip K16 (or_intror eq_refl) c)).
  - exact (f64_as_f32_of_f32_gen c).
  - reflexivity.
Qed.

(** ** Layout round trips (C20) *)
Lemma avg_self (x : f64) : in_range x -> average x x = x.
Proof.
  intros Hx. destruct (avg_correct x x Hx Hx) as [[Fm _] Em]. destruct Hx as [Fx _].
  replace ((B2R x + B2R x) / 2)%R with (B2R x) in Em by lra.
  unfold round64 in Em. rewrite (rnd_fmt 53 1024) in Em by apply (fmt_B2R 53 1024).
  destruct x as [s|s| |s m e Hb]; try discriminate.
  - destruct s; apply B2SF_inj; vm_compute; reflexivity.
  - apply (finite_eq 53 1024); auto. rewrite Em. cbn [B2R]. intros H.
    apply eq_0_F2R in H. destruct s; discriminate.
Qed.
Lemma to_f64_range k (c : chan k) : valid c -> in_range (to_f64 c).
Proof.
  destruct k; intros H.
  - exact (proj1 (to64_range K8 (or_introl eq_refl) c)).
  - exact (proj1 (to64_range K16 (or_intror eq_refl) c)).
  - exact (proj2 (widen_float c (proj1 H)) H).
  - exact H.
Qed.
Ltac frame_cases f :=
  cbv [frame nchan vec] in f;
  repeat match goal with x : (_ * _)%type |- _ => destruct x | x : unit |- _ => destruct x end.
Ltac conv_simpl := cbn [convert chan_f64 channels nchan vlist fst snd nth_error of_opt bind
      from_channels convert_into repeat vof_list].

Lemma convert_self l k (f : frame l k) : convert l k f = Ok f.
Proof. destruct l; frame_cases f; conv_simpl; now rewrite !self_conv. Qed.

Lemma to_from_avg k (c : chan k) : valid c -> from_f64 k (average (to_f64 c) (to_f64 c)) = c.
Proof. intros H. rewrite avg_self by now apply to_f64_range. apply self_conv. Qed.

Lemma up_down l1 l2 k (f : frame l1 k) : (nchan l1 <= nchan l2)%nat -> frame_valid f ->
  exists g, convert l2 k f = Ok g /\ convert l1 k g = Ok f.
Proof.
  intros Hl Hv. destruct l1, l2; cbn in Hl; try lia; frame_cases f;
    unfold frame_valid in Hv; cbn [channels nchan vlist fst snd] in Hv;
    repeat match goal with H : Forall _ (_ :: _) |- _ => inversion H; clear H; subst end;
    (eexists; split; [conv_simpl; reflexivity|]); conv_simpl; rewrite ?self_conv;
    try reflexivity; change (fmul (fadd ?x ?y) (flit 1 (-1))) with (average x y);
    rewrite ?self_conv, ?to_from_avg by assumption; reflexivity.
Qed.

(** ** Silence (C21) *)
Lemma MID_default k : MID k = chan_default k. Proof. now destruct k. Qed.
Lemma from_f64_0 k : from_f64 k (flit 0 0) = chan_default k.
Proof.
  destruct k.
  - apply sint_eq; vm_compute; reflexivity.
  - apply sint_eq; vm_compute; reflexivity.
  - apply B2SF_inj; vm_compute; reflexivity.
  - apply B2SF_inj; vm_compute; reflexivity.
Qed.
Lemma to_f64_default k : is_float k -> to_f64 (chan_default k) = flit 0 0.
Proof. intros [-> | ->]; apply B2SF_inj; vm_compute; reflexivity. Qed.
(** The pairs of channel types for which silence becomes silence. *)
Definition silence_kept (k1 k2 : ck) : Prop := is_float k1 \/ k1 = k2 \/ (k1 = K16 /\ k2 = K8).
Lemma silence_conv_chan k1 k2 : silence_kept k1 k2 -> from_f64 k2 (to_f64 (chan_default k1)) = chan_default k2.
Proof.
  intros [H | [<- | [-> ->]]].
  - rewrite to_f64_default by exact H. apply from_f64_0.
  - apply self_conv.
  - apply sint_eq; vm_compute; reflexivity.
Qed.
Lemma silence_avg k1 k2 : silence_kept k1 k2 ->
  from_f64 k2 (average (to_f64 (chan_default k1)) (to_f64 (chan_default k1))) = chan_default k2.
Proof. intros H. rewrite avg_self by apply to_f64_range, default_valid. now apply silence_conv_chan. Qed.

Lemma repeat_nth {A} (c : A) n i a : nth_error (repeat c n) i = Some a -> a = c.
Proof. intros H. apply nth_error_In in H. now apply repeat_spec in H. Qed.
Lemma convert_silence l1 k1 l2 k2 : silence_kept k1 k2 ->
  convert l2 k2 (frame_default l1 k1) = Ok (frame_default l2 k2).
Proof.
  intros H. destruct (convert_map l1 k1 l2 k2 (frame_default l1 k1)) as (g & -> & Hg). f_equal.
  apply frame_ext_nth. intros i a b Ha Hb. apply nth_default in Hb as ->.
  assert (Hs : forall xs (ys : list (chan k2)), Forall2 (from_source (frame_default l1 k1)) xs ys ->
            forall i a, nth_error ys i = Some a -> a = chan_default k2).
  { induction 1 as [|x y xs ys Hxy _ IH]; intros [|j] c; cbn; try discriminate; [|apply IH].
    intros [= <-]. destruct x as [|m|m n]; cbn [from_source] in Hxy.
    - now rewrite Hxy, MID_default.
    - destruct Hxy as (u & Hu & ->). apply nth_default in Hu as ->. now apply silence_conv_chan.
    - destruct Hxy as (u & v & Hu & Hv' & ->). apply nth_default in Hu as ->. apply nth_default in Hv' as ->.
      now apply silence_avg. }
  exact (Hs _ _ Hg i a Ha).
Qed.
Lemma convert_silence_iff l1 k1 l2 k2 :
  convert l2 k2 (frame_default l1 k1) = Ok (frame_default l2 k2) <-> is_float k1 \/ k1 = k2 \/ (k1 = K16 /\ k2 = K8).
Proof.
  split; [|apply convert_silence]. intros E.
  destruct k1; [| |left; left; reflexivity|left; right; reflexivity]; destruct k2;
    try (right; left; reflexivity); try (right; right; split; reflexivity); exfalso;
    destruct l1, l2;
    first [ apply (f_equal (fun r => match r with Ok g => map sv (@channels _ K16 g) | _ => [] end)) in E; vm_compute in E; discriminate
          | apply (f_equal (fun r => match r with Ok g => map (fun c : f32 => B2SF c) (@channels _ K32 g) | _ => [] end)) in E; vm_compute in E; discriminate
          | apply (f_equal (fun r => match r with Ok g => map (fun c : f64 => B2SF c) (@channels _ K64 g) | _ => [] end)) in E; vm_compute in E; discriminate ].
Qed.
Lemma frame_from_f64_0 l k : frame_from_f64 l k (flit 0 0) = frame_default l k.
Proof.
  apply frame_ext. unfold channels at 1, frame_from_f64. rewrite vmap2_const, channels_default. now rewrite from_f64_0.
Qed.

(** ** Constructors (C22) *)
Lemma frame_from_f64_all l k x : channels (frame_from_f64 l k x) = repeat (from_f64 k x) (nchan l).
Proof. apply vmap2_const. Qed.
Lemma from_channel_all l k c : channels (from_channel l k c) = repeat c (nchan l).
Proof. apply vmap2_const. Qed.
Lemma from_mono_all l k (f : frame Mono k) : exists c g, channels f = [c] /\ from_mono l k f = Ok g /\ channels g = repeat c (nchan l).
Proof. frame_cases f. do 2 eexists. split; [reflexivity|]. split; [reflexivity|]. apply from_channel_all. Qed.
Lemma from_channels_spec l k (cs : list (chan k)) :
  (forall g, from_channels l k cs = Ok g <-> (nchan l <= length cs)%nat /\ channels g = firstn (nchan l) cs) /\
  (forall p, from_channels l k cs = Panic p <-> (length cs < nchan l)%nat /\ p = IndexOutOfBounds).
Proof. split; [intros g; apply vof_list_ok|intros p; apply vof_list_panic]. Qed.
Lemma frame_new_spec l k h (v : vec (chan h) (nchan l)) i c : nth_error (vlist v) i = Some c ->
  nth_error (channels (frame_new l k h v)) i = Some (chan_from h k c).
Proof.
  intros H. assert (Hi : (i < nchan l)%nat).
  { rewrite <- (vlist_length (nchan l) v). apply nth_error_Some. congruence. }
  destruct (nth_ex l k (frame_default l k) i Hi) as (d & Hd).
  exact (vmap2_nth (nchan l) (fun _ c => chan_from h k c) _ v i d c Hd H).
Qed.
