(** * LawProofs.v -- laws of [take] and [blend] (C69) *)
From Coq Require Import ZArith NArith List Lia.
From Verif Require Import Rust Float Chan Frame Ops Stream Audio SpecChan SpecFrame SpecStream SpecSink SpecAudio SpecMore SpecLaw.
From Verif Require Import FrameProofs OpsProofs StreamProofs SinkProofs AudioProofs StreamMore MoreProofs.
Import ListNotations.

Lemma alike_refl l k (s : stream l k) : alike s s.
Proof. unfold alike. repeat split; tauto. Qed.
Lemma alike_sym l k (s t : stream l k) : alike s t -> alike t s.
Proof.
  intros (A & B & C & D & E). unfold alike. repeat split; auto.
  - intros X. apply C; congruence.
  - intros X. apply C; congruence.
  - apply D.
  - apply D.
  - apply E.
  - apply E.
Qed.
Lemma alike_trans l k (s t u : stream l k) : alike s t -> alike t u -> alike s u.
Proof.
  intros (A & B & C & D & E) (A' & B' & C' & D' & E'). unfold alike. split; [congruence|]. split; [congruence|].
  split; [|split]; intros.
  - rewrite C by assumption. apply C'. congruence.
  - rewrite D. apply D'.
  - rewrite E. apply E'.
Qed.
Lemma alike_follows l k lk kk (s t : stream l k) : alike s t -> follows lk kk s t.
Proof.
  intros (_ & _ & _ & D & E). split; intros xs H; destruct (converted_ex lk kk l k xs) as (fs & C); exists xs, fs.
  - split; [now apply D|auto].
  - split; [now apply E|auto].
Qed.
Lemma alike_sink l k lk kk fuel (sk sk' : sink lk kk) (s t it : stream l k) : alike s t ->
  sink_stream fuel sk s = Ok (sk', it) -> exists it', sink_stream fuel sk t = Ok (sk', it').
Proof.
  intros A H. pose proof A as (A1 & A2 & A3 & _). apply (sink_follows _ _ _ _ _ _ _ _ _ _ _ t H); auto using alike_follows.
  intros N. apply A3. exact N.
Qed.
Lemma alike_extend l k lk kk fuel (a a' : audio lk kk) (s t it : stream l k) : alike s t ->
  extend fuel a s = (a', Ok it) -> exists it', extend fuel a t = (a', Ok it').
Proof.
  intros A H. pose proof A as (A1 & A2 & A3 & _). apply (extend_follows _ _ _ _ _ _ _ _ _ _ _ t H); auto using alike_follows.
  intros N. apply A3. exact N.
Qed.

(** ** Honest streams *)
Lemma starts_fun l k (s : stream l k) xs ys : starts s xs -> starts s ys -> length xs = length ys -> xs = ys.
Proof. intros (a & A) (b & B) L. exact (proj1 (pulls_det _ _ _ _ _ _ _ A B L)). Qed.
Lemma starts_firstn l k (s : stream l k) xs n : starts s xs -> starts s (firstn n xs).
Proof. intros (a & A). exact (pulls_firstn _ _ _ _ _ n A). Qed.
Lemma yields_starts l k (s : stream l k) xs : yields s xs -> starts s xs.
Proof. intros (a & b & A & _). now exists a. Qed.
Lemma yields_longest l k (s : stream l k) xs ys : yields s xs -> starts s ys -> (length ys <= length xs)%nat.
Proof.
  intros (a & b & A & N) (c & C). destruct (Nat.le_gt_cases (length ys) (length xs)) as [|G]; [assumption|].
  destruct (pulls_next _ _ _ _ _ _ C G) as (t & f & t' & P & N2).
  assert (firstn (length xs) ys = xs /\ t = a) as [_ ->] by (apply (pulls_det _ _ _ _ _ _ _ P A); rewrite firstn_length; lia). congruence.
Qed.
Lemma alike_honest l k (s t : stream l k) : honest s -> honest t -> sample_rate s = sample_rate t -> slen s = slen t ->
  (sample_rate s = None -> (configurable s <-> configurable t)) -> (forall xs, starts s xs -> starts t xs) -> alike s t.
Proof.
  intros Hs Ht Er El Ec H. split; [exact Er|]. split; [exact El|]. split; [exact Ec|].
  unfold honest in *. rewrite <- El in Ht. destruct (slen s) as [n|].
  - destruct Hs as (fs & Yf & Lf), Ht as (gs & Yg & Lg).
    assert (fs = gs) by (apply (starts_fun _ _ t); [apply H; now apply yields_starts|now apply yields_starts|lia]). subst gs.
    split; intros xs; split; intros X.
    + now apply H.
    + pose proof (yields_longest _ _ _ _ _ Yg X) as L.
      assert (xs = firstn (length xs) fs) as ->.
      { apply (starts_fun _ _ t); [exact X|apply starts_firstn; now apply yields_starts|rewrite firstn_length; lia]. }
      apply starts_firstn. now apply yields_starts.
    + now rewrite (yields_det _ _ _ _ _ X Yf).
    + now rewrite (yields_det _ _ _ _ _ X Yg).
  - split; intros xs; split; intros X.
    + now apply H.
    + destruct (Hs (length xs)) as (ys & Y & L). rewrite (starts_fun _ _ t xs ys); [exact Y|exact X|now apply H|lia].
    + destruct (Hs (S (length xs))) as (ys & Y & L). pose proof (yields_longest _ _ _ _ _ X Y). lia.
    + destruct (Ht (S (length xs))) as (ys & Y & L). pose proof (yields_longest _ _ _ _ _ X Y). lia.
Qed.
Lemma take_honest l k (s : stream l k) n : honest s -> honest (take s n).
Proof.
  intros H. unfold honest. rewrite take_len. unfold honest in H. destruct (slen s) as [m|]; cbn [shorter].
  - destruct H as (fs & Y & L). exists (firstn (N.to_nat n) fs). split; [now apply take_yields|]. rewrite firstn_length. lia.
  - destruct (H (N.to_nat n)) as (fs & Y & L). exists fs. split; [apply take_starts; [exact Y|lia]|lia].
Qed.
Lemma take_starts_iff l k (s : stream l k) n xs : starts (take s n) xs <-> starts s xs /\ (N.of_nat (length xs) <= n)%N.
Proof.
  split.
  - intros (t & P). apply take_pulls_inv in P as (L & s' & _ & P). split; [now exists s'|exact L].
  - intros ((t & P) & L). eexists. eapply take_pulls; eauto.
Qed.
Lemma blend_starts_iff l k l' k' (a : stream l k) (b : stream l' k') op t ms : blend a b op = Ok t ->
  (starts t ms <-> exists xs ys, starts a xs /\ starts b ys /\ mixes op xs ys ms).
Proof.
  intros H. split; [now apply blend_sound|]. intros (xs & ys & (a' & A) & (b' & B) & M). eapply blend_result_pulls; eauto.
Qed.

(** ** Laws *)
Lemma take_take l k (s : stream l k) n m : alike (take (take s n) m) (take s (N.min n m)).
Proof.
  split; [reflexivity|]. split; [|split; [reflexivity|split]].
  - rewrite !take_len. destruct (slen s); cbn [shorter]; f_equal; lia.
  - intros xs. rewrite !take_starts_iff. split; [intros ((A & B) & C)|intros (A & B)]; repeat split; auto; lia.
  - assert (Nx : forall s : stream l k, forall n m, (exists t, next (take (take s n) m) = Ok (None, t)) <-> (exists t, next (take s (N.min n m)) = Ok (None, t))).
    { clear. intros s n m. unfold take. cbn [next]. 
      destruct (N.eqb_spec m 0) as [->|M]; [rewrite N.min_0_r; cbn; split; intros _; eexists; reflexivity|].
      destruct (N.eqb_spec n 0) as [->|N']; [rewrite N.min_0_l; cbn; split; intros _; eexists; reflexivity|].
      destruct (N.eqb_spec (N.min n m) 0); [lia|]. destruct (next s) as [[o s']| |]; cbn [bind]; split; intros (t & H); try discriminate H; injection H as -> _; eauto. }
    intros xs. split.
    + intros (t & u & P & E). apply take_pulls_inv in P as (L & s1 & -> & P). apply take_pulls_inv in P as (L2 & s2 & -> & P).
      destruct (proj1 (Nx _ _ _) (ex_intro _ u E)) as (v & V).
      exists (take s2 (N.min n m - N.of_nat (length xs))), v. split; [apply take_pulls; [exact P|lia]|].
      rewrite <- V. f_equal. f_equal. lia.
    + intros (t & u & P & E). apply take_pulls_inv in P as (L & s1 & -> & P).
      replace (N.min n m - N.of_nat (length xs))%N with (N.min (n - N.of_nat (length xs)) (m - N.of_nat (length xs))) in E by lia.
      destruct (proj2 (Nx _ _ _) (ex_intro _ u E)) as (v & V).
      eexists. exists v. split; [|exact V]. apply take_pulls; [|lia]. apply take_pulls; [exact P|lia].
Qed.
Lemma take_more l k (s : stream l k) n m : honest s -> slen s = Some m -> (m <= n)%N -> alike (take s n) s.
Proof.
  intros H E L. apply alike_honest; auto using take_honest; [|reflexivity|].
  - rewrite take_len, E. cbn. f_equal. lia.
  - intros xs X. now apply take_starts_iff in X.
Qed.
Lemma take_alike l k (s t : stream l k) n : alike s t -> alike (take s n) (take t n).
Proof.
  intros (A & B & C & D & E). split; [exact A|]. split; [rewrite !take_len; now rewrite B|]. split; [exact C|]. split.
  - intros xs. rewrite !take_starts_iff, D. reflexivity.
  - assert (W : forall n, forall s t : stream l k, (forall xs, starts s xs <-> starts t xs) -> (forall xs, yields s xs <-> yields t xs) -> forall xs, yields (take s n) xs -> yields (take t n) xs).
    { clear. intros n s t D E xs (u & v & P & Nx). apply take_pulls_inv in P as (L & s' & -> & P).
      destruct (N.eq_dec (N.of_nat (length xs)) n) as [Q|Q].
      - apply take_starts; [apply D; now exists s'|exact Q].
      - assert (Y : yields s xs).
        { unfold take in Nx. cbn [next] in Nx. destruct (N.eqb_spec (n - N.of_nat (length xs)) 0); [lia|].
          destruct (next s') as [[o s'']| |] eqn:En; try discriminate. cbn [bind] in Nx. injection Nx as -> _. exists s', s''. auto. }
        apply E in Y. pose proof (take_yields _ _ _ _ n Y) as Z. rewrite firstn_all2 in Z by lia. exact Z. }
    intros xs. split; apply W; auto; intros; symmetry; auto.
Qed.
(** Setting the rate changes no frames. *)
Lemma set_same l k (s s' : stream l k) : (s' = s \/ exists sr, set_sample_rate s sr = Ok s') ->
  (forall xs, starts s' xs <-> starts s xs) /\ (forall xs, yields s' xs <-> yields s xs).
Proof.
  intros [->|(sr & H)]; [split; tauto|]. split; intros xs; split.
  - intros (t & P). destruct (set_rate_pulls_inv _ _ _ _ _ _ _ H P) as (u & U & _). now exists u.
  - now apply set_rate_starts with sr.
  - intros (t' & u' & P & Nx). destruct (set_rate_pulls_inv _ _ _ _ _ _ _ H P) as (t & Pt & St).
    pose proof (set_rate_next _ _ _ _ _ St) as N. destruct (next t) as [[o u]|p|] eqn:En; try congruence.
    destruct N as (w & Ew & _). assert (o = None) by congruence. subst o. exists t, u. split; assumption.
  - now apply set_rate_yields with sr.
Qed.
(** The rate of a blend, and whether it can be set. *)
Lemma blend_rate l k l' k' (a : stream l k) (b : stream l' k') op t : blend a b op = Ok t ->
  sample_rate b = None \/ sample_rate a <> None -> sample_rate t = sample_rate a.
Proof.
  intros H R. unfold blend in H.
  destruct (sample_rate a) as [x|] eqn:Ea, (sample_rate b) as [y|] eqn:Eb; cbn [opt_feq negb] in H.
  - destruct (feq x y); cbn [negb] in H; [injection H as <-; cbn; exact Ea|discriminate].
  - destruct (set_sample_rate b x) as [b'| |]; try discriminate. cbn [bind] in H. injection H as <-. cbn. exact Ea.
  - destruct R as [R|R]; [discriminate|now elim R].
  - injection H as <-. cbn. exact Ea.
Qed.
Lemma blend_exists l k l' k' (a a' : stream l k) (b b' : stream l' k') op t : blend a b op = Ok t ->
  sample_rate a = sample_rate a' -> sample_rate b = sample_rate b' ->
  (sample_rate a = None -> configurable a -> configurable a') -> (sample_rate b = None -> configurable b -> configurable b') ->
  exists t', blend a' b' op = Ok t'.
Proof.
  intros H Ea Eb Ca Cb. pose proof (blend_cases l k l' k' a b op) as P. pose proof (blend_cases l k l' k' a' b' op) as Q.
  rewrite <- Ea, <- Eb in Q. destruct (sample_rate a) as [x|], (sample_rate b) as [y|].
  - destruct (feq x y); [rewrite (proj1 Q eq_refl); eauto|]. rewrite (proj2 P eq_refl) in H. discriminate.
  - assert (C : configurable b). { destruct (set_rate_iff l' k' b x) as [I1 I2]. apply I1. destruct (I2 _ eq_refl) as [(b1 & E)|E]; [eauto|].
      rewrite (proj2 P) in H; [discriminate|]. intros C. apply I1 in C as (? & C). congruence. }
    destruct (proj1 Q (Cb eq_refl C)) as (? & _ & ->). eauto.
  - assert (C : configurable a). { destruct (set_rate_iff l k a y) as [I1 I2]. apply I1. destruct (I2 _ eq_refl) as [(a1 & E)|E]; [eauto|].
      rewrite (proj2 P) in H; [discriminate|]. intros C. apply I1 in C as (? & C). congruence. }
    destruct (proj1 Q (Ca eq_refl C)) as (? & _ & ->). eauto.
  - rewrite Q. eauto.
Qed.
(** [None] rate: set for both or none. *)
Lemma set_rate_reports l k (s s' : stream l k) sr : set_sample_rate s sr = Ok s' ->
  (configurable s' <-> configurable s).
Proof.
  revert s'; induction s as [l k f|l k r fs|l k r fs c|l k s IH n|l k l' k' a IHa b IHb op|l k u]; cbn [set_sample_rate]; intros t H; try discriminate.
  - injection H as <-. reflexivity.
  - destruct (set_sample_rate s sr) as [s1| |]; try discriminate. cbn [bind] in H. injection H as <-. cbn. now apply IH.
  - destruct (set_sample_rate a sr) as [a1| |]; try discriminate. cbn [bind] in H.
    destruct (set_sample_rate b sr) as [b1| |]; try discriminate. cbn [bind] in H. injection H as <-. cbn.
    rewrite (IHa a1 eq_refl), (IHb b1 eq_refl). reflexivity.
  - destruct (u_configurable u) eqn:E; [|discriminate]. injection H as <-. cbn. rewrite E. reflexivity.
Qed.
Lemma blend_config l k l' k' (a : stream l k) (b : stream l' k') op t : blend a b op = Ok t ->
  (configurable t <-> configurable a /\ configurable b).
Proof.
  intros H. destruct (blend_ok _ _ _ _ _ _ _ _ H) as (_ & a1 & b1 & -> & Sa & Sb). cbn.
  assert (Ca : configurable a1 <-> configurable a) by (destruct Sa as [->|(sr & Sa)]; [tauto|exact (set_rate_reports _ _ _ _ _ Sa)]).
  assert (Cb : configurable b1 <-> configurable b) by (destruct Sb as [->|(sr & Sb)]; [tauto|exact (set_rate_reports _ _ _ _ _ Sb)]).
  rewrite Ca, Cb. reflexivity.
Qed.

(** Mixing the other way round. *)
Lemma mixes_swap l k op (xs ys ms : list (frame l k)) : (forall x y : frame l k, mix_frames op x y = mix_frames op y x) ->
  mixes op xs ys ms -> mixes op ys xs ms.
Proof.
  intros S. induction 1 as [|x y m xs ys ms (y' & C & M) H IH]; constructor; [|exact IH].
  rewrite convert_self in C. injection C as <-. exists x. split; [apply convert_self|]. now rewrite S.
Qed.
Lemma shorter_comm a b : shorter a b = shorter b a.
Proof. destruct a, b; cbn; try reflexivity. f_equal. lia. Qed.
Lemma blend_swap l k (a b t : stream l k) op : op = Plus \/ op = Amplify -> honest a -> honest b -> sample_rate a = sample_rate b ->
  blend a b op = Ok t -> exists t', blend b a op = Ok t' /\ alike t t'.
Proof.
  intros Ho Ha Hb Er H.
  assert (To : total_op op l k) by (apply (builtin_total l k op (mkTrig (fun x => x) (fun x => x))); tauto).
  assert (Sw : forall x y : frame l k, mix_frames op x y = mix_frames op y x).
  { intros x y. destruct Ho as [->| ->]; [rewrite !mix_plus, frame_add_comm; reflexivity|rewrite !mix_amplify; apply frame_mul_comm]. }
  assert (exists t', blend b a op = Ok t') as (t' & H').
  { unfold blend in *. rewrite <- Er in *. destruct (opt_feq (sample_rate a) (sample_rate a)); cbn [negb] in *; [eauto|].
    destruct (sample_rate a); [discriminate|eauto]. }
  exists t'. split; [exact H'|].
  assert (Rt : sample_rate t = sample_rate a) by (apply (blend_rate _ _ _ _ _ _ _ _ H); rewrite Er; destruct (sample_rate b); [right; discriminate|now left]).
  assert (Rt' : sample_rate t' = sample_rate b) by (apply (blend_rate _ _ _ _ _ _ _ _ H'); rewrite <- Er; destruct (sample_rate a); [right; discriminate|now left]).
  apply alike_honest.
  - exact (blend_honest _ _ _ _ _ _ _ _ H To Ha Hb).
  - exact (blend_honest _ _ _ _ _ _ _ _ H' To Hb Ha).
  - congruence.
  - rewrite (proj1 (blend_ok _ _ _ _ _ _ _ _ H)), (proj1 (blend_ok _ _ _ _ _ _ _ _ H')). apply shorter_comm.
  - intros _. rewrite (blend_config _ _ _ _ _ _ _ _ H), (blend_config _ _ _ _ _ _ _ _ H'). tauto.
  - intros ms. rewrite (blend_starts_iff _ _ _ _ _ _ _ _ _ H), (blend_starts_iff _ _ _ _ _ _ _ _ _ H').
    intros (xs & ys & A & B & M). exists ys, xs. split; [exact B|]. split; [exact A|]. now apply mixes_swap.
Qed.

(** [take] of a blend. *)
Lemma take_blend_left l k l' k' (a : stream l k) (b : stream l' k') op n t : total_op op l k -> honest a -> honest b ->
  blend a b op = Ok t -> exists t', blend (take a n) b op = Ok t' /\ alike (take t n) t'.
Proof.
  intros To Ha Hb H.
  destruct (blend_exists l k l' k' a (take a n) b b op t H eq_refl eq_refl ltac:(auto) ltac:(auto)) as (t' & H').
  exists t'. split; [exact H'|]. apply alike_honest.
  - apply take_honest. exact (blend_honest _ _ _ _ _ _ _ _ H To Ha Hb).
  - exact (blend_honest _ _ _ _ _ _ _ _ H' To (take_honest _ _ _ n Ha) Hb).
  - change (sample_rate (take t n)) with (sample_rate t). unfold blend in H, H'. change (sample_rate (take a n)) with (sample_rate a) in H'.
    destruct (opt_feq (sample_rate a) (sample_rate b)); cbn [negb] in H, H'; [injection H as <-; injection H' as <-; reflexivity|].
    destruct (sample_rate a) as [x|], (sample_rate b) as [y|]; try discriminate.
    + destruct (set_sample_rate b x) as [b1| |]; try discriminate. cbn [bind] in H, H'. injection H as <-. injection H' as <-. reflexivity.
    + unfold take in H'. cbn [set_sample_rate] in H'. destruct (set_sample_rate a y) as [a1| |]; try discriminate. cbn [bind] in H, H'. injection H as <-. injection H' as <-. reflexivity.
    + injection H as <-. injection H' as <-. reflexivity.
  - rewrite take_len, (proj1 (blend_ok _ _ _ _ _ _ _ _ H)), (proj1 (blend_ok _ _ _ _ _ _ _ _ H')), take_len.
    destruct (slen a), (slen b); cbn; f_equal; lia.
  - intros _. change (configurable (take t n)) with (configurable t). rewrite (blend_config _ _ _ _ _ _ _ _ H), (blend_config _ _ _ _ _ _ _ _ H'). reflexivity.
  - intros ms. rewrite take_starts_iff, (blend_starts_iff _ _ _ _ _ _ _ _ _ H), (blend_starts_iff _ _ _ _ _ _ _ _ _ H').
    intros ((xs & ys & A & B & M) & L). exists xs, ys. split; [|auto]. apply take_starts_iff. split; [exact A|].
    destruct (mixes_length _ _ _ _ _ _ _ _ M). lia.
Qed.
Lemma take_blend_right l k l' k' (a : stream l k) (b : stream l' k') op n t : total_op op l k -> honest a -> honest b ->
  blend a b op = Ok t -> exists t', blend a (take b n) op = Ok t' /\ alike (take t n) t'.
Proof.
  intros To Ha Hb H.
  destruct (blend_exists l k l' k' a a b (take b n) op t H eq_refl eq_refl ltac:(auto) ltac:(auto)) as (t' & H').
  exists t'. split; [exact H'|]. apply alike_honest.
  - apply take_honest. exact (blend_honest _ _ _ _ _ _ _ _ H To Ha Hb).
  - exact (blend_honest _ _ _ _ _ _ _ _ H' To Ha (take_honest _ _ _ n Hb)).
  - change (sample_rate (take t n)) with (sample_rate t). unfold blend in H, H'. change (sample_rate (take b n)) with (sample_rate b) in H'.
    destruct (opt_feq (sample_rate a) (sample_rate b)); cbn [negb] in H, H'; [injection H as <-; injection H' as <-; reflexivity|].
    destruct (sample_rate a) as [x|], (sample_rate b) as [y|]; try discriminate.
    + unfold take in H'. cbn [set_sample_rate] in H'. destruct (set_sample_rate b x) as [b1| |]; try discriminate. cbn [bind] in H, H'. injection H as <-. injection H' as <-. reflexivity.
    + destruct (set_sample_rate a y) as [a1| |]; try discriminate. cbn [bind] in H, H'. injection H as <-. injection H' as <-. reflexivity.
    + injection H as <-. injection H' as <-. reflexivity.
  - rewrite take_len, (proj1 (blend_ok _ _ _ _ _ _ _ _ H)), (proj1 (blend_ok _ _ _ _ _ _ _ _ H')), take_len.
    destruct (slen a), (slen b); cbn; f_equal; lia.
  - intros _. change (configurable (take t n)) with (configurable t). rewrite (blend_config _ _ _ _ _ _ _ _ H), (blend_config _ _ _ _ _ _ _ _ H'). reflexivity.
  - intros ms. rewrite take_starts_iff, (blend_starts_iff _ _ _ _ _ _ _ _ _ H), (blend_starts_iff _ _ _ _ _ _ _ _ _ H').
    intros ((xs & ys & A & B & M) & L). exists xs, ys. split; [exact A|]. split; [|exact M]. apply take_starts_iff. split; [exact B|].
    destruct (mixes_length _ _ _ _ _ _ _ _ M). lia.
Qed.

(** Dest, and Plus with silence. *)
Lemma limit_starts l k (s : stream l k) n xs : starts (limit s n) xs <-> starts s xs /\ match n with Some n => (N.of_nat (length xs) <= n)%N | None => True end.
Proof. destruct n; cbn [limit]; [apply take_starts_iff|tauto]. Qed.
Lemma honest_within l k (s : stream l k) xs : honest s -> starts s xs -> match slen s with Some n => (N.of_nat (length xs) <= n)%N | None => True end.
Proof.
  intros H S. unfold honest in H. destruct (slen s); [|exact I]. destruct H as (fs & Y & <-). pose proof (yields_longest _ _ _ _ _ Y S). lia.
Qed.
Lemma limit_honest l k (s : stream l k) n : honest s -> honest (limit s n).
Proof. destruct n; [apply take_honest|auto]. Qed.
Lemma mixes_left l k l' k' op (xs : list (frame l k)) (ys : list (frame l' k')) ms :
  (forall x y y' m, In y ys -> convert l k y = Ok y' -> mix_frames op x y' = Ok m -> m = x) -> mixes op xs ys ms -> ms = xs.
Proof.
  intros D. induction 1 as [|x y m xs ys ms (y' & C & M) H IH]; [reflexivity|].
  rewrite (D x y y' m (or_introl eq_refl) C M). f_equal. apply IH. intros. eapply D; eauto. now right.
Qed.
Lemma blend_left_only l k l' k' (a : stream l k) (b : stream l' k') op t : total_op op l k -> honest a -> honest b ->
  (forall ys x y y' m, starts b ys -> In y ys -> convert l k y = Ok y' -> mix_frames op x y' = Ok m -> m = x) ->
  sample_rate a <> None \/ (sample_rate b = None /\ configurable b) -> blend a b op = Ok t -> alike t (limit a (slen b)).
Proof.
  intros To Ha Hb D Er H.
  assert (Hr : sample_rate (limit a (slen b)) = sample_rate a) by (destruct (slen b); reflexivity).
  assert (Hc : configurable (limit a (slen b)) <-> configurable a) by (destruct (slen b); reflexivity).
  apply alike_honest.
  - exact (blend_honest _ _ _ _ _ _ _ _ H To Ha Hb).
  - now apply limit_honest.
  - rewrite Hr. apply (blend_rate _ _ _ _ _ _ _ _ H). tauto.
  - rewrite (proj1 (blend_ok _ _ _ _ _ _ _ _ H)). destruct (slen b); cbn [limit]; [now rewrite take_len|]. destruct (slen a); reflexivity.
  - intros Et. rewrite (blend_config _ _ _ _ _ _ _ _ H), Hc. rewrite (blend_rate _ _ _ _ _ _ _ _ H) in Et by tauto. tauto.
  - intros ms. rewrite (blend_starts_iff _ _ _ _ _ _ _ _ _ H), limit_starts. intros (xs & ys & A & B & M).
    destruct (mixes_length _ _ _ _ _ _ _ _ M) as [L1 L2].
    rewrite (mixes_left _ _ _ _ _ _ _ _ (fun x y y' m => D ys x y y' m B) M) in *. split; [exact A|].
    pose proof (honest_within _ _ _ _ Hb B) as Q. destruct (slen b); [|exact I]. lia.
Qed.
Lemma blend_dest l k l' k' (a : stream l k) (b : stream l' k') t : honest a -> honest b ->
  sample_rate a <> None \/ (sample_rate b = None /\ configurable b) -> blend a b Dest = Ok t -> alike t (limit a (slen b)).
Proof.
  intros Ha Hb. apply blend_left_only; auto.
  - apply (builtin_total l k Dest (mkTrig (fun x => x) (fun x => x))). tauto.
  - intros ys x y y' m _ _ _ M. rewrite (proj1 (proj2 (mix_src_dest_clear l k x y'))) in M. congruence.
Qed.
Lemma frame_starts_only l k (f : frame l k) ys y : starts (SFrame f) ys -> In y ys -> y = f.
Proof.
  intros S I. rewrite (starts_fun _ _ (SFrame f) ys (repeat f (length ys))) in I; [now apply repeat_spec in I|exact S| |now rewrite repeat_length].
  eexists. apply frame_starts.
Qed.
Lemma blend_silence l k l' (a t : stream l k) : is_int k -> honest a ->
  blend a (SFrame (frame_default l' k)) Plus = Ok t -> alike t a.
Proof.
  intros Hk Ha H.
  refine (blend_left_only l k l' k a (SFrame (frame_default l' k)) Plus t _ Ha _ _ _ H).
  - apply (builtin_total l k Plus (mkTrig (fun x => x) (fun x => x))). tauto.
  - apply well_formed_honest. exact I.
  - intros ys x y y' m Sy Iy C M. apply (frame_starts_only _ _ _ _ _ Sy) in Iy. subst y.
    rewrite convert_silence in C by (right; left; reflexivity). injection C as <-. rewrite (proj1 (mix_plus_neutral l k x) Hk) in M. congruence.
  - right. split; [reflexivity|exact I].
Qed.
(** Blending respects [alike]. *)
Lemma blend_alike_pulls l k l' k' (a a' : stream l k) (b b' : stream l' k') op : 
  (forall xs, starts a xs <-> starts a' xs) -> (forall xs, yields a xs <-> yields a' xs) ->
  (forall xs, starts b xs <-> starts b' xs) -> (forall xs, yields b xs <-> yields b' xs) ->
  forall ms, yields (SBlend a b op) ms -> yields (SBlend a' b' op) ms.
Proof.
  intros Da Ya Db Yb ms (t & u & P & N). apply blend_pulls_inv in P as (xs & ys & a1 & b1 & Pa & Pb & M & ->).
  cbn [next] in N. destruct (next a1) as [[[x|] a2]| |] eqn:Na; try discriminate; cbn [bind] in N.
  - destruct (next b1) as [[[y|] b2]| |] eqn:Nb; try discriminate; cbn [bind] in N.
    + destruct (convert l k y) as [y'| |]; try discriminate. cbn [bind] in N. destruct (mix_frames op x y'); discriminate.
    + apply (blend_yields_r _ _ _ _ _ _ _ xs x ys).
      * apply Da. exists a2. apply pulls_app with a1; [exact Pa|]. econstructor; [exact Na|constructor].
      * apply Yb. exists b1, b2. auto.
      * exact M.
  - apply (blend_yields_l _ _ _ _ _ _ _ xs ys).
    + apply Ya. exists a1, a2. auto.
    + apply Db. now exists b1.
    + exact M.
Qed.
Lemma blend_alike l k l' k' (a a' : stream l k) (b b' : stream l' k') op t : alike a a' -> alike b b' ->
  sample_rate a <> None \/ sample_rate b = None -> blend a b op = Ok t -> exists t', blend a' b' op = Ok t' /\ alike t t'.
Proof.
  intros (A1 & A2 & A3 & A4 & A5) (B1 & B2 & B3 & B4 & B5) Hr H.
  destruct (blend_exists l k l' k' a a' b b' op t H A1 B1) as (t' & H').
  { intros N. apply A3. exact N. } { intros N. apply B3. exact N. }
  exists t'. split; [exact H'|].
  assert (R : sample_rate t = sample_rate a) by (apply (blend_rate _ _ _ _ _ _ _ _ H); tauto).
  assert (R' : sample_rate t' = sample_rate a') by (apply (blend_rate _ _ _ _ _ _ _ _ H'); rewrite <- A1, <- B1; tauto).
  split; [congruence|]. split; [|split; [|split]].
  - rewrite (proj1 (blend_ok _ _ _ _ _ _ _ _ H)), (proj1 (blend_ok _ _ _ _ _ _ _ _ H')). congruence.
  - intros N. rewrite (blend_config _ _ _ _ _ _ _ _ H), (blend_config _ _ _ _ _ _ _ _ H').
    rewrite A3 by congruence. rewrite B3; [reflexivity|]. destruct Hr as [Q|Q]; [|exact Q]. congruence.
  - intros ms. rewrite (blend_starts_iff _ _ _ _ _ _ _ _ _ H), (blend_starts_iff _ _ _ _ _ _ _ _ _ H').
    split; intros (xs & ys & X & Y & M); exists xs, ys; (split; [now apply A4|split; [now apply B4|exact M]]).
  - destruct (blend_ok _ _ _ _ _ _ _ _ H) as (_ & a1 & b1 & -> & Sa & Sb). destruct (blend_ok _ _ _ _ _ _ _ _ H') as (_ & a1' & b1' & -> & Sa' & Sb').
    destruct (set_same _ _ _ _ Sa) as [U1 U2], (set_same _ _ _ _ Sb) as [V1 V2], (set_same _ _ _ _ Sa') as [U3 U4], (set_same _ _ _ _ Sb') as [V3 V4].
    intros ms. split; apply blend_alike_pulls; intros zs; rewrite ?U1, ?U2, ?U3, ?U4, ?V1, ?V2, ?V3, ?V4; auto; symmetry; auto.
Qed.
