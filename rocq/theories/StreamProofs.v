(** * StreamProofs.v -- lemmas about streams *)
From Coq Require Import ZArith NArith Reals List Bool Lia.
From Flocq Require Import Core.Core IEEE754.BinarySingleNaN.
From Verif Require Import Rust Float Chan Frame Ops Stream Audio SpecChan SpecFrame SpecStream FrameProofs OpsProofs.
Import ListNotations.

(** ** pulls *)
Lemma pulls_cons_inv l k (s t : stream l k) f fs : pulls s (f :: fs) t -> exists s', next s = Ok (Some f, s') /\ pulls s' fs t.
Proof. intros H. inversion H; subst. eauto. Qed.
Lemma pulls_nil_inv l k (s t : stream l k) : pulls s [] t -> s = t.
Proof. intros H. now inversion H. Qed.
Lemma pulls_app l k (s s' s'' : stream l k) fs gs : pulls s fs s' -> pulls s' gs s'' -> pulls s (fs ++ gs) s''.
Proof. induction 1; cbn; [trivial|]. intros H1. econstructor; eauto. Qed.
Lemma pulls_app_inv l k (s s'' : stream l k) fs gs : pulls s (fs ++ gs) s'' -> exists s', pulls s fs s' /\ pulls s' gs s''.
Proof.
  revert s; induction fs as [|f fs IH]; intros s H; cbn in H.
  - exists s. split; [constructor|exact H].
  - apply pulls_cons_inv in H as (s0 & Hn & Hp). destruct (IH _ Hp) as (s1 & H1 & H2). exists s1. split; [econstructor; eauto|exact H2].
Qed.
Lemma pulls_det l k (s a b : stream l k) fs gs : pulls s fs a -> pulls s gs b -> length fs = length gs -> fs = gs /\ a = b.
Proof.
  intros H; revert gs b; induction H as [s|s f s' fs s'' Hn Hp IH]; intros gs b H2 L.
  - destruct gs; [|discriminate]. inversion H2; subst. auto.
  - destruct gs as [|g gs]; [discriminate|]. inversion H2 as [|? ? s1 ? ? Hn1 Hp1]; subst. rewrite Hn in Hn1. injection Hn1 as <- <-.
    cbn in L. injection L as L. destruct (IH _ _ Hp1 L) as [-> ->]. auto.
Qed.
Lemma yields_det l k (s : stream l k) fs gs : yields s fs -> yields s gs -> fs = gs.
Proof.
  intros (a & a' & Ha & Ea) (b & b' & Hb & Eb).
  destruct (Nat.lt_trichotomy (length fs) (length gs)) as [L|[L|L]].
  - rewrite <- (firstn_skipn (length fs) gs) in Hb. apply pulls_app_inv in Hb as (c & H1 & H2).
    destruct (pulls_det _ _ _ _ _ _ _ Ha H1) as [_ ->]; [rewrite firstn_length; lia|].
    destruct (skipn (length fs) gs) as [|g r] eqn:E.
    + apply (f_equal (@length _)) in E. rewrite skipn_length in E. cbn in E. lia.
    + apply pulls_cons_inv in H2 as (? & H3 & _). rewrite Ea in H3. discriminate.
  - exact (proj1 (pulls_det _ _ _ _ _ _ _ Ha Hb L)).
  - rewrite <- (firstn_skipn (length gs) fs) in Ha. apply pulls_app_inv in Ha as (c & H1 & H2).
    destruct (pulls_det _ _ _ _ _ _ _ Hb H1) as [_ ->]; [rewrite firstn_length; lia|].
    destruct (skipn (length gs) fs) as [|g r] eqn:E.
    + apply (f_equal (@length _)) in E. rewrite skipn_length in E. cbn in E. lia.
    + apply pulls_cons_inv in H2 as (? & H3 & _). rewrite Eb in H3. discriminate.
Qed.

(** ** take *)
Lemma take_len l k (s : stream l k) n : slen (take s n) = shorter (slen s) (Some n).
Proof. cbn. destruct (slen s); reflexivity. Qed.

Lemma take_pulls l k (s s' : stream l k) fs n : pulls s fs s' -> (N.of_nat (length fs) <= n)%N ->
  pulls (take s n) fs (take s' (n - N.of_nat (length fs))).
Proof.
  intros H; revert n; induction H as [s|s f s' fs s'' Hn Hp IH]; intros n Hl.
  - cbn. rewrite N.sub_0_r. constructor.
  - cbn [length] in *. econstructor.
    + unfold take. cbn [next]. destruct (N.eqb_spec n 0); [lia|]. rewrite Hn. cbn [bind]. reflexivity.
    + replace (n - N.of_nat (S (length fs)))%N with (N.pred n - N.of_nat (length fs))%N by lia. apply IH. lia.
Qed.
Lemma take_pulls_inv l k (s t : stream l k) gs n : pulls (take s n) gs t ->
  (N.of_nat (length gs) <= n)%N /\ exists s', t = take s' (n - N.of_nat (length gs)) /\ pulls s gs s'.
Proof.
  revert s n; induction gs as [|g gs IH]; intros s n H.
  - apply pulls_nil_inv in H as <-. split; [cbn; lia|]. exists s. cbn. rewrite N.sub_0_r. split; [reflexivity|constructor].
  - apply pulls_cons_inv in H as (s9 & Hn & Hp). unfold take in Hn. cbn [next] in Hn.
    destruct (N.eqb_spec n 0); [discriminate|]. destruct (next s) as [[o s1]| |] eqn:E; try discriminate.
    cbn [bind] in Hn. injection Hn as -> <-. apply IH in Hp as (Hl & s2 & -> & Hp). cbn [length]. split; [lia|].
    exists s2. split; [unfold take; f_equal; lia|]. econstructor; eauto.
Qed.
Lemma take_stops l k (s : stream l k) : next (take s 0) = Ok (None, take s 0).
Proof. reflexivity. Qed.
Lemma take_ends l k (s s' : stream l k) n : next s = Ok (None, s') -> exists t, next (take s n) = Ok (None, t).
Proof. intros H. unfold take. cbn [next]. rewrite H. destruct (N.eqb n 0); eexists; reflexivity. Qed.

Lemma take_yields l k (s : stream l k) fs n : yields s fs -> yields (take s n) (firstn (N.to_nat n) fs).
Proof.
  intros (a & a' & Hp & He). destruct (N.ltb_spec n (N.of_nat (length fs))) as [L|L].
  - rewrite <- (firstn_skipn (N.to_nat n) fs) in Hp. apply pulls_app_inv in Hp as (b & H1 & _).
    assert (E : N.of_nat (length (firstn (N.to_nat n) fs)) = n) by (rewrite firstn_length; lia).
    pose proof (take_pulls _ _ _ _ _ n H1 ltac:(lia)) as H2. rewrite E, N.sub_diag in H2.
    exists (take b 0), (take b 0). split; [exact H2|reflexivity].
  - rewrite firstn_all2 by lia. pose proof (take_pulls _ _ _ _ _ n Hp L) as H2.
    destruct (take_ends _ _ _ _ (n - N.of_nat (length fs)) He) as (t & Ht). exists (take a (n - N.of_nat (length fs))), t.
    split; assumption.
Qed.
Lemma take_starts l k (s : stream l k) fs n : starts s fs -> N.of_nat (length fs) = n -> yields (take s n) fs.
Proof.
  intros (a & Hp) E. pose proof (take_pulls _ _ _ _ _ n Hp ltac:(lia)) as H. rewrite E, N.sub_diag in H.
  exists (take a 0), (take a 0). split; [exact H|reflexivity].
Qed.

(** ** blend *)
Lemma convert_total l1 k1 l2 k2 (f : frame l1 k1) : exists g, convert l2 k2 f = Ok g.
Proof. destruct (convert_map l1 k1 l2 k2 f) as (g & H & _). eauto. Qed.

Lemma blend_pulls l k l' k' (a a' : stream l k) (b b' : stream l' k') op xs ys ms :
  pulls a xs a' -> pulls b ys b' -> mixes op xs ys ms -> pulls (SBlend a b op) ms (SBlend a' b' op).
Proof.
  intros Ha Hb Hm; revert a b Ha Hb; induction Hm as [|x y m xs ys ms (y' & Hy & Hx) Hm IH]; intros a b Ha Hb.
  - apply pulls_nil_inv in Ha as <-. apply pulls_nil_inv in Hb as <-. constructor.
  - apply pulls_cons_inv in Ha as (a1 & Na & Pa). apply pulls_cons_inv in Hb as (b1 & Nb & Pb).
    econstructor; [|eapply IH; eassumption]. cbn [next].
    rewrite Na. cbn [bind]. rewrite Nb. cbn [bind]. rewrite Hy. cbn [bind]. rewrite Hx. reflexivity.
Qed.
Lemma blend_pulls_inv l k l' k' (a : stream l k) (b : stream l' k') op ms t :
  pulls (SBlend a b op) ms t ->
  exists xs ys a' b', pulls a xs a' /\ pulls b ys b' /\ mixes op xs ys ms /\ t = SBlend a' b' op.
Proof.
  revert a b; induction ms as [|m ms IH]; intros a b H.
  - apply pulls_nil_inv in H as <-. exists [], [], a, b. repeat split; constructor.
  - apply pulls_cons_inv in H as (s9 & Hn & Hp). cbn [next] in Hn.
    destruct (next a) as [[[x|] a1]| |] eqn:Ea; try discriminate.
    cbn [bind] in Hn. destruct (next b) as [[[y|] b1]| |] eqn:Eb; try discriminate.
    cbn [bind] in Hn. destruct (convert l k y) as [y'| |] eqn:Ey; try discriminate. cbn [bind] in Hn.
    destruct (mix_frames op x y') as [m'| |] eqn:Em; try discriminate. cbn [bind] in Hn. injection Hn as -> <-.
    apply IH in Hp as (xs & ys & a' & b' & H1 & H2 & H3 & ->).
    exists (x :: xs), (y :: ys), a', b'. split; [econstructor; eauto|]. split; [econstructor; eauto|].
    split; [|reflexivity]. constructor; [exists y'; split; assumption|exact H3].
Qed.
Lemma blend_ends l k l' k' (a : stream l k) (b : stream l' k') op :
  (exists a', next a = Ok (None, a')) \/
  (exists x a' b', next a = Ok (Some x, a') /\ next b = Ok (None, b')) ->
  exists t, next (SBlend a b op) = Ok (None, t).
Proof.
  intros [(a' & H)|(x & a' & b' & H1 & H2)]; cbn [next].
  - rewrite H. eexists; reflexivity.
  - rewrite H1. cbn [bind]. rewrite H2. eexists; reflexivity.
Qed.
Lemma mixes_ex l k l' k' op (xs : list (frame l k)) (ys : list (frame l' k')) : total_op op l k ->
  length xs = length ys -> exists ms, mixes op xs ys ms.
Proof.
  intros Ht; revert ys; induction xs as [|x xs IH]; intros [|y ys] L; try discriminate.
  - exists []. constructor.
  - destruct (IH ys) as (ms & H); [now injection L|]. destruct (convert_total l' k' l k y) as (y' & Hy), (Ht x y') as (m & Hm).
    exists (m :: ms). constructor; [exists y'; auto|exact H].
Qed.
Lemma mixes_length l k l' k' op (xs : list (frame l k)) (ys : list (frame l' k')) ms :
  mixes op xs ys ms -> length xs = length ms /\ length ys = length ms.
Proof. induction 1; cbn; lia. Qed.
Lemma mixes_nth l k l' k' op (xs : list (frame l k)) (ys : list (frame l' k')) ms i m :
  mixes op xs ys ms -> nth_error ms i = Some m ->
  exists x y, nth_error xs i = Some x /\ nth_error ys i = Some y /\ mixed op x y m.
Proof.
  intros H; revert i; induction H; intros [|i]; cbn; intros E; try discriminate.
  - injection E as <-. eauto.
  - auto.
Qed.

Lemma blend_len l k l' k' (a : stream l k) (b : stream l' k') op : slen (SBlend a b op) = shorter (slen a) (slen b).
Proof. cbn. destruct (slen a), (slen b); reflexivity. Qed.

(** A blend of streams that give [xs] and [ys]: ends after the shorter. *)
Lemma pulls_firstn l k (s s' : stream l k) fs n : pulls s fs s' -> starts s (firstn n fs).
Proof. intros H. rewrite <- (firstn_skipn n fs) in H. apply pulls_app_inv in H as (a & H & _). exists a; exact H. Qed.
Lemma pulls_next l k (s s' : stream l k) fs n : pulls s fs s' -> (n < length fs)%nat ->
  exists t f t', pulls s (firstn n fs) t /\ next t = Ok (Some f, t').
Proof.
  intros H L. rewrite <- (firstn_skipn n fs) in H. apply pulls_app_inv in H as (a & H1 & H2).
  destruct (skipn n fs) as [|f r] eqn:E; [apply (f_equal (@length _)) in E; rewrite skipn_length in E; cbn in E; lia|].
  apply pulls_cons_inv in H2 as (t & H2 & _). exists a, f, t. split; assumption.
Qed.
Lemma blend_yields_l l k l' k' (a : stream l k) (b : stream l' k') op xs ys ms :
  yields a xs -> starts b ys -> mixes op xs ys ms -> yields (SBlend a b op) ms.
Proof.
  intros (a' & a'' & Ha & Ea) (b' & Hb) Hm. pose proof (blend_pulls _ _ _ _ _ _ _ _ _ _ _ _ Ha Hb Hm) as H.
  destruct (blend_ends _ _ _ _ a' b' op) as (t & Ht); [left; eauto|]. exists (SBlend a' b' op), t. auto.
Qed.
Lemma blend_yields_r l k l' k' (a : stream l k) (b : stream l' k') op xs x ys ms :
  starts a (xs ++ [x]) -> yields b ys -> mixes op xs ys ms -> yields (SBlend a b op) ms.
Proof.
  intros (a' & Ha) (b' & b'' & Hb & Eb) Hm. apply pulls_app_inv in Ha as (a1 & Ha & Hx). apply pulls_cons_inv in Hx as (s' & Hx & _).
  pose proof (blend_pulls _ _ _ _ _ _ _ _ _ _ _ _ Ha Hb Hm) as H.
  destruct (blend_ends _ _ _ _ a1 b' op) as (t & Ht); [right; exists x, s', b''; auto|]. exists (SBlend a1 b' op), t. auto.
Qed.

(** ** Honesty of well-formed streams *)
Lemma frame_starts l k (f : frame l k) n : pulls (SFrame f) (repeat f n) (SFrame f).
Proof. induction n; cbn; [constructor|]. econstructor; [reflexivity|exact IHn]. Qed.
Lemma audio_pulls l k r (fs gs : list (frame l k)) : pulls (SAudio r (fs ++ gs)) fs (SAudio r gs).
Proof. induction fs; cbn; [constructor|]. econstructor; [reflexivity|exact IHfs]. Qed.
Lemma audio_yields l k r (fs : list (frame l k)) : yields (SAudio r fs) fs.
Proof.
  exists (SAudio r []), (SAudio r []). split; [|reflexivity]. rewrite <- (app_nil_r fs) at 1. apply audio_pulls.
Qed.
Lemma drain_pulls l k r (fs : list (frame l k)) n c : (n + c <= length fs)%nat ->
  pulls (SDrain r fs c) (firstn n (skipn c fs)) (SDrain r fs (n + c)).
Proof.
  revert c; induction n as [|n IH]; intros c H; cbn [firstn]; [constructor|].
  destruct (skipn c fs) as [|f rest] eqn:E; [apply (f_equal (@length _)) in E; rewrite skipn_length in E; cbn in E; lia|].
  assert (Hn : nth_error fs c = Some f /\ rest = skipn (S c) fs).
  { clear -E. revert fs E; induction c as [|c IH]; intros fs E; destruct fs as [|x fs]; cbn in E; try discriminate.
    - injection E as <- <-. split; reflexivity.
    - apply IH in E as [E1 E2]. split; [exact E1|]. rewrite E2. reflexivity. }
  destruct Hn as [Hn ->]. econstructor; [cbn [next]; rewrite Hn; reflexivity|].
  replace (S n + c)%nat with (n + S c)%nat by lia. apply IH. lia.
Qed.
Lemma drain_yields l k r (fs : list (frame l k)) c : (c <= length fs)%nat -> yields (SDrain r fs c) (skipn c fs).
Proof.
  intros H. exists (SDrain r fs (length fs)), (SDrain r fs (length fs)). split.
  - pose proof (drain_pulls l k r fs (length fs - c) c ltac:(lia)) as P.
    rewrite firstn_all2 in P by (rewrite skipn_length; lia).
    now replace (length fs - c + c)%nat with (length fs) in P by lia.
  - cbn [next]. now rewrite (proj2 (nth_error_None fs (length fs)) ltac:(lia)).
Qed.

Lemma honest_some l k (s : stream l k) n : honest s -> slen s = Some n ->
  exists fs, yields s fs /\ N.of_nat (length fs) = n.
Proof. unfold honest. intros H E. now rewrite E in H. Qed.
Lemma honest_none l k (s : stream l k) : honest s -> slen s = None -> forall n, exists fs, starts s fs /\ length fs = n.
Proof. unfold honest. intros H E. now rewrite E in H. Qed.

(** Any number of frames below the length can be pulled. *)
Lemma honest_starts l k (s : stream l k) n : honest s ->
  match slen s with Some m => (N.of_nat n <= m)%N | None => True end ->
  exists fs, starts s fs /\ length fs = n.
Proof.
  unfold honest. destruct (slen s) as [m|]; intros H Hn; [|apply H].
  destruct H as (fs & (a & a' & Hp & He) & L). exists (firstn n fs). split; [eapply pulls_firstn; eauto|].
  rewrite firstn_length. lia.
Qed.

Lemma firstn_snoc {A} (xs : list A) n : length xs = S n -> exists x, xs = firstn n xs ++ [x].
Proof.
  intros H. pose proof (firstn_skipn n xs) as E. pose proof (skipn_length n xs) as L. rewrite H in L.
  destruct (skipn n xs) as [|x [|? ?]]; cbn [length] in L; try lia. exists x. now symmetry.
Qed.

Lemma well_formed_honest l k (s : stream l k) : well_formed s -> honest s.
Proof.
  induction s as [l k f|l k r fs|l k r fs c|l k s IH n|l k l' k' a IHa b IHb op|l k u]; intros W; cbn [well_formed] in W.
  - intros n. exists (repeat f n). split; [eexists; apply frame_starts|apply repeat_length].
  - exists fs. split; [apply audio_yields|reflexivity].
  - subst c. exists fs. split; [exact (drain_yields l k r fs 0 ltac:(lia))|reflexivity].
  - specialize (IH W). unfold honest in *. cbn [slen]. destruct (slen s) as [m|].
    + destruct IH as (fs & Hy & L). exists (firstn (N.to_nat n) fs). split; [now apply take_yields|].
      rewrite firstn_length. lia.
    + destruct (IH (N.to_nat n)) as (fs & Hs & L). exists fs. split; [apply take_starts; [exact Hs|lia]|lia].
  - destruct W as (Wa & Wb & Ht). specialize (IHa Wa). specialize (IHb Wb). clear Wa Wb.
    unfold honest. rewrite blend_len. destruct (slen a) as [x|] eqn:Ea; [destruct (slen b) as [y|] eqn:Eb|]; cbn [shorter].
    + destruct (honest_some _ _ _ _ IHa Ea) as (fa & Ya & La), (honest_some _ _ _ _ IHb Eb) as (fb & Yb & Lb).
      destruct (N.leb_spec x y) as [L|L].
      * rewrite N.min_l by exact L.
        destruct (honest_starts _ _ b (length fa) IHb) as (gb & Sb & Lg); [rewrite Eb; lia|].
        destruct (mixes_ex _ _ _ _ op fa gb Ht (eq_sym Lg)) as (ms & Hm). exists ms.
        split; [eapply blend_yields_l; eauto|]. destruct (mixes_length _ _ _ _ _ _ _ _ Hm). lia.
      * rewrite N.min_r by lia.
        destruct (honest_starts _ _ a (S (length fb)) IHa) as (ga & Sa & Lg); [rewrite Ea; lia|].
        destruct (firstn_snoc _ _ Lg) as (z & Hz).
        destruct (mixes_ex _ _ _ _ op (firstn (length fb) ga) fb Ht) as (ms & Hm); [rewrite firstn_length; lia|]. exists ms.
        split; [rewrite Hz in Sa; eapply blend_yields_r; eauto|]. destruct (mixes_length _ _ _ _ _ _ _ _ Hm). lia.
    + destruct (honest_some _ _ _ _ IHa Ea) as (fa & Ya & La).
      destruct (honest_none _ _ _ IHb Eb (length fa)) as (gb & Sb & Lg).
      destruct (mixes_ex _ _ _ _ op fa gb Ht (eq_sym Lg)) as (ms & Hm). exists ms.
      split; [eapply blend_yields_l; eauto|]. destruct (mixes_length _ _ _ _ _ _ _ _ Hm). lia.
    + destruct (slen b) as [y|] eqn:Eb.
      * destruct (honest_some _ _ _ _ IHb Eb) as (fb & Yb & Lb).
        destruct (honest_none _ _ _ IHa Ea (S (length fb))) as (ga & Sa & Lg).
        destruct (firstn_snoc _ _ Lg) as (z & Hz).
        destruct (mixes_ex _ _ _ _ op (firstn (length fb) ga) fb Ht) as (ms & Hm); [rewrite firstn_length; lia|]. exists ms.
        split; [rewrite Hz in Sa; eapply blend_yields_r; eauto|]. destruct (mixes_length _ _ _ _ _ _ _ _ Hm). lia.
      * intros n. destruct (honest_none _ _ _ IHa Ea n) as (fa & (a' & Pa) & La), (honest_none _ _ _ IHb Eb n) as (fb & (b' & Pb) & Lb).
        destruct (mixes_ex _ _ _ _ op fa fb Ht ltac:(lia)) as (ms & Hm). exists ms.
        split; [eexists; eapply blend_pulls; eauto|]. destruct (mixes_length _ _ _ _ _ _ _ _ Hm). lia.
  - exact W.
Qed.

(** ** Rates *)
Lemma set_rate_iff l k (s : stream l k) sr :
  (configurable s <-> exists s', set_sample_rate s sr = Ok s') /\
  (forall e, set_sample_rate s sr = e -> (exists s', e = Ok s') \/ e = Panic ExplicitPanic).
Proof.
  induction s as [l k f|l k r fs|l k r fs c|l k s IH n|l k l' k' a IHa b IHb op|l k u]; cbn [set_sample_rate configurable].
  - split; [split; eauto|]. intros e <-. eauto.
  - split; [split; [contradiction|intros (? & H); discriminate H]|]. intros e <-. auto.
  - split; [split; [contradiction|intros (? & H); discriminate H]|]. intros e <-. auto.
  - destruct IH as [IH1 IH2]. destruct (IH2 _ eq_refl) as [(s' & E)|E]; rewrite E in *; cbn [bind].
    + split; [split; [eauto|intros _; apply IH1; eauto]|]. intros e <-. eauto.
    + split; [split; [intros H; apply IH1 in H as (? & H); discriminate H|intros (? & H); discriminate H]|]. intros e <-. auto.
  - destruct IHa as [A1 A2], IHb as [B1 B2]. destruct (A2 _ eq_refl) as [(a' & Ea)|Ea]; rewrite Ea in *; cbn [bind].
    + destruct (B2 _ eq_refl) as [(b' & Eb)|Eb]; rewrite Eb in *; cbn [bind].
      * split; [split; [eauto|intros _; split; [apply A1|apply B1]; eauto]|]. intros e <-. eauto.
      * split; [split; [intros [_ H]; apply B1 in H as (? & H); discriminate H|intros (? & H); discriminate H]|]. intros e <-. auto.
    + split; [split; [intros [H _]; apply A1 in H as (? & H); discriminate H|intros (? & H); discriminate H]|]. intros e <-. auto.
  - destruct (u_configurable u).
    + split; [split; eauto|]. intros e <-. eauto.
    + split; [split; [discriminate|intros (? & H); discriminate H]|]. intros e <-. auto.
Qed.

(** Setting the rate changes neither the length nor the frames. *)
Lemma set_rate_len l k (s s' : stream l k) sr : set_sample_rate s sr = Ok s' -> slen s' = slen s.
Proof.
  revert s'; induction s as [l k f|l k r fs|l k r fs c|l k s IH n|l k l' k' a IHa b IHb op|l k u]; cbn [set_sample_rate];
    intros t H; try discriminate.
  - now injection H as <-.
  - destruct (set_sample_rate s sr) as [s'| |]; try discriminate. cbn [bind] in H. injection H as <-. cbn. now rewrite (IH s' eq_refl).
  - destruct (set_sample_rate a sr) as [a'| |]; try discriminate. cbn [bind] in H.
    destruct (set_sample_rate b sr) as [b'| |]; try discriminate. cbn [bind] in H. injection H as <-.
    rewrite !blend_len. now rewrite (IHa _ eq_refl), (IHb _ eq_refl).
  - destruct (u_configurable u); [injection H as <-; reflexivity|discriminate].
Qed.
Lemma set_rate_next l k (s s' : stream l k) sr : set_sample_rate s sr = Ok s' ->
  match next s with
  | Ok (o, t) => exists t', next s' = Ok (o, t') /\ set_sample_rate t sr = Ok t'
  | Panic p => next s' = Panic p
  | OutOfFuel => next s' = OutOfFuel
  end.
Proof.
  revert s'; induction s as [l k f|l k r fs|l k r fs c|l k s IH n|l k l' k' a IHa b IHb op|l k u]; cbn [set_sample_rate];
    intros t H; try discriminate.
  - injection H as <-. cbn. eauto.
  - destruct (set_sample_rate s sr) as [s'| |] eqn:E; try discriminate. cbn [bind] in H. injection H as <-. cbn [next].
    destruct (N.eqb n 0).
    + exists (STake s' n). split; [reflexivity|]. cbn [set_sample_rate]. now rewrite E.
    + specialize (IH s' eq_refl). destruct (next s) as [[o s1]| |]; cbn [bind].
      * destruct IH as (t' & -> & E1). cbn [bind]. exists (STake t' (N.pred n)). split; [reflexivity|].
        cbn [set_sample_rate]. now rewrite E1.
      * now rewrite IH.
      * now rewrite IH.
  - destruct (set_sample_rate a sr) as [a'| |] eqn:Ea; try discriminate. cbn [bind] in H.
    destruct (set_sample_rate b sr) as [b'| |] eqn:Eb; try discriminate. cbn [bind] in H. injection H as <-. cbn [next].
    specialize (IHa a' eq_refl). specialize (IHb b' eq_refl).
    destruct (next a) as [[[x|] a1]| |]; cbn [bind].
    + destruct IHa as (a2 & -> & Ea1). cbn [bind]. destruct (next b) as [[[y|] b1]| |]; cbn [bind].
      * destruct IHb as (b2 & -> & Eb1). cbn [bind]. destruct (convert l k y) as [y'| |]; cbn [bind]; try reflexivity.
        destruct (mix_frames op x y'); cbn [bind]; try reflexivity.
        exists (SBlend a2 b2 op). split; [reflexivity|]. cbn [set_sample_rate]. rewrite Ea1. cbn [bind]. now rewrite Eb1.
      * destruct IHb as (b2 & -> & Eb1). cbn [bind].
        exists (SBlend a2 b2 op). split; [reflexivity|]. cbn [set_sample_rate]. rewrite Ea1. cbn [bind]. now rewrite Eb1.
      * now rewrite IHb.
      * now rewrite IHb.
    + destruct IHa as (a2 & -> & Ea1). cbn [bind]. exists (SBlend a2 b' op). split; [reflexivity|].
      cbn [set_sample_rate]. rewrite Ea1. cbn [bind]. now rewrite Eb.
    + now rewrite IHa.
    + now rewrite IHa.
  - destruct (u_configurable u) eqn:E; [injection H as <-|discriminate]. cbn [next u_item u_pos].
    destruct (u_item u (u_pos u)) as [o| |]; cbn [bind]; try reflexivity. eexists. split; [reflexivity|].
    cbn [set_sample_rate u_configurable]. rewrite E. reflexivity.
Qed.
Lemma set_rate_pulls l k (s s' t : stream l k) sr fs : set_sample_rate s sr = Ok s' -> pulls s fs t ->
  exists t', pulls s' fs t' /\ set_sample_rate t sr = Ok t'.
Proof.
  intros Hs Hp; revert s' Hs; induction Hp as [s|s f s1 fs s2 Hn Hp IH]; intros s' Hs.
  - exists s'. split; [constructor|exact Hs].
  - pose proof (set_rate_next _ _ _ _ _ Hs) as H. rewrite Hn in H. destruct H as (t1 & H1 & H2).
    destruct (IH t1 H2) as (t' & H3 & H4). exists t'. split; [econstructor; eauto|exact H4].
Qed.
Lemma set_rate_yields l k (s s' : stream l k) sr fs : set_sample_rate s sr = Ok s' -> yields s fs -> yields s' fs.
Proof.
  intros Hs (a & b & Hp & He). destruct (set_rate_pulls _ _ _ _ _ _ _ Hs Hp) as (a' & H1 & H2).
  pose proof (set_rate_next _ _ _ _ _ H2) as H. rewrite He in H. destruct H as (t & H3 & _). exists a', t. auto.
Qed.
Lemma set_rate_honest l k (s s' : stream l k) sr : set_sample_rate s sr = Ok s' -> honest s -> honest s'.
Proof.
  intros Hs. unfold honest. rewrite (set_rate_len _ _ _ _ _ Hs). destruct (slen s) as [n|].
  - intros (fs & Hy & L). exists fs. split; [eapply set_rate_yields; eauto|exact L].
  - intros H n. destruct (H n) as (fs & (t & Hp) & L). exists fs. split; [|exact L].
    destruct (set_rate_pulls _ _ _ _ _ _ _ Hs Hp) as (t' & H1 & _). exists t'; exact H1.
Qed.

(** Which blends are accepted, and what they become. *)
Lemma blend_cases l k l' k' (a : stream l k) (b : stream l' k') op :
  match sample_rate a, sample_rate b with
  | Some x, Some y =>
      (feq x y = true -> blend a b op = Ok (SBlend a b op)) /\
      (feq x y = false -> blend a b op = Panic AssertFailed)
  | None, None => blend a b op = Ok (SBlend a b op)
  | None, Some sr =>
      (configurable a -> exists a', set_sample_rate a sr = Ok a' /\ blend a b op = Ok (SBlend a' b op)) /\
      (~ configurable a -> blend a b op = Panic ExplicitPanic)
  | Some sr, None =>
      (configurable b -> exists b', set_sample_rate b sr = Ok b' /\ blend a b op = Ok (SBlend a b' op)) /\
      (~ configurable b -> blend a b op = Panic ExplicitPanic)
  end.
Proof.
  unfold blend. destruct (sample_rate a) as [x|], (sample_rate b) as [y|]; cbn [opt_feq negb]; try reflexivity.
  - split; intros ->; reflexivity.
  - destruct (set_rate_iff l' k' b x) as [I1 I2]. destruct (I2 _ eq_refl) as [(b' & E)|E]; rewrite E in *; cbn [bind].
    + split; [eauto|]. intros N. elim N. apply I1. eauto.
    + split; [intros C; apply I1 in C as (? & C); discriminate C|reflexivity].
  - destruct (set_rate_iff l k a y) as [I1 I2]. destruct (I2 _ eq_refl) as [(b' & E)|E]; rewrite E in *; cbn [bind].
    + split; [eauto|]. intros N. elim N. apply I1. eauto.
    + split; [intros C; apply I1 in C as (? & C); discriminate C|reflexivity].
Qed.
(** The accepted blend behaves like the blend of the two given streams. *)
Lemma blend_ok l k l' k' (a : stream l k) (b : stream l' k') op t : blend a b op = Ok t ->
  slen t = shorter (slen a) (slen b) /\
  exists a' b', t = SBlend a' b' op /\ (a' = a \/ exists sr, set_sample_rate a sr = Ok a') /\
    (b' = b \/ exists sr, set_sample_rate b sr = Ok b').
Proof.
  intros H. pose proof (blend_cases l k l' k' a b op) as C.
  assert (E : exists a' b', t = SBlend a' b' op /\ (a' = a \/ exists sr, set_sample_rate a sr = Ok a') /\
    (b' = b \/ exists sr, set_sample_rate b sr = Ok b')).
  { unfold blend in H. destruct (opt_feq _ _); cbn [negb] in H; [injection H as <-; exists a, b; auto|].
    destruct (sample_rate a) as [x|], (sample_rate b) as [y|]; [discriminate| | |injection H as <-; exists a, b; auto].
    - destruct (set_sample_rate b x) as [b'| |] eqn:Eb; try discriminate. cbn [bind] in H. injection H as <-.
      exists a, b'. eauto 6.
    - destruct (set_sample_rate a y) as [a'| |] eqn:Ea; try discriminate. cbn [bind] in H. injection H as <-.
      exists a', b. eauto 6. }
  split; [|exact E]. destruct E as (a' & b' & -> & Ha & Hb). rewrite blend_len. f_equal.
  - destruct Ha as [->|(sr & Ha)]; [reflexivity|exact (set_rate_len _ _ _ _ _ Ha)].
  - destruct Hb as [->|(sr & Hb)]; [reflexivity|exact (set_rate_len _ _ _ _ _ Hb)].
Qed.
Lemma blend_result_pulls l k l' k' (a a' : stream l k) (b b' : stream l' k') op t xs ys ms : blend a b op = Ok t ->
  pulls a xs a' -> pulls b ys b' -> mixes op xs ys ms -> starts t ms.
Proof.
  intros H Ha Hb Hm. destruct (blend_ok _ _ _ _ _ _ _ _ H) as (_ & a1 & b1 & -> & Sa & Sb).
  assert (starts a1 xs) as (a2 & Pa). { destruct Sa as [->|(sr & Sa)]; [exists a'; exact Ha|].
    destruct (set_rate_pulls _ _ _ _ _ _ _ Sa Ha) as (? & ? & _). eexists; eauto. }
  assert (starts b1 ys) as (b2 & Pb). { destruct Sb as [->|(sr & Sb)]; [exists b'; exact Hb|].
    destruct (set_rate_pulls _ _ _ _ _ _ _ Sb Hb) as (? & ? & _). eexists; eauto. }
  eexists. eapply blend_pulls; eauto.
Qed.
Lemma set_rate_well_formed l k (s s' : stream l k) sr : set_sample_rate s sr = Ok s' -> well_formed s -> well_formed s'.
Proof.
  revert s'; induction s as [l k f|l k r fs|l k r fs c|l k s IH n|l k l' k' a IHa b IHb op|l k u]; cbn [set_sample_rate];
    intros t H; try discriminate.
  - injection H as <-. trivial.
  - destruct (set_sample_rate s sr) as [s'| |]; try discriminate. cbn [bind] in H. injection H as <-. cbn. apply (IH s' eq_refl).
  - destruct (set_sample_rate a sr) as [a'| |]; try discriminate. cbn [bind] in H.
    destruct (set_sample_rate b sr) as [b'| |]; try discriminate. cbn [bind] in H. injection H as <-.
    cbn [well_formed]. intros (Wa & Wb & W). split; [apply (IHa _ eq_refl Wa)|]. split; [apply (IHb _ eq_refl Wb)|exact W].
  - cbn [well_formed]. intros W.
    destruct (u_configurable u) eqn:E; [|discriminate]. injection H as <-. cbn [well_formed].
    apply (set_rate_honest _ _ (SUser u) _ sr); [|exact W]. cbn [set_sample_rate]. now rewrite E.
Qed.
Lemma blend_well_formed l k l' k' (a : stream l k) (b : stream l' k') op t : blend a b op = Ok t ->
  well_formed a -> well_formed b -> total_op op l k -> well_formed t.
Proof.
  intros H Wa Wb Ht. destruct (blend_ok _ _ _ _ _ _ _ _ H) as (_ & a1 & b1 & -> & Sa & Sb). cbn [well_formed].
  split; [|split; [|exact Ht]].
  - destruct Sa as [->|(sr & Sa)]; [exact Wa|eapply set_rate_well_formed; eauto].
  - destruct Sb as [->|(sr & Sb)]; [exact Wb|eapply set_rate_well_formed; eauto].
Qed.

(** Compress inside a stream. *)
Lemma blend_compress l k l' k' (a a' : stream l k) (b b' : stream l' k') x y :
  next a = Ok (Some x, a') -> next b = Ok (Some y, b') -> next (SBlend a b Compress) = Panic NotImplemented.
Proof.
  intros Ha Hb. cbn [next]. rewrite Ha. cbn [bind]. rewrite Hb. cbn [bind].
  destruct (convert_total l' k' l k y) as (y' & ->). cbn [bind].
  assert (H : forall d s : frame l k, mix_frames Compress d s = Panic NotImplemented)
    by (intros d s; destruct l; reflexivity). now rewrite H.
Qed.

(** frame.blend(&audio) is accepted but cannot be sunk. *)
Lemma frame_blend_audio l k l' k' (f : frame l k) (a : audio l' k') op :
  exists t, blend (SFrame f) (audio_stream a) op = Ok t /\
    sample_rate t = None /\ ~ configurable t /\
    forall fuel lk kk (sk : sink lk kk), sink_stream fuel sk t = Panic ExplicitPanic.
Proof.
  eexists. split; [reflexivity|]. split; [reflexivity|]. split; [cbn; tauto|]. intros fuel lk kk sk. reflexivity.
Qed.
Lemma audio_blend_frame l k l' k' (f : frame l k) (a : audio l' k') op :
  exists t, blend (audio_stream a) (SFrame f) op = Ok t /\ sample_rate t = Some (s_rate a) /\
    slen t = Some (N.of_nat (length (frames a))).
Proof. eexists. split; [reflexivity|]. split; reflexivity. Qed.

(** ** Material for the theorems about [blend] *)
Lemma set_rate_pulls_inv l k (s s' t' : stream l k) sr fs : set_sample_rate s sr = Ok s' -> pulls s' fs t' ->
  exists t, pulls s fs t /\ set_sample_rate t sr = Ok t'.
Proof.
  intros Hs Hp; revert s Hs; induction Hp as [s'|s' f s1 fs s2 Hn Hp IH]; intros s Hs.
  - exists s. split; [constructor|exact Hs].
  - pose proof (set_rate_next _ _ _ _ _ Hs) as H. destruct (next s) as [[o t]| |] eqn:E; [|congruence|congruence].
    destruct H as (t1 & H1 & H2). rewrite Hn in H1. injection H1 as <- <-.
    destruct (IH t H2) as (t' & H3 & H4). exists t'. split; [econstructor; eauto|exact H4].
Qed.
Lemma blend_sound l k l' k' (a : stream l k) (b : stream l' k') op t ms : blend a b op = Ok t -> starts t ms ->
  exists xs ys, starts a xs /\ starts b ys /\ mixes op xs ys ms.
Proof.
  intros H (t' & Hp). destruct (blend_ok _ _ _ _ _ _ _ _ H) as (_ & a1 & b1 & -> & Sa & Sb).
  apply blend_pulls_inv in Hp as (xs & ys & a2 & b2 & Pa & Pb & Hm & _). exists xs, ys. split; [|split; [|exact Hm]].
  - destruct Sa as [->|(sr & Sa)]; [eexists; eauto|]. destruct (set_rate_pulls_inv _ _ _ _ _ _ _ Sa Pa) as (c & Hc & _). eexists; eauto.
  - destruct Sb as [->|(sr & Sb)]; [eexists; eauto|]. destruct (set_rate_pulls_inv _ _ _ _ _ _ _ Sb Pb) as (c & Hc & _). eexists; eauto.
Qed.
Lemma set_rate_starts l k (s s' : stream l k) sr fs : set_sample_rate s sr = Ok s' -> starts s fs -> starts s' fs.
Proof. intros Hs (t & Hp). destruct (set_rate_pulls _ _ _ _ _ _ _ Hs Hp) as (t' & H & _). eexists; eauto. Qed.
Lemma blend_left l k l' k' (a : stream l k) (b : stream l' k') op t xs ys ms : blend a b op = Ok t ->
  yields a xs -> starts b ys -> mixes op xs ys ms -> yields t ms.
Proof.
  intros H Ha Hb Hm. destruct (blend_ok _ _ _ _ _ _ _ _ H) as (_ & a1 & b1 & -> & Sa & Sb).
  eapply blend_yields_l; [| |exact Hm].
  - destruct Sa as [->|(sr & Sa)]; [exact Ha|eapply set_rate_yields; eauto].
  - destruct Sb as [->|(sr & Sb)]; [exact Hb|eapply set_rate_starts; eauto].
Qed.
Lemma blend_right l k l' k' (a : stream l k) (b : stream l' k') op t xs x ys ms : blend a b op = Ok t ->
  starts a (xs ++ [x]) -> yields b ys -> mixes op xs ys ms -> yields t ms.
Proof.
  intros H Ha Hb Hm. destruct (blend_ok _ _ _ _ _ _ _ _ H) as (_ & a1 & b1 & -> & Sa & Sb).
  eapply blend_yields_r; [| |exact Hm].
  - destruct Sa as [->|(sr & Sa)]; [exact Ha|eapply set_rate_starts; eauto].
  - destruct Sb as [->|(sr & Sb)]; [exact Hb|eapply set_rate_yields; eauto].
Qed.
Lemma builtin_total l k op t : op = Src \/ op = Dest \/ op = Clear \/ op = Plus \/ op = Amplify \/ op = Pan_ t -> total_op op l k.
Proof.
  intros [->|[->|[->|[->|[->| ->]]]]] d s.
  - exists s. apply mix_src_dest_clear.
  - exists d. apply mix_src_dest_clear.
  - eexists. apply mix_src_dest_clear.
  - eexists. apply mix_plus.
  - rewrite mix_amplify. destruct (proj1 (proj2 (frame_ops_channelwise l k d s))) as (z & Hz & _). eauto.
  - destruct (mix_pan l k t d s) as (o & H & _). eauto.
Qed.
(** A blend with Compress: the first pull panics (unless a side is empty). *)
Lemma compress_blend l k l' k' (a : stream l k) (b : stream l' k') t x y : blend a b Compress = Ok t ->
  starts a [x] -> starts b [y] -> next t = Panic NotImplemented.
Proof.
  intros H Ha Hb. destruct (blend_ok _ _ _ _ _ _ _ _ H) as (_ & a1 & b1 & -> & Sa & Sb).
  assert (starts a1 [x]) as (a2 & Pa) by (destruct Sa as [->|(sr & Sa)]; [exact Ha|eapply set_rate_starts; eauto]).
  assert (starts b1 [y]) as (b2 & Pb) by (destruct Sb as [->|(sr & Sb)]; [exact Hb|eapply set_rate_starts; eauto]).
  apply pulls_cons_inv in Pa as (a3 & Na & _). apply pulls_cons_inv in Pb as (b3 & Nb & _).
  eapply blend_compress; eauto.
Qed.
