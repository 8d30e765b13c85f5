(** * DrainProofs.v -- proofs about [AudioDrain] (C47) *)
From Coq Require Import ZArith NArith Reals List Lia Bool Lra.
From Flocq Require Import Core.Core IEEE754.BinarySingleNaN.
From Verif Require Import Rust Float Chan Frame Ops Stream Audio Heap SpecChan SpecFrame SpecStream SpecSink SpecAudio.
From Verif Require Import StreamProofs SinkProofs PlaceProofs CopyProofs EqualProofs SinkMore.
Import ListNotations.
Open Scope Z_scope.

Lemma skipn_skipn {A} n m (xs : list A) : skipn n (skipn m xs) = skipn (n + m) xs.
Proof.
  revert xs. induction m as [|m IH]; intros xs; [now rewrite Nat.add_0_r|]. rewrite Nat.add_succ_r. destruct xs; [now rewrite !skipn_nil|]. apply IH.
Qed.
Lemma drain_next l k r (fs : list (frame l k)) c o t : next (SDrain r fs c) = Ok (o, t) ->
  o = nth_error fs c /\ t = SDrain r fs (match o with Some _ => S c | None => c end).
Proof. cbn [next]. destruct (nth_error fs c) eqn:E; intros H; injection H as <- <-; auto. Qed.
Lemma drain_pulls_inv l k r (fs gs : list (frame l k)) t : forall c, pulls (SDrain r fs c) gs t ->
  gs = firstn (length gs) (skipn c fs) /\ (length gs = 0 \/ c + length gs <= length fs)%nat /\ t = SDrain r fs (c + length gs).
Proof.
  induction gs as [|g gs IH]; intros c H.
  - apply pulls_nil_inv in H. subst t. cbn [length firstn]. rewrite Nat.add_0_r. auto.
  - apply pulls_cons_inv in H as (s' & N & P). apply drain_next in N as [N ->]. symmetry in N.
    destruct (IH _ P) as (E & L & ->). assert (c < length fs)%nat by (apply nth_error_Some; congruence).
    split; [|split; [cbn [length]; lia|cbn [length]; f_equal; lia]].
    cbn [length firstn]. destruct (skipn c fs) as [|x xs] eqn:Es.
    + exfalso. assert (length (skipn c fs) = 0)%nat by now rewrite Es. rewrite skipn_length in *. lia.
    + assert (nth_error (skipn c fs) 0 = Some x) by now rewrite Es. rewrite nth_skipn, Nat.add_0_r in H0.
      assert (x = g) by congruence. subst x. f_equal. rewrite E at 1. f_equal.
      change (S c) with (1 + c)%nat. rewrite <- skipn_skipn, Es. reflexivity.
Qed.
Lemma drain_dropped l k (a : audio l k) fs t : pulls (audio_drain a) fs t ->
  fs = firstn (length fs) (frames a) /\ (length fs <= length (frames a))%nat /\
  drop_stream t = [pack (mkAudio (s_rate a) (skipn (length fs) (frames a)))].
Proof.
  intros H. unfold audio_drain in H. destruct (drain_pulls_inv _ _ _ _ _ _ _ H) as (E & L & ->). cbn [skipn] in E.
  split; [exact E|]. split; [destruct L; lia|reflexivity].
Qed.
Lemma drain_end l k (a : audio l k) fs t u : pulls (audio_drain a) fs t -> next t = Ok (None, u) -> fs = frames a /\ u = t.
Proof.
  intros P N. destruct (drain_pulls_inv _ _ _ _ _ _ _ P) as (E & L & ->). apply drain_next in N as [N ->].
  symmetry in N. apply nth_error_None in N. cbn [skipn Nat.add] in *. split; [|reflexivity].
  rewrite E. apply firstn_all2. lia.
Qed.

(** Through [take]. *)
Lemma take_dropped l k (s t : stream l k) n fs : pulls (take s n) fs t ->
  exists s', pulls s fs s' /\ drop_stream t = drop_stream s'.
Proof. intros H. apply take_pulls_inv in H as (_ & s' & -> & P). exists s'. now split. Qed.
Lemma take_drain_dropped l k (a : audio l k) n fs t : pulls (take (audio_drain a) n) fs t ->
  fs = firstn (length fs) (frames a) /\ (length fs <= length (frames a))%nat /\ (N.of_nat (length fs) <= n)%N /\
  drop_stream t = [pack (mkAudio (s_rate a) (skipn (length fs) (frames a)))].
Proof.
  intros H. pose proof (take_pulls_inv _ _ _ _ _ _ H) as (L & s' & -> & P).
  destruct (drain_dropped _ _ _ _ _ P) as (E & Le & D). auto.
Qed.

(** Through [blend]. *)
Lemma blend_dropped l k l' k' (a : stream l k) (b : stream l' k') op ms t : pulls (SBlend a b op) ms t ->
  exists xs ys a' b', pulls a xs a' /\ pulls b ys b' /\ length xs = length ms /\ length ys = length ms /\
    drop_stream t = drop_stream a' ++ drop_stream b'.
Proof.
  intros H. apply blend_pulls_inv in H as (xs & ys & a' & b' & Pa & Pb & M & ->).
  destruct (mixes_length _ _ _ _ _ _ _ _ M). exists xs, ys, a', b'. auto 6.
Qed.
Lemma blend_drains_dropped l k l' k' (a : audio l k) (b : audio l' k') op t ms u :
  blend (audio_drain a) (audio_drain b) op = Ok t -> pulls t ms u ->
  (length ms <= length (frames a))%nat /\ (length ms <= length (frames b))%nat /\
  drop_stream u = [pack (mkAudio (s_rate a) (skipn (length ms) (frames a)));
                   pack (mkAudio (s_rate b) (skipn (length ms) (frames b)))].
Proof.
  intros B P. assert (t = SBlend (audio_drain a) (audio_drain b) op) as ->.
  { pose proof (blend_cases _ _ _ _ (audio_drain a) (audio_drain b) op) as C. cbn [audio_drain sample_rate] in C.
    destruct (feq (s_rate a) (s_rate b)) eqn:E.
    - pose proof (proj1 C eq_refl). unfold audio_drain in *. congruence.
    - pose proof (proj2 C eq_refl). unfold audio_drain in *. congruence. }
  destruct (blend_dropped _ _ _ _ _ _ _ _ _ P) as (xs & ys & a' & b' & Pa & Pb & <- & Ly & D).
  destruct (drain_dropped _ _ _ _ _ Pa) as (_ & La & Da). destruct (drain_dropped _ _ _ _ _ Pb) as (_ & Lb & Db).
  rewrite Ly in Lb, Db. rewrite D, Da, Db. auto.
Qed.
Lemma blend_extra l k l' k' (a : audio l k) (b : stream l' k') op ms t u :
  pulls (SBlend (audio_drain a) b op) ms t -> next t = Ok (None, u) -> (length ms < length (frames a))%nat ->
  exists rest, drop_stream u = pack (mkAudio (s_rate a) (skipn (S (length ms)) (frames a))) :: rest.
Proof.
  intros P N L. apply blend_pulls_inv in P as (xs & ys & a' & b' & Pa & Pb & M & ->).
  destruct (mixes_length _ _ _ _ _ _ _ _ M) as [Lx Ly].
  destruct (drain_pulls_inv _ _ _ _ _ _ _ Pa) as (_ & _ & ->). cbn [next bind] in N. cbn [Nat.add] in N.
  destruct (nth_error (frames a) (length xs)) as [x|] eqn:Ex; [|apply nth_error_None in Ex; lia].
  cbn [bind] in N. destruct (next b') as [[[y|] b'']|p|] eqn:Nb; cbn [bind] in N; try discriminate.
  - destruct (convert_total _ _ l k y) as [y' Ey]. rewrite Ey in N. cbn [bind] in N.
    destruct (mix_frames op x y') as [m|p|]; cbn [bind] in N; discriminate.
  - injection N as <-. exists (drop_stream b''). cbn [drop_stream app]. now rewrite Lx.
Qed.

(** In general. *)
Lemma front_refl l k r (fs : list (frame l k)) c d : (c <= d)%nat ->
  front_removed (pack (mkAudio r (skipn c fs))) (pack (mkAudio r (skipn d fs))).
Proof.
  intros H. exists l, k, r, (skipn c fs), (d - c)%nat. split; [reflexivity|]. rewrite skipn_skipn. do 3 f_equal. lia.
Qed.
Lemma removed_refl l k (s : stream l k) : Forall2 front_removed (drop_stream s) (drop_stream s).
Proof.
  induction s; cbn [drop_stream]; auto using Forall2_app.
  constructor; [|constructor]. apply front_refl. lia.
Qed.
Lemma removed_trans xs ys zs : Forall2 front_removed xs ys -> Forall2 front_removed ys zs -> Forall2 front_removed xs zs.
Proof.
  intros H. revert zs. induction H as [|x y xs ys A B IH]; intros zs C; inversion C as [|y' z ys' zs' D E]; subst; constructor; [|auto].
  destruct A as (l & k & r & fs & n & -> & ->). destruct D as (l2 & k2 & r2 & fs2 & n2 & Q & ->).
  pose proof (f_equal (@projT1 _ _) Q) as T. cbn in T. injection T as <- <-.
  apply (Eqdep_dec.inj_pair2_eq_dec _ (fun x y : layout * ck => ltac:(decide equality; (decide equality)) : {x = y} + {x <> y})) in Q.
  injection Q as <- <-. exists l, k, r, fs, (n2 + n)%nat. split; [reflexivity|]. now rewrite skipn_skipn.
Qed.
Lemma removed_next l k (s t : stream l k) o : next s = Ok (o, t) -> Forall2 front_removed (drop_stream s) (drop_stream t).
Proof.
  revert o t. induction s as [l k f|l k r fs|l k r fs c|l k s IH n|l k l' k' a IHa b IHb op|l k u]; intros o t H.
  - cbn in H. injection H as <- <-. constructor.
  - destruct fs; cbn in H; injection H as <- <-; constructor.
  - apply drain_next in H as [_ ->]. cbn [drop_stream]. constructor; [|constructor]. apply front_refl. destruct o; lia.
  - cbn [next] in H. destruct (N.eqb n 0); [injection H as <- <-; apply removed_refl|].
    destruct (next s) as [[o' s']|p|] eqn:E; try discriminate. cbn [bind] in H. injection H as <- <-.
    cbn [drop_stream]. eapply IH. reflexivity.
  - cbn [next] in H. destruct (next a) as [[oa a']|p|] eqn:Ea; try discriminate. cbn [bind] in H.
    destruct oa as [fa|]; [|injection H as <- <-; cbn [drop_stream]; apply Forall2_app; [eauto|apply removed_refl]].
    destruct (next b) as [[ob b']|p|] eqn:Eb; try discriminate. cbn [bind] in H.
    destruct ob as [fb|]; [|injection H as <- <-; cbn [drop_stream]; apply Forall2_app; eauto].
    destruct (convert l k fb) as [g|p|]; try discriminate. cbn [bind] in H.
    destruct (mix_frames op fa g) as [m|p|]; try discriminate. cbn [bind] in H. injection H as <- <-.
    cbn [drop_stream]; apply Forall2_app; eauto.
  - cbn in H. destruct (u_item u (u_pos u)); try discriminate. injection H as <- <-. constructor.
Qed.
Lemma removed_advanced l k (s t : stream l k) : advanced s t -> Forall2 front_removed (drop_stream s) (drop_stream t).
Proof.
  induction 1 as [s|s o s' s'' N _ IH]; [apply removed_refl|]. eapply removed_trans; [eapply removed_next; eassumption|exact IH].
Qed.
Lemma pulls_advanced l k (s t u : stream l k) fs : pulls s fs t -> advanced t u -> advanced s u.
Proof. induction 1; [auto|]. intros A. eapply adv_next; eauto. Qed.
Lemma set_rate_dropped l k (s s' : stream l k) sr : set_sample_rate s sr = Ok s' -> drop_stream s' = drop_stream s.
Proof.
  revert s'. induction s as [l k f|l k r fs|l k r fs c|l k s IH n|l k l' k' a IHa b IHb op|l k u]; intros s' H; cbn [set_sample_rate] in H; try discriminate.
  - injection H as <-. reflexivity.
  - destruct (set_sample_rate s sr) as [t|p|] eqn:E; try discriminate. cbn [bind] in H. injection H as <-. cbn. auto.
  - destruct (set_sample_rate a sr) as [a'|p|] eqn:Ea; try discriminate. cbn [bind] in H.
    destruct (set_sample_rate b sr) as [b'|p|] eqn:Eb; try discriminate. cbn [bind] in H. injection H as <-. cbn. now rewrite (IHa _ eq_refl), (IHb _ eq_refl).
  - destruct (u_configurable u); try discriminate. injection H as <-. reflexivity.
Qed.
Lemma sink_removed l k ls ks fuel (sk sk' : sink l k) (s it : stream ls ks) : sink_stream fuel sk s = Ok (sk', it) ->
  Forall2 front_removed (drop_stream s) (drop_stream it).
Proof.
  intros H. destruct (stream_backward _ _ _ _ _ _ _ _ _ H) as (ratio & s' & srcs & fs & n & Ng & R & _).
  assert (D : drop_stream s' = drop_stream s).
  { destruct Ng as [(r & _ & _ & ->)|(_ & _ & E)]; [reflexivity|now apply set_rate_dropped in E]. }
  rewrite <- D. apply removed_advanced. destruct R as (_ & [(P & _)|(t & P & N & _)]).
  - eapply pulls_advanced; [exact P|constructor].
  - eapply pulls_advanced; [exact P|]. eapply adv_next; [exact N|constructor].
Qed.
Lemma sink_drain l k la ka fuel (sk sk' : sink l k) (a : audio la ka) it : sink_stream fuel sk (audio_drain a) = Ok (sk', it) ->
  exists m n fs, (m <= length (frames a))%nat /\ converted (firstn m (frames a)) fs /\
    streamed sk (fdiv (sk_rate sk) (s_rate a)) (covered (fdiv (sk_rate sk) (s_rate a)) (Some (N.of_nat (length (frames a)))) (length (sk_buf sk))) fs n sk' /\
    drop_stream it = [pack (mkAudio (s_rate a) (skipn m (frames a)))].
Proof.
  intros H. destruct (stream_backward _ _ _ _ _ _ _ _ _ H) as (ratio & s' & srcs & fs & n & Ng & R & Cv & St & _).
  assert (s' = audio_drain a /\ ratio = fdiv (sk_rate sk) (s_rate a)) as [-> ->].
  { destruct Ng as [(r & E & -> & ->)|(E & _)]; cbn in E; [|discriminate]. injection E as <-. now split. }
  assert (exists t, pulls (audio_drain a) srcs t /\ it = t) as (t & P & ->).
  { destruct R as (_ & [(P & _)|(t & P & N & _)]); [now exists it|]. exists t. split; [exact P|]. now destruct (drain_end _ _ _ _ _ _ P N). }
  destruct (drain_dropped _ _ _ _ _ P) as (E & L & D). exists (length srcs), n, fs. split; [exact L|]. rewrite <- E.
  split; [exact Cv|]. split; [exact St|exact D].
Qed.
Lemma sink_drain_equal l k la ka (sk : sink l k) (a : audio la ka) : is_finite (s_rate a) = true -> B2R (s_rate a) <> 0%R ->
  sk_rate sk = s_rate a -> fresh sk -> Z.of_nat (length (sk_buf sk)) <= 2 ^ 53 ->
  let m := Nat.min (length (frames a)) (length (sk_buf sk)) in
  exists sk' it, sink_stream (S m) sk (audio_drain a) = Ok (sk', it) /\
    (forall i src, nth_error (firstn m (frames a)) i = Some src ->
       exists f b, convert l k src = Ok f /\ nth_error (sk_buf sk') i = Some b /\ copied f b) /\
    drop_stream it = [pack (mkAudio (s_rate a) (skipn m (frames a)))].
Proof.
  intros F Z E Fr L m.
  assert (Lf : length (firstn m (frames a)) = m) by (rewrite firstn_length; unfold m; lia).
  destruct (fresh_copy l k la ka sk (audio_drain a) (firstn m (frames a))) as (sk' & s' & it & Ng & P & H & _ & C & _).
  - cbn [equal_rate audio_drain sample_rate]. auto.
  - exact Fr.
  - exact L.
  - exists (SDrain (s_rate a) (frames a) (m + 0)). apply drain_pulls. unfold m. lia.
  - rewrite Lf. cbn [available audio_drain slen]. unfold m. lia.
  - exists sk', it. split; [apply H; lia|]. split; [exact C|].
    assert (s' = audio_drain a) as ->.
    { destruct Ng as [(r & _ & _ & ->)|(E' & _)]; [reflexivity|discriminate]. }
    destruct (drain_dropped _ _ _ _ _ P) as (_ & _ & D). now rewrite Lf in D.
Qed.
Lemma drain_unused l k (a : audio l k) : drop_stream (audio_drain a) = [pack a].
Proof. now destruct a. Qed.
