(** * MixProofs.v -- mixing several tracks (C81) *)
From Coq Require Import ZArith NArith Reals List Lia Bool Lra Permutation.
From Flocq Require Import Core.Core IEEE754.BinarySingleNaN.
From Verif Require Import Rust Float Chan Frame Ops Stream SpecChan SpecFrame SpecStream SpecLaw SpecMix.
From Verif Require Import IntProofs FloatProofs FArithProofs ChanProofs FChanProofs FrameProofs OpsProofs StreamProofs LawProofs StreamMore MixedProofs.
Import ListNotations.
Open Scope R_scope.

Lemma plus_total l k : total_op Plus l k.
Proof. apply (builtin_total l k Plus (mkTrig (fun x => x) (fun x => x))). tauto. Qed.
Lemma given_det l k (s : stream l k) n j c d : given s n j c -> given s n j d -> c = d.
Proof.
  intros (xs & x & A & N & C) (ys & y & A' & N' & C').
  assert (L : (n < length xs)%nat) by (apply nth_error_Some; congruence). assert (L' : (n < length ys)%nat) by (apply nth_error_Some; congruence).
  assert (E : firstn (S n) xs = firstn (S n) ys).
  { apply (starts_fun l k s); try now apply starts_firstn. rewrite !firstn_length. lia. }
  assert (H : forall zs : list (frame l k), nth_error (firstn (Datatypes.S n) zs) n = nth_error zs n).
  { clear. induction n as [|n IH]; intros [|z zs]; try reflexivity. cbn. apply IH. }
  rewrite <- H in N, N'. rewrite E in N. congruence.
Qed.
Lemma given_short l k (s : stream l k) n j c : given s n j c -> exists xs x, starts s xs /\ length xs = S n /\ nth_error xs n = Some x /\ nth_error (channels x) j = Some c.
Proof.
  intros (xs & x & A & N & C). assert (L : (n < length xs)%nat) by (apply nth_error_Some; congruence).
  exists (firstn (S n) xs), x. split; [now apply starts_firstn|]. split; [rewrite firstn_length; lia|]. split; [|exact C].
  rewrite <- N. clear. revert xs. induction n as [|n IH]; intros [|z zs]; try reflexivity. cbn. apply IH.
Qed.
Lemma blend_given l k (a b t : stream l k) n j c : blend a b Plus = Ok t ->
  (given t n j c <-> exists x y, given a n j x /\ given b n j y /\ c = c_add x y).
Proof.
  intros H. split.
  - intros (ms & m & S & N & C). apply (blend_sound l k l k a b Plus t ms H) in S as (xs & ys & A & B & M).
    destruct (mixes_nth _ _ _ _ _ _ _ _ _ _ M N) as (x & y & Nx & Ny & (y' & Cy & Mx)).
    rewrite convert_self in Cy. injection Cy as <-. rewrite mix_plus in Mx. injection Mx as <-.
    assert (J : (j < nchan l)%nat) by (exact (FrameProofs.nth_some _ _ _ _ _ C)).
    destruct (nth_ex l k x j J) as (cx & Hx). destruct (nth_ex l k y j J) as (cy & Hy).
    exists cx, cy. split; [exists xs, x; auto|]. split; [exists ys, y; auto|].
    pose proof (proj1 (proj1 (frame_ops_channelwise l k x y) j cx cy Hx Hy)) as E. congruence.
  - intros (x & y & Gx & Gy & ->). apply given_short in Gx as (xs & fx & A & Lx & Nx & Cx), Gy as (ys & fy & B & Ly & Ny & Cy).
    destruct (mixes_ex l k l k Plus xs ys (plus_total l k)) as (ms & M); [congruence|].
    assert (S : starts t ms) by (apply (blend_starts_iff l k l k a b Plus t ms H); eauto).
    pose proof (mixes_length _ _ _ _ _ _ _ _ M) as [Lm _].
    destruct (nth_error ms n) as [m|] eqn:Nm; [|apply nth_error_None in Nm; lia].
    destruct (mixes_nth _ _ _ _ _ _ _ _ _ _ M Nm) as (x' & y' & Nx' & Ny' & (y2 & C2 & M2)).
    rewrite convert_self in C2. injection C2 as <-. rewrite mix_plus in M2. injection M2 as <-.
    rewrite Nx in Nx'. injection Nx' as <-. rewrite Ny in Ny'. injection Ny' as <-.
    exists ms, (frame_add fx fy). split; [exact S|]. split; [exact Nm|].
    exact (proj1 (proj1 (frame_ops_channelwise l k fx fy) j x y Cx Cy)).
Qed.
Lemma mixdown_given l k (a : stream l k) bs t n j c : mixdown a bs = Ok t ->
  (given t n j c <-> exists x ys, together (a :: bs) n j (x :: ys) /\ c = sum_up x ys).
Proof.
  revert a t c; induction bs as [|b bs IH]; intros a t c H; cbn [mixdown] in H.
  - injection H as <-. split.
    + intros G. exists c, []. split; [constructor; [exact G|constructor]|reflexivity].
    + intros (x & ys & T & ->). inversion T as [|? ? ? ? G T']; subst. inversion T'; subst. exact G.
  - destruct (blend a b Plus) as [t1| |] eqn:E; try discriminate. cbn [bind] in H. rewrite (IH t1 t c H). split.
    + intros (x & ys & T & ->). inversion T as [|? ? ? ? G T']; subst. apply (blend_given l k a b t1 n j x E) in G as (xa & xb & Ga & Gb & ->).
      exists xa, (xb :: ys). split; [constructor; [exact Ga|constructor; [exact Gb|exact T']]|reflexivity].
    + intros (x & ys & T & ->). inversion T as [|? ? ? ? Ga T']; subst. inversion T' as [|? xb ? ys' Gb T'']; subst.
      exists (c_add x xb), ys'. split; [constructor; [|exact T'']|reflexivity]. apply (blend_given l k a b t1 n j _ E). eauto.
Qed.
Lemma shorter_assoc a b c : shorter (shorter a b) c = shorter a (shorter b c).
Proof. destruct a, b, c; cbn; try reflexivity. f_equal. lia. Qed.
Lemma shorter_none a : shorter a None = a. Proof. destruct a; reflexivity. Qed.
Lemma mixdown_ok l k r (a : stream l k) bs : tracks_at r (a :: bs) ->
  exists t, mixdown a bs = Ok t /\ sample_rate t = Some r /\ honest t /\ slen t = shortest (a :: bs).
Proof.
  intros [Hr F]. apply Forall_cons_iff in F as [[Ra Ha] F]. revert a Ra Ha F; induction bs as [|b bs IH]; intros a Ra Ha F; cbn [mixdown].
  - exists a. repeat split; auto. cbn. now rewrite shorter_none.
  - apply Forall_cons_iff in F as [[Rb Hb] F]. pose proof (blend_cases l k l k a b Plus) as C. rewrite Ra, Rb in C.
    pose proof (proj1 C Hr) as E. rewrite E. cbn [bind].
    destruct (IH (SBlend a b Plus)) as (t & H & R & Ho & L); auto.
    + exact (blend_honest l k l k a b Plus _ E (plus_total l k) Ha Hb).
    + exists t. repeat split; auto. rewrite L. cbn [shortest]. rewrite blend_len. apply shorter_assoc.
Qed.

Lemma F2_length A B (P : A -> B -> Prop) xs ys : Forall2 P xs ys -> length xs = length ys.
Proof. induction 1; cbn; congruence. Qed.

(** ** Values of sums *)
Lemma total_cons k (c : chan k) cs : total (c :: cs) = rval c + total cs. Proof. reflexivity. Qed.
Lemma loud_cons k (c : chan k) cs : loudness (c :: cs) = Rabs (rval c) + loudness cs. Proof. reflexivity. Qed.
Lemma loud_pos k (cs : list (chan k)) : 0 <= loudness cs.
Proof. induction cs as [|c cs IH]; [cbn; lra|]. rewrite loud_cons. pose proof (Rabs_pos (rval c)). lra. Qed.
Lemma total_loud k (cs : list (chan k)) : Rabs (total cs) <= loudness cs.
Proof.
  induction cs as [|c cs IH]; [cbn; rewrite Rabs_R0; lra|]. rewrite total_cons, loud_cons. eapply Rle_trans; [apply Rabs_triang|]. lra.
Qed.
Lemma add_int k (a b : chan k) : is_int k -> Rabs (rval a + rval b) <= top k -> rval (c_add a b) = rval a + rval b.
Proof.
  intros [-> | ->] H; cbn [rval top] in *; rewrite <- plus_IZR in *; apply Rabs_le_inv in H as [A B].
  - assert (A' : (-127 <= sv a + sv b)%Z) by (apply le_IZR; lra). apply le_IZR in B. rewrite add8_spec. f_equal. unfold clampZ.
    destruct (Z.ltb_spec (sv a + sv b) (-128)); [lia|]. destruct (Z.ltb_spec 127 (sv a + sv b)); lia.
  - assert (A' : (-32767 <= sv a + sv b)%Z) by (apply le_IZR; lra). apply le_IZR in B. rewrite add16_spec. f_equal. unfold clampZ.
    destruct (Z.ltb_spec (sv a + sv b) (-32768)); [lia|]. destruct (Z.ltb_spec 32767 (sv a + sv b)); lia.
Qed.
Lemma sum_int k (x : chan k) ys : is_int k -> loudness (x :: ys) <= top k -> rval (sum_up x ys) = total (x :: ys).
Proof.
  intros I. revert x; induction ys as [|y ys IH]; intros x L; [cbn; lra|].
  change (sum_up x (y :: ys)) with (sum_up (c_add x y) ys). rewrite !loud_cons in L. pose proof (loud_pos k ys).
  pose proof (Rabs_triang (rval x) (rval y)) as T.
  assert (E : rval (c_add x y) = rval x + rval y) by (apply add_int; [exact I|lra]).
  rewrite IH; [rewrite !total_cons, E; ring|]. rewrite loud_cons, E. lra.
Qed.
Lemma add_float k (a b : chan k) s m : is_float k -> valid a -> valid b -> Rabs (rval a - s) <= m -> Rabs (s + rval b) <= 1 ->
  valid (c_add a b) /\ Rabs (rval (c_add a b) - (s + rval b)) <= m + add_error k.
Proof.
  intros K Va Vb H S. split; [exact (proj1 (float_ops_valid k K a b))|].
  assert (Fa : fin a = true /\ -1 <= rval a <= 1). { destruct K as [-> | ->]; exact Va. }
  assert (Fb : fin b = true /\ -1 <= rval b <= 1). { destruct K as [-> | ->]; exact Vb. }
  rewrite (proj1 (float_ops_value k K a b (proj1 Fa) (proj1 Fb))).
  rewrite <- (clampR_id (s + rval b)) at 1 by (now apply Rabs_le_inv). apply clampR_lip.
  assert (E : Rabs (round_k k (rval a + rval b) - (rval a + rval b)) <= add_error k).
  { destruct K as [-> | ->]; cbn [round_k add_error].
    - apply (rnd_error 24 128 _ 1); [apply Rabs_le; change (bpow radix2 1) with 2; lra|lia].
    - apply (rnd_error 53 1024 _ 1); [apply Rabs_le; change (bpow radix2 1) with 2; lra|lia]. }
  apply Rabs_le. apply Rabs_le_inv in E, H. lra.
Qed.
Lemma sum_float_aux k (x : chan k) ys s m : is_float k -> valid x -> Forall valid ys -> Rabs (rval x - s) <= m -> Rabs s + loudness ys <= 1 ->
  valid (sum_up x ys) /\ Rabs (rval (sum_up x ys) - (s + total ys)) <= m + INR (length ys) * add_error k.
Proof.
  intros K. revert x s m; induction ys as [|y ys IH]; intros x s m Vx Vy H L.
  - cbn. split; [exact Vx|]. rewrite Rplus_0_r, Rmult_0_l, Rplus_0_r. exact H.
  - apply Forall_cons_iff in Vy as [Vy Vys]. rewrite loud_cons in L. pose proof (loud_pos k ys). pose proof (Rabs_triang s (rval y)).
    change (sum_up x (y :: ys)) with (sum_up (c_add x y) ys).
    destruct (add_float k x y s m K Vx Vy H ltac:(lra)) as [V E].
    destruct (IH (c_add x y) (s + rval y) (m + add_error k) V Vys E ltac:(lra)) as [V' E']. split; [exact V'|].
    rewrite total_cons. replace (s + (rval y + total ys)) with (s + rval y + total ys) by ring.
    eapply Rle_trans; [exact E'|]. cbn [length]. rewrite S_INR. lra.
Qed.
Lemma sum_float k (x : chan k) ys : is_float k -> valid x -> Forall valid ys -> loudness (x :: ys) <= 1 ->
  Rabs (rval (sum_up x ys) - total (x :: ys)) <= INR (length ys) * add_error k.
Proof.
  intros K Vx Vy L. rewrite loud_cons in L.
  destruct (sum_float_aux k x ys (rval x) 0 K Vx Vy) as [_ E]; [rewrite Rminus_diag_eq, Rabs_R0 by reflexivity; lra|exact L|].
  rewrite total_cons. lra.
Qed.

(** ** Order *)
Lemma total_perm k (cs ds : list (chan k)) : Permutation cs ds -> total cs = total ds /\ loudness cs = loudness ds.
Proof.
  induction 1 as [|x xs ys P [IH1 IH2]|x y xs|xs ys zs P1 [A1 B1] P2 [A2 B2]]; rewrite ?total_cons, ?loud_cons; split; try reflexivity; try lra.
Qed.
Lemma together_perm l k (ts us : list (stream l k)) n j cs : Permutation ts us -> together ts n j cs ->
  exists ds, Permutation cs ds /\ together us n j ds.
Proof.
  unfold together. intros P. revert cs; induction P as [|x xs ys P IH|x y xs|xs ys zs P1 IH1 P2 IH2]; intros cs T.
  - inversion T; subst. exists []. split; constructor.
  - inversion T as [|? c ? cs' G T']; subst. destruct (IH _ T') as (ds & Pd & Td). exists (c :: ds). split; constructor; auto.
  - inversion T as [|? c ? cs' G T']; subst. inversion T' as [|? d ? ds' G' T'']; subst. exists (d :: c :: ds'). split; [constructor|].
    constructor; [exact G'|constructor; [exact G|exact T'']].
  - destruct (IH1 _ T) as (ds & Pd & Td). destruct (IH2 _ Td) as (es & Pe & Te). exists es. split; [eapply perm_trans; eauto|exact Te].
Qed.
Lemma int_inj k (a b : chan k) : is_int k -> rval a = rval b -> a = b.
Proof. intros [-> | ->] H; cbn [rval] in H; apply eq_IZR in H; now apply sint_eq. Qed.
Lemma quiet_perm l k (ts us : list (stream l k)) : Permutation ts us -> quiet ts -> quiet us.
Proof.
  intros P Q n j cs T. destruct (together_perm l k us ts n j cs (Permutation_sym P) T) as (ds & Pd & Td).
  rewrite (proj2 (total_perm k _ _ Pd)). exact (Q n j ds Td).
Qed.
Lemma channels_ext l k (x y : frame l k) :
  (forall j c, nth_error (channels x) j = Some c -> nth_error (channels y) j = Some c) -> x = y.
Proof.
  intros H. apply frame_ext, list_nth_ext. intros j. destruct (nth_error (channels x) j) as [c|] eqn:E; [symmetry; now apply H|].
  symmetry. destruct (nth_error (channels y) j) as [d|] eqn:E'; [|reflexivity].
  pose proof (FrameProofs.nth_some _ _ _ _ _ E') as J. destruct (nth_ex l k x j J) as (c & E''). congruence.
Qed.

Lemma shortest_perm l k (ts us : list (stream l k)) : Permutation ts us -> shortest ts = shortest us.
Proof.
  induction 1 as [|x xs ys P IH|x y xs|xs ys zs P1 A1 P2 A2]; cbn [shortest]; try congruence.
  now rewrite <- !shorter_assoc, (shorter_comm (slen y)).
Qed.
Lemma given_alike l k (s t : stream l k) r : honest s -> honest t -> sample_rate s = Some r -> sample_rate t = Some r -> slen s = slen t ->
  (forall n j c, given s n j c -> given t n j c) -> alike s t.
Proof.
  intros Hs Ht Rs Rt L G. apply alike_honest; auto; [congruence|congruence|]. intros xs A.
  assert (B : match slen t with Some m => (N.of_nat (length xs) <= m)%N | None => True end).
  { rewrite <- L. clear - Hs A. unfold honest in Hs. destruct (slen s) as [m|]; [|exact I]. destruct Hs as (fs & Y & Lf).
    pose proof (yields_longest l k s fs xs Y A). lia. }
  destruct (honest_starts l k t (length xs) Ht B) as (ys & A' & Ly). replace xs with ys; [exact A'|].
  apply list_nth_ext. intros n. destruct (nth_error ys n) as [y|] eqn:Ny.
  - assert (n < length ys)%nat by (apply nth_error_Some; congruence). destruct (nth_error xs n) as [x|] eqn:Nx; [|apply nth_error_None in Nx; lia].
    f_equal. symmetry. apply channels_ext. intros j c C. destruct (nth_ex l k y j (FrameProofs.nth_some _ _ _ _ _ C)) as (d & D).
    rewrite D. f_equal. apply (given_det l k t n j); [exists ys, y; auto|]. apply G. exists xs, x. auto.
  - apply nth_error_None in Ny. symmetry. apply nth_error_None. lia.
Qed.
Lemma mixdown_order l k r (a a' : stream l k) bs bs' : is_int k -> tracks_at r (a :: bs) -> quiet (a :: bs) -> Permutation (a :: bs) (a' :: bs') ->
  exists t t', mixdown a bs = Ok t /\ mixdown a' bs' = Ok t' /\ alike t t'.
Proof.
  intros I T Q P.
  assert (T' : tracks_at r (a' :: bs')). { destruct T as [Hr F]. split; [exact Hr|]. now rewrite <- P. }
  destruct (mixdown_ok l k r a bs T) as (t & E & R & H & L). destruct (mixdown_ok l k r a' bs' T') as (t' & E' & R' & H' & L').
  exists t, t'. split; [exact E|]. split; [exact E'|]. apply (given_alike l k t t' r); auto.
  - rewrite L, L'. now apply shortest_perm.
  - intros n j c G. apply (mixdown_given l k a bs t n j c E) in G as (x & ys & Tg & ->).
    destruct (together_perm l k _ _ n j _ P Tg) as (ds & Pd & Td). inversion Td as [|? x' ? ys' G' Tg']; subst.
    apply (mixdown_given l k a' bs' t' n j _ E'). exists x', ys'. split; [exact Td|].
    pose proof (Q n j _ Tg) as B. destruct (total_perm k _ _ Pd) as [E1 E2].
    apply (int_inj k _ _ I). rewrite (sum_int k x ys I B), (sum_int k x' ys' I); [exact E1|]. now rewrite <- E2.
Qed.
Lemma mixdown_int l k (a : stream l k) bs t n j c : is_int k -> mixdown a bs = Ok t -> given t n j c ->
  exists cs, together (a :: bs) n j cs /\ (loudness cs <= top k -> rval c = total cs).
Proof.
  intros I H G. apply (mixdown_given l k a bs t n j c H) in G as (x & ys & T & ->). exists (x :: ys). split; [exact T|]. now apply sum_int.
Qed.
Lemma mixdown_float l k (a : stream l k) bs t n j c : is_float k -> mixdown a bs = Ok t -> given t n j c ->
  exists cs, together (a :: bs) n j cs /\
    (Forall valid cs -> loudness cs <= 1 -> Rabs (rval c - total cs) <= INR (length bs) * add_error k).
Proof.
  intros I H G. apply (mixdown_given l k a bs t n j c H) in G as (x & ys & T & ->). exists (x :: ys). split; [exact T|].
  intros V L. apply Forall_cons_iff in V as [Vx Vy]. pose proof (F2_length _ _ _ _ _ T) as E. cbn in E. replace (length bs) with (length ys) by lia. now apply sum_float.
Qed.
Lemma mixdown_ends l k r (a : stream l k) bs : tracks_at r (a :: bs) ->
  exists t, mixdown a bs = Ok t /\ sample_rate t = Some r /\ honest t /\ slen t = shortest (a :: bs) /\
    forall n j c, given t n j c <-> exists x ys, together (a :: bs) n j (x :: ys) /\ c = sum_up x ys.
Proof.
  intros T. destruct (mixdown_ok l k r a bs T) as (t & E & R & H & L). exists t. repeat split; auto; apply (mixdown_given l k a bs t n j c E).
Qed.

(** ** Examples *)
Lemma alike_given l k (s t : stream l k) n j c : alike s t -> given s n j c -> given t n j c.
Proof. intros (_ & _ & _ & H & _) (xs & x & A & B). exists xs, x. split; [now apply H|exact B]. Qed.
Lemma audio_honest l k r (fs : list (frame l k)) : honest (SAudio r fs).
Proof. apply well_formed_honest. exact I. Qed.
Lemma given_audio l k r (fs : list (frame l k)) n j c : given (SAudio r fs) n j c ->
  exists x, nth_error fs n = Some x /\ nth_error (channels x) j = Some c.
Proof.
  intros G. pose proof (audio_yields l k r fs) as Y. destruct G as (xs & x & A & N & C). exists x. split; [|exact C].
  pose proof (yields_longest l k _ fs xs Y A) as L. pose proof (yields_starts l k _ fs Y) as B.
  assert (E : xs = firstn (length xs) fs). { apply (starts_fun l k (SAudio r fs)); [exact A|now apply starts_firstn|]. rewrite firstn_length. lia. }
  rewrite E in N. assert (M : (n < length xs)%nat) by (apply nth_error_Some; rewrite E; congruence).
  rewrite <- N. clear - M. revert n M. generalize (length xs). intros m n M. revert m fs M. induction n as [|n IH]; intros [|m] [|z zs] M; try lia; try reflexivity.
  cbn. apply IH. lia.
Qed.
Lemma order_matters k r (x y z : chan k) : feq r r = true -> sum_up x [y; z] <> sum_up y [z; x] ->
  let s c := SAudio r [((c, tt) : frame Mono k)] in
  tracks_at r [s x; s y; s z] /\ exists t t', mixdown (s x) [s y; s z] = Ok t /\ mixdown (s y) [s z; s x] = Ok t' /\ ~ alike t t'.
Proof.
  intros Hr N s.
  assert (G : forall c, given (s c) 0 0 c).
  { intros c. exists [(c, tt)], (c, tt). split; [apply yields_starts; apply audio_yields|]. split; reflexivity. }
  assert (T : forall a b c, tracks_at r [s a; s b; s c]).
  { intros a b c. split; [exact Hr|]. repeat constructor; apply audio_honest. }
  split; [apply T|].
  destruct (mixdown_ends Mono k r (s x) [s y; s z] (T x y z)) as (t & E & _ & _ & _ & H).
  destruct (mixdown_ends Mono k r (s y) [s z; s x] (T y z x)) as (t' & E' & _ & _ & _ & H').
  exists t, t'. split; [exact E|]. split; [exact E'|]. intros A. apply N. apply (given_det Mono k t' 0 0).
  - apply (alike_given Mono k t t' 0 0 _ A). apply H. exists x, [y; z]. split; [|reflexivity]. repeat constructor; apply G.
  - apply H'. exists y, [z; x]. split; [|reflexivity]. repeat constructor; apply G.
Qed.
Lemma together_audio l k r (fss : list (list (frame l k))) n j cs : together (map (SAudio r) fss) n j cs ->
  Forall2 (fun fs c => exists x, nth_error fs n = Some x /\ nth_error (channels x) j = Some c) fss cs.
Proof.
  revert cs; induction fss as [|fs fss IH]; intros cs T; inversion T as [|? c ? cs' G T']; subst; constructor; [now apply (given_audio l k r)|now apply IH].
Qed.
Lemma quiet_one k r (xs : list (chan k)) : loudness xs <= top k -> quiet (map (fun c => SAudio r [((c, tt) : frame Mono k)]) xs).
Proof.
  intros L n j cs T. assert (E : cs = xs); [|now rewrite E].
  clear L. revert cs T; induction xs as [|x xs IH]; intros cs T; inversion T as [|? c ? cs' G T']; subst; [reflexivity|]. f_equal; [|now apply IH].
  apply given_audio in G as (f & N & C). destruct n as [|n]; [|destruct n; discriminate]. injection N as <-.
  destruct j as [|j]; [now injection C|destruct j; discriminate].
Qed.
Lemma float_order : ~ forall r (a b c : stream Mono K32), tracks_at r [a; b; c] -> quiet [a; b; c] ->
  exists t t', mixdown a [b; c] = Ok t /\ mixdown b [c; a] = Ok t' /\ alike t t'.
Proof.
  intros H. set (x := (flit 1 (-1) : f32)). set (y := (flit 1 (-25) : f32)).
  destruct (order_matters K32 (flit 48000 0) x y y eq_refl) as (T & t & t' & E & E' & N).
  { intros E. apply (f_equal (@B2SF 24 128)) in E. vm_compute in E. discriminate E. }
  assert (Q : quiet [SAudio (flit 48000 0) [((x, tt) : frame Mono K32)]; SAudio (flit 48000 0) [((y, tt) : frame Mono K32)]; SAudio (flit 48000 0) [((y, tt) : frame Mono K32)]]).
  { apply (quiet_one K32 (flit 48000 0) [x; y; y]). rewrite !loud_cons. cbn [loudness fold_right top rval]. unfold x, y.
    assert (Ex : B2R (flit 1 (-1) : f32) = / 2).
    { rewrite <- (SF2R_B2SF _ _ (flit 1 (-1) : f32)). let v := eval vm_compute in (B2SF (flit 1 (-1) : f32)) in change (B2SF (flit 1 (-1) : f32)) with v.
      unfold SF2R, F2R. cbn [Fnum Fexp cond_Zopp bpow]. cbn [Z.pow_pos Pos.iter Z.mul Pos.mul radix2 radix_val]. lra. }
    assert (Ey : B2R (flit 1 (-25) : f32) = / 33554432).
    { rewrite <- (SF2R_B2SF _ _ (flit 1 (-25) : f32)). let v := eval vm_compute in (B2SF (flit 1 (-25) : f32)) in change (B2SF (flit 1 (-25) : f32)) with v.
      unfold SF2R, F2R. cbn [Fnum Fexp cond_Zopp bpow]. cbn [Z.pow_pos Pos.iter Z.mul Pos.mul radix2 radix_val]. lra. }
    rewrite Ex, Ey.
    rewrite !Rabs_pos_eq by lra. lra. }
  destruct (H _ _ _ _ T Q) as (u & u' & F & F' & A).
  rewrite E in F. rewrite E' in F'. injection F as <-. injection F' as <-. exact (N A).
Qed.
