(** * UsageProofs.v -- lemmas for C93 *)
From Coq Require Import ZArith NArith Reals Bool List Lia Lra Eqdep_dec.
From Flocq Require Import Core.Core IEEE754.BinarySingleNaN.
From Verif Require Import Rust Float Chan Frame Ops Stream Audio SpecChan SpecFrame SpecStream SpecSink SpecAudio SpecMore SpecRaise SpecUsage.
From Verif Require Import FloatProofs StreamProofs SinkProofs WholeProofs AudioProofs DrainProofs.
Import ListNotations.
Open Scope R_scope.

Section Usage.
Context (rate src : f64) (R S : Z).
Hypothesis HR : whole_rate rate R.
Hypothesis HS : whole_rate src S.
Hypothesis S51 : (S <= 2 ^ 51)%Z.
Notation ratio := (fdiv rate src).
Notation J := (place ratio (flit 0 0)).

(** The computed position of a source frame. *)
Lemma floor_near i : (R * Z.of_nat i <= 2 ^ 51)%Z ->
  floor_index (J i) = floor_index (fmul ratio (fofZ (Z.of_nat i))) /\ is_finite (J i) = true /\
  (floor_index (J i) = (R * Z.of_nat i / S)%Z \/ ((R * Z.of_nat i) mod S = 0 /\ floor_index (J i) = R * Z.of_nat i / S - 1)%Z).
Proof.
  intros Hi. pose proof (proj2 (proj2 HR)) as P. pose proof (proj2 (proj2 HS)) as Q.
  destruct (place_val rate src R S HR HS S51 i ltac:(nia)) as (E & F & E2 & F2).
  assert (P0 : 0 <= B2R (J i)). { apply (place_mono rate src R S HR HS S51 i i); [lia|nia]. }
  split; [rewrite !floor_index_finite by assumption; rewrite E2; reflexivity|]. split; [exact F|].
  set (q := (R * Z.of_nat i / S)%Z). pose proof (Z.div_mod (R * Z.of_nat i) S ltac:(lia)) as DM. fold q in DM.
  pose proof (Z.mod_pos_bound (R * Z.of_nat i) S ltac:(lia)) as MB.
  assert (Q0 : (0 <= q)%Z) by (apply Z.div_pos; lia). assert (Q1 : (q <= 2 ^ 51)%Z) by nia.
  pose proof (place_err rate src R S HR HS S51 i Hi) as Pe. apply Rabs_le_inv in Pe. pose proof (Spos src S HS S51) as [S1 _].
  set (m := ((R * Z.of_nat i) mod S)%Z) in *.
  assert (Xe : IZR (R * Z.of_nat i) / IZR S = IZR q + IZR m / IZR S). { rewrite DM. rewrite plus_IZR, mult_IZR. field. lra. }
  assert (I0 : 0 < / IZR S) by (apply Rinv_0_lt_compat; lra). assert (I1 : IZR S * / IZR S = 1) by (apply Rinv_r; lra).
  assert (I2 : / IZR S <= 1) by nra.
  unfold Rdiv in Xe, Pe. destruct (Z.eq_dec m 0) as [M|M].
  - rewrite M in Xe. destruct (Rle_lt_dec (IZR q) (B2R (J i))) as [L|L].
    + left. apply (floor_index_nonneg (J i) q F); [lia|]. rewrite plus_IZR. split; lra.
    + destruct (Z.eq_dec q 0) as [Z0|Z0]; [rewrite Z0 in L; lra|]. right. split; [exact M|].
      apply (floor_index_nonneg (J i) (q - 1)%Z F); [lia|]. replace (q - 1 + 1)%Z with q by lia. rewrite minus_IZR. split; lra.
  - left. assert (M1 : 1 <= IZR m) by (apply IZR_le; lia). assert (M2 : IZR m <= IZR S - 1) by (rewrite <- minus_IZR; apply IZR_le; lia).
    assert (A : / IZR S <= IZR m * / IZR S <= 1 - / IZR S) by (split; nra).
    apply (floor_index_nonneg (J i) q F); [lia|]. rewrite plus_IZR. split; lra.
Qed.
Lemma floor_met m i : aligned rate src R S m -> (Z.of_nat i <= Z.of_N m)%Z -> (R * Z.of_N m <= 2 ^ 51)%Z -> floor_index (J i) = (R * Z.of_nat i / S)%Z.
Proof.
  intros Al Hi Hm. pose proof (proj2 (proj2 HR)) as P. destruct (floor_near i ltac:(nia)) as (E & _ & [X|[X Y]]); [exact X|]. rewrite E. apply Al; assumption.
Qed.

(** The first [u] frames are pulled when the first one outside of the covered frames is [u]. *)
Lemma uses_up l k ls ks (sk : sink l k) (s t : stream ls ks) srcs : fresh sk -> sk_rate sk = rate -> sample_rate s = Some src ->
  let e := covered ratio (slen s) (length (sk_buf sk)) in
  (forall i, (i < length srcs)%nat -> (floor_index (J i) < e)%Z) -> (e <= floor_index (J (length srcs)))%Z -> pulls s srcs t ->
  exists sk', forall fuel, (length srcs < fuel)%nat -> sink_stream fuel sk s = Ok (sk', t).
Proof.
  intros Fr Rt Rs e H1 H2 P. destruct (converted_ex l k ls ks srcs) as [fs C].
  assert (Ng : negotiated sk s ratio s) by (left; exists src; rewrite Rt; auto).
  destruct (stream_forward l k ls ks sk s s t ratio srcs fs (N.of_nat (length srcs)) Ng) as (sk' & _ & X); [|exact C|exists sk'; exact X].
  rewrite Fr. change (resampler_index (resampler_default l k)) with (flit 0 0 : f64). split; [exact H1|]. left. auto.
Qed.
Lemma first_quot e u i : (0 < S)%Z -> (0 < R)%Z -> first_at R S e u -> ((i < u)%nat -> (R * Z.of_nat i / S < Z.of_nat e)%Z) /\ ((u <= i)%nat -> (Z.of_nat e <= R * Z.of_nat i / S)%Z).
Proof.
  intros HS0 HR0 [A B]. split; intros H.
  - apply Z.div_lt_upper_bound; [lia|]. nia.
  - apply Z.div_le_lower_bound; [lia|]. nia.
Qed.
Lemma used l k ls ks (sk : sink l k) (s : stream ls ks) m e u : fresh sk -> sk_rate sk = rate -> sample_rate s = Some src -> honest s ->
  (forall n, slen s = Some n -> (n <= m)%N) -> (R * Z.of_N m <= 2 ^ 51)%Z -> aligned rate src R S m ->
  Z.of_nat e = fills R S (slen s) (length (sk_buf sk)) -> first_at R S e u -> (Z.of_nat u <= Z.of_N m)%Z ->
  exists srcs sk' it, pulls s srcs it /\ length srcs = u /\ forall fuel, (u < fuel)%nat -> sink_stream fuel sk s = Ok (sk', it).
Proof.
  intros Fr Rt Rs Ho Hl Hm Al Ee Fi Hu. pose proof (proj2 (proj2 HR)) as P. pose proof (proj2 (proj2 HS)) as Q.
  assert (Cv : covered ratio (slen s) (length (sk_buf sk)) = Z.of_nat e).
  { rewrite Ee. unfold covered, fills. destruct (slen s) as [n|] eqn:En; [|reflexivity]. specialize (Hl n eq_refl). f_equal.
    rewrite <- N_nat_Z. rewrite <- (proj1 (floor_near (N.to_nat n) ltac:(nia))). apply (floor_met m); [exact Al|lia|exact Hm]. }
  assert (exists srcs t, pulls s srcs t /\ length srcs = u) as (srcs & t & Pu & Lu).
  { unfold honest in Ho. destruct (slen s) as [n|] eqn:En.
    - destruct Ho as (fs & (a & b & Pf & _) & Ln). assert (Un : (u <= length fs)%nat).
      { unfold fills in Ee. assert (Z.of_nat e <= R * Z.of_N n / S)%Z by lia. assert (S * (R * Z.of_N n / S) <= R * Z.of_N n)%Z by (apply Z.mul_div_le; lia). destruct Fi. nia. }
      destruct (pulls_firstn _ _ _ _ _ u Pf) as [t Pt]. exists (firstn u fs), t. split; [exact Pt|]. rewrite firstn_length. lia.
    - destruct (Ho u) as (fs & [t Pt] & L). exists fs, t. auto. }
  destruct (uses_up l k ls ks sk s t srcs Fr Rt Rs) as [sk' Hk]; [| |exact Pu|].
  - intros i Hi. rewrite Cv, (floor_met m i Al ltac:(lia) Hm). apply (proj1 (first_quot e u i ltac:(lia) ltac:(lia) Fi)). lia.
  - rewrite Cv, Lu, (floor_met m u Al Hu Hm). apply (proj2 (first_quot e u u ltac:(lia) ltac:(lia) Fi)). lia.
  - exists srcs, sk', t. rewrite Lu in Hk. auto.
Qed.
Lemma used_any l k ls ks (sk : sink l k) (s : stream ls ks) u : fresh sk -> sk_rate sk = rate -> sample_rate s = Some src -> honest s -> slen s = None ->
  (R * (Z.of_nat u + 1) <= 2 ^ 51)%Z -> first_at R S (length (sk_buf sk)) u ->
  exists srcs sk' it, pulls s srcs it /\ (length srcs = u \/ length srcs = Datatypes.S u /\ (R * Z.of_nat u = S * Z.of_nat (length (sk_buf sk)))%Z) /\
    forall fuel, (Datatypes.S u < fuel)%nat -> sink_stream fuel sk s = Ok (sk', it).
Proof.
  intros Fr Rt Rs Ho En Hu Fi. pose proof (proj2 (proj2 HR)) as P. pose proof (proj2 (proj2 HS)) as Q. set (e := length (sk_buf sk)) in *.
  assert (Cv : covered ratio (slen s) (length (sk_buf sk)) = Z.of_nat e) by (rewrite En; reflexivity).
  unfold honest in Ho. rewrite En in Ho.
  assert (Lo : forall i, (i < u)%nat -> (floor_index (J i) < Z.of_nat e)%Z).
  { intros i Hi. pose proof (proj1 (first_quot e u i ltac:(lia) ltac:(lia) Fi) Hi). destruct (floor_near i ltac:(nia)) as (_ & _ & [X|[_ X]]); rewrite X; lia. }
  destruct (Z_lt_le_dec (floor_index (J u)) (Z.of_nat e)) as [L|L].
  - destruct (Ho (Datatypes.S u)) as (srcs & [t Pt] & Ls). pose proof (proj2 (first_quot e u u ltac:(lia) ltac:(lia) Fi) (le_n u)) as Qu.
    assert (Ru : (R * Z.of_nat u = S * Z.of_nat e)%Z).
    { destruct (floor_near u ltac:(nia)) as (_ & _ & [X|[M X]]); [lia|]. assert ((R * Z.of_nat u / S)%Z = Z.of_nat e) by lia. pose proof (Z.div_mod (R * Z.of_nat u) S ltac:(lia)). nia. }
    destruct (uses_up l k ls ks sk s t srcs Fr Rt Rs) as [sk' Hk]; [| |exact Pt|].
    + intros i Hi. rewrite Cv. destruct (Nat.eq_dec i u) as [->|Ne]; [exact L|]. apply Lo. lia.
    + rewrite Cv, Ls. destruct (floor_near (Datatypes.S u) ltac:(nia)) as (_ & _ & [X|[M X]]); rewrite X.
      * apply (proj2 (first_quot e u (Datatypes.S u) ltac:(lia) ltac:(lia) Fi)). lia.
      * pose proof (Z.div_mod (R * Z.of_nat (Datatypes.S u)) S ltac:(lia)). nia.
    + exists srcs, sk', t. rewrite Ls in Hk. split; [exact Pt|]. split; [right; auto|exact Hk].
  - destruct (Ho u) as (srcs & [t Pt] & Ls). destruct (uses_up l k ls ks sk s t srcs Fr Rt Rs) as [sk' Hk]; [| |exact Pt|].
    + intros i Hi. rewrite Cv. apply Lo. lia.
    + rewrite Cv, Ls. exact L.
    + exists srcs, sk', t. rewrite Ls in Hk. split; [exact Pt|]. split; [left; exact Ls|]. intros fuel Hf. apply Hk. lia.
Qed.
Lemma pack_inj lb kb (a b : audio lb kb) : pack a = pack b -> a = b.
Proof.
  unfold pack. intros E. apply inj_pair2_eq_dec in E; [exact E|]. clear. intros [l1 k1] [l2 k2].
  assert (forall a b : layout, {a = b} + {a <> b}) by decide equality. assert (forall a b : ck, {a = b} + {a <> b}) by decide equality. decide equality.
Qed.
Lemma drain_honest l k (a : audio l k) : honest (audio_drain a) /\ slen (audio_drain a) = Some (N.of_nat (audio_len a)).
Proof. split; [apply well_formed_honest; reflexivity|]. unfold audio_drain, audio_len. cbn [slen]. reflexivity. Qed.
Lemma used_blocks lb kb l k slots m u c (b b' : audio lb kb) : played l k rate slots c b b' -> s_rate b = src ->
  (Z.of_nat (audio_len b) <= Z.of_N m)%Z -> (R * Z.of_N m <= 2 ^ 51)%Z -> aligned rate src R S m -> first_at R S slots u -> (c * u <= audio_len b)%nat ->
  b' = mkAudio src (skipn (c * u) (frames b)).
Proof.
  intros H. induction H as [b|c b b1 b2 sk sk' it Fr Rt Ls Hs Hd Hp IH]; intros Rb Hb Hm Al Fi Hc.
  - cbn [Nat.mul skipn]. destruct b; cbn in *; subst; reflexivity.
  - pose proof (proj2 (proj2 HR)) as P. pose proof (proj2 (proj2 HS)) as Q. destruct (drain_honest _ _ b) as [Ho Hl].
    destruct (used l k lb kb sk (audio_drain b) m slots u Fr Rt) as (srcs & sk2 & it2 & Pu & Lu & Hk); try assumption.
    + cbn. rewrite Rb. reflexivity.
    + intros n. rewrite Hl. intros [= <-]. lia.
    + rewrite Hl, Ls. unfold fills. symmetry. apply Z.min_r. apply Z.div_le_lower_bound; [lia|]. destruct Fi. rewrite nat_N_Z. nia.
    + nia.
    + rewrite Hk in Hs by nia. injection Hs as <- <-. destruct (drain_dropped _ _ _ _ _ Pu) as (_ & _ & D). rewrite D, Lu, Rb in Hd.
      assert (Hb1 : pack (mkAudio src (skipn u (frames b))) = pack b1) by congruence. apply pack_inj in Hb1. subst b1.
      rewrite IH; try assumption; cbn [s_rate frames audio_len].
      * rewrite skipn_skipn. f_equal. f_equal. lia.
      * reflexivity.
      * unfold audio_len. cbn [frames]. rewrite skipn_length. unfold audio_len in Hb. lia.
      * unfold audio_len. cbn [frames]. rewrite skipn_length. unfold audio_len in Hc. nia.
Qed.
Lemma blocks_exist lb kb l k slots m u c : forall b : audio lb kb, s_rate b = src ->
  (Z.of_nat (audio_len b) <= Z.of_N m)%Z -> (R * Z.of_N m <= 2 ^ 51)%Z -> aligned rate src R S m -> first_at R S slots u -> (c * u <= audio_len b)%nat ->
  played l k rate slots c b (mkAudio src (skipn (c * u) (frames b))).
Proof.
  induction c as [|c IH]; intros b Rb Hb Hm Al Fi Hc.
  - cbn [Nat.mul skipn]. replace (mkAudio src (frames b)) with b by (destruct b; cbn in *; subst; reflexivity). constructor.
  - pose proof (proj2 (proj2 HR)) as P. pose proof (proj2 (proj2 HS)) as Q. destruct (drain_honest _ _ b) as [Ho Hl].
    set (sk := mkSink rate (repeat (frame_default l k) slots) (resampler_default l k) : sink l k).
    assert (Ls : length (sk_buf sk) = slots) by apply repeat_length.
    destruct (used l k lb kb sk (audio_drain b) m slots u eq_refl eq_refl) as (srcs & sk2 & it2 & Pu & Lu & Hk); try assumption.
    + cbn. rewrite Rb. reflexivity.
    + intros n. rewrite Hl. intros [= <-]. lia.
    + rewrite Hl, Ls. unfold fills. symmetry. apply Z.min_r. apply Z.div_le_lower_bound; [lia|]. destruct Fi. rewrite nat_N_Z. nia.
    + nia.
    + destruct (drain_dropped _ _ _ _ _ Pu) as (_ & Lb & D). rewrite Lu, Rb in D. rewrite Lu in Lb.
      apply (played_block l k rate slots c b (mkAudio src (skipn u (frames b))) _ sk sk2 it2 eq_refl eq_refl Ls); [apply Hk; unfold audio_len; lia|exact D|].
      replace (skipn (Datatypes.S c * u) (frames b)) with (skipn (c * u) (frames (mkAudio src (skipn u (frames b))))) by (cbn [frames]; rewrite skipn_skipn; f_equal; lia).
      apply IH; try assumption; unfold audio_len in *; cbn [frames s_rate]; [reflexivity| |]; rewrite skipn_length; nia.
Qed.
End Usage.
