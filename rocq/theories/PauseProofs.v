(** * PauseProofs.v -- proofs for C102 *)
From Coq Require Import ZArith NArith Reals List Lia Bool Lra.
From Flocq Require Import Core.Core IEEE754.BinarySingleNaN.
From Verif Require Import Rust Float Math Chan Frame Ops Stream Audio SpecChan SpecFrame SpecStream SpecSink SpecAudio SpecMore.
From Verif Require Import FloatProofs FrameProofs WeightProofs StreamProofs SinkProofs PlaceProofs SinkMore SinkTerm AudioProofs ResampleProofs WholeProofs MoreProofs.
Import ListNotations.
Open Scope Z_scope.

Lemma contributions_at l k p ratio off (fs : list (frame l k)) : forall i f w, In (f, w) (contributions p ratio off i fs) ->
  exists a, nth_error fs a = Some f /\ (floor_index (place ratio off (i + a)) = p \/ ceil_index (place ratio off (i + a)) = p) /\
    (w = lower_weight ratio (place ratio off (i + a)) \/ w = upper_weight ratio (place ratio off (i + a))).
Proof.
  induction fs as [|g fs IH]; intros i f w H; [destruct H|]. cbn [contributions] in H. cbv zeta in H.
  apply in_app_or in H as [H|H].
  - destruct (Z.eqb_spec (floor_index (place ratio off i)) p) as [E|E]; [|destruct H]. destruct H as [H|[]]. injection H as <- <-. exists 0%nat. rewrite Nat.add_0_r. cbn; auto.
  - apply in_app_or in H as [H|H].
    + destruct (Z.eqb_spec (ceil_index (place ratio off i)) p) as [E|E]; [|destruct H]. destruct H as [H|[]]. injection H as <- <-. exists 0%nat. rewrite Nat.add_0_r. cbn; auto.
    + destruct (IH _ _ _ H) as (a & A). exists (S a). rewrite Nat.add_succ_r. exact A.
Qed.
Lemma overhang_at l k e ratio off (fs : list (frame l k)) : forall i f w, In (f, w) (overhang e ratio off i fs) ->
  exists a, nth_error fs a = Some f /\ e <= ceil_index (place ratio off (i + a)) /\ w = upper_weight ratio (place ratio off (i + a)).
Proof.
  induction fs as [|g fs IH]; intros i f w H; [destruct H|]. cbn [overhang] in H. cbv zeta in H.
  apply in_app_or in H as [H|H].
  - destruct (Z.leb_spec e (ceil_index (place ratio off i))) as [E|E]; [|destruct H]. destruct H as [H|[]]. injection H as <- <-. exists 0%nat. rewrite Nat.add_0_r. cbn; auto.
  - destruct (IH _ _ _ H) as (a & A). exists (S a). rewrite Nat.add_succ_r. exact A.
Qed.
Lemma pause_frame l k ls ks (a a' : audio l k) (s it : stream ls ks) n all (fs : list (frame l k)) src R S p b :
  sample_rate s = Some src -> whole_rate src S -> whole_rate (s_rate a) R -> S <= 2 ^ 51 -> R * Z.of_N n <= 2 ^ 51 ->
  honest s -> slen s = Some n -> yields s all -> converted all fs -> extend (Datatypes.S (N.to_nat n)) a s = (a', Ok it) ->
  (forall i f, Z.abs (R * Z.of_nat i - S * Z.of_nat p) <= S -> nth_error fs i = Some f -> f = frame_default l k) ->
  audio_get a' (audio_len a + p) = Some b -> b = frame_default l k.
Proof.
  intros Er HS HR S51 Hn Ho Hl Y C H Sil Eb.
  assert (Sk : sinkable s) by (left; rewrite Er; discriminate).
  destruct (extend_values l k ls ks a a' s it n all fs Sk Ho Hl Y C H) as (m & Hm & Lv & _ & V).
  rewrite Er in Lv, V. cbn [ratio_for] in *. rewrite (frames_for_exact _ _ R S HR HS S51 n Hn) in Lv, V.
  set (ratio := fdiv (s_rate a) src) in *. set (d := (R * Z.of_N n + S - 1) / S) in *.
  pose proof (covered_nearly _ _ R S HR HS S51 n Hn) as Cn. fold ratio in Cn. fold d in Cn.
  set (e := Z.min _ d) in *. assert (He : d - 1 <= e <= d) by (unfold e; lia).
  destruct (extend_appends _ _ _ _ _ _ _ _ _ H) as (n1 & add1 & En1 & F1 & _ & L1).
  assert (n1 = n) by congruence. subst n1. rewrite Er, (frames_for_exact _ _ R S HR HS S51 n Hn) in L1. fold d in L1.
  assert (Pd : Z.of_nat p < d).
  { unfold audio_get, audio_len in Eb. assert (length (frames a) + p < length (frames a'))%nat by (apply nth_error_Some; congruence). rewrite F1, app_length in H0. lia. }
  assert (W : forall j, fin (from_f64 k (lower_weight ratio j)) = true /\ fin (from_f64 k (upper_weight ratio j)) = true).
  { intros j. destruct (ratio_val (s_rate a) src R S HR HS S51) as [_ Fr]. destruct (ratio_err (s_rate a) src R S HR HS S51) as [_ Br]. fold ratio in Fr, Br.
    destruct (WeightProofs.weights_finite ratio j Fr) as (W1 & W2 & W3 & W4).
    - rewrite Rabs_pos_eq by apply Br. apply Rle_trans with (1 := proj2 Br). apply bpow_le. lia.
    - split; apply from_f64_finite; assumption. }
  assert (Lf : length fs = N.to_nat n) by (rewrite (converted_length _ _ _ _ _ _ C); exact (yields_count _ _ _ _ _ Ho Hl Y)).
  assert (Nj : forall j f, nth_error (firstn m fs) j = Some f ->
     floor_index (place ratio (flit 0 0) j) = Z.of_nat p \/ ceil_index (place ratio (flit 0 0) j) = Z.of_nat p -> f = frame_default l k).
  { intros j f Hf Hq. assert (Hj : (j < length (firstn m fs))%nat) by (apply nth_error_Some; congruence). rewrite firstn_length in Hj. rewrite firstn_nth in Hf by lia.
    apply (Sil j f); [|exact Hf]. apply (near _ _ R S HR HS S51); [|exact Hq]. assert (0 < R) by apply HR. nia. }
  destruct (V p b Eb) as (A1 & A2 & A3). destruct (Z.lt_ge_cases (Z.of_nat p) e) as [L|L].
  - apply (ws_silence _ _ _ _) with (2 := A1 L). intros f w Hi. destruct (contributions_at _ _ _ _ _ _ _ _ _ Hi) as (j & Hf & Hq & Hw).
    split; [exact (Nj j f Hf Hq)|]. destruct Hw as [-> | ->]; apply W.
  - assert (Pe : Z.of_nat p = e) by lia. set (index := place ratio (flit 0 0) m) in *.
    destruct (Z.eq_dec (Z.of_nat p) (floor_index index)) as [Pi|Pi]; [|exact (A3 L (or_introl Pi))].
    destruct (Rle_or_lt (Rabs (frac index)) (bpow radix2 (-52))) as [Sm|Bg]; [exact (A3 L (or_intror Sm))|].
    apply (ws_silence _ _ _ _) with (2 := A2 L Pi Bg). intros f w Hi. destruct (overhang_at _ _ _ _ _ _ _ _ _ Hi) as (j & Hf & Hq & ->). cbn [Nat.add] in *.
    split; [|apply W]. apply (Nj j f Hf). right. destruct Lv as [Lv _].
    assert (Hj : (j < length (firstn m fs))%nat) by (apply nth_error_Some; congruence). rewrite firstn_length in Hj. specialize (Lv j ltac:(lia)).
    destruct (ceil_index_bounds (place ratio (flit 0 0) j)) as [Cb _]. lia.
Qed.
Lemma ws_quiet l k c (acc : frame l k) r b y :
  (forall f w, In (f, w) r -> (forall x, nth_error (channels f) c = Some x -> x = chan_default k) /\ fin (from_f64 k w) = true) ->
  weighted_sum acc r b -> (forall x, nth_error (channels acc) c = Some x -> x = chan_default k) -> nth_error (channels b) c = Some y -> y = chan_default k.
Proof.
  intros H W. revert H. induction W as [acc|acc f w p r out Hm W IH]; intros H A Ey; [exact (A y Ey)|].
  apply IH; [intros f' w' Hi; apply H; now right| |exact Ey]. intros u Hu. pose proof (nth_some _ _ _ _ _ Hu) as Hi.
  destruct (H f w (or_introl eq_refl)) as [Q Fw].
  destruct (nth_ex l k p c Hi) as (z & Hz), (nth_ex l k (frame_from_f64 l k w) c Hi) as (x & Hx), (nth_ex l k acc c Hi) as (v & Hv), (nth_ex l k f c Hi) as (q & Hq).
  rewrite (proj1 (proj1 (frame_ops_channelwise l k _ p) c v z Hv Hz)) in Hu. injection Hu as <-.
  destruct (proj1 (vmap2M_ok _ _ _ _ p) Hm c q x Hq Hx) as (z' & Hm' & Hz'). unfold channels in Hz. rewrite Hz in Hz'. injection Hz' as <-.
  rewrite (A v Hv). rewrite (Q q Hq) in Hm'. rewrite frame_from_f64_all in Hx. apply repeat_nth in Hx as ->. eapply silence_step; eauto.
Qed.
Lemma pause_channel l k ls ks (a a' : audio l k) (s it : stream ls ks) n all (fs : list (frame l k)) src R S p c b y :
  sample_rate s = Some src -> whole_rate src S -> whole_rate (s_rate a) R -> S <= 2 ^ 51 -> R * Z.of_N n <= 2 ^ 51 ->
  honest s -> slen s = Some n -> yields s all -> converted all fs -> extend (Datatypes.S (N.to_nat n)) a s = (a', Ok it) ->
  (forall i f x, Z.abs (R * Z.of_nat i - S * Z.of_nat p) <= S -> nth_error fs i = Some f -> nth_error (channels f) c = Some x -> x = chan_default k) ->
  audio_get a' (audio_len a + p) = Some b -> nth_error (channels b) c = Some y -> y = chan_default k.
Proof.
  intros Er HS HR S51 Hn Ho Hl Y C H Sil Eb Ey.
  assert (Sk : sinkable s) by (left; rewrite Er; discriminate).
  destruct (extend_values l k ls ks a a' s it n all fs Sk Ho Hl Y C H) as (m & Hm & Lv & _ & V).
  rewrite Er in Lv, V. cbn [ratio_for] in *. rewrite (frames_for_exact _ _ R S HR HS S51 n Hn) in Lv, V.
  set (ratio := fdiv (s_rate a) src) in *. set (d := (R * Z.of_N n + S - 1) / S) in *.
  pose proof (covered_nearly _ _ R S HR HS S51 n Hn) as Cn. fold ratio in Cn. fold d in Cn.
  set (e := Z.min _ d) in *. assert (He : d - 1 <= e <= d) by (unfold e; lia).
  destruct (extend_appends _ _ _ _ _ _ _ _ _ H) as (n1 & add1 & En1 & F1 & _ & L1).
  assert (n1 = n) by congruence. subst n1. rewrite Er, (frames_for_exact _ _ R S HR HS S51 n Hn) in L1. fold d in L1.
  assert (Pd : Z.of_nat p < d).
  { unfold audio_get, audio_len in Eb. assert (length (frames a) + p < length (frames a'))%nat by (apply nth_error_Some; congruence). rewrite F1, app_length in H0. lia. }
  assert (W : forall j, fin (from_f64 k (lower_weight ratio j)) = true /\ fin (from_f64 k (upper_weight ratio j)) = true).
  { intros j. destruct (ratio_val (s_rate a) src R S HR HS S51) as [_ Fr]. destruct (ratio_err (s_rate a) src R S HR HS S51) as [_ Br]. fold ratio in Fr, Br.
    destruct (WeightProofs.weights_finite ratio j Fr) as (W1 & W2 & W3 & W4).
    - rewrite Rabs_pos_eq by apply Br. apply Rle_trans with (1 := proj2 Br). apply bpow_le. lia.
    - split; apply from_f64_finite; assumption. }
  assert (Lf : length fs = N.to_nat n) by (rewrite (converted_length _ _ _ _ _ _ C); exact (yields_count _ _ _ _ _ Ho Hl Y)).
  assert (Nj : forall j f, nth_error (firstn m fs) j = Some f ->
     floor_index (place ratio (flit 0 0) j) = Z.of_nat p \/ ceil_index (place ratio (flit 0 0) j) = Z.of_nat p -> forall x, nth_error (channels f) c = Some x -> x = chan_default k).
  { intros j f Hf Hq x Hx. assert (Hj : (j < length (firstn m fs))%nat) by (apply nth_error_Some; congruence). rewrite firstn_length in Hj. rewrite firstn_nth in Hf by lia.
    apply (Sil j f x); [|exact Hf|exact Hx]. apply (near _ _ R S HR HS S51); [|exact Hq]. assert (0 < R) by apply HR. nia. }
  destruct (V p b Eb) as (A1 & A2 & A3). destruct (Z.lt_ge_cases (Z.of_nat p) e) as [L|L].
  - apply (ws_quiet _ _ c _ _ _) with (2 := A1 L) (4 := Ey); [|intros x Hx; exact (nth_default _ _ _ _ Hx)]. intros f w Hi. destruct (contributions_at _ _ _ _ _ _ _ _ _ Hi) as (j & Hf & Hq & Hw).
    split; [exact (Nj j f Hf Hq)|]. destruct Hw as [-> | ->]; apply W.
  - assert (Pe : Z.of_nat p = e) by lia. set (index := place ratio (flit 0 0) m) in *.
    destruct (Z.eq_dec (Z.of_nat p) (floor_index index)) as [Pi|Pi]; [|rewrite (A3 L (or_introl Pi)) in Ey; exact (nth_default _ _ _ _ Ey)].
    destruct (Rle_or_lt (Rabs (frac index)) (bpow radix2 (-52))) as [Sm|Bg]; [rewrite (A3 L (or_intror Sm)) in Ey; exact (nth_default _ _ _ _ Ey)|].
    apply (ws_quiet _ _ c _ _ _) with (2 := A2 L Pi Bg) (4 := Ey); [|intros x Hx; exact (nth_default _ _ _ _ Hx)]. intros f w Hi. destruct (overhang_at _ _ _ _ _ _ _ _ _ Hi) as (j & Hf & Hq & ->). cbn [Nat.add] in *.
    split; [|apply W]. apply (Nj j f Hf). right. destruct Lv as [Lv _].
    assert (Hj : (j < length (firstn m fs))%nat) by (apply nth_error_Some; congruence). rewrite firstn_length in Hj. specialize (Lv j ltac:(lia)).
    destruct (ceil_index_bounds (place ratio (flit 0 0) j)) as [Cb _]. lia.
Qed.
Lemma pause_kept l k ls ks (a a' : audio l k) (s it : stream ls ks) n all src R S i0 i1 p b :
  is_float ks \/ ks = k \/ (ks = K16 /\ k = K8) ->
  sample_rate s = Some src -> whole_rate src S -> whole_rate (s_rate a) R -> S <= 2 ^ 51 -> R * Z.of_N n <= 2 ^ 51 ->
  honest s -> slen s = Some n -> yields s all -> extend (Datatypes.S (N.to_nat n)) a s = (a', Ok it) ->
  (forall i f, (i0 <= i < i1)%nat -> nth_error all i = Some f -> f = frame_default ls ks) ->
  R * Z.of_nat i0 + S <= S * Z.of_nat p -> S * Z.of_nat p + S < R * Z.of_nat i1 \/ (N.to_nat n <= i1)%nat ->
  audio_get a' (audio_len a + p) = Some b -> b = frame_default l k.
Proof.
  intros K Er HS HR S51 Hn Ho Hl Y H Sil P0 P1 Eb. destruct (converted_ex l k ls ks all) as (fs & C).
  apply (pause_frame l k ls ks a a' s it n all fs src R S p b); try assumption. intros i f Hi Hf. assert (0 < R) by apply HR.
  assert (Lf : length fs = length all) by exact (converted_length _ _ _ _ _ _ C). pose proof (yields_count _ _ _ _ _ Ho Hl Y) as La.
  assert (Li : (i < length fs)%nat) by (apply nth_error_Some; congruence).
  assert (I : (i0 <= i < i1)%nat) by (split; [nia|destruct P1; nia]).
  destruct (nth_error all i) as [x|] eqn:Ex; [|apply nth_error_None in Ex; lia].
  destruct (converted_nth _ _ _ _ _ _ _ _ C Ex) as (g & Hg & Cg).
  rewrite (Sil i x I Ex), (convert_silence ls ks l k K) in Cg. congruence.
Qed.
