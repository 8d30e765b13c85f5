(** * EqualProofs.v -- [stream] at equal rates, in the form of the property
    theorems (C32, C34, C40) *)
From Coq Require Import ZArith NArith Reals List Bool Lia Lra.
From Flocq Require Import Core.Core IEEE754.BinarySingleNaN.
From Verif Require Import Rust Float Math Chan Frame Ops Stream SpecChan SpecFrame SpecStream SpecSink
  IntProofs FloatProofs FloorProofs FArithProofs ChanProofs FChanProofs FrameProofs OpsProofs StreamProofs SinkProofs PlaceProofs CopyProofs.
Import ListNotations.
Open Scope Z_scope.

Lemma vals_copied l k (f b : frame l k) : (frame_valid f -> vals b = vals f /\ frame_valid b) -> copied f b.
Proof.
  intros H. split.
  - intros Hk. apply vals_int_eq; auto. apply H. now apply int_frame_valid.
  - intros Hf. destruct (H Hf) as [V B]. now apply vals_eqv.
Qed.

Lemma equal_negotiated l k ls ks (sk : sink l k) (s : stream ls ks) : equal_rate sk s ->
  exists s', negotiated sk s (flit 1 0) s' /\ slen s' = slen s /\ forall fs, starts s fs -> starts s' fs.
Proof.
  unfold equal_rate, negotiated. destruct (sample_rate s) as [r|] eqn:E.
  - intros (F & N & Hr). exists s. split; [|auto]. left. exists r. rewrite Hr, (ratio_one r F N). auto.
  - intros C. destruct (proj1 (proj1 (set_rate_iff _ _ s (sk_rate sk))) C) as (s' & Hs). exists s'. split; [right; auto|].
    split; [exact (set_rate_len _ _ _ _ _ Hs)|]. intros fs. exact (set_rate_starts _ _ _ _ _ _ Hs).
Qed.

(** Streaming at equal rates into a sink whose index is the integer [c]. *)
Lemma equal_copy l k ls ks (sk : sink l k) (s : stream ls ks) c srcs : equal_rate sk s ->
  resampler_index (sk_res sk) = fofZ (Z.of_nat c) -> Z.of_nat c <= 2 ^ 53 -> Z.of_nat (length (sk_buf sk)) <= 2 ^ 53 ->
  let e := available (slen s) (length (sk_buf sk)) in
  starts s srcs -> length srcs = (e - c)%nat ->
  exists sk' s' it, negotiated sk s (flit 1 0) s' /\ pulls s' srcs it /\
    (forall fuel, (length srcs < fuel)%nat -> sink_stream fuel sk s = Ok (sk', it)) /\
    sk_rate sk' = sk_rate sk /\
    length (sk_buf sk') = length (sk_buf sk) /\
    (forall p, (p < e)%nat -> (p < c)%nat -> nth_error (sk_buf sk') p = Some (frame_default l k)) /\
    (forall i src, nth_error srcs i = Some src -> exists f b, convert l k src = Ok f /\
       nth_error (sk_buf sk') (c + i) = Some b /\ copied f b) /\
    (forall p, (e <= p)%nat -> p <> 0%nat -> nth_error (sk_buf sk') p = nth_error (sk_buf sk) p) /\
    (e = 0%nat -> forall b, nth_error (sk_buf sk) 0 = Some b ->
       nth_error (sk_buf sk') 0 = Some (frame_add b (resampler_frame (sk_res sk)))) /\
    resampler_frame (sk_res sk') = resampler_frame (sk_res sk) /\
    resampler_index (sk_res sk') = fofZ (Z.of_nat (c + length srcs)).
Proof.
  intros Hr Ho Hc Hb e Hs Hl. destruct (equal_negotiated _ _ _ _ _ _ Hr) as (s' & Ng & Ls & Hp).
  destruct (Hp _ Hs) as (it & P).
  set (E := covered (flit 1 0) (slen s') (length (sk_buf sk))).
  assert (EE : E = Z.of_nat e).
  { unfold E, e. rewrite covered_one by exact Hb. rewrite Ls. unfold available. destruct (slen s); lia. }
  assert (Le : (e <= length (sk_buf sk))%nat) by (unfold e, available; destruct (slen s); lia).
  assert (R : reads s' (flit 1 0) (resampler_index (sk_res sk)) E srcs (N.of_nat (length srcs)) it).
  { rewrite Ho, EE. apply equal_reads; auto; lia. }
  destruct (converted_ex l k _ _ srcs) as (fs & Cv). pose proof (converted_length _ _ _ _ _ _ Cv) as Lf.
  destruct (stream_forward _ _ _ _ _ _ _ _ _ _ _ _ Ng R Cv) as (sk' & St & Run). fold E in St. rewrite EE in St.
  destruct (equal_streamed sk sk' (Z.of_nat c) (Z.of_nat e) fs _ ltac:(lia) ltac:(lia) ltac:(lia) ltac:(lia) Ho St) as (S1 & S2 & S3).
  exists sk', s', it. split; [exact Ng|]. split; [exact P|]. split; [exact Run|]. split; [exact (st_rate _ _ _ _ _ _ St)|].
  split; [exact (st_length _ _ _ _ _ _ St)|]. split; [intros p H1 H2; apply S1; lia|]. split; [|split; [|split; [|split; [exact S3|]]]].
  - intros i src Hi. pose proof (proj1 (nth_error_Some srcs i) ltac:(congruence)) as Li.
    assert (exists f, nth_error fs i = Some f /\ convert l k src = Ok f) as (f & Hf & Hcv).
    { clear -Cv Hi. revert i Hi. induction Cv as [|x y xs ys H Cv IH]; intros [|i] Hi; cbn in Hi; try discriminate.
      - injection Hi as ->. exists y. auto.
      - apply IH. exact Hi. }
    exists f. assert (exists b, nth_error (sk_buf sk') (c + i) = Some b) as (b & Eb).
    { destruct (nth_error (sk_buf sk') (c + i)) as [b|] eqn:Eb; [eauto|]. apply nth_error_None in Eb.
      rewrite (st_length _ _ _ _ _ _ St) in Eb. lia. }
    exists b. split; [exact Hcv|]. split; [exact Eb|]. apply vals_copied. intros Vf.
    destruct (S2 (c + i)%nat f ltac:(lia) ltac:(lia)) as (b' & Eb' & V); [now replace (c + i - Z.to_nat (Z.of_nat c))%nat with i by lia|exact Vf|].
    rewrite Eb in Eb'. injection Eb' as <-. exact V.
  - intros p H1 H2. apply (st_rest _ _ _ _ _ _ St); lia.
  - intros He. apply (st_first _ _ _ _ _ _ St). lia.
  - rewrite (st_index _ _ _ _ _ _ St), Ho, (fadd_comm 53 1024), flit_fofZ, place_int by lia. f_equal. lia.
Qed.

Lemma available_starts l k (s : stream l k) n : honest s -> exists fs, starts s fs /\ length fs = available (slen s) n.
Proof.
  intros H. apply honest_starts; [exact H|]. unfold available. destruct (slen s); [lia|exact I].
Qed.
Lemma fresh_index l k (sk : sink l k) : fresh sk -> resampler_index (sk_res sk) = fofZ (Z.of_nat 0).
Proof. intros ->. reflexivity. Qed.

(** C34 *)
Lemma fresh_copy l k ls ks (sk : sink l k) (s : stream ls ks) srcs : equal_rate sk s -> fresh sk ->
  Z.of_nat (length (sk_buf sk)) <= 2 ^ 53 -> starts s srcs -> length srcs = available (slen s) (length (sk_buf sk)) ->
  exists sk' s' it, negotiated sk s (flit 1 0) s' /\ pulls s' srcs it /\
    (forall fuel, (length srcs < fuel)%nat -> sink_stream fuel sk s = Ok (sk', it)) /\
    length (sk_buf sk') = length (sk_buf sk) /\
    (forall i src, nth_error srcs i = Some src -> exists f b, convert l k src = Ok f /\
       nth_error (sk_buf sk') i = Some b /\ copied f b) /\
    (forall p, (length srcs <= p)%nat -> p <> 0%nat -> nth_error (sk_buf sk') p = nth_error (sk_buf sk) p) /\
    (forall b, srcs = [] -> nth_error (sk_buf sk) 0 = Some b ->
       nth_error (sk_buf sk') 0 = Some (frame_add b (frame_default l k))) /\
    sk_res sk' = mkResampler (frame_default l k) (fofZ (Z.of_nat (length srcs))).
Proof.
  intros Hr Hf Hb Hs Hl.
  destruct (equal_copy _ _ _ _ sk s 0 srcs Hr (fresh_index _ _ _ Hf) ltac:(lia) Hb Hs ltac:(lia))
    as (sk' & s' & it & H1 & H2 & H3 & H4 & H5 & H6 & H7 & H8 & H9 & H10 & H11).
  exists sk', s', it. split; [exact H1|]. split; [exact H2|]. split; [exact H3|]. split; [exact H5|]. split; [exact H7|].
  split; [intros p Hp; apply H8; lia|]. split.
  - intros b -> Eb. rewrite (H9 ltac:(cbn in Hl; lia) b Eb), Hf. reflexivity.
  - destruct sk' as [r b [pa off]]. cbn in H10, H11 |- *. rewrite H10, H11, Hf. reflexivity.
Qed.

(** C32 *)
Lemma frame_fills l k ls ks (sk : sink l k) (x : frame ls ks) : fresh sk ->
  Z.of_nat (length (sk_buf sk)) <= 2 ^ 53 ->
  exists f sk', convert l k x = Ok f /\
    (forall fuel, (length (sk_buf sk) < fuel)%nat -> sink_stream fuel sk (SFrame x) = Ok (sk', SFrame x)) /\
    length (sk_buf sk') = length (sk_buf sk) /\
    (forall p b, nth_error (sk_buf sk') p = Some b -> copied f b).
Proof.
  intros Hf Hb. assert (Hr : equal_rate sk (SFrame x)) by exact I.
  destruct (fresh_copy _ _ _ _ sk (SFrame x) (repeat x (length (sk_buf sk))) Hr Hf Hb) as
    (sk' & s' & it & H1 & H2 & H3 & H4 & H5 & _).
  - eexists. apply frame_starts.
  - apply repeat_length.
  - destruct (convert_total ls ks l k x) as (f & Ef). exists f, sk'. split; [exact Ef|].
    assert (s' = SFrame x) as ->.
    { destruct H1 as [(r & H1 & _)|(_ & _ & H1)]; [discriminate H1|]. cbn in H1. now injection H1 as <-. }
    pose proof (frame_starts _ _ x (length (sk_buf sk))) as Q.
    destruct (pulls_det _ _ _ _ _ _ _ H2 Q eq_refl) as [_ ->]. rewrite repeat_length in H3. split; [exact H3|].
    split; [exact H4|]. intros p b Eb.
    pose proof (proj1 (nth_error_Some (sk_buf sk') p) ltac:(congruence)) as Lp. rewrite H4 in Lp.
    destruct (H5 p x (nth_repeat _ _ _ Lp)) as (f' & b' & Ef' & Eb' & Cp).
    rewrite Ef in Ef'. injection Ef' as <-. rewrite Eb in Eb'. injection Eb' as <-. exact Cp.
Qed.
