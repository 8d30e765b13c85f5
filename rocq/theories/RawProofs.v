(** * RawProofs.v -- proofs about raw sample buffers (C48) and their ownership (C49) *)
From Coq Require Import ZArith NArith List Lia Bool Arith.
From Verif Require Import Rust Float Chan Frame Ops Stream Audio Heap SpecChan SpecFrame SpecStream SpecSink SpecAudio.
From Verif Require Import FrameProofs SinkProofs SinkTerm.
Import ListNotations.
Open Scope nat_scope.

Lemma nchan_count l : nchan l = channel_count l. Proof. now destruct l. Qed.
Lemma count_pos l : channel_count l <> 0. Proof. now destruct l. Qed.
Lemma size_pos k : chan_size k <> 0. Proof. now destruct k. Qed.

Lemma reinterpret_ok l k n : forall buf : list (chan k), length buf = n * channel_count l ->
  exists fs : list (frame l k), reinterpret_frames n buf = Ok fs /\ length fs = n /\ raw_samples fs = buf.
Proof.
  induction n as [|n IH]; intros buf H; cbn [reinterpret_frames].
  - destruct buf; [|discriminate]. now exists [].
  - destruct (vof_list (nchan l) buf) as [f|p|] eqn:E.
    + apply vof_list_ok in E as [L E]. destruct (IH (skipn (nchan l) buf)) as (fs & R & Ln & S).
      { rewrite skipn_length. pose proof (nchan_count l). cbn [Nat.mul] in H. lia. }
      exists (f :: fs). cbn [bind]. rewrite R. cbn [bind]. split; [reflexivity|]. split; [cbn; now rewrite Ln|].
      unfold raw_samples in *. cbn [flat_map]. rewrite S. unfold channels. rewrite E. apply firstn_skipn.
    + apply vof_list_panic in E as [L _]. rewrite nchan_count, H in L. cbn [Nat.mul] in L. lia.
    + exfalso. revert E. clear. generalize (nchan l). intros m. revert buf. induction m as [|m IHm]; intros [|b buf]; cbn; try discriminate.
      destruct (vof_list m buf) eqn:Q; cbn; try discriminate. intros _. exact (IHm _ Q).
Qed.
Lemma channels_count l k (f : frame l k) : length (channels f) = channel_count l.
Proof. exact (channels_length l k f). Qed.
Lemma raw_length l k (fs : list (frame l k)) : length (raw_samples fs) = length fs * channel_count l.
Proof.
  induction fs as [|f fs IH]; [reflexivity|]. unfold raw_samples in *. cbn [flat_map length Nat.mul].
  rewrite app_length, IH, channels_count. reflexivity.
Qed.
Lemma raw_nth l k (fs : list (frame l k)) : forall i f c, nth_error fs i = Some f -> c < channel_count l ->
  nth_error (raw_samples fs) (i * channel_count l + c) = nth_error (channels f) c.
Proof.
  induction fs as [|g fs IH]; intros [|i] f c E Hc; try discriminate; unfold raw_samples in *; cbn [flat_map nth_error Nat.mul Nat.add] in *.
  - injection E as ->. apply nth_error_app1. rewrite channels_count. exact Hc.
  - rewrite nth_error_app2 by (rewrite channels_count; lia).
    rewrite channels_count. rewrite <- (IH i f c E Hc). f_equal. lia.
Qed.
Lemma with_buffer_eq l k rate (buf : list (chan k)) : with_buffer l k rate buf =
  if Nat.eqb 0 (length buf mod channel_count l) then
    fs <- reinterpret_frames (length buf / channel_count l) buf ;; Ok (mkAudio rate fs)
  else Panic AssertFailed.
Proof.
  assert (W : forall k (buf : list (chan k)), with_wide_buffer l k rate buf =
    if Nat.eqb 0 (length buf mod channel_count l) then
      fs <- reinterpret_frames (length buf / channel_count l) buf ;; Ok (mkAudio rate fs)
    else Panic AssertFailed).
  { clear. intros k buf. unfold with_wide_buffer, frame_size. change (nchan l) with (channel_count l).
    pose proof (count_pos l). pose proof (size_pos k).
    rewrite Nat.div_mul_cancel_r, Nat.mul_mod_distr_r by assumption.
    destruct (length buf mod channel_count l) as [|r]; [reflexivity|]. cbn [Nat.mul].
    destruct (chan_size k); [easy|reflexivity]. }
  destruct k; try apply W. unfold with_buffer, with_i8_buffer, frame_size. change (nchan l) with (channel_count l). cbn [chan_size].
  now rewrite Nat.mul_1_r.
Qed.
Lemma into_raw_eq l k (a : audio l k) : into_raw a = as_raw_slice a.
Proof.
  unfold into_raw, as_raw_slice. apply firstn_all2. rewrite raw_length. unfold raw_capacity, frame_size. change (nchan l) with (channel_count l).
  destruct k; cbn [chan_size];
    [lia | rewrite Nat.mul_assoc, Nat.div_mul by easy; lia..].
Qed.
Lemma with_buffer_spec l k rate (buf : list (chan k)) :
  (length buf mod channel_count l <> 0 -> with_buffer l k rate buf = Panic AssertFailed) /\
  (length buf mod channel_count l = 0 -> exists a, with_buffer l k rate buf = Ok a /\
     audio_sample_rate a = rate /\ audio_len a * channel_count l = length buf /\
     (forall i f c, audio_get a i = Some f -> c < channel_count l ->
        nth_error (channels f) c = nth_error buf (i * channel_count l + c)) /\
     as_raw_slice a = buf /\ into_raw a = buf).
Proof.
  rewrite with_buffer_eq. split; intros H.
  - destruct (Nat.eqb_spec 0 (length buf mod channel_count l)); [congruence|reflexivity].
  - rewrite H. cbn [Nat.eqb]. destruct (reinterpret_ok l k (length buf / channel_count l) buf) as (fs & E & L & R).
    { rewrite (Nat.div_mod (length buf) (channel_count l)) at 1 by apply count_pos. lia. }
    rewrite E. cbn [bind]. exists (mkAudio rate fs). split; [reflexivity|]. split; [reflexivity|].
    rewrite into_raw_eq. unfold as_raw_slice, audio_len, audio_get. cbn [frames].
    split; [rewrite <- raw_length, R; reflexivity|]. split; [|now split].
    intros i f c G Hc. rewrite <- R. symmetry. now apply raw_nth.
Qed.
Lemma raw_slice_spec l k (a : audio l k) :
  length (as_raw_slice a) = audio_len a * channel_count l /\
  (forall i f c, audio_get a i = Some f -> c < channel_count l ->
     nth_error (as_raw_slice a) (i * channel_count l + c) = nth_error (channels f) c) /\
  with_buffer l k (audio_sample_rate a) (as_raw_slice a) = Ok a.
Proof.
  split; [apply raw_length|]. split; [intros i f c; apply raw_nth|].
  rewrite with_buffer_eq. unfold as_raw_slice. rewrite raw_length, Nat.mod_mul, Nat.div_mul by apply count_pos. cbn [Nat.eqb].
  destruct (reinterpret_ok l k (length (frames a)) (raw_samples (frames a)) (raw_length _ _ _)) as (fs & E & L & R).
  rewrite E. cbn [bind]. destruct a as [r gs]. cbn [frames audio_sample_rate s_rate] in *. do 2 f_equal. clear E.
  apply list_nth_ext. intros i. destruct (nth_error gs i) as [g|] eqn:Eg.
  - destruct (nth_error fs i) as [f|] eqn:Ef.
    + f_equal. apply frame_ext, list_nth_ext. intros c. destruct (Nat.lt_ge_cases c (channel_count l)) as [Hc|Hc].
      * rewrite <- (raw_nth _ _ _ _ _ _ Ef Hc), <- (raw_nth _ _ _ _ _ _ Eg Hc). now rewrite R.
      * rewrite !(proj2 (nth_error_None _ _)); [reflexivity|rewrite channels_count; exact Hc..].
    + apply nth_error_None in Ef. assert (i < length gs) by (apply nth_error_Some; congruence). lia.
  - apply nth_error_None in Eg. apply nth_error_None. lia.
Qed.
Lemma write_raw_spec l k (a : audio l k) raw : length raw = length (as_raw_slice a) ->
  exists a', write_raw_slice a raw = Ok a' /\ audio_sample_rate a' = audio_sample_rate a /\ audio_len a' = audio_len a /\
    as_raw_slice a' = raw /\
    forall i f c, audio_get a' i = Some f -> c < channel_count l ->
      nth_error (channels f) c = nth_error raw (i * channel_count l + c).
Proof.
  unfold as_raw_slice. rewrite raw_length. intros H. unfold write_raw_slice.
  destruct (reinterpret_ok l k (length (frames a)) raw H) as (fs & E & L & R). rewrite E. cbn [bind].
  exists (mkAudio (s_rate a) fs). split; [reflexivity|]. split; [reflexivity|]. split; [exact L|]. split; [exact R|].
  intros i f c G Hc. rewrite <- R. symmetry. now apply raw_nth.
Qed.

(** ** Ownership *)
Lemma set_block_spec k (h : heap k) i b x : nth_error h i = Some x ->
  length (set_block h i b) = length h /\ nth_error (set_block h i b) i = Some b /\
  forall j, j <> i -> nth_error (set_block h i b) j = nth_error h j.
Proof.
  revert i. induction h as [|y h IH]; intros [|i] H; try discriminate; cbn in *.
  - split; [reflexivity|]. split; [reflexivity|]. intros [|j] J; [easy|reflexivity].
  - destruct (IH i H) as (A & B & C). split; [now rewrite A|]. split; [exact B|]. intros [|j] J; [reflexivity|]. apply C. lia.
Qed.
Lemma dealloc_block k (h : heap k) i (data : list (chan k)) : data <> [] ->
  nth_error h i = Some (mkBlock (length data * chan_size k) (chan_size k) true data) ->
  exists h', dealloc h (Some i) (length data * chan_size k) (chan_size k) = HOk tt h' /\ freed h (Some i) h'.
Proof.
  intros D H. unfold dealloc. assert (length data <> 0) by now destruct data. pose proof (size_pos k).
  destruct (Nat.eqb_spec (length data * chan_size k) 0) as [Z|_]; [nia|]. rewrite H. cbn [b_live b_bytes b_align negb].
  rewrite !Nat.eqb_refl. cbn [andb]. eexists. split; [reflexivity|].
  destruct (set_block_spec k h i (mkBlock (length data * chan_size k) (chan_size k) false data) _ H) as (A & B & C).
  split; [exact A|]. split.
  - intros j b Q Hj. injection Q as <-. rewrite H in Hj. injection Hj as <-. exact B.
  - intros j Q. apply C. congruence.
Qed.
Lemma freed_none k (h : heap k) : freed h None h.
Proof. split; [reflexivity|]. split; [discriminate|reflexivity]. Qed.
Lemma drop_raw_ok k (h : heap k) b data : owns_raw h b data ->
  exists h', drop_raw_box k h b = HOk tt h' /\ freed h (rb_ptr b) h'.
Proof.
  destruct b as [p n]. unfold owns_raw, drop_raw_box. cbn [rb_ptr rb_len]. intros [-> H]. destruct data as [|d data], p as [i|]; try contradiction.
  - exists h. split; [reflexivity|apply freed_none].
  - now apply dealloc_block.
Qed.
Lemma drop_frames_ok l k (h : heap k) v data : owns_frames l h v data ->
  exists h', drop_frame_vec l k h v = HOk tt h' /\ freed h (fv_ptr v) h'.
Proof.
  destruct v as [p n]. unfold owns_frames, drop_frame_vec, frame_size. cbn [fv_ptr fv_len]. change (nchan l) with (channel_count l).
  intros [E H]. rewrite Nat.mul_assoc, E. destruct data as [|d data], p as [i|]; try contradiction.
  - exists h. split; [reflexivity|apply freed_none].
  - now apply dealloc_block.
Qed.
Lemma heap_with_buffer_spec l k (h : heap k) b data : owns_raw h b data ->
  (length data mod channel_count l = 0 ->
     exists v, heap_with_buffer l k h b = HOk v h /\ fv_ptr v = rb_ptr b /\ owns_frames l h v data) /\
  (length data mod channel_count l <> 0 ->
     exists h', heap_with_buffer l k h b = HPanic AssertFailed h' /\ freed h (rb_ptr b) h').
Proof.
  intros O. pose proof O as [L H]. unfold heap_with_buffer, frame_size. change (nchan l) with (channel_count l). rewrite L.
  pose proof (count_pos l). pose proof (size_pos k).
  rewrite Nat.div_mul_cancel_r, Nat.mul_mod_distr_r by assumption. split; intros M.
  - rewrite M. cbn [Nat.mul Nat.eqb]. eexists. split; [reflexivity|]. split; [reflexivity|]. split; [|exact H].
    cbn [fv_len]. rewrite (Nat.div_mod (length data) (channel_count l)) at 2 by assumption. lia.
  - destruct (Nat.eqb_spec 0 (length data mod channel_count l * chan_size k)) as [Z|_]; [nia|].
    destruct (drop_raw_ok k h b data O) as (h' & E & F). rewrite E. eauto.
Qed.
Lemma read_frames_ok l k (h : heap k) v data : owns_frames l h v data -> read_frame_vec l h v = HOk data h.
Proof.
  destruct v as [p n]. unfold owns_frames, read_frame_vec. cbn [fv_ptr fv_len]. change (nchan l) with (channel_count l). intros [-> H]. unfold hread.
  destruct data as [|d data], p as [i|]; try contradiction; [reflexivity|]. cbn [length Nat.eqb]. rewrite H. cbn [b_live b_data].
  now rewrite firstn_all2 by reflexivity.
Qed.
Lemma heap_into_raw_spec l k (h : heap k) v data : owns_frames l h v data ->
  (data = [] -> exists b, heap_into_raw l k h v = HOk b h /\ owns_raw h b []) /\
  (data <> [] -> exists b h', heap_into_raw l k h v = HOk b h' /\ rb_len b = length data /\ rb_ptr b = fv_ptr v /\
     freed h (fv_ptr v) h' /\ read_raw_box h' b = HUb UseAfterFree /\ drop_raw_box k h' b = HUb DoubleFree).
Proof.
  intros O. assert (C : raw_capacity l k (fv_len v) = length data).
  { destruct O as [<- _]. unfold raw_capacity, frame_size. change (nchan l) with (channel_count l).
    destruct k; cbn [chan_size]; [now rewrite Nat.mul_1_r | rewrite Nat.mul_assoc, Nat.div_mul by easy; reflexivity..]. }
  unfold heap_into_raw. destruct (drop_frames_ok l k h v data O) as (h' & E & F). rewrite E, C. split; intros D.
  - subst data. destruct v as [[i|] n]; destruct O as [L H]; cbn [fv_ptr fv_len] in *; [contradiction|].
    exists (mkRawBox None 0). assert (h' = h) as ->.
    { unfold drop_frame_vec, frame_size in E. cbn [fv_ptr fv_len] in E. change (nchan l) with (channel_count l) in E. rewrite Nat.mul_assoc, L in E. cbn in E. now injection E. }
    split; [reflexivity|]. split; [reflexivity|exact I].
  - eexists _, h'. split; [reflexivity|]. cbn [rb_len rb_ptr]. split; [reflexivity|]. split; [reflexivity|]. split; [exact F|].
    destruct v as [p n]. destruct O as [L H]. cbn [fv_ptr fv_len] in *. destruct data as [|d data]; [easy|]. destruct p as [i|]; [|contradiction].
    destruct F as (_ & F & _). specialize (F i _ eq_refl H). pose proof (size_pos k).
    unfold read_raw_box, drop_raw_box, hread, dealloc. cbn [rb_ptr rb_len].
    destruct (Nat.eqb_spec (length (d :: data)) 0) as [Z|_]; [discriminate|].
    destruct (Nat.eqb_spec (length (d :: data) * chan_size k) 0) as [Z|_]; [cbn [length] in Z; nia|]. rewrite F. cbn [b_live negb]. now split.
Qed.
Lemma into_raw_not_owned l k (h : heap k) v data : owns_frames l h v data -> data <> [] ->
  ~ exists b h', heap_into_raw l k h v = HOk b h' /\ owns_raw h' b data.
Proof.
  intros O D (b & h' & E & R). destruct (proj2 (heap_into_raw_spec l k h v data O) D) as (b2 & h2 & E2 & _ & _ & _ & U & _).
  rewrite E in E2. injection E2 as <- <-. destruct b as [p n]. destruct R as [L R]. unfold read_raw_box, hread in U. cbn [rb_ptr rb_len] in *.
  subst n. destruct data as [|d data]; [easy|]. destruct p as [i|]; [|contradiction]. cbn [length Nat.eqb] in U. rewrite R in U. discriminate.
Qed.
