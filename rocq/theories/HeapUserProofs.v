(** * HeapUserProofs.v -- raw buffers with frame types other than the crate's own (C84) *)
From Coq Require Import ZArith NArith List Lia Bool Arith.
From Verif Require Import Rust Float Chan Frame Audio Heap HeapUser SpecAudio SpecHeapUser RawProofs.
Import ListNotations.
Open Scope nat_scope.

Lemma u_mod k n len : n <> 0 -> (len * chan_size k) mod (n * chan_size k) = (len mod n) * chan_size k.
Proof. intros H. apply Nat.mul_mod_distr_r; [exact H|apply size_pos]. Qed.
Lemma u_div k n len : n <> 0 -> (len * chan_size k) / (n * chan_size k) = len / n.
Proof. intros H. apply Nat.div_mul_cancel_r; [exact H|apply size_pos]. Qed.

(** What [u_with_buffer] does, for frames of [n] samples. *)
Lemma u_with_zero k (uf : user_frame k) h b data : owns_raw h b data -> samples_per_frame uf 0 ->
  exists h', u_with_buffer uf h b = HPanic DivOverflow h' /\ freed h (rb_ptr b) h'.
Proof.
  intros O Z. unfold u_with_buffer. rewrite Z. cbn [Nat.mul Nat.eqb].
  destruct (drop_raw_ok k h b data O) as (h' & -> & F). eauto.
Qed.
Lemma u_with_odd k (uf : user_frame k) h b data n : owns_raw h b data -> samples_per_frame uf n -> n <> 0 ->
  length data mod n <> 0 ->
  exists h', u_with_buffer uf h b = HPanic AssertFailed h' /\ freed h (rb_ptr b) h'.
Proof.
  intros O Z N M. unfold u_with_buffer. cbv zeta. pose proof (size_pos k). unfold samples_per_frame in Z. rewrite !Z, (proj1 O).
  destruct (Nat.eqb_spec (n * chan_size k) 0) as [Q|_]; [nia|]. rewrite u_mod by exact N.
  destruct (Nat.eqb_spec 0 (length data mod n * chan_size k)) as [Q|_]; [nia|].
  destruct (drop_raw_ok k h b data O) as (h' & -> & F). eauto.
Qed.
Lemma u_with_ok k (uf : user_frame k) h b data n : owns_raw h b data -> samples_per_frame uf n -> n <> 0 ->
  length data mod n = 0 ->
  u_with_buffer uf h b = HOk (mkFrameVec (rb_ptr b) (length data / n)) h /\ length data / n * n = length data.
Proof.
  intros O Z N M. unfold u_with_buffer. cbv zeta. pose proof (size_pos k). unfold samples_per_frame in Z. rewrite !Z, (proj1 O).
  destruct (Nat.eqb_spec (n * chan_size k) 0) as [Q|_]; [nia|]. rewrite u_mod, u_div, M by exact N. cbn [Nat.mul Nat.eqb].
  split; [reflexivity|]. pose proof (Nat.div_mod (length data) n N). lia.
Qed.
Lemma u_get_eq k (uf : user_frame k) h b data n i : owns_raw h b data -> samples_per_frame uf n -> n <> 0 ->
  length data mod n = 0 ->
  u_get uf h (mkFrameVec (rb_ptr b) (length data / n)) i =
  let f := firstn n (skipn (i * n) data) in if uf_value uf f then HOk f h else HUb InvalidValue.
Proof.
  intros O Z N M. destruct (u_with_ok k uf h b data n O Z N M) as [_ L].
  unfold u_get. unfold samples_per_frame in Z. rewrite !Z, !Nat.div_mul by apply size_pos. cbv zeta. cbn [fv_ptr fv_len]. rewrite L. unfold hread.
  destruct b as [p m]. destruct O as [_ H]. cbn [rb_ptr] in *. destruct data as [|d data], p as [j|]; try contradiction; [reflexivity|].
  cbn [length Nat.eqb]. rewrite H. cbn [b_live b_data]. change (S (length data)) with (length (d :: data)). rewrite firstn_all. reflexivity.
Qed.
Lemma slice_length {A} (data : list A) n i : (i + 1) * n <= length data -> length (firstn n (skipn (i * n) data)) = n.
Proof. intros H. rewrite firstn_length, skipn_length. lia. Qed.

Lemma u_drop_eq k (uf : user_frame k) h b data n : owns_raw h b data -> samples_per_frame uf n -> n <> 0 ->
  length data mod n = 0 -> uf_align uf = chan_size k ->
  exists h', u_drop uf h (mkFrameVec (rb_ptr b) (length data / n)) = HOk tt h' /\ freed h (rb_ptr b) h'.
Proof.
  intros O Z N M A. destruct (u_with_ok k uf h b data n O Z N M) as [_ L].
  unfold u_drop. cbn [fv_ptr fv_len]. unfold samples_per_frame in Z. rewrite !Z, A, Nat.mul_assoc, L.
  destruct (drop_raw_ok k h b data O) as (h' & E & F). unfold drop_raw_box in E. rewrite (proj1 O) in E. eauto.
Qed.
Lemma u_drop_bad k (uf : user_frame k) h b data n : owns_raw h b data -> samples_per_frame uf n -> n <> 0 ->
  length data mod n = 0 -> data <> [] -> uf_align uf <> chan_size k ->
  u_drop uf h (mkFrameVec (rb_ptr b) (length data / n)) = HUb LayoutMismatch.
Proof.
  intros O Z N M D A. destruct (u_with_ok k uf h b data n O Z N M) as [_ L].
  unfold u_drop. cbn [fv_ptr fv_len]. unfold samples_per_frame in Z. rewrite !Z, Nat.mul_assoc, L. destruct b as [p m]. destruct O as [_ H]. cbn [rb_ptr] in *.
  destruct data as [|d data]; [easy|]. destruct p as [j|]; [|contradiction]. unfold dealloc. pose proof (size_pos k).
  destruct (Nat.eqb_spec (length (d :: data) * chan_size k) 0) as [Q|_]; [cbn [length] in Q; nia|]. rewrite H.
  cbn [b_live b_bytes b_align negb]. rewrite Nat.eqb_refl. cbn [andb].
  destruct (Nat.eqb_spec (chan_size k) (uf_align uf)) as [Q|_]; [congruence|reflexivity].
Qed.

(** Frames laid out like an array of channels. *)
Lemma array_like_ok k (uf : user_frame k) n h b data : array_like uf n -> n <> 0 -> owns_raw h b data ->
  (length data mod n <> 0 -> exists h', u_with_buffer uf h b = HPanic AssertFailed h' /\ freed h (rb_ptr b) h') /\
  (length data mod n = 0 -> exists v, u_with_buffer uf h b = HOk v h /\ fv_len v * n = length data /\
     (forall i, i < fv_len v -> u_get uf h v i = HOk (firstn n (skipn (i * n) data)) h) /\
     exists h', u_drop uf h v = HOk tt h' /\ freed h (rb_ptr b) h').
Proof.
  intros (Z & A & V) N O. split; intros M.
  - now apply (u_with_odd k uf h b data n).
  - destruct (u_with_ok k uf h b data n O Z N M) as [E L]. eexists. split; [exact E|]. cbn [fv_len]. split; [exact L|]. split.
    + intros i Hi. rewrite (u_get_eq k uf h b data n i O Z N M). cbv zeta. rewrite V; [reflexivity|]. apply slice_length. nia.
    + now apply (u_drop_eq k uf h b data n).
Qed.

(** The crate's own frames are such a type. *)
Definition own_frame (l : layout) (k : ck) : user_frame k := mkUserFrame (frame_size l k) (chan_size k) (fun _ => true).
Lemma own_frame_same l k (h : heap k) b v :
  array_like (own_frame l k) (channel_count l) /\
  u_with_buffer (own_frame l k) h b = heap_with_buffer l k h b /\ u_drop (own_frame l k) h v = drop_frame_vec l k h v.
Proof.
  split; [|split]; [|destruct l, k; reflexivity | reflexivity].
  split; [reflexivity|]. split; reflexivity.
Qed.

(** A box of given samples, freshly allocated. *)
Definition fresh {k} (h : heap k) (data : list (chan k)) : raw_box := mkRawBox (fst (alloc h (chan_size k) data)) (length data).
Lemma fresh_owned k (h : heap k) data : owns_raw (snd (alloc h (chan_size k) data)) (fresh h data) data.
Proof.
  split; [reflexivity|]. destruct data as [|d data]; [exact I|]. cbn.
  rewrite nth_error_app2 by reflexivity. now rewrite Nat.sub_diag.
Qed.

Lemma bad_value k (uf : user_frame k) n xs (h : heap k) : samples_per_frame uf n -> n <> 0 -> length xs = n -> uf_value uf xs = false ->
  exists h1 b v, owns_raw h1 b xs /\ u_with_buffer uf h1 b = HOk v h1 /\ fv_len v = 1 /\ u_get uf h1 v 0 = HUb InvalidValue.
Proof.
  intros Z N L V. pose proof (fresh_owned k h xs) as O. assert (M : length xs mod n = 0) by (rewrite L; now apply Nat.mod_same).
  destruct (u_with_ok k uf _ _ xs n O Z N M) as [E _]. do 3 eexists. split; [exact O|]. split; [exact E|]. cbn [fv_len].
  split; [rewrite L; now apply Nat.div_same|].
  rewrite (u_get_eq k uf _ _ xs n 0 O Z N M). cbn [Nat.mul skipn]. cbv zeta. rewrite firstn_all2 by lia. now rewrite V.
Qed.
Lemma bad_align k (uf : user_frame k) n h b data : samples_per_frame uf n -> n <> 0 -> owns_raw h b data ->
  data <> [] -> length data mod n = 0 -> uf_align uf <> chan_size k ->
  exists v, u_with_buffer uf h b = HOk v h /\ u_drop uf h v = HUb LayoutMismatch.
Proof.
  intros Z N O D M A. destruct (u_with_ok k uf h b data n O Z N M) as [E _]. eexists. split; [exact E|].
  now apply (u_drop_bad k uf h b data n).
Qed.

(** Exactly which frame types are safe. *)
Lemma memory_safe_iff k (uf : user_frame k) n : samples_per_frame uf n -> (memory_safe uf <-> n = 0 \/ array_like uf n).
Proof.
  intros Z. split.
  - intros S. destruct (Nat.eq_dec n 0) as [N|N]; [now left|]. right. split; [exact Z|].
    assert (M : forall xs : list (chan k), length xs = n -> length xs mod n = 0) by (intros xs ->; now apply Nat.mod_same).
    split.
    + destruct (Nat.eq_dec (uf_align uf) (chan_size k)) as [A|A]; [exact A|exfalso].
      set (xs := repeat (MID k) n). assert (L : length xs = n) by apply repeat_length.
      pose proof (fresh_owned k [] xs) as O.
      destruct (bad_align k uf n _ _ xs Z N O) as (v & E & D); [destruct xs; [cbn in L; congruence|discriminate]|now apply M|exact A|].
      destruct (S _ _ _ O) as [_ U]. destruct (U _ _ E) as [_ Q]. rewrite D in Q. exact Q.
    + intros xs L. destruct (uf_value uf xs) eqn:V; [reflexivity|exfalso].
      destruct (bad_value k uf n xs [] Z N L V) as (h1 & b & v & O & E & F & G).
      destruct (S _ _ _ O) as [_ U]. destruct (U _ _ E) as [Q _]. specialize (Q 0). rewrite G in Q. apply Q. lia.
  - intros [N|A] h b data O.
    + subst n. destruct (u_with_zero k uf h b data O Z) as (h' & E & _). rewrite E. split; [exact I|discriminate].
    + destruct (Nat.eq_dec n 0) as [N|N].
      { subst n. destruct (u_with_zero k uf h b data O Z) as (h' & E & _). rewrite E. split; [exact I|discriminate]. }
      destruct (array_like_ok k uf n h b data A N O) as [P Q]. destruct (Nat.eq_dec (length data mod n) 0) as [M|M].
      * destruct (Q M) as (v & E & L & G & h' & D & _). rewrite E. split; [exact I|]. intros v1 h1 W. injection W as <- <-. split.
        { intros i Hi. now rewrite (G i Hi). }
        { now rewrite D. }
      * destruct (P M) as (h' & E & _). rewrite E. split; [exact I|discriminate].
Qed.

(** Writing through the slice reaches any contents. *)
Lemma u_set_owned k (uf : user_frame k) (h : heap k) b (data : list (chan k)) n j (c : chan k) : samples_per_frame uf n -> n <> 0 -> owns_raw h b data -> length data mod n = 0 ->
  j < length data ->
  owns_raw (u_set h (mkFrameVec (rb_ptr b) (length data / n)) j c) b (firstn j data ++ c :: skipn (S j) data).
Proof.
  intros Z N [L H] M J. assert (E : length (firstn j data ++ c :: skipn (S j) data) = length data).
  { rewrite app_length. cbn [length]. rewrite firstn_length, skipn_length. lia. }
  split; [now rewrite E|]. unfold u_set. cbn [fv_ptr]. destruct b as [p m]. cbn [rb_ptr] in *.
  destruct data as [|d data]; [cbn in J; lia|]. destruct p as [i|]; [|contradiction]. rewrite H. cbn [b_bytes b_align b_live b_data].
  remember (firstn j (d :: data) ++ c :: skipn (S j) (d :: data)) as new eqn:W.
  destruct (set_block_spec k h i (mkBlock (length (d :: data) * chan_size k) (chan_size k) true new) _ H) as (_ & B & _).
  destruct new as [|x xs]; [discriminate|]. rewrite B, E. reflexivity.
Qed.

Lemma wide_pair_bad (uf : user_frame K8) : uf_bytes uf = 2 -> uf_align uf = 2 -> ~ memory_safe uf.
Proof.
  intros B A S. assert (Z : samples_per_frame uf 2) by exact B.
  apply (memory_safe_iff K8 uf 2 Z) in S as [S|(_ & S & _)]; [discriminate|]. rewrite A in S. discriminate.
Qed.
Lemma flagged_bad (uf : user_frame K8) : uf_bytes uf = 2 -> forall x y : chan K8, uf_value uf [x; y] = false -> ~ memory_safe uf.
Proof.
  intros B x y V S. assert (Z : samples_per_frame uf 2) by exact B.
  apply (memory_safe_iff K8 uf 2 Z) in S as [S|(_ & _ & S)]; [discriminate|]. rewrite (S [x; y] eq_refl) in V. discriminate.
Qed.
