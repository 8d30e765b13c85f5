(** * RingProofs.v -- memory over any history of calls (C90) *)
From Coq Require Import ZArith List Bool Arith Lia.
From Verif Require Import Rust Float Chan Frame Audio Heap Ring SpecRing.
Import ListNotations.
Open Scope nat_scope.

(** ** Lists *)
Lemma set_nth_length {A} (xs : list A) : forall i x, length (set_nth xs i x) = length xs.
Proof. induction xs as [|y xs IH]; intros [|i] x; cbn; congruence. Qed.
Lemma set_nth_same {A} (xs : list A) : forall i x, i < length xs -> nth_error (set_nth xs i x) i = Some x.
Proof. induction xs as [|y xs IH]; intros [|i] x H; cbn in *; try lia; [reflexivity|apply IH; lia]. Qed.
Lemma set_nth_other {A} (xs : list A) : forall i j x, i <> j -> nth_error (set_nth xs i x) j = nth_error xs j.
Proof. induction xs as [|y xs IH]; intros [|i] [|j] x H; cbn; try reflexivity; try congruence. apply IH. congruence. Qed.
Lemma put_at_set {A} (xs : list A) : forall i x, put_at i x xs = set_nth xs i x.
Proof. induction xs as [|y xs IH]; intros [|i] x; cbn; try reflexivity. now rewrite IH. Qed.
Lemma put_at_split {A} (xs : list A) : forall i x, i < length xs -> put_at i x xs = firstn i xs ++ x :: skipn (S i) xs.
Proof. induction xs as [|y xs IH]; intros [|i] x H; cbn [put_at firstn skipn app length] in *; try lia; [reflexivity|]. rewrite IH by lia. reflexivity. Qed.
Lemma set_nth_twice {A} (xs : list A) : forall i x y, set_nth (set_nth xs i x) i y = set_nth xs i y.
Proof. induction xs as [|z xs IH]; intros [|i] x y; cbn; try reflexivity. now rewrite IH. Qed.
Lemma set_nth_comm {A} (xs : list A) : forall i j x y, i <> j -> set_nth (set_nth xs i x) j y = set_nth (set_nth xs j y) i x.
Proof. induction xs as [|z xs IH]; intros [|i] [|j] x y H; cbn; try reflexivity; try congruence. rewrite IH by congruence. reflexivity. Qed.
Lemma set_nth_app {A} (xs ys : list A) : forall i x, i < length xs -> set_nth (xs ++ ys) i x = set_nth xs i x ++ ys.
Proof. induction xs as [|z xs IH]; intros [|i] x H; cbn in *; try lia; [reflexivity|]. now rewrite IH by lia. Qed.
Lemma set_nth_end {A} (xs : list A) x y : set_nth (xs ++ [x]) (length xs) y = xs ++ [y].
Proof. induction xs as [|z xs IH]; cbn; [reflexivity|]. now rewrite IH. Qed.
Lemma nth_lt {A} (xs : list A) i x : nth_error xs i = Some x -> i < length xs.
Proof. intros H. apply nth_error_Some. congruence. Qed.

Lemma skip_skip {A} n : forall m (xs : list A), skipn n (skipn m xs) = skipn (m + n) xs.
Proof. induction m as [|m IH]; intros [|x xs]; cbn [skipn Nat.add]; try reflexivity; [now rewrite skipn_nil|apply IH]. Qed.

(** ** A value in memory *)
Definition uses (o : own) (b : nat) : Prop := o_ptr o = Some b /\ o_cap o * o_width o <> 0.
(** The first [length data] samples of [o] are [data]. *)
Definition pre {k} (h : mem k) (o : own) (data : list (chan k)) : Prop :=
  0 < o_width o /\ o_len o <= o_cap o /\ o_head o <= o_cap o /\ length data <= o_len o * o_width o /\
  (o_cap o = 0 \/ exists b a, o_ptr o = Some b /\ nth_error h b = Some a /\ a_live a = true /\ a_align a = chan_size k /\
     length (a_cells a) = o_cap o * o_width o /\ forall j c, nth_error data j = Some c -> nth_error (a_cells a) (spot o j) = Some (Some c)).
Definition owns {k} (h : mem k) (o : own) (data : list (chan k)) : Prop := pre h o data /\ length data = o_len o * o_width o.
(** The memory changes only where [U] says, and allocations are freed unless in [U']. *)
Definition moved {k} (h : mem k) (U : nat -> Prop) (h' : mem k) (U' : nat -> Prop) : Prop :=
  length h <= length h' /\ (forall b, b < length h -> ~ U b -> nth_error h' b = nth_error h b) /\
  (forall b, live_at h' b -> U' b \/ (live_at h b /\ ~ U b)) /\ (forall b, U' b -> U b \/ length h <= b).
Lemma moved_trans {k} (h h1 h2 : mem k) U U1 U2 : moved h U h1 U1 -> moved h1 U1 h2 U2 -> moved h U h2 U2.
Proof.
  intros (L1 & N1 & V1 & W1) (L2 & N2 & V2 & W2). split; [lia|]. split; [|split].
  - intros b Hb Hu. rewrite N2; [apply N1; assumption|lia|]. intros X. destruct (W1 b X); [contradiction|lia].
  - intros b Hb. destruct (V2 b Hb) as [X|[X Y]]; [now left|]. destruct (V1 b X) as [Z|Z]; [contradiction|now right].
  - intros b Hb. destruct (W2 b Hb) as [X|X]; [apply W1; exact X|right; lia].
Qed.
Lemma moved_ext {k} (h h' : mem k) (U V U' V' : nat -> Prop) : (forall b, U b <-> V b) -> (forall b, U' b <-> V' b) -> moved h U h' U' -> moved h V h' V'.
Proof.
  intros E E' (A & B & C & D). split; [exact A|]. split; [|split].
  - intros b Hb Hv. apply B; [exact Hb|]. rewrite E. exact Hv.
  - intros b Hb. rewrite <- E, <- E'. apply C. exact Hb.
  - intros b. rewrite <- E, <- E'. apply D.
Qed.
(** Decidability of using an area. *)
Lemma uses_dec o b : {uses o b} + {~ uses o b}.
Proof.
  unfold uses. destruct (Nat.eq_dec (o_cap o * o_width o) 0) as [E|E]; [right; tauto|].
  destruct (o_ptr o) as [x|]; [|right; intros [X _]; discriminate]. destruct (Nat.eq_dec x b) as [->|N]; [left; auto|right; intros [X _]; congruence].
Qed.
Lemma moved_id {k} (h : mem k) o : moved h (uses o) h (uses o).
Proof.
  split; [lia|]. split; [reflexivity|]. split; [|tauto]. intros b Hb. destruct (uses_dec o b); tauto.
Qed.
(** Overwriting the area a value uses. *)
Lemma moved_set {k} (h : mem k) o b a : uses o b -> moved h (uses o) (set_nth h b a) (uses o).
Proof.
  intros Hu. split; [rewrite set_nth_length; lia|]. split; [|split; [|tauto]].
  - intros c Hc Nu. apply set_nth_other. intros ->. contradiction.
  - intros c Hc. destruct (uses_dec o c) as [U|U]; [now left|right]. split; [|exact U].
    unfold live_at in *. rewrite set_nth_other in Hc; [exact Hc|]. intros ->. contradiction.
Qed.

Lemma spot_lt o j : 0 < o_cap o * o_width o -> spot o j < o_cap o * o_width o.
Proof. intros H. apply Nat.mod_upper_bound. lia. Qed.
Lemma mod_shift n s j : s <= n -> j < n -> ((s + j) mod n + (n - s)) mod n = j.
Proof.
  intros Hs Hj. destruct (Nat.lt_ge_cases (s + j) n) as [L|L].
  - rewrite (Nat.mod_small (s + j)) by exact L. replace (s + j + (n - s)) with (j + 1 * n) by lia. rewrite Nat.mod_add by lia. apply Nat.mod_small. exact Hj.
  - replace (s + j) with ((s + j - n) + 1 * n) by lia. rewrite Nat.mod_add by lia. rewrite (Nat.mod_small (s + j - n)) by lia.
    replace (s + j - n + (n - s)) with j by lia. apply Nat.mod_small. exact Hj.
Qed.
Lemma spot_inj o i j : o_head o <= o_cap o -> i < o_cap o * o_width o -> j < o_cap o * o_width o -> spot o i = spot o j -> i = j.
Proof.
  unfold spot. intros Hh Hi Hj E. set (n := o_cap o * o_width o) in *. assert (Hs : o_head o * o_width o <= n) by (unfold n; nia).
  rewrite <- (mod_shift n (o_head o * o_width o) i), <- (mod_shift n (o_head o * o_width o) j) by assumption. now rewrite E.
Qed.
Lemma load_ok {k} (h : mem k) o data j c : pre h o data -> nth_error data j = Some c -> load h o j = MOk c.
Proof.
  intros (W & L & H & D & A) Hj. pose proof (nth_lt _ _ _ Hj) as Lj. destruct A as [A|(b & a & P & N & V & Al & Lc & C)]; [nia|].
  unfold load, mload, area_at. rewrite P, N, V. cbn [mbind]. now rewrite (C j c Hj).
Qed.
Lemma load_from_ok {k} (h : mem k) o data : pre h o data -> forall n j, j + n = length data -> load_from h o j n = MOk (skipn j data).
Proof.
  intros P. induction n as [|n IH]; intros j E; cbn [load_from].
  - rewrite skipn_all2 by lia. reflexivity.
  - destruct (nth_error data j) as [c|] eqn:N; [|apply nth_error_None in N; lia].
    rewrite (load_ok h o data j c P N). cbn [mbind]. rewrite IH by lia. cbn [mbind]. f_equal.
    revert N. clear. revert data. induction j as [|j IH]; intros [|d data] N; cbn in *; try discriminate; [congruence|]. apply IH. exact N.
Qed.
Lemma load_all_ok {k} (h : mem k) o data : owns h o data -> load_all h o = MOk data.
Proof. intros [P L]. unfold load_all. rewrite (load_from_ok h o data P) by lia. reflexivity. Qed.
Lemma laid_out_length {k} cap w head (data : list (chan k)) : length (laid_out cap w head data) = cap * w.
Proof. unfold laid_out. rewrite map_length, seq_length. reflexivity. Qed.
Lemma laid_out_nth {k} cap w head (data : list (chan k)) j c : head <= cap -> length data <= cap * w -> nth_error data j = Some c ->
  nth_error (laid_out cap w head data) ((head * w + j) mod (cap * w)) = Some (Some c).
Proof.
  intros Hh Hl Hj. pose proof (nth_lt _ _ _ Hj) as Lj. unfold laid_out.
  assert (Lt : (head * w + j) mod (cap * w) < cap * w) by (apply Nat.mod_upper_bound; lia).
  assert (Sq : nth_error (seq 0 (cap * w)) ((head * w + j) mod (cap * w)) = Some ((head * w + j) mod (cap * w))).
  { rewrite (nth_error_nth' _ 0) by (rewrite seq_length; exact Lt). rewrite seq_nth by exact Lt. reflexivity. }
  rewrite (map_nth_error _ _ _ Sq). f_equal. rewrite mod_shift by nia. exact Hj.
Qed.

(** ** Library conversions *)
Lemma rearrange_ok {k} (h : mem k) o data head : owns h o data -> head <= o_cap o ->
  exists o' h', rearrange h o head = MOk (o', h') /\ owns h' o' data /\ moved h (uses o) h' (uses o') /\
    o_width o' = o_width o /\ o_len o' = o_len o /\ o_cap o' = o_cap o /\ o_head o' <= head.
Proof.
  intros Ow Hh. unfold rearrange. destruct (Nat.eqb_spec (o_cap o * o_width o) 0) as [Z|Z].
  - exists o, h. split; [reflexivity|]. split; [exact Ow|]. split; [apply moved_id|]. repeat split.
    destruct Ow as [(W & L & Hd & _) _]. nia.
  - rewrite (load_all_ok h o data Ow). cbn [mbind]. destruct Ow as [(W & L & Hd & D & A) Ld]. destruct A as [A|(b & a & P & N & V & Al & Lc & C)]; [nia|].
    unfold area_at. rewrite P, N, V. cbn [mbind]. pose proof (nth_lt _ _ _ N) as Lb. eexists _, _. split; [reflexivity|]. split; [|split].
    + split; [|exact Ld]. split; [exact W|]. split; [exact L|]. split; [exact Hh|]. split; [exact D|]. right. exists b, (mkArea (laid_out (o_cap o) (o_width o) head data) (a_align a) true).
      split; [reflexivity|]. split; [apply set_nth_same; exact Lb|]. cbn [a_live a_align a_cells o_cap o_width].
      split; [reflexivity|]. split; [exact Al|]. split; [apply laid_out_length|]. intros j c Hj. exact (laid_out_nth _ _ _ _ j c Hh (Nat.le_trans _ _ _ D (Nat.mul_le_mono_r _ _ _ L)) Hj).
    + eapply moved_ext; [reflexivity| |apply (moved_set h o b); split; assumption]. intros x. unfold uses. cbn [o_ptr o_cap o_width]. rewrite P. tauto.
    + cbn. repeat split. lia.
Qed.
Lemma malloc_ok {k} (h : mem k) align (cells : list (option (chan k))) : exists p h', malloc h align cells = (p, h') /\
  (cells = [] -> p = None /\ h' = h) /\ (cells <> [] -> p = Some (length h) /\ h' = h ++ [mkArea cells align true]).
Proof. unfold malloc. destruct cells; eexists _, _; (split; [reflexivity|]); split; intros X; try congruence; split; reflexivity. Qed.
Lemma release_ok {k} (h : mem k) o data : owns h o data -> exists h', release k h o = MOk h' /\ moved h (uses o) h' (fun _ => False).
Proof.
  intros [(W & L & Hd & D & A) Ld]. unfold release, mfree. destruct (Nat.eqb_spec (o_cap o * o_width o) 0) as [Z|Z].
  - exists h. split; [reflexivity|]. split; [lia|]. split; [reflexivity|]. split; [|tauto]. intros b Hb. right. split; [exact Hb|]. intros [_ X]. contradiction.
  - destruct A as [A|(b & a & P & N & V & Al & Lc & C)]; [nia|]. unfold area_at. rewrite P, N, V. rewrite Lc, Al, !Nat.eqb_refl. cbn [andb].
    exists (set_nth h b (mkArea (a_cells a) (chan_size k) false)). split; [reflexivity|]. split; [rewrite set_nth_length; lia|]. split; [|split; [|tauto]].
    + intros c Hc Nu. apply set_nth_other. intros ->. apply Nu. split; assumption.
    + intros c Hc. right. unfold live_at in *. destruct (Nat.eq_dec b c) as [->|Ne].
      * rewrite set_nth_same in Hc by (apply (nth_lt _ _ _ N)). discriminate.
      * rewrite set_nth_other in Hc by exact Ne. split; [exact Hc|]. intros [X _]. congruence.
Qed.
(** Memory of others does not matter. *)
Lemma pre_frame {k} (h h' : mem k) o data : (forall b, uses o b -> nth_error h' b = nth_error h b) -> pre h o data -> pre h' o data.
Proof.
  intros E (W & L & Hd & D & A). split; [exact W|]. split; [exact L|]. split; [exact Hd|]. split; [exact D|].
  destruct A as [A|(b & a & P & N & V & R)]; [now left|]. destruct (Nat.eq_dec (o_cap o) 0) as [Z|Z]; [now left|right].
  exists b, a. split; [exact P|]. split; [|tauto]. rewrite E; [exact N|]. split; [exact P|]. nia.
Qed.
Lemma owns_frame {k} (h h' : mem k) o data : (forall b, uses o b -> nth_error h' b = nth_error h b) -> owns h o data -> owns h' o data.
Proof. intros E [P L]. split; [apply (pre_frame h); assumption|exact L]. Qed.
Lemma owns_live {k} (h : mem k) o data b : owns h o data -> uses o b -> live_at h b /\ b < length h.
Proof.
  intros [(W & L & Hd & D & A) Ld] [P Z]. destruct A as [A|(b' & a & P' & N & V & R)]; [nia|]. assert (b' = b) by congruence. subst b'.
  split; [unfold live_at; rewrite N; exact V|apply (nth_lt _ _ _ N)].
Qed.
Lemma relocate_ok {k} (h : mem k) o data cap : owns h o data -> o_len o <= cap ->
  exists o' h', relocate h o cap = MOk (o', h') /\ owns h' o' data /\ moved h (uses o) h' (uses o') /\
    o_width o' = o_width o /\ o_len o' = o_len o /\ o_cap o' = cap /\ o_head o' = 0.
Proof.
  intros Ow Hc. unfold relocate. rewrite (load_all_ok h o data Ow). cbn [mbind]. pose proof Ow as [(W & L & Hd & D & A) Ld].
  destruct (malloc_ok h (chan_size k) (laid_out cap (o_width o) 0 data)) as (p & h1 & E & E0 & E1). rewrite E.
  assert (X : forall b, uses o b -> nth_error h1 b = nth_error h b).
  { intros b Hb. destruct (owns_live h o data b Ow Hb) as [_ Lb].
    destruct (laid_out cap (o_width o) 0 data) as [|x xs] eqn:Ec; [destruct (E0 eq_refl) as [_ ->]; reflexivity|].
    destruct (E1 ltac:(discriminate)) as [_ ->]. apply nth_error_app1. exact Lb. }
  destruct (release_ok h1 o data (owns_frame h h1 o data X Ow)) as (h2 & R & M). rewrite R. cbn [mbind].
  eexists _, _. split; [reflexivity|]. cbn [o_width o_len o_cap o_head].
  destruct (Nat.eq_dec cap 0) as [Z|Z].
  - subst cap. destruct (E0 eq_refl) as [-> ->]. split; [|split; [|repeat split]].
    + split; [|exact Ld]. split; [exact W|]. cbn [o_len o_cap o_head]. split; [exact Hc|]. split; [lia|]. split; [cbn [o_width]; lia|now left].
    + eapply moved_ext; [reflexivity| |exact M]. intros b. unfold uses. cbn. split; [tauto|intros [Y _]; discriminate].
  - assert (Nz : cap * o_width o <> 0) by nia.
    assert (Nc : laid_out cap (o_width o) 0 data <> []) by (intros Y; apply (f_equal (@length _)) in Y; rewrite laid_out_length in Y; cbn in Y; lia).
    destruct (E1 Nc) as [-> ->]. set (a := mkArea (laid_out cap (o_width o) 0 data) (chan_size k) true) in *.
    destruct M as (L2 & N2 & V2 & _). rewrite app_length in L2. cbn [length] in L2.
    assert (Nu : ~ uses o (length h)) by (intros Y; destruct (owns_live h o data _ Ow Y); lia).
    assert (Na : nth_error h2 (length h) = Some a).
    { rewrite N2 by (try assumption; rewrite app_length; cbn; lia). rewrite nth_error_app2, Nat.sub_diag by lia. reflexivity. }
    split; [|split; [|repeat split]].
    + split; [|exact Ld]. split; [exact W|]. cbn [o_len o_cap o_head o_width]. split; [exact Hc|]. split; [lia|]. split; [lia|]. right.
      exists (length h), a. split; [reflexivity|]. split; [exact Na|]. split; [reflexivity|]. split; [reflexivity|]. split; [apply laid_out_length|].
      intros j c Hj. apply (laid_out_nth cap (o_width o) 0 data j c); [lia|nia|exact Hj].
    + split; [lia|]. split; [|split].
      * intros b Hb Hu. rewrite N2 by (try assumption; rewrite app_length; cbn; lia). apply nth_error_app1. exact Hb.
      * intros b Hb. destruct (V2 b Hb) as [[]|[Vb Ub]]. unfold live_at in Vb. destruct (Nat.lt_ge_cases b (length h)) as [Lt|Ge].
        -- right. split; [|exact Ub]. unfold live_at. rewrite nth_error_app1 in Vb by exact Lt. exact Vb.
        -- left. rewrite nth_error_app2 in Vb by exact Ge. destruct (b - length h) as [|y] eqn:Eb; [|destruct y; destruct Vb].
           assert (b = length h) by lia. subst b. split; [reflexivity|exact Nz].
      * intros b [Y _]. cbn [o_ptr] in Y. injection Y as <-. right. lia.
Qed.
Lemma store_ok {k} (h : mem k) o data j c : pre h o data -> j <= length data -> j < o_len o * o_width o ->
  exists h', store h o j c = MOk h' /\ pre h' o (firstn j data ++ c :: skipn (S j) data) /\ moved h (uses o) h' (uses o).
Proof.
  intros (W & L & Hd & D & A) Hj Hl. destruct A as [A|(b & a & P & N & V & Al & Lc & C)]; [nia|].
  assert (Nz : 0 < o_cap o * o_width o) by nia. pose proof (spot_lt o j Nz) as Sl. pose proof (nth_lt _ _ _ N) as Lb.
  unfold store, mstore, area_at. rewrite P, N, V. cbn [mbind]. rewrite (proj2 (Nat.ltb_lt _ _)) by (rewrite Lc; exact Sl).
  eexists. split; [reflexivity|]. split; [|apply moved_set; split; [exact P|lia]].
  assert (Ln : length (firstn j data ++ c :: skipn (S j) data) <= o_len o * o_width o) by (rewrite app_length; cbn [length]; rewrite firstn_length, skipn_length; lia).
  split; [exact W|]. split; [exact L|]. split; [exact Hd|]. split; [exact Ln|]. right.
  eexists b, _. split; [exact P|]. split; [apply set_nth_same; exact Lb|]. cbn [a_live a_align a_cells]. split; [reflexivity|]. split; [exact Al|].
  split; [rewrite set_nth_length; exact Lc|]. intros i x Hi. pose proof (nth_lt _ _ _ Hi) as Li.
  assert (Lf : length (firstn j data) = j) by (rewrite firstn_length; lia).
  destruct (lt_eq_lt_dec i j) as [[Lt|Eq]|Gt].
  - rewrite set_nth_other. 2:{ intros E. apply spot_inj in E; [lia|exact Hd|nia|nia]. }
    apply C. rewrite nth_error_app1 in Hi by lia. rewrite <- (firstn_skipn j data). rewrite nth_error_app1 by lia. exact Hi.
  - subst i. rewrite set_nth_same by (rewrite Lc; exact Sl). rewrite nth_error_app2, Lf, Nat.sub_diag in Hi by lia. cbn in Hi. congruence.
  - rewrite set_nth_other. 2:{ intros E. apply spot_inj in E; [lia|exact Hd|nia|nia]. }
    apply C. rewrite nth_error_app2 in Hi by lia. rewrite Lf in Hi. destruct (i - j) as [|d] eqn:Ed; [lia|]. cbn [nth_error] in Hi.
    rewrite <- (firstn_skipn (S j) data). rewrite nth_error_app2 by (rewrite firstn_length; lia).
    assert (S j <= length data). { destruct (Nat.le_gt_cases (S j) (length data)) as [Y|Y]; [exact Y|]. rewrite skipn_all2 in Hi by lia. destruct d; discriminate. }
    rewrite firstn_length, Nat.min_l by lia. replace (i - S j) with d by lia. exact Hi.
Qed.
Lemma store_from_ok {k} o (cs : list (chan k)) : forall (h : mem k) data j, pre h o data -> j <= length data -> j + length cs <= o_len o * o_width o ->
  exists h', store_from h o j cs = MOk h' /\ pre h' o (firstn j data ++ cs ++ skipn (j + length cs) data) /\ moved h (uses o) h' (uses o).
Proof.
  induction cs as [|c cs IH]; intros h data j P Hj Hl; cbn [store_from length] in *.
  - exists h. split; [reflexivity|]. split; [|apply moved_id]. cbn [app]. rewrite Nat.add_0_r, firstn_skipn. exact P.
  - destruct (store_ok h o data j c P Hj ltac:(lia)) as (h1 & E & P1 & M1). rewrite E. cbn [mbind].
    assert (Lf : length (firstn j data) = j) by (rewrite firstn_length; lia).
    destruct (IH h1 _ (S j) P1) as (h2 & E2 & P2 & M2).
    + rewrite app_length. cbn [length]. lia.
    + lia.
    + exists h2. split; [exact E2|]. split; [|apply (moved_trans h h1 h2 _ _ _ M1 M2)].
      replace (firstn j data ++ (c :: cs) ++ skipn (j + S (length cs)) data) with
        (firstn (S j) (firstn j data ++ c :: skipn (S j) data) ++ cs ++ skipn (S j + length cs) (firstn j data ++ c :: skipn (S j) data)); [exact P2|].
      rewrite firstn_app, skipn_app, Lf. rewrite firstn_all2 by lia. replace (S j - j) with 1 by lia. cbn [firstn].
      rewrite (skipn_all2 (firstn j data)) by lia. replace (S j + length cs - j) with (S (length cs)) by lia. cbn [app]. change (skipn (S (length cs)) (c :: skipn (S j) data)) with (skipn (length cs) (skipn (S j) data)). rewrite skip_skip.
      rewrite <- app_assoc. cbn [app]. now replace (S j + length cs) with (j + S (length cs)) by lia.
Qed.

Definition conv_ok {k} (h : mem k) (o : own) (data : list (chan k)) (res : mres (own * mem k)) (data' : list (chan k)) (P : own -> Prop) : Prop :=
  exists o' h', res = MOk (o', h') /\ owns h' o' data' /\ moved h (uses o) h' (uses o') /\ o_width o' = o_width o /\ P o'.
Lemma conv_intro {k} (h : mem k) o data res data' o' h' (P : own -> Prop) : res = MOk (o', h') -> owns h' o' data' -> moved h (uses o) h' (uses o') -> o_width o' = o_width o -> P o' ->
  conv_ok h o data res data' P.
Proof. intros. exists o', h'. auto. Qed.
Lemma to_vec_ok {k} (h : mem k) o data c : owns h o data -> conv_ok h o data (to_vec h o c) data (fun o' => o_len o' = o_len o /\ o_head o' = 0).
Proof.
  intros Ow. destruct c as [c|]; cbn [to_vec].
  - destruct (relocate_ok h o data (Nat.max c (o_len o)) Ow ltac:(lia)) as (o' & h' & E & A & B & C & D & _ & F). apply (conv_intro h o data _ data o' h'); auto.
  - destruct (rearrange_ok h o data 0 Ow ltac:(lia)) as (o' & h' & E & A & B & C & D & _ & F). apply (conv_intro h o data _ data o' h'); auto; lia.
Qed.
Lemma to_box_ok {k} (h : mem k) o data : owns h o data -> o_head o = 0 ->
  conv_ok h o data (to_box h o) data (fun o' => o_len o' = o_len o /\ o_head o' = 0 /\ o_cap o' = o_len o).
Proof.
  intros Ow Hh. unfold to_box. destruct (Nat.eqb_spec (o_cap o) (o_len o)) as [E|E].
  - exists o, h. split; [reflexivity|]. split; [exact Ow|]. split; [apply moved_id|]. auto.
  - destruct (relocate_ok h o data (o_len o) Ow ltac:(lia)) as (o' & h' & E' & A & B & C & D & F & G). apply (conv_intro h o data _ data o' h'); auto.
Qed.
Lemma to_ring_ok {k} (h : mem k) o data c : owns h o data -> conv_ok h o data (to_ring h o c) data (fun o' => o_len o' = o_len o).
Proof.
  intros Ow. destruct c as [c|]; cbn [to_ring].
  - destruct (relocate_ok h o data (Nat.max c (o_len o)) Ow ltac:(lia)) as (o' & h' & E & A & B & C & D & _ & F). apply (conv_intro h o data _ data o' h'); auto.
  - exists o, h. split; [reflexivity|]. split; [exact Ow|]. split; [apply moved_id|]. auto.
Qed.
Lemma contiguous_ok {k} (h : mem k) o data head : owns h o data -> conv_ok h o data (contiguous h o head) data (fun o' => o_len o' = o_len o).
Proof.
  intros Ow. unfold contiguous. destruct (rearrange_ok h o data (Nat.min head (o_cap o - o_len o)) Ow ltac:(lia)) as (o' & h' & E & A & B & C & D & _ & F). apply (conv_intro h o data _ data o' h'); auto.
Qed.
Lemma conv_bind {k} (h : mem k) o data m data1 P1 data2 P2 f : conv_ok h o data m data1 P1 ->
  (forall o1 h1, owns h1 o1 data1 -> o_width o1 = o_width o -> P1 o1 -> conv_ok h1 o1 data1 (f o1 h1) data2 P2) ->
  conv_ok h o data (mbind m (fun '(o, h) => f o h)) data2 P2.
Proof.
  intros (o1 & h1 & -> & A & B & C & D) H. cbn [mbind]. destruct (H o1 h1 A C D) as (o2 & h2 & E & A2 & B2 & C2 & D2).
  exists o2, h2. split; [exact E|]. split; [exact A2|]. split; [exact (moved_trans _ _ _ _ _ _ B B2)|]. split; [congruence|exact D2].
Qed.
Lemma grow_ok {k} (h : mem k) o data n fill c : owns h o data -> o_head o = 0 ->
  conv_ok h o data (grow h o n fill c) (data ++ repeat fill (n * o_width o)) (fun o' => o_len o' = o_len o + n /\ o_head o' = 0).
Proof.
  intros Ow Hh. unfold grow.
  apply (conv_bind h o data _ data (fun o1 => o_len o1 = o_len o /\ o_len o + n <= o_cap o1 /\ o_head o1 = 0)).
  - destruct (Nat.leb_spec (o_len o + n) (o_cap o)) as [L|L].
    + exists o, h. split; [reflexivity|]. split; [exact Ow|]. split; [apply moved_id|]. auto.
    + destruct (relocate_ok h o data (Nat.max c (o_len o + n)) Ow ltac:(lia)) as (o' & h' & E & A & B & C & D & F & G). apply (conv_intro h o data _ data o' h'); auto; lia.
  - intros o1 h1 [(W & L & Hd & D & A) Ld] Ew (El & Ec & E0). rewrite <- Ew, <- El.
    set (o2 := mkOwn (o_ptr o1) (o_width o1) (o_cap o1) (o_head o1) (o_len o1 + n)).
    assert (P2 : pre h1 o2 data). { split; [exact W|]. cbn [o_len o_cap o_head o_width o_ptr o2]. split; [lia|]. split; [exact Hd|]. split; [nia|]. exact A. }
    destruct (store_from_ok o2 (repeat fill (n * o_width o1)) h1 data (o_len o1 * o_width o1) P2) as (h2 & E & P3 & M).
    { lia. } { rewrite repeat_length. cbn [o_len o_width o2]. nia. }
    rewrite E. cbn [mbind]. rewrite firstn_all2 in P3 by lia. rewrite skipn_all2, app_nil_r in P3 by lia.
    exists o2, h2. split; [reflexivity|]. split.
    + split; [exact P3|]. rewrite app_length, repeat_length. cbn [o_len o_width o2]. nia.
    + split; [exact M|]. repeat split. exact E0.
Qed.
Lemma with_frames_ok {k} (h : mem k) o data c : owns h o data -> o_head o = 0 -> conv_ok h o data (m_with_frames h o c) data (fun o' => o_len o' = o_len o).
Proof.
  intros Ow Hh. unfold m_with_frames. apply (conv_bind h o data _ data (fun o1 => o_len o1 = o_len o /\ o_head o1 = 0 /\ o_cap o1 = o_len o)); [apply to_box_ok; assumption|].
  intros o1 h1 A W (El & _). destruct (to_ring_ok h1 o1 data c A) as (o2 & h2 & E & R). destruct R as (R1 & R2 & R3 & R4). apply (conv_intro h1 o1 data _ data o2 h2); auto; congruence.
Qed.
Lemma extend_ok {k} (h : mem k) o data n added c1 c2 c3 c4 : owns h o data -> length added = n * o_width o ->
  conv_ok h o data (m_extend h o n added c1 c2 c3 c4) (data ++ added) (fun _ => True).
Proof.
  intros Ow La. unfold m_extend. pose proof (proj2 Ow) as Ld.
  apply (conv_bind h o data _ data _ _ _ _ (to_vec_ok h o data c1 Ow)). intros o1 h1 A1 W1 [L1 H1].
  apply (conv_bind h1 o1 data _ data _ _ _ _ (to_box_ok h1 o1 data A1 H1)). intros o2 h2 A2 W2 (L2 & H2 & _).
  apply (conv_bind h2 o2 data _ _ _ _ _ _ (grow_ok h2 o2 data n (chan_default k) c2 A2 H2)). intros o3 h3 A3 W3 [L3 H3].
  apply (conv_bind h3 o3 _ _ _ _ _ _ _ (with_frames_ok h3 o3 _ c3 A3 H3)). intros o4 h4 A4 W4 L4.
  apply (conv_bind h4 o4 _ _ _ _ _ _ _ (contiguous_ok h4 o4 _ c4 A4)). intros o5 h5 A5 W5 L5.
  destruct A5 as [P5 Ld5].
  destruct (store_from_ok o5 added h5 _ (o_len o * o_width o) P5) as (h6 & E & P6 & M).
  { rewrite app_length. lia. } { rewrite L5, L4, L3, L2, L1, W5, W4, W3, W2, W1, La. nia. }
  rewrite E. cbn [mbind]. exists o5, h6. split; [reflexivity|]. split; [|split; [exact M|auto]].
  replace (data ++ added) with (firstn (o_len o * o_width o) (data ++ repeat (chan_default k) (n * o_width o2)) ++ added ++
    skipn (o_len o * o_width o + length added) (data ++ repeat (chan_default k) (n * o_width o2))).
  - split; [exact P6|]. rewrite !app_length, skipn_length, firstn_length, app_length, repeat_length.
    rewrite app_length, repeat_length in Ld5. rewrite W2, W1 in *. lia.
  - rewrite <- Ld. rewrite firstn_app, Nat.sub_diag, firstn_all. cbn [firstn]. rewrite app_nil_r. f_equal.
    rewrite skipn_all2; [apply app_nil_r|]. rewrite app_length, repeat_length. rewrite La, W2, W1. lia.
Qed.
Lemma drain_ok {k} (h : mem k) o data n : owns h o data -> owns h (m_drain o n) (skipn (n * o_width o) data) /\ (forall b, uses (m_drain o n) b <-> uses o b).
Proof.
  intros [(W & L & Hd & D & A) Ld]. split; [|intros b; reflexivity]. unfold m_drain. set (m := Nat.min n (o_len o)).
  assert (Sk : skipn (n * o_width o) data = skipn (m * o_width o) data).
  { unfold m. destruct (Nat.le_gt_cases n (o_len o)) as [X|X]; [now rewrite Nat.min_l by lia|]. rewrite Nat.min_r by lia. rewrite !skipn_all2 by nia. reflexivity. }
  rewrite Sk. assert (Ls : length (skipn (m * o_width o) data) = (o_len o - m) * o_width o) by (rewrite skipn_length, Ld, Nat.mul_sub_distr_r; reflexivity).
  split; [|exact Ls]. split; [exact W|]. cbn [o_len o_cap o_head o_width o_ptr].
  split; [lia|]. split.
  { destruct (Nat.eq_dec (o_cap o) 0) as [Z|Z]; [rewrite Z; cbn; lia|]. apply Nat.lt_le_incl. apply Nat.mod_upper_bound. exact Z. }
  split; [lia|]. destruct A as [A|(b & a & P & N & V & Al & Lc & C)]; [now left|]. destruct (Nat.eq_dec (o_cap o) 0) as [Z|Z]; [now left|]. right.
  exists b, a. repeat (split; [assumption|]). intros j c Hj.
  assert (Hj2 : nth_error data (m * o_width o + j) = Some c).
  { rewrite <- (firstn_skipn (m * o_width o) data). assert (Lf : length (firstn (m * o_width o) data) = m * o_width o) by (rewrite firstn_length; unfold m; nia).
    rewrite nth_error_app2 by lia. rewrite Lf. replace (m * o_width o + j - m * o_width o) with j by lia. exact Hj. }
  rewrite <- (C _ _ Hj2). f_equal. unfold spot. cbn [o_len o_cap o_head o_width o_ptr].
  rewrite <- Nat.mul_mod_distr_r by lia. rewrite Nat.add_mod_idemp_l by nia. f_equal. nia.
Qed.

(** ** Programs *)
Definition shape (kd : kind) (o : own) : Prop :=
  match kd with KRaw => o_width o = 1 /\ o_head o = 0 /\ o_cap o = o_len o | KVec l => o_width o = nchan l /\ o_head o = 0 | KAudio l => o_width o = nchan l end.
Definition var_ok {k} (h : mem k) (v : option (kind * own)) (s : option (kind * list (chan k))) : Prop :=
  match v, s with
  | Some (kd, o), Some (kd', d) => kd = kd' /\ owns h o d /\ shape kd o
  | None, None => True
  | _, _ => False
  end.
Definition inv {k} (h : mem k) (vs : vars) (st : contents k) : Prop :=
  length vs = length st /\ (forall i v s, nth_error vs i = Some v -> nth_error st i = Some s -> var_ok h v s) /\ accounted h vs.
Lemma holds_uses kd o b : holds_area (Some (kd, o)) b <-> uses o b.
Proof. reflexivity. Qed.
Lemma holds_dec v b : {holds_area v b} + {~ holds_area v b}.
Proof. destruct v as [[kd o]|]; [apply uses_dec|right; exact (fun x => x)]. Qed.
Lemma var_live {k} (h : mem k) v s b : var_ok h v s -> holds_area v b -> live_at h b /\ b < length h.
Proof. destruct v as [[kd o]|], s as [[kd' d]|]; cbn [var_ok holds_area]; try tauto. intros (_ & Ow & _) U. exact (owns_live h o d b Ow U). Qed.
Lemma inv_step {k} (h h' : mem k) vs st i v v' s' : inv h vs st -> nth_error vs i = Some v ->
  moved h (holds_area v) h' (holds_area v') -> var_ok h' v' s' -> inv h' (set_nth vs i v') (put_at i s' st).
Proof.
  intros (Ln & Vo & Li & Un) Hv (L1 & N1 & V1 & W1) Ok. pose proof (nth_lt _ _ _ Hv) as Hi. rewrite put_at_set.
  assert (Sn : exists s, nth_error st i = Some s) by (destruct (nth_error st i) eqn:E; [eauto|apply nth_error_None in E; lia]).
  assert (Ot : forall j w, j <> i -> nth_error vs j = Some w -> forall b, holds_area w b -> ~ holds_area v b /\ live_at h b /\ b < length h /\ nth_error h' b = nth_error h b).
  { intros j w Nj Hw b Hb. assert (Nv : ~ holds_area v b) by (intros X; apply Nj; apply (Un j i w v b); assumption).
    assert (exists s, nth_error st j = Some s) as [s Hs] by (destruct (nth_error st j) eqn:E; [eauto|apply nth_error_None in E; apply nth_lt in Hw; lia]).
    destruct (var_live h w s b (Vo j w s Hw Hs) Hb) as [X Y]. repeat split; try assumption. apply N1; assumption. }
  split; [rewrite !set_nth_length; exact Ln|]. split; [|split].
  - intros j w s Hw Hs. destruct (Nat.eq_dec i j) as [<-|Nj].
    + rewrite set_nth_same in Hw by lia. rewrite set_nth_same in Hs by lia. congruence.
    + rewrite set_nth_other in Hw by exact Nj. rewrite set_nth_other in Hs by exact Nj. specialize (Vo j w s Hw Hs).
      destruct w as [[kd o]|], s as [[kd' d]|]; cbn [var_ok] in *; try tauto. destruct Vo as (A & B & C). split; [exact A|]. split; [|exact C].
      apply (owns_frame h); [|exact B]. intros b Hb. apply (Ot j _ ltac:(congruence) Hw b Hb).
  - intros b. split.
    + intros Lb. destruct (V1 b Lb) as [X|[X Y]].
      * exists i, v'. split; [apply set_nth_same; exact Hi|exact X].
      * apply Li in X. destruct X as (j & w & Hw & Hb). exists j, w. split; [|exact Hb]. rewrite set_nth_other; [exact Hw|]. intros <-. apply Y. congruence.
    + intros (j & w & Hw & Hb). destruct (Nat.eq_dec i j) as [<-|Nj].
      * rewrite set_nth_same in Hw by exact Hi. injection Hw as <-. apply (var_live h' v' s' b Ok Hb).
      * rewrite set_nth_other in Hw by exact Nj. destruct (Ot j w ltac:(congruence) Hw b Hb) as (_ & X & _ & Y). unfold live_at in *. rewrite Y. exact X.
  - assert (Cl : forall j w b, j <> i -> nth_error vs j = Some w -> holds_area w b -> holds_area v' b -> False).
    { intros j w b Nj Hw Hb Hb'. destruct (Ot j w Nj Hw b Hb) as (X & _ & Y & _). destruct (W1 b Hb'); [contradiction|lia]. }
    intros j1 j2 w1 w2 b H1 H2 B1 B2. destruct (Nat.eq_dec i j1) as [<-|N1'], (Nat.eq_dec i j2) as [<-|N2'].
    + reflexivity.
    + rewrite set_nth_same in H1 by exact Hi. injection H1 as <-. rewrite set_nth_other in H2 by exact N2'. exfalso. apply (Cl j2 w2 b); auto.
    + rewrite set_nth_same in H2 by exact Hi. injection H2 as <-. rewrite set_nth_other in H1 by exact N1'. exfalso. apply (Cl j1 w1 b); auto.
    + rewrite set_nth_other in H1 by assumption. rewrite set_nth_other in H2 by assumption. apply (Un j1 j2 w1 w2 b); assumption.
Qed.
Lemma inv_new {k} (h h' : mem k) vs st v' s' : inv h vs st -> moved h (fun _ => False) h' (holds_area v') -> var_ok h' v' s' -> inv h' (vs ++ [v']) (st ++ [s']).
Proof.
  intros (Ln & Vo & Li & Un) M Ok. rewrite <- (set_nth_end vs None v'). rewrite <- (set_nth_end st None s'). rewrite <- Ln, <- (put_at_set (st ++ [None])).
  apply (inv_step h h' (vs ++ [None]) (st ++ [None]) (length vs) None); try assumption.
  - split; [rewrite !app_length; cbn; lia|]. split; [|split].
    + intros i v s Hv Hs. destruct (Nat.lt_ge_cases i (length vs)) as [L|L].
      * rewrite nth_error_app1 in Hv by lia. rewrite nth_error_app1 in Hs by lia. exact (Vo i v s Hv Hs).
      * rewrite nth_error_app2 in Hv by lia. rewrite nth_error_app2 in Hs by lia. rewrite <- Ln in Hs. destruct (i - length vs) as [|x]; [|destruct x; discriminate]. cbn in Hv, Hs. injection Hv as <-. injection Hs as <-. exact I.
    + intros b. rewrite Li. split; intros (i & v & Hv & Hb); exists i, v; (split; [|exact Hb]).
      * rewrite nth_error_app1 by (apply (nth_lt _ _ _ Hv)). exact Hv.
      * destruct (Nat.lt_ge_cases i (length vs)) as [L|L]; [rewrite nth_error_app1 in Hv by exact L; exact Hv|].
        rewrite nth_error_app2 in Hv by exact L. destruct (i - length vs) as [|x]; [|destruct x; discriminate]. injection Hv as <-. destruct Hb.
    + assert (Old : forall i v b, nth_error (vs ++ [None]) i = Some v -> holds_area v b -> nth_error vs i = Some v).
      { intros i v b Hv Hb. destruct (Nat.lt_ge_cases i (length vs)) as [L|L]; [rewrite nth_error_app1 in Hv by exact L; exact Hv|].
        rewrite nth_error_app2 in Hv by exact L. destruct (i - length vs) as [|x]; [|destruct x; discriminate]. injection Hv as <-. destruct Hb. }
      intros i j v w b Hv Hw Bv Bw. apply (Un i j v w b); eauto.
  - rewrite nth_error_app2, Nat.sub_diag by lia. reflexivity.
Qed.

Lemma raw_samples_length {l k} (fs : list (frame l k)) : length (raw_samples fs) = length fs * nchan l.
Proof.
  unfold raw_samples. induction fs as [|f fs IH]; [reflexivity|]. cbn [flat_map length Nat.mul]. rewrite app_length, IH. f_equal. destruct l; reflexivity.
Qed.
Lemma nchan_pos l : 0 < nchan l.
Proof. destruct l; cbn; lia. Qed.
Lemma box_of_ok k w n (h : mem k) data : 0 < w -> length data = n * w -> exists v h', box_of k w n h data = (v, h') /\ owns h' v data /\
  moved h (fun _ => False) h' (uses v) /\ o_width v = w /\ o_head v = 0 /\ o_cap v = n /\ o_len v = n.
Proof.
  intros W Ld. unfold box_of. destruct (malloc_ok h (chan_size k) (map Some data)) as (p & h1 & E & E0 & E1). rewrite E.
  eexists _, _. split; [reflexivity|]. cbn [o_width o_head o_cap o_len]. destruct data as [|d data].
  - destruct (E0 eq_refl) as [-> ->]. cbn [length] in Ld. assert (n = 0) by nia. subst n. split; [|split; [|auto]].
    + split; [|exact Ld]. split; [exact W|]. cbn. repeat split; try lia; now left.
    + split; [lia|]. split; [reflexivity|]. split; [|intros b [X _]; discriminate]. intros b Hb. right. tauto.
  - destruct (E1 ltac:(discriminate)) as [-> ->]. assert (Nz : n * w <> 0) by (cbn [length] in Ld; lia). split; [|split; [|auto]].
    + split; [|exact Ld]. split; [exact W|]. cbn [o_width o_head o_cap o_len o_ptr]. split; [lia|]. split; [lia|]. split; [lia|]. right.
      eexists _, _. split; [reflexivity|]. split; [rewrite nth_error_app2, Nat.sub_diag by lia; reflexivity|]. cbn [a_live a_align a_cells].
      split; [reflexivity|]. split; [reflexivity|]. split; [rewrite map_length; exact Ld|]. intros j c Hj. unfold spot. cbn [o_width o_head o_cap].
      rewrite Nat.mod_small by (apply nth_lt in Hj; lia). cbn [Nat.mul Nat.add]. now apply map_nth_error.
    + split; [rewrite app_length; lia|]. split; [intros b Hb _; apply nth_error_app1; exact Hb|]. split.
      * intros b Hb. unfold live_at in Hb. destruct (Nat.lt_ge_cases b (length h)) as [L|L].
        -- right. rewrite nth_error_app1 in Hb by exact L. split; [exact Hb|tauto].
        -- left. rewrite nth_error_app2 in Hb by exact L. destruct (b - length h) as [|x] eqn:Eb; [|destruct x; destruct Hb].
           assert (b = length h) by lia. subst b. split; [reflexivity|exact Nz].
      * intros b [X _]. cbn in X. injection X as <-. right. lia.
Qed.
Lemma with_buffer_ok l k (h : mem k) v d c : owns h v d -> shape KRaw v ->
  exists r h', m_with_buffer l k h v c = MOk (r, h') /\
  if Nat.eqb (length d mod nchan l) 0 then exists v', r = Some v' /\ owns h' v' d /\ moved h (uses v) h' (uses v') /\ o_width v' = nchan l
  else r = None /\ moved h (uses v) h' (fun _ => False).
Proof.
  intros Ow (W1 & H0 & Cp). pose proof (nchan_pos l) as Np. assert (Cs : 0 < chan_size k) by (destruct k; cbn; lia).
  pose proof Ow as [(W & L & Hd & D & A) Ld]. rewrite W1, Nat.mul_1_r in Ld.
  unfold m_with_buffer, frame_size. rewrite Nat.mul_mod_distr_r by lia. rewrite Nat.div_mul_cancel_r by lia. rewrite <- Ld.
  destruct (Nat.eqb_spec (length d mod nchan l) 0) as [E|E].
  - rewrite E. cbn [Nat.mul Nat.eqb]. pose proof (Nat.div_mod (length d) (nchan l) ltac:(lia)) as DM. rewrite E, Nat.add_0_r in DM.
    set (n := length d / nchan l) in *. set (v1 := mkOwn (o_ptr v) (nchan l) n 0 n).
    assert (Us : forall b, uses v1 b <-> uses v b). { intros b. unfold uses. cbn [o_ptr o_cap o_width v1]. rewrite W1, Cp, <- Ld || rewrite W1, Cp. split; intros [X Y]; (split; [exact X|]); nia. }
    assert (O1 : owns h v1 d).
    { split; [|cbn [o_len o_width v1]; lia]. split; [exact Np|]. cbn [o_len o_cap o_head o_width o_ptr v1]. split; [lia|]. split; [lia|]. split; [lia|].
      destruct A as [A|(b & a & P & N & V & Al & Lc & C)]; [left; nia|]. right. exists b, a. repeat (split; [assumption|]). split; [nia|].
      intros j x Hj. rewrite <- (C j x Hj). f_equal. unfold spot. cbn [o_cap o_head o_width v1]. rewrite H0, W1, Cp. cbn [Nat.mul Nat.add]. f_equal. nia. }
    destruct (to_ring_ok h v1 d c O1) as (v2 & h2 & E2 & O2 & M2 & W2 & _). rewrite E2. cbn [mbind]. eexists _, _. split; [reflexivity|].
    exists v2. split; [reflexivity|]. split; [exact O2|]. split; [|exact W2]. eapply moved_ext; [exact Us|reflexivity|exact M2].
  - destruct (Nat.eqb_spec 0 (length d mod nchan l * chan_size k)) as [X|X]; [nia|].
    destruct (release_ok h v d Ow) as (h' & R & M). rewrite R. cbn [mbind]. eexists _, _. split; [reflexivity|]. split; [reflexivity|exact M].
Qed.
Lemma layout_eqb_eq a b : layout_eqb a b = true -> a = b.
Proof. destruct a, b; cbn; congruence. Qed.

Lemma vo_keep {k} (h : mem k) vs st i kd o : inv h vs st -> nth_error vs i = Some (Some (kd, o)) -> exists d, nth_error st i = Some (Some (kd, d)) /\ owns h o d /\ shape kd o.
Proof.
  intros (Ln & Vo & _) Hv. assert (exists s, nth_error st i = Some s) as [s Hs] by (destruct (nth_error st i) eqn:E; [eauto|apply nth_error_None in E; apply nth_lt in Hv; lia]).
  specialize (Vo i _ s Hv Hs). destruct s as [[kd' d]|]; [|destruct Vo]. destruct Vo as (<- & A & B). eauto.
Qed.
Lemma vo_none {k} (h : mem k) vs st i : inv h vs st -> (forall kd o, nth_error vs i <> Some (Some (kd, o))) -> forall kd d, nth_error st i <> Some (Some (kd, d)).
Proof.
  intros (Ln & Vo & _) H kd d Hs. assert (exists v, nth_error vs i = Some v) as [v Hv] by (destruct (nth_error vs i) eqn:E; [eauto|apply nth_error_None in E; apply nth_lt in Hs; lia]).
  specialize (Vo i v _ Hv Hs). destruct v as [[kd' o]|]; [|destruct Vo]. exact (H _ _ Hv).
Qed.
Lemma set_nth_id {A} (xs : list A) : forall i x, nth_error xs i = Some x -> set_nth xs i x = xs.
Proof. induction xs as [|y xs IH]; intros [|i] x H; cbn in *; try discriminate; [congruence|]. rewrite IH by exact H. reflexivity. Qed.

(** Freed memory stays freed. *)
Definition frozen {k} (h h' : mem k) : Prop := length h <= length h' /\ forall b, b < length h -> live_at h' b -> live_at h b.
Lemma frozen_id {k} (h : mem k) : frozen h h.
Proof. split; [lia|auto]. Qed.
Lemma moved_frozen {k} (h h' : mem k) (U U' : nat -> Prop) : moved h U h' U' -> (forall b, U b -> live_at h b) -> frozen h h'.
Proof. intros (L & _ & V & W) H. split; [exact L|]. intros b Lb Hb. destruct (V b Hb) as [X|[X _]]; [|exact X]. destruct (W b X) as [Y|Y]; [auto|lia]. Qed.
(** One call. *)
Definition call_on {k} (h : mem k) (vs : vars) i (f : kind -> own -> mres (option (kind * own) * mem k)) : mres (mem k * vars) :=
  match nth_error vs i with
  | Some (Some (kd, v)) => mbind (f kd v) (fun '(v, h) => MOk (h, set_nth vs i v))
  | _ => MOk (h, vs)
  end.
Definition spec_on {k} (st : contents k) i (g : kind -> list (chan k) -> option (kind * list (chan k))) : contents k :=
  match nth_error st i with Some (Some (kd, d)) => put_at i (g kd d) st | _ => st end.
Lemma call_on_ok {k} (h : mem k) vs st i f g : inv h vs st ->
  (forall kd v d, nth_error vs i = Some (Some (kd, v)) -> nth_error st i = Some (Some (kd, d)) -> owns h v d -> shape kd v ->
     exists v' h', f kd v = MOk (v', h') /\ moved h (uses v) h' (holds_area v') /\ var_ok h' v' (g kd d)) ->
  exists h' vs', call_on h vs i f = MOk (h', vs') /\ inv h' vs' (spec_on st i g) /\ frozen h h'.
Proof.
  intros In H. unfold call_on, spec_on. destruct (nth_error vs i) as [[[kd v]|]|] eqn:Ev.
  - destruct (vo_keep h vs st i kd v In Ev) as (d & Es & Ow & Sh). rewrite Es. destruct (H kd v d eq_refl Es Ow Sh) as (v' & h' & E & M & Vo). rewrite E. cbn [mbind].
    eexists _, _. split; [reflexivity|]. split; [apply (inv_step h h' vs st i (Some (kd, v)) v' _ In Ev M Vo)|].
    apply (moved_frozen h h' _ _ M). intros b Hb. apply (owns_live h v d b Ow Hb).
  - exists h, vs. split; [reflexivity|]. split; [|apply frozen_id]. destruct (nth_error st i) as [[[kd d]|]|] eqn:Es; try exact In.
    exfalso. apply (vo_none h vs st i In ltac:(rewrite Ev; discriminate) kd d Es).
  - exists h, vs. split; [reflexivity|]. split; [|apply frozen_id]. destruct (nth_error st i) as [[[kd d]|]|] eqn:Es; try exact In.
    exfalso. apply (vo_none h vs st i In ltac:(rewrite Ev; discriminate) kd d Es).
Qed.
Lemma keep_ok {k} (h : mem k) kd v d : owns h v d -> shape kd v ->
  exists v' h', (MOk (Some (kd, v), h) : mres (option (kind * own) * mem k)) = MOk (v', h') /\ moved h (uses v) h' (holds_area v') /\ var_ok h' v' (Some (kd, d)).
Proof. intros O S. exists (Some (kd, v)), h. split; [reflexivity|]. split; [apply moved_id|]. split; [reflexivity|]. split; assumption. Qed.
Lemma conv_step {k} (h : mem k) v d m d' P kd' : conv_ok h v d m d' P -> (forall v', o_width v' = o_width v -> P v' -> shape kd' v') ->
  exists v' h', mbind m (fun '(v, h) => MOk (Some (kd', v), h)) = MOk (v', h') /\ moved h (uses v) h' (holds_area v') /\ var_ok h' v' (Some (kd', d')).
Proof.
  intros (v' & h' & -> & O & M & W & Pv) H. cbn [mbind]. eexists _, _. split; [reflexivity|]. split; [exact M|]. split; [reflexivity|]. split; [exact O|]. apply H; assumption.
Qed.
Lemma call_ok {k} (h : mem k) vs st o : inv h vs st -> sound st o -> exists h' vs', call h vs o = MOk (h', vs') /\ inv h' vs' (spec_call st o) /\ frozen h h'.
Proof.
  intros In So. destruct o as [data|l fs|i l c|i c|i j|i j x|i head|i n|i l fs c1 c2 c3 c4|i|i box c|i c|i]; cbn [call spec_call].
  - destruct (box_of_ok k 1 (length data) h data) as (v & h' & E & O & M & W & H0 & Cp & Ln); [lia|lia|]. rewrite E. eexists _, _. split; [reflexivity|].
    split; [|apply (moved_frozen h h' _ _ M); tauto]. apply (inv_new h h' vs st (Some (KRaw, v)) (Some (KRaw, data)) In M). split; [reflexivity|]. split; [exact O|]. cbn. repeat split; congruence.
  - destruct (box_of_ok k (nchan l) (length fs) h (raw_samples fs)) as (v & h' & E & O & M & W & H0 & Cp & Ln); [apply nchan_pos|apply raw_samples_length|]. rewrite E. eexists _, _. split; [reflexivity|].
    split; [|apply (moved_frozen h h' _ _ M); tauto]. apply (inv_new h h' vs st (Some (KVec l, v)) (Some (KVec l, raw_samples fs)) In M). split; [reflexivity|]. split; [exact O|]. cbn. split; assumption.
  - apply (call_on_ok h vs st i _ (fun kd d => match kd with KRaw => if Nat.eqb (Nat.modulo (length d) (nchan l)) 0 then Some (KAudio l, d) else None | _ => Some (kd, d) end) In).
    intros kd v d Hv Hs Ow Sh. destruct kd as [|l'|l']; try (apply keep_ok; assumption).
    destruct (with_buffer_ok l k h v d c Ow Sh) as (r & h' & E & R). rewrite E. cbn [mbind]. destruct (Nat.eqb (length d mod nchan l) 0).
    + destruct R as (v' & -> & O & M & W). eexists _, _. split; [reflexivity|]. split; [exact M|]. split; [reflexivity|]. split; [exact O|exact W].
    + destruct R as [-> M]. eexists _, _. split; [reflexivity|]. split; [exact M|exact I].
  - apply (call_on_ok h vs st i _ (fun kd d => match kd with KVec l => Some (KAudio l, d) | _ => Some (kd, d) end) In).
    intros kd v d Hv Hs Ow Sh. destruct kd as [|l'|l']; try (apply keep_ok; assumption). destruct Sh as [W H0].
    apply (conv_step h v d _ d _ (KAudio l') (with_frames_ok h v d c Ow H0)). intros v' W' _. cbn. congruence.
  - destruct (call_on_ok h vs st i (fun kd v => if Nat.ltb j (o_len v * o_width v) then mbind (load h v j) (fun _ => MOk (Some (kd, v), h)) else MOk (Some (kd, v), h)) (fun kd d => Some (kd, d)) In) as (h' & vs' & E & In' & Fz).
    + intros kd v d Hv Hs Ow Sh. destruct (Nat.ltb_spec j (o_len v * o_width v)) as [L|L]; [|apply keep_ok; assumption].
      destruct (nth_error d j) as [c|] eqn:Ec; [|apply nth_error_None in Ec; destruct Ow; lia]. rewrite (load_ok h v d j c (proj1 Ow) Ec). cbn [mbind]. apply keep_ok; assumption.
    + exists h', vs'. split; [exact E|]. split; [|exact Fz]. unfold spec_on in In'. destruct (nth_error st i) as [[[kd d]|]|] eqn:Es; try exact In'. rewrite put_at_set, set_nth_id in In' by exact Es. exact In'.
  - apply (call_on_ok h vs st i _ (fun kd d => Some (kd, put_at j x d)) In). intros kd v d Hv Hs Ow Sh.
    destruct (Nat.ltb_spec j (o_len v * o_width v)) as [L|L].
    + pose proof (proj2 Ow) as Ld. destruct (store_ok h v d j x (proj1 Ow) ltac:(lia) L) as (h' & E & P & M). rewrite E. cbn [mbind].
      eexists _, _. split; [reflexivity|]. split; [exact M|]. split; [reflexivity|]. split; [|exact Sh]. rewrite put_at_split by lia. split; [exact P|].
      rewrite app_length. cbn [length]. rewrite firstn_length, skipn_length. lia.
    + assert (Ep : put_at j x d = d). { pose proof (proj2 Ow) as Ld. rewrite put_at_set. clear - L Ld. rewrite <- Ld in L. clear Ld. revert j L. induction d as [|y d IH]; intros [|j] L; cbn in *; try reflexivity; try lia. rewrite IH by lia. reflexivity. }
      rewrite Ep. apply keep_ok; assumption.
  - destruct (call_on_ok h vs st i (fun kd v => match kd with KAudio l => mbind (contiguous h v head) (fun '(v, h) => MOk (Some (kd, v), h)) | _ => MOk (Some (kd, v), h) end) (fun kd d => Some (kd, d)) In) as (h' & vs' & E & In' & Fz).
    + intros kd v d Hv Hs Ow Sh. destruct kd as [|l'|l']; try (apply keep_ok; assumption).
      apply (conv_step h v d _ d _ (KAudio l') (contiguous_ok h v d head Ow)). intros v' W' _. cbn in *. congruence.
    + exists h', vs'. split; [exact E|]. split; [|exact Fz]. unfold spec_on in In'. destruct (nth_error st i) as [[[kd d]|]|] eqn:Es; try exact In'. rewrite put_at_set, set_nth_id in In' by exact Es. exact In'.
  - apply (call_on_ok h vs st i _ (fun kd d => match kd with KAudio l => Some (kd, skipn (n * nchan l) d) | _ => Some (kd, d) end) In).
    intros kd v d Hv Hs Ow Sh. destruct kd as [|l'|l']; try (apply keep_ok; assumption).
    destruct (drain_ok h v d n Ow) as [O U]. cbn in Sh. rewrite Sh in O. eexists _, _. split; [reflexivity|]. split; [|split; [reflexivity|split; [exact O|exact Sh]]].
    eapply moved_ext; [reflexivity| |apply moved_id]. intros b. rewrite holds_uses. symmetry. apply U.
  - apply (call_on_ok h vs st i _ (fun kd d => match kd with KAudio l' => if layout_eqb l l' then Some (kd, d ++ raw_samples fs) else Some (kd, d) | _ => Some (kd, d) end) In).
    intros kd v d Hv Hs Ow Sh. destruct kd as [|l'|l']; try (apply keep_ok; assumption).
    destruct (layout_eqb l l') eqn:El; [|apply keep_ok; assumption]. apply layout_eqb_eq in El. subst l'. cbn in Sh.
    apply (conv_step h v d _ _ _ (KAudio l) (extend_ok h v d (length fs) (raw_samples fs) c1 c2 c3 c4 Ow ltac:(rewrite Sh; apply raw_samples_length))). intros v' W' _. cbn. congruence.
  - apply (call_on_ok h vs st i _ (fun kd d => match kd with KAudio l => Some (kd, []) | _ => Some (kd, d) end) In).
    intros kd v d Hv Hs Ow Sh. destruct kd as [|l'|l']; try (apply keep_ok; assumption).
    destruct (release_ok h v d Ow) as (h' & R & M). rewrite R. cbn [mbind]. eexists _, _. split; [reflexivity|]. split.
    + eapply moved_ext; [reflexivity| |exact M]. intros b. split; [tauto|]. intros [X _]. discriminate.
    + split; [reflexivity|]. split; [|reflexivity]. split; [|reflexivity]. split; [apply nchan_pos|]. cbn. repeat split; try lia; now left.
  - apply (call_on_ok h vs st i _ (fun kd d => match kd with KAudio l => Some (KVec l, d) | _ => Some (kd, d) end) In).
    intros kd v d Hv Hs Ow Sh. destruct kd as [|l'|l']; try (apply keep_ok; assumption). cbn in Sh.
    apply (conv_step h v d _ d (fun v' => o_head v' = 0) (KVec l')).
    + unfold m_into_frames. apply (conv_bind h v d _ d _ _ _ _ (to_vec_ok h v d c Ow)). intros o1 h1 A1 W1 [L1 H1]. destruct box.
      * destruct (to_box_ok h1 o1 d A1 H1) as (o2 & h2 & E & O2 & M2 & W2 & _ & H2 & _). apply (conv_intro h1 o1 d _ d o2 h2); auto.
      * apply (conv_intro h1 o1 d _ d o1 h1); auto. apply moved_id.
    + intros v' W' H'. cbn. split; [congruence|exact H'].
  - apply (call_on_ok h vs st i _ (fun kd d => match kd with KAudio l => Some (KRaw, d) | _ => Some (kd, d) end) In).
    intros kd v d Hv Hs Ow Sh. destruct kd as [|l'|l']; try (apply keep_ok; assumption). cbn in Sh. cbn [sound] in So. rewrite Hs in So. subst d.
    unfold m_into_raw. destruct (to_vec_ok h v [] c Ow) as (o1 & h1 & E & O1 & M1 & W1 & L1 & H1). rewrite E. cbn [mbind].
    destruct (release_ok h1 o1 [] O1) as (h2 & R & M2). rewrite R. cbn [mbind].
    assert (L0 : o_len o1 = 0). { destruct O1 as [(W & _) Ld]. cbn in Ld. nia. } rewrite L0.
    assert (R0 : raw_capacity l' k 0 = 0) by (destruct k; reflexivity). rewrite R0.
    eexists _, _. split; [reflexivity|]. split.
    + eapply moved_trans; [exact M1|]. eapply moved_ext; [reflexivity| |exact M2]. intros b. split; [tauto|]. intros [_ X]. apply X. reflexivity.
    + split; [reflexivity|]. split; [|cbn; auto]. split; [|reflexivity]. split; [cbn; lia|]. cbn. repeat split; try lia; now left.
  - apply (call_on_ok h vs st i _ (fun _ _ => None) In). intros kd v d Hv Hs Ow Sh. destruct (release_ok h v d Ow) as (h' & R & M). rewrite R. cbn [mbind].
    eexists _, _. split; [reflexivity|]. split; [exact M|exact I].
Qed.
Lemma ops_ok {k} os : forall (h : mem k) vs st, inv h vs st -> all_sound st os -> exists h' vs', run_ops h vs os = MOk (h', vs') /\ inv h' vs' (spec_ops st os).
Proof.
  induction os as [|o os IH]; intros h vs st In So; cbn [run_ops spec_ops fold_left].
  - eauto.
  - destruct So as [So Sr]. destruct (call_ok h vs st o In So) as (h1 & vs1 & E & In1 & _). rewrite E. cbn [mbind]. apply IH; assumption.
Qed.
Lemma inv_empty k : inv ([] : mem k) [] [].
Proof.
  split; [reflexivity|]. split; [intros [|i] v s H; discriminate|]. split; [|intros [|i] j v w b H; discriminate].
  intros b. unfold live_at. split; [destruct b; intros []|]. intros ([|i] & v & H & _); discriminate.
Qed.
Lemma inv_reads {k} (h : mem k) vs st : inv h vs st -> reads h vs st.
Proof.
  intros (Ln & Vo & _). split; [exact Ln|]. intros i.
  destruct (nth_error vs i) as [v|] eqn:Ev, (nth_error st i) as [s|] eqn:Es.
  - specialize (Vo i v s Ev Es). destruct v as [[kd v]|], s as [[kd' d]|]; cbn in Vo; try tauto. destruct Vo as (A & O & _). split; [exact A|]. split; [apply O|].
    intros j c Hj. exact (load_ok h v d j c (proj1 O) Hj).
  - apply nth_error_None in Es. apply nth_lt in Ev. lia.
  - apply nth_error_None in Ev. apply nth_lt in Es. lia.
  - exact I.
Qed.
Lemma ring_safe {k} (os : list (op k)) : all_sound [] os -> exists h vs, run_ops [] [] os = MOk (h, vs) /\ reads h vs (spec_ops [] os) /\ accounted h vs.
Proof. intros S. destruct (ops_ok os [] [] [] (inv_empty k) S) as (h & vs & E & In). exists h, vs. split; [exact E|]. split; [apply inv_reads; exact In|apply In]. Qed.

(** Nothing is left over. *)
Lemma spec_ops_app {k} (a b : list (op k)) st : spec_ops st (a ++ b) = spec_ops (spec_ops st a) b.
Proof. apply fold_left_app. Qed.
Lemma all_sound_app {k} (a b : list (op k)) : forall st, all_sound st (a ++ b) <-> all_sound st a /\ all_sound (spec_ops st a) b.
Proof. induction a as [|o a IH]; intros st; cbn [app all_sound spec_ops fold_left]; [tauto|]. rewrite IH. unfold spec_ops. tauto. Qed.
Lemma run_ops_app {k} (a b : list (op k)) : forall h vs, run_ops h vs (a ++ b) = mbind (run_ops h vs a) (fun '(h, vs) => run_ops h vs b).
Proof. induction a as [|o a IH]; intros h vs; cbn [app run_ops]; [reflexivity|]. destruct (call h vs o) as [[h1 vs1]|u]; cbn [mbind]; [apply IH|reflexivity]. Qed.
Lemma drop_spec {k} (st : contents k) i : spec_call st (ODrop i) = put_at i None st \/ (spec_call st (ODrop i) = st /\ forall p, nth_error st i <> Some (Some p)).
Proof. cbn [spec_call]. destruct (nth_error st i) as [[[kd d]|]|]; [now left|right; split; [reflexivity|discriminate]|right; split; [reflexivity|discriminate]]. Qed.
Lemma drops_sound {k} n : forall a (st : contents k), all_sound st (map ODrop (seq a n)).
Proof. induction n as [|n IH]; intros a st; cbn; [exact I|]. split; [exact I|apply IH]. Qed.
Lemma put_at_length {A} (x : A) : forall xs i, length (put_at i x xs) = length xs.
Proof. induction xs as [|y xs IH]; intros [|i]; cbn; auto. Qed.
Lemma drops_none {k} n : forall a (st : contents k), (forall i p, i < a -> nth_error st i <> Some (Some p)) ->
  length (spec_ops st (map ODrop (seq a n))) = length st /\ forall i p, i < a + n -> nth_error (spec_ops st (map ODrop (seq a n))) i <> Some (Some p).
Proof.
  induction n as [|n IH]; intros a st H; cbn [seq map spec_ops fold_left].
  - split; [reflexivity|]. intros i p Hi. apply H. lia.
  - assert (H' : forall i p, i < S a -> nth_error (spec_call st (ODrop a)) i <> Some (Some p)).
    { intros i p Hi. destruct (drop_spec st a) as [E|[E N]]; rewrite E.
      - rewrite put_at_set. destruct (Nat.eq_dec i a) as [->|Ne]; [|rewrite set_nth_other by congruence; apply H; lia].
        destruct (Nat.lt_ge_cases a (length st)) as [La|La]; [rewrite set_nth_same by exact La; discriminate|].
        rewrite (proj2 (nth_error_None _ _)) by (rewrite set_nth_length; exact La). discriminate.
      - destruct (Nat.eq_dec i a) as [->|Ne]; [apply N|apply H; lia]. }
    destruct (IH (S a) _ H') as [L N]. split; [|intros i p Hi; apply N; lia]. unfold spec_ops in L. rewrite L.
    destruct (drop_spec st a) as [E|[E _]]; rewrite E; [apply put_at_length|reflexivity].
Qed.
Lemma ring_all_freed {k} (os : list (op k)) : all_sound [] os ->
  exists h vs, run_ops [] [] (os ++ drop_all (length (spec_ops [] os))) = MOk (h, vs) /\ forall b, ~ live_at h b.
Proof.
  intros So. set (n := length (spec_ops [] os)).
  assert (S2 : all_sound [] (os ++ drop_all n)) by (apply all_sound_app; split; [exact So|apply drops_sound]).
  destruct (ops_ok _ [] [] [] (inv_empty k) S2) as (h & vs & E & In). exists h, vs. split; [exact E|]. intros b Hb.
  rewrite spec_ops_app in In. destruct In as (Ln & Vo & Ac & _). destruct (drops_none n 0 (spec_ops [] os) ltac:(intros; lia)) as [L N].
  apply Ac in Hb. destruct Hb as (i & v & Hv & Hh). destruct v as [[kd o]|]; [|exact Hh].
  assert (Li : i < n). { apply nth_lt in Hv. unfold drop_all in Ln. rewrite L in Ln. unfold n. lia. }
  destruct (nth_error (spec_ops (spec_ops [] os) (drop_all n)) i) as [s|] eqn:Es; [|apply nth_error_None in Es; apply nth_lt in Hv; lia].
  specialize (Vo i _ _ Hv Es). destruct s as [p|]; [|destruct Vo]. exact (N i p ltac:(lia) Es).
Qed.

(** Calls on other variables. *)
Lemma call_on_other {k} (h : mem k) vs i n x f : i <> n ->
  call_on h (set_nth vs i x) n f = mbind (call_on h vs n f) (fun '(h, vs) => MOk (h, set_nth vs i x)) /\
  forall h' vs', call_on h vs n f = MOk (h', vs') -> nth_error vs' i = nth_error vs i /\ length vs' = length vs.
Proof.
  intros N. unfold call_on. rewrite set_nth_other by exact N. destruct (nth_error vs n) as [[[kd v]|]|].
  - destruct (f kd v) as [[v' h']|u]; cbn [mbind]; split; try reflexivity; try discriminate.
    + rewrite set_nth_comm by congruence. reflexivity.
    + intros h2 vs2 X. injection X as <- <-. rewrite set_nth_other, set_nth_length by congruence. auto.
  - split; [reflexivity|]. intros h2 vs2 X. injection X as <- <-. auto.
  - split; [reflexivity|]. intros h2 vs2 X. injection X as <- <-. auto.
Qed.
Lemma call_other {k} (h : mem k) vs i x o : about i o = false -> i < length vs ->
  call h (set_nth vs i x) o = mbind (call h vs o) (fun '(h, vs) => MOk (h, set_nth vs i x)) /\
  forall h' vs', call h vs o = MOk (h', vs') -> nth_error vs' i = nth_error vs i /\ length vs <= length vs'.
Proof.
  intros Ab L. destruct o; cbn [about] in Ab; try apply Nat.eqb_neq in Ab.
  1,2: cbn [call]; match goal with |- context [box_of ?a ?b ?c ?d ?e] => destruct (box_of a b c d e) as [v h1] end; cbn [mbind]; split;
       [rewrite set_nth_app by exact L; reflexivity|intros h' vs' X; injection X as <- <-; rewrite nth_error_app1 by exact L; rewrite app_length; split; [reflexivity|lia]].
  all: match goal with |- call _ _ ?o = _ /\ _ => match type of Ab with _ <> ?n =>
         assert (F : exists f, forall vs, call h vs o = call_on h vs n f) by (eexists; intros ws; reflexivity); destruct F as [f F]; rewrite !F;
         destruct (call_on_other h vs i n x f Ab) as [A B]; split; [exact A|intros h' vs' X; destruct (B h' vs' X) as [B1 B2]; split; [exact B1|rewrite B2; exact (Nat.le_refl _)]] end end.
Qed.
Lemma dead_load {k} (h : mem k) b : b < length h -> ~ live_at h b -> area_at h (Some b) = MUb UseAfterFree.
Proof.
  intros L D. unfold area_at. unfold live_at in D. destruct (nth_error h b) as [a|] eqn:E; [|apply nth_error_None in E; lia]. destruct (a_live a); [contradiction D; reflexivity|reflexivity].
Qed.
Lemma others_ok {k} i v b os : forall (h : mem k) vs st, inv h (set_nth vs i None) st -> all_sound st os -> forallb (fun o => negb (about i o)) os = true ->
  nth_error vs i = Some (Some (KRaw, v)) -> o_ptr v = Some b -> b < length h -> ~ live_at h b ->
  exists h' vs', run_ops h vs os = MOk (h', vs') /\ nth_error vs' i = Some (Some (KRaw, v)) /\ b < length h' /\ ~ live_at h' b.
Proof.
  induction os as [|o os IH]; intros h vs st In So Fa Hv Pv Lb Db; cbn [run_ops].
  - exists h, vs. auto.
  - destruct So as [So Sr]. cbn [forallb] in Fa. apply andb_prop in Fa. destruct Fa as [Fo Fr]. apply Bool.negb_true_iff in Fo.
    destruct (call_ok h _ st o In So) as (h1 & vs1 & E & In1 & Lh & Fz). destruct (call_other h vs i None o Fo (nth_lt _ _ _ Hv)) as [C1 C2]. rewrite C1 in E.
    destruct (call h vs o) as [[h2 vs2]|u] eqn:Ec; cbn [mbind] in E; [|discriminate]. injection E as -> <-. cbn [mbind].
    destruct (C2 _ _ eq_refl) as [C3 C4]. apply (IH h1 vs2 _ In1 Sr Fr); [congruence|exact Pv|lia|]. intros X. apply Db, Fz; assumption.
Qed.
Lemma raw_capacity_eq l k n : raw_capacity l k n = n * nchan l.
Proof.
  unfold raw_capacity, frame_size. destruct k; cbn [chan_size]; rewrite ?Nat.mul_1_r, ?Nat.div_1_r; try reflexivity.
  all: rewrite Nat.mul_assoc, Nat.div_mul by lia; reflexivity.
Qed.
Lemma ring_into_raw {k} (os rest : list (op k)) i l d c : all_sound [] os -> nth_error (spec_ops [] os) i = Some (Some (KAudio l, d)) -> d <> [] ->
  forallb (fun o => negb (about i o)) rest = true -> all_sound (put_at i None (spec_ops [] os)) rest ->
  exists h vs, run_ops [] [] (os ++ OIntoRaw i c :: rest) = MOk (h, vs) /\ call h vs (ODrop i) = MUb DoubleFree /\
  (forall j, j < length d -> call h vs (OLoad i j) = MUb UseAfterFree) /\ (forall j x, j < length d -> call h vs (OStore i j x) = MUb UseAfterFree).
Proof.
  intros So Hs Nd Fa Sr. destruct (ops_ok os [] [] [] (inv_empty k) So) as (h & vs & E & In).
  assert (exists v, nth_error vs i = Some v) as [v0 Hv] by (destruct (nth_error vs i) eqn:X; [eauto|apply nth_error_None in X; apply nth_lt in Hs; destruct In; lia]).
  pose proof (proj1 (proj2 In) i _ _ Hv Hs) as Vo. destruct v0 as [[kd v]|]; [|destruct Vo]. destruct Vo as (-> & Ow & Sh). cbn in Sh.
  rewrite run_ops_app, E. cbn [mbind run_ops call]. rewrite Hv. unfold m_into_raw. destruct (to_vec_ok h v d c Ow) as (o1 & h1 & E1 & O1 & M1 & W1 & L1 & H1). rewrite E1. cbn [mbind].
  destruct (release_ok h1 o1 d O1) as (h2 & R & M2). rewrite R. cbn [mbind].
  assert (Ln : o_len o1 * o_width o1 = length d) by (destruct O1; lia). rewrite raw_capacity_eq, <- Sh, <- W1, Ln.
  assert (Nz : length d <> 0) by (destruct d; [contradiction|discriminate]).
  assert (exists b, o_ptr o1 = Some b /\ uses o1 b /\ live_at h1 b) as (b & Pb & Ub & Lb).
  { pose proof O1 as [(_ & Lc & _ & _ & A) _]. destruct A as [A|(b & a & P & Na & V & _)]; [nia|]. exists b. split; [exact P|]. split; [split; [exact P|nia]|]. unfold live_at. rewrite Na. exact V. }
  set (r := mkOwn (o_ptr o1) 1 (length d) 0 (length d)).
  assert (In2 : inv h2 (set_nth (set_nth vs i (Some (KRaw, r))) i None) (put_at i None (spec_ops [] os))).
  { rewrite set_nth_twice. apply (inv_step h h2 vs _ i (Some (KAudio l, v)) None None In Hv); [|exact I]. exact (moved_trans h h1 h2 _ _ _ M1 M2). }
  assert (Lb1 : b < length h1). { unfold live_at in Lb. destruct (nth_error h1 b) eqn:X; [exact (nth_lt _ _ _ X)|destruct Lb]. }
  assert (Db2 : ~ live_at h2 b). { intros X. destruct M2 as (_ & _ & V & _). destruct (V b X) as [[]|[_ Y]]. exact (Y Ub). }
  destruct (others_ok i r b rest h2 _ _ In2 Sr Fa) as (h3 & vs3 & E3 & Hv3 & Lb3 & Db3); try assumption.
  { apply set_nth_same. exact (nth_lt _ _ _ Hv). }
  { destruct M2. lia. }
  exists h3, vs3. split; [exact E3|]. pose proof (dead_load h3 b Lb3 Db3) as Dl. cbn [call]. rewrite Hv3.
  assert (Pr : o_ptr r = Some b) by exact Pb. split; [|split].
  - unfold release, mfree. cbn [o_cap o_width r]. rewrite Nat.mul_1_r. destruct (Nat.eqb_spec (length d) 0); [contradiction|]. fold r. rewrite Pr, Dl. reflexivity.
  - intros j Hj. cbn [o_len o_width r]. rewrite Nat.mul_1_r. destruct (Nat.ltb_spec j (length d)); [|lia]. unfold load, mload. fold r. rewrite Pr, Dl. reflexivity.
  - intros j x Hj. cbn [o_len o_width r]. rewrite Nat.mul_1_r. destruct (Nat.ltb_spec j (length d)); [|lia]. unfold store, mstore. fold r. rewrite Pr, Dl. reflexivity.
Qed.

(** Freed memory stays freed whatever is called. *)
Lemma frozen_trans {k} (h h1 h2 : mem k) : frozen h h1 -> frozen h1 h2 -> frozen h h2.
Proof. intros [A B] [C D]. split; [lia|]. intros b L H. apply B; [exact L|]. apply D; [lia|exact H]. Qed.
Lemma area_at_ok {k} (h : mem k) p b a : area_at h p = MOk (b, a) -> p = Some b /\ nth_error h b = Some a /\ a_live a = true.
Proof. unfold area_at. destruct p as [b'|]; [|discriminate]. destruct (nth_error h b') as [a'|] eqn:E; [|discriminate]. destruct (a_live a') eqn:V; [|discriminate]. intros X. injection X as <- <-. auto. Qed.
Lemma frozen_set {k} (h : mem k) b a a' : nth_error h b = Some a -> a_live a = true -> frozen h (set_nth h b a').
Proof.
  intros N V. split; [rewrite set_nth_length; lia|]. intros b' L H. unfold live_at in *. destruct (Nat.eq_dec b' b) as [->|Ne]; [rewrite N; exact V|].
  rewrite set_nth_other in H by congruence. exact H.
Qed.
Lemma frozen_malloc {k} (h : mem k) al cells p h' : malloc h al cells = (p, h') -> frozen h h'.
Proof.
  unfold malloc. destruct cells as [|c cells]; intros X; injection X as <- <-; [apply frozen_id|]. split; [rewrite app_length; lia|]. intros b L H.
  unfold live_at in *. rewrite nth_error_app1 in H by exact L. exact H.
Qed.
Lemma frozen_free {k} (h : mem k) p n al h' : mfree h p n al = MOk h' -> frozen h h'.
Proof.
  unfold mfree. destruct (Nat.eqb n 0); [intros X; injection X as <-; apply frozen_id|]. destruct (area_at h p) as [[b a]|u] eqn:E; [|destruct u; discriminate].
  destruct (_ && _); [|discriminate]. intros X. injection X as <-. apply area_at_ok in E. destruct E as (_ & N & V). exact (frozen_set h b a _ N V).
Qed.
Lemma frozen_store {k} (h : mem k) o j c h' : store h o j c = MOk h' -> frozen h h'.
Proof.
  unfold store, mstore. destruct (area_at h (o_ptr o)) as [[b a]|u] eqn:E; cbn [mbind]; [|discriminate]. destruct (Nat.ltb _ _); [|discriminate]. intros X. injection X as <-.
  apply area_at_ok in E. destruct E as (_ & N & V). exact (frozen_set h b a _ N V).
Qed.
Lemma frozen_store_from {k} cs : forall (h : mem k) o j h', store_from h o j cs = MOk h' -> frozen h h'.
Proof.
  induction cs as [|c cs IH]; intros h o j h' X; cbn [store_from] in X; [injection X as <-; apply frozen_id|].
  destruct (store h o j c) as [h1|u] eqn:E; cbn [mbind] in X; [|discriminate]. exact (frozen_trans _ _ _ (frozen_store _ _ _ _ _ E) (IH _ _ _ _ X)).
Qed.
Definition calm {k A} (h : mem k) (m : mres (A * mem k)) : Prop := forall a h', m = MOk (a, h') -> frozen h h'.
Lemma calm_ok {k A} (h : mem k) (a : A) : calm h (MOk (a, h)).
Proof. intros a' h' X. injection X as <- <-. apply frozen_id. Qed.
Lemma calm_bind {k A B} (h : mem k) (m : mres (A * mem k)) (f : A -> mem k -> mres (B * mem k)) : calm h m -> (forall a h1, calm h1 (f a h1)) -> calm h (mbind m (fun '(a, h) => f a h)).
Proof. intros C F b h' X. destruct m as [[a h1]|u]; cbn [mbind] in X; [|discriminate]. exact (frozen_trans _ _ _ (C a h1 eq_refl) (F a h1 b h' X)). Qed.
Lemma calm_release {k} {A} (h : mem k) o (f : mem k -> mres (A * mem k)) : (forall h1, calm h1 (f h1)) -> calm h (mbind (release k h o) f).
Proof. intros F b h' X. destruct (release k h o) as [h1|u] eqn:E; cbn [mbind] in X; [|discriminate]. exact (frozen_trans _ _ _ (frozen_free _ _ _ _ _ E) (F h1 b h' X)). Qed.
Lemma calm_rearrange {k} (h : mem k) o n : calm h (rearrange h o n).
Proof.
  unfold rearrange. destruct (Nat.eqb _ 0); [apply calm_ok|]. intros v h' X. destruct (load_all h o) as [d|u]; cbn [mbind] in X; [|discriminate].
  destruct (area_at h (o_ptr o)) as [[b a]|u] eqn:E; cbn [mbind] in X; [|discriminate]. injection X as <- <-. apply area_at_ok in E. destruct E as (_ & N & V). exact (frozen_set h b a _ N V).
Qed.
Lemma calm_relocate {k} (h : mem k) o n : calm h (relocate h o n).
Proof.
  unfold relocate. intros v h' X. destruct (load_all h o) as [d|u]; cbn [mbind] in X; [|discriminate].
  destruct (malloc h (chan_size k) (laid_out n (o_width o) 0 d)) as [p h1] eqn:E. apply frozen_malloc in E.
  exact (frozen_trans _ _ _ E (calm_release h1 o _ (fun h2 => calm_ok h2 _) v h' X)).
Qed.
Lemma calm_to_vec {k} (h : mem k) o c : calm h (to_vec h o c).
Proof. destruct c; [apply calm_relocate|apply calm_rearrange]. Qed.
Lemma calm_to_box {k} (h : mem k) o : calm h (to_box h o).
Proof. unfold to_box. destruct (Nat.eqb _ _); [apply calm_ok|apply calm_relocate]. Qed.
Lemma calm_to_ring {k} (h : mem k) o c : calm h (to_ring h o c).
Proof. destruct c; [apply calm_relocate|apply calm_ok]. Qed.
Lemma calm_store_from {k} {A} (h : mem k) o j cs (a : A) : calm h (mbind (store_from h o j cs) (fun h => MOk (a, h))).
Proof. intros v h' X. destruct (store_from h o j cs) as [h1|u] eqn:E; cbn [mbind] in X; [|discriminate]. injection X as <- <-. exact (frozen_store_from _ _ _ _ _ E). Qed.
Lemma calm_store {k} {A} (h : mem k) o j c (a : A) : calm h (mbind (store h o j c) (fun h => MOk (a, h))).
Proof. intros v h' X. destruct (store h o j c) as [h1|u] eqn:E; cbn [mbind] in X; [|discriminate]. injection X as <- <-. exact (frozen_store _ _ _ _ _ E). Qed.
Lemma calm_grow {k} (h : mem k) o n fill c : calm h (grow h o n fill c).
Proof.
  unfold grow. apply (calm_bind h _ (fun o h => _)).
  - destruct (Nat.leb _ _); [apply calm_ok|apply calm_relocate].
  - intros a h1. apply calm_store_from.
Qed.
Lemma calm_with_frames {k} (h : mem k) o c : calm h (m_with_frames h o c).
Proof. unfold m_with_frames. apply (calm_bind h _ (fun o h => to_ring h o c)); [apply calm_to_box|intros; apply calm_to_ring]. Qed.
Lemma calm_extend {k} (h : mem k) o n d c1 c2 c3 c4 : calm h (m_extend h o n d c1 c2 c3 c4).
Proof.
  unfold m_extend. apply (calm_bind h _ (fun o h => _)); [apply calm_to_vec|intros o1 h1]. apply (calm_bind h1 _ (fun o h => _)); [apply calm_to_box|intros o2 h2].
  apply (calm_bind h2 _ (fun o h => _)); [apply calm_grow|intros o3 h3]. apply (calm_bind h3 _ (fun o h => _)); [apply calm_with_frames|intros o4 h4].
  apply (calm_bind h4 _ (fun o h => _)); [apply calm_rearrange|intros o5 h5]. apply calm_store_from.
Qed.
Lemma calm_buffer l k (h : mem k) o c : calm h (m_with_buffer l k h o c).
Proof.
  unfold m_with_buffer. destruct (Nat.eqb _ _).
  - apply (calm_bind h _ (fun o h => MOk (Some o, h))); [apply calm_to_ring|intros; apply calm_ok].
  - apply calm_release. intros; apply calm_ok.
Qed.
Lemma calm_frames {k} (h : mem k) o b c : calm h (m_into_frames h o b c).
Proof. unfold m_into_frames. apply (calm_bind h _ (fun o h => if b then to_box h o else MOk (o, h))); [apply calm_to_vec|]. intros; destruct b; [apply calm_to_box|apply calm_ok]. Qed.
Lemma calm_raw l k (h : mem k) o c : calm h (m_into_raw l k h o c).
Proof. unfold m_into_raw. apply (calm_bind h _ (fun o h => _)); [apply calm_to_vec|]. intros o1 h1. apply calm_release. intros; apply calm_ok. Qed.
Lemma calm_load {k} {A} (h : mem k) o j (a : A) : calm h (mbind (load h o j) (fun _ => MOk (a, h))).
Proof. intros v h' X. destruct (load h o j); cbn [mbind] in X; [|discriminate]. injection X as <- <-. apply frozen_id. Qed.
Lemma calm_on {k} (h : mem k) vs i f h' vs' : (forall kd v, calm h (f kd v)) -> call_on h vs i f = MOk (h', vs') -> frozen h h'.
Proof.
  intros C. unfold call_on. destruct (nth_error vs i) as [[[kd v]|]|]; try (intros X; injection X as <- <-; apply frozen_id).
  destruct (f kd v) as [[v1 h1]|u] eqn:E; cbn [mbind]; [|discriminate]. intros X. injection X as <- <-. exact (C kd v _ _ E).
Qed.
Lemma calm_then {k} (h : mem k) (m : mres (own * mem k)) kd : calm h m -> calm h (mbind m (fun '(v, h) => MOk (Some (kd, v) : option (kind * own), h))).
Proof. intros C. apply (calm_bind h m (fun v h => MOk (Some (kd, v), h)) C). intros; apply calm_ok. Qed.
Lemma call_frozen {k} (h : mem k) vs o h' vs' : call h vs o = MOk (h', vs') -> frozen h h'.
Proof.
  destruct o as [data|l fs|i l c|i c|i j|i j x|i head|i n|i l fs c1 c2 c3 c4|i|i box c|i c|i]; cbn [call].
  1,2: unfold box_of; match goal with |- context [malloc ?a ?b ?c] => destruct (malloc a b c) as [p h1] eqn:E end; intros X; injection X as <- <-; exact (frozen_malloc _ _ _ _ _ E).
  all: intros X; refine (calm_on h vs _ _ h' vs' _ X); intros kd v.
  - destruct kd; try apply calm_ok. apply (calm_bind h _ (fun v h => match v with Some v => MOk (Some (KAudio l, v), h) | None => MOk (None, h) end)); [apply calm_buffer|]. intros [o1|] h1; apply calm_ok.
  - destruct kd; try apply calm_ok. apply calm_then, calm_with_frames.
  - destruct (Nat.ltb _ _); [apply calm_load|apply calm_ok].
  - destruct (Nat.ltb _ _); [apply calm_store|apply calm_ok].
  - destruct kd; try apply calm_ok. apply calm_then, calm_rearrange.
  - destruct kd; apply calm_ok.
  - destruct kd; try apply calm_ok. destruct (layout_eqb _ _); [|apply calm_ok]. apply calm_then, calm_extend.
  - destruct kd; try apply calm_ok. apply calm_release. intros; apply calm_ok.
  - destruct kd; try apply calm_ok. apply calm_then, calm_frames.
  - destruct kd; try apply calm_ok. apply calm_then, calm_raw.
  - apply calm_release. intros; apply calm_ok.
Qed.

(** A variable whose memory was freed cannot be dropped, whatever happens before. *)
Definition gone {k} (h : mem k) (vs : vars) (i : nat) : Prop :=
  exists kd v b, nth_error vs i = Some (Some (kd, v)) /\ (kd = KRaw -> o_len v = o_cap v /\ o_width v = 1) /\ o_cap v * o_width v <> 0 /\
  o_ptr v = Some b /\ b < length h /\ ~ live_at h b.
Definition dead {k} (h : mem k) (v : own) : Prop := o_cap v * o_width v <> 0 /\ exists b, o_ptr v = Some b /\ b < length h /\ ~ live_at h b.
Lemma dead_release {k} (h : mem k) v : dead h v -> release k h v = MUb DoubleFree.
Proof. intros (Z & b & P & L & D). unfold release, mfree. destruct (Nat.eqb_spec (o_cap v * o_width v) 0); [contradiction|]. rewrite P, dead_load by assumption. reflexivity. Qed.
Lemma dead_rearrange {k} (h : mem k) v n : dead h v -> exists u, rearrange h v n = MUb u.
Proof.
  intros (Z & b & P & L & D). unfold rearrange. destruct (Nat.eqb_spec (o_cap v * o_width v) 0); [contradiction|]. destruct (load_all h v) as [d|u]; cbn [mbind]; [|eauto].
  rewrite P, dead_load by assumption. cbn. eauto.
Qed.
Lemma dead_frozen {k} (h h' : mem k) v : dead h v -> frozen h h' -> dead h' v.
Proof. intros (Z & b & P & L & D) [Fl Fz]. split; [exact Z|]. exists b. split; [exact P|]. split; [lia|]. intros X. apply D, Fz; assumption. Qed.
Lemma dead_relocate {k} (h : mem k) v n : dead h v -> exists u, relocate h v n = MUb u.
Proof.
  intros Dv. unfold relocate. destruct (load_all h v) as [d|u]; cbn [mbind]; [|eauto]. destruct (malloc h (chan_size k) (laid_out n (o_width v) 0 d)) as [p h1] eqn:E.
  rewrite dead_release; [cbn; eauto|]. exact (dead_frozen _ _ _ Dv (frozen_malloc _ _ _ _ _ E)).
Qed.
Lemma dead_to_vec {k} (h : mem k) v c : dead h v -> exists u, to_vec h v c = MUb u.
Proof. intros D. destruct c; [apply dead_relocate|apply dead_rearrange]; exact D. Qed.
Lemma gone_dead {k} (h : mem k) vs i : gone h vs i <-> exists kd v, nth_error vs i = Some (Some (kd, v)) /\ (kd = KRaw -> o_len v = o_cap v /\ o_width v = 1) /\ dead h v.
Proof.
  split.
  - intros (kd & v & b & A & B & C & D & E & F). exists kd, v. split; [exact A|]. split; [exact B|]. split; [exact C|]. exists b. auto.
  - intros (kd & v & A & B & C & b & D & E & F). exists kd, v, b. tauto.
Qed.
Lemma gone_call {k} (h : mem k) vs i o : gone h vs i -> (exists u, call h vs o = MUb u) \/ (o <> ODrop i /\ exists h' vs', call h vs o = MOk (h', vs') /\ gone h' vs' i).
Proof.
  intros G. destruct (about i o) eqn:Ab.
  - apply gone_dead in G. destruct G as (kd & v & Hv & Kr & D). pose proof (nth_lt _ _ _ Hv) as Li.
    assert (K : forall kd', (kd' = KRaw -> kd = KRaw) -> gone h (set_nth vs i (Some (kd', v))) i).
    { intros kd' Hk. apply gone_dead. exists kd', v. split; [apply set_nth_same; exact Li|]. split; [intros X; apply Kr, Hk, X|exact D]. }
    assert (Same : o <> ODrop i -> call h vs o = MOk (h, set_nth vs i (Some (kd, v))) -> (exists u, call h vs o = MUb u) \/ (o <> ODrop i /\ exists h' vs', call h vs o = MOk (h', vs') /\ gone h' vs' i)).
    { intros No E. right. split; [exact No|]. exists h, (set_nth vs i (Some (kd, v))). split; [exact E|]. apply K. auto. }
    destruct o as [data|l fs|n l c|n c|n j|n j x|n head|n m|n l fs c1 c2 c3 c4|n|n box c|n c|n]; cbn [about] in Ab; try discriminate; apply Nat.eqb_eq in Ab; subst n.
    + destruct kd as [|l'|l']; [|apply Same; [discriminate|cbn [call]; rewrite Hv; reflexivity]..]. destruct (Kr eq_refl) as [Lc W1].
      assert (Cs : 0 < chan_size k) by (destruct k; cbn; lia). pose proof (nchan_pos l) as Np. destruct D as (Z & D). rewrite W1, Nat.mul_1_r in Z.
      cbn [call]. rewrite Hv. unfold m_with_buffer, frame_size. rewrite Nat.mul_mod_distr_r by lia. rewrite Nat.div_mul_cancel_r by lia.
      destruct (Nat.eqb_spec 0 (o_len v mod nchan l * chan_size k)) as [E|E].
      * assert (E0 : o_len v mod nchan l = 0) by nia. pose proof (Nat.div_mod (o_len v) (nchan l) ltac:(lia)) as DM. set (q := o_len v / nchan l) in *.
        set (v1 := mkOwn (o_ptr v) (nchan l) q 0 q). assert (D1 : dead h v1). { split; [cbn; nia|exact D]. }
        destruct c as [c|]; cbn [to_ring].
        -- left. destruct (dead_relocate h v1 (Nat.max c (o_len v1)) D1) as [u Eu]. rewrite Eu. cbn. eauto.
        -- right. split; [discriminate|]. cbn [mbind]. eexists _, _. split; [reflexivity|]. apply gone_dead. exists (KAudio l), v1. split; [apply set_nth_same; exact Li|]. split; [discriminate|exact D1].
      * left. rewrite dead_release; [cbn; eauto|]. split; [lia|exact D].
    + destruct kd as [|l'|l']; try (apply Same; [discriminate|cbn [call]; rewrite Hv; reflexivity]).
      cbn [call]. rewrite Hv. unfold m_with_frames, to_box. destruct (Nat.eqb (o_cap v) (o_len v)); cbn [mbind].
      * destruct c as [c|]; cbn [to_ring].
        -- left. destruct (dead_relocate h v (Nat.max c (o_len v)) D) as [u Eu]. rewrite Eu. cbn. eauto.
        -- right. split; [discriminate|]. cbn [mbind]. eexists _, _. split; [reflexivity|]. apply K. discriminate.
      * left. destruct (dead_relocate h v (o_len v) D) as [u Eu]. rewrite Eu. cbn. eauto.
    + cbn [call]. rewrite Hv. destruct (Nat.ltb j _) eqn:Ej; [|apply Same in Ej || (right; split; [discriminate|]; eexists _, _; split; [reflexivity|apply K; auto])].
      left. destruct D as (Z & b & P & L & Db). unfold load, mload. rewrite P, dead_load by assumption. cbn. eauto.
    + cbn [call]. rewrite Hv. destruct (Nat.ltb j _) eqn:Ej; [|right; split; [discriminate|]; eexists _, _; split; [reflexivity|apply K; auto]].
      left. destruct D as (Z & b & P & L & Db). unfold store, mstore. rewrite P, dead_load by assumption. cbn. eauto.
    + destruct kd as [|l'|l']; try (apply Same; [discriminate|cbn [call]; rewrite Hv; reflexivity]).
      left. cbn [call]. rewrite Hv. unfold contiguous. destruct (dead_rearrange h v (Nat.min head (o_cap v - o_len v)) D) as [u Eu]. rewrite Eu. cbn. eauto.
    + destruct kd as [|l'|l']; try (apply Same; [discriminate|cbn [call]; rewrite Hv; reflexivity]).
      right. split; [discriminate|]. cbn [call]. rewrite Hv. cbn [mbind]. eexists _, _. split; [reflexivity|]. apply gone_dead. eexists _, _. split; [apply set_nth_same; exact Li|]. split; [discriminate|exact D].
    + destruct kd as [|l'|l']; try (apply Same; [discriminate|cbn [call]; rewrite Hv; reflexivity]).
      cbn [call]. rewrite Hv. destruct (layout_eqb l l') eqn:El; [|right; split; [discriminate|]; eexists _, _; split; [reflexivity|apply K; auto]].
      left. unfold m_extend. destruct (dead_to_vec h v c1 D) as [u Eu]. rewrite Eu. cbn. eauto.
    + destruct kd as [|l'|l']; try (apply Same; [discriminate|cbn [call]; rewrite Hv; reflexivity]).
      left. cbn [call]. rewrite Hv. rewrite dead_release by exact D. cbn. eauto.
    + destruct kd as [|l'|l']; try (apply Same; [discriminate|cbn [call]; rewrite Hv; reflexivity]).
      left. cbn [call]. rewrite Hv. unfold m_into_frames. destruct (dead_to_vec h v c D) as [u Eu]. rewrite Eu. cbn. eauto.
    + destruct kd as [|l'|l']; try (apply Same; [discriminate|cbn [call]; rewrite Hv; reflexivity]).
      left. cbn [call]. rewrite Hv. unfold m_into_raw. destruct (dead_to_vec h v c D) as [u Eu]. rewrite Eu. cbn. eauto.
    + left. cbn [call]. rewrite Hv. rewrite dead_release by exact D. cbn. eauto.
  - assert (No : o <> ODrop i) by (intros ->; cbn in Ab; rewrite Nat.eqb_refl in Ab; discriminate).
    apply gone_dead in G. destruct G as (kd & v & Hv & Kr & D). destruct (call_other h vs i None o Ab (nth_lt _ _ _ Hv)) as [_ C2].
    destruct (call h vs o) as [[h' vs']|u] eqn:E; [|left; eauto]. right. split; [exact No|]. exists h', vs'. split; [reflexivity|].
    apply gone_dead. exists kd, v. split; [rewrite (proj1 (C2 _ _ eq_refl)); exact Hv|]. split; [exact Kr|]. exact (dead_frozen _ _ _ D (call_frozen _ _ _ _ _ E)).
Qed.
Lemma gone_run {k} i os : forall (h : mem k) vs, gone h vs i -> List.In (ODrop i) os -> exists u, run_ops h vs os = MUb u.
Proof.
  induction os as [|o os IH]; intros h vs G Hi; [destruct Hi|]. cbn [run_ops]. destruct (gone_call h vs i o G) as [[u E]|(No & h' & vs' & E & G')]; rewrite E; cbn [mbind]; [eauto|].
  apply IH; [exact G'|]. destruct Hi as [Hi|Hi]; [congruence|exact Hi].
Qed.
Lemma into_raw_gone {k} (os : list (op k)) i l d c : all_sound [] os -> nth_error (spec_ops [] os) i = Some (Some (KAudio l, d)) -> d <> [] ->
  exists h vs, run_ops [] [] (os ++ [OIntoRaw i c]) = MOk (h, vs) /\ gone h vs i.
Proof.
  intros So Hs Nd. destruct (ops_ok os [] [] [] (inv_empty k) So) as (h & vs & E & In).
  assert (exists v, nth_error vs i = Some v) as [v0 Hv] by (destruct (nth_error vs i) eqn:X; [eauto|apply nth_error_None in X; apply nth_lt in Hs; destruct In; lia]).
  pose proof (proj1 (proj2 In) i _ _ Hv Hs) as Vo. destruct v0 as [[kd v]|]; [|destruct Vo]. destruct Vo as (-> & Ow & Sh). cbn in Sh.
  rewrite run_ops_app, E. cbn [mbind run_ops call]. rewrite Hv. unfold m_into_raw. destruct (to_vec_ok h v d c Ow) as (o1 & h1 & E1 & O1 & M1 & W1 & L1 & H1). rewrite E1. cbn [mbind].
  destruct (release_ok h1 o1 d O1) as (h2 & R & M2). rewrite R. cbn [mbind].
  assert (Ln : o_len o1 * o_width o1 = length d) by (destruct O1; lia). rewrite raw_capacity_eq, <- Sh, <- W1, Ln.
  assert (Nz : length d <> 0) by (destruct d; [contradiction|discriminate]). eexists _, _. split; [reflexivity|].
  assert (exists b, o_ptr o1 = Some b /\ uses o1 b) as (b & Pb & Ub).
  { pose proof O1 as [(_ & Lc & _ & _ & A) _]. destruct A as [A|(b & a & P & Na & V & _)]; [nia|]. exists b. split; [exact P|]. split; [exact P|nia]. }
  destruct (owns_live h1 o1 d b O1 Ub) as [_ Lb]. exists KRaw, (mkOwn (o_ptr o1) 1 (length d) 0 (length d)), b. cbn [o_len o_cap o_width o_ptr].
  split; [apply set_nth_same; exact (nth_lt _ _ _ Hv)|]. split; [auto|]. split; [lia|]. split; [exact Pb|]. split; [destruct M2; lia|].
  intros X. destruct M2 as (_ & _ & V & _). destruct (V b X) as [[]|[_ Y]]. exact (Y Ub).
Qed.
Lemma first_unsound {k} (os : list (op k)) : forall st, all_sound st os \/
  exists a i c b l d, os = a ++ OIntoRaw i c :: b /\ all_sound st a /\ nth_error (spec_ops st a) i = Some (Some (KAudio l, d)) /\ d <> [].
Proof.
  induction os as [|o os IH]; intros st; [left; exact I|].
  assert (So : sound st o \/ exists i c l d, o = OIntoRaw i c /\ nth_error st i = Some (Some (KAudio l, d)) /\ d <> []).
  { destruct o; try (left; exact I). cbn [sound]. destruct (nth_error st i) as [[[[|l|l] d]|]|] eqn:E; try (left; exact I). destruct d as [|x d]; [left; reflexivity|right].
    eexists _, _, _, _. split; [reflexivity|]. split; [exact E|discriminate]. }
  destruct So as [So|(i & c & l & d & -> & E & N)].
  - destruct (IH (spec_call st o)) as [A|(a & i & c & b & l & d & -> & A & E & N)]; [left; split; assumption|right].
    exists (o :: a), i, c, b, l, d. split; [reflexivity|]. split; [split; assumption|]. split; assumption.
  - right. exists [], i, c, os, l, d. split; [reflexivity|]. split; [exact I|]. split; assumption.
Qed.
Lemma spec_ops_length {k} (os : list (op k)) : forall st, length st <= length (spec_ops st os).
Proof.
  induction os as [|o os IH]; intros st; cbn [spec_ops fold_left]; [lia|]. etransitivity; [|apply (IH (spec_call st o))].
  destruct o; cbn [spec_call]; rewrite ?app_length; try lia; destruct (nth_error st i) as [[[kd d]|]|]; rewrite ?put_at_length; lia.
Qed.
Lemma ring_safe_iff {k} (os : list (op k)) : (exists h vs, run_ops [] [] (os ++ drop_all (length (spec_ops [] os))) = MOk (h, vs)) <-> all_sound [] os.
Proof.
  split.
  - intros (h & vs & E). destruct (first_unsound os []) as [A|(a & i & c & b & l & d & -> & A & Hs & N)]; [exact A|exfalso].
    destruct (into_raw_gone a i l d c A Hs N) as (h1 & vs1 & E1 & G). set (n := length (spec_ops [] (a ++ OIntoRaw i c :: b))) in *.
    assert (Li : i < n). { unfold n. rewrite spec_ops_app. apply nth_lt in Hs. pose proof (spec_ops_length (OIntoRaw i c :: b) (spec_ops [] a)). lia. }
    replace ((a ++ OIntoRaw i c :: b) ++ drop_all n) with ((a ++ [OIntoRaw i c]) ++ (b ++ drop_all n)) in E by (rewrite <- !app_assoc; reflexivity).
    rewrite run_ops_app, E1 in E. cbn [mbind] in E. destruct (gone_run i (b ++ drop_all n) h1 vs1 G) as [u Eu]; [|congruence].
    apply in_or_app. right. unfold drop_all. apply in_map, in_seq. lia.
  - intros A. destruct (ring_all_freed os A) as (h & vs & E & _). eauto.
Qed.
