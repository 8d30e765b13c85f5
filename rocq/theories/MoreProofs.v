(** * MoreProofs.v -- values of extended buffers, interchangeable sources (C57 - C59) *)
From Coq Require Import ZArith NArith Reals List Lia Bool Lra.
From Flocq Require Import Core.Core IEEE754.BinarySingleNaN.
From Verif Require Import Rust Float Math Chan Frame Ops Stream Audio Heap SpecChan SpecFrame SpecStream SpecSink SpecAudio SpecMore.
From Verif Require Import FloatProofs FloorProofs FArithProofs StreamProofs SinkProofs PlaceProofs SinkMore SinkTerm AudioProofs DrainProofs ResampleProofs WholeProofs.
Import ListNotations.
Open Scope Z_scope.

(** ** A stream call has one result *)
Lemma ws_unique l k (a : frame l k) r x y : weighted_sum a r x -> weighted_sum a r y -> x = y.
Proof. intros A B. rewrite (ws_fun _ _ _ A). symmetry. exact (ws_fun _ _ _ B). Qed.
Lemma nth_ext_eq {A} (xs ys : list A) : length xs = length ys -> (forall p x y, nth_error xs p = Some x -> nth_error ys p = Some y -> x = y) -> xs = ys.
Proof.
  revert ys. induction xs as [|x xs IH]; destruct ys as [|y ys]; intros L H; try discriminate; [reflexivity|].
  f_equal; [exact (H 0%nat x y eq_refl eq_refl)|]. apply IH; [now injection L|]. intros p. exact (H (S p)).
Qed.
Lemma streamed_fun l k (sk a b : sink l k) ratio e fs n : 0 <= e -> streamed sk ratio e fs n a -> streamed sk ratio e fs n b -> a = b.
Proof.
  intros He A B. assert (Bf : sk_buf a = sk_buf b).
  { apply nth_ext_eq; [now rewrite (st_length _ _ _ _ _ _ A), (st_length _ _ _ _ _ _ B)|]. intros p x y Hx Hy.
    destruct (Z.lt_ge_cases (Z.of_nat p) e) as [L|L].
    - exact (ws_unique _ _ _ _ _ _ (st_covered _ _ _ _ _ _ A p x L Hx) (st_covered _ _ _ _ _ _ B p y L Hy)).
    - destruct p as [|p].
      + assert (E0 : e = 0) by lia.
        destruct (nth_error (sk_buf sk) 0) as [z|] eqn:Ez.
        * rewrite (st_first _ _ _ _ _ _ A E0 z Ez) in Hx. rewrite (st_first _ _ _ _ _ _ B E0 z Ez) in Hy. congruence.
        * apply nth_error_None in Ez. rewrite <- (st_length _ _ _ _ _ _ A) in Ez. apply nth_error_None in Ez. congruence.
      + rewrite (st_rest _ _ _ _ _ _ A (S p) L ltac:(lia)) in Hx. rewrite (st_rest _ _ _ _ _ _ B (S p) L ltac:(lia)) in Hy. congruence. }
  pose proof (st_rate _ _ _ _ _ _ A) as Ra. pose proof (st_rate _ _ _ _ _ _ B) as Rb.
  pose proof (ws_unique _ _ _ _ _ _ (st_frame _ _ _ _ _ _ A) (st_frame _ _ _ _ _ _ B)) as Fr.
  pose proof (st_index _ _ _ _ _ _ A) as Ia. pose proof (st_index _ _ _ _ _ _ B) as Ib.
  destruct a as [ra ba [pa oa]], b as [rb bb [pb ob]]. cbn in *. unfold resampler_index in *. cbn in *. congruence.
Qed.

(** ** Interchangeable sources (C58) *)
Lemma negotiated_back l k ls ks (sk : sink l k) (s s' : stream ls ks) ratio : negotiated sk s ratio s' ->
  (forall fs t', pulls s' fs t' -> starts s fs) /\ (forall fs, yields s' fs -> yields s fs).
Proof.
  intros [(r & E & _ & ->)|(E & _ & Hs)].
  - split; [intros fs t P; exists t; exact P|auto].
  - split.
    + intros fs t' P. destruct (set_rate_pulls_inv _ _ _ _ _ _ _ Hs P) as (t & Pt & _). exists t. exact Pt.
    + intros fs (t' & u' & P & Nx). destruct (set_rate_pulls_inv _ _ _ _ _ _ _ Hs P) as (t & Pt & St).
      pose proof (set_rate_next _ _ _ _ _ St) as N. destruct (next t) as [[o u]|p|] eqn:En; try congruence.
      destruct N as (w & Ew & _). assert (o = None) by congruence. subst o. exists t, u. split; assumption.
Qed.
Lemma sink_follows l k l1 k1 l2 k2 fuel (sk sk' : sink l k) (s1 it1 : stream l1 k1) (s2 : stream l2 k2) :
  sink_stream fuel sk s1 = Ok (sk', it1) -> sample_rate s2 = sample_rate s1 -> slen s2 = slen s1 ->
  (sample_rate s1 = None -> configurable s1 -> configurable s2) -> follows l k s1 s2 -> exists it2, sink_stream fuel sk s2 = Ok (sk', it2).
Proof.
  intros H Er El Ec [Fs Fy].
  destruct (stream_backward _ _ _ _ _ _ _ _ _ H) as (ratio & s1' & srcs & fs & n & Ng & Rd & Cv & St & Hf).
  destruct (negotiated_ratio _ _ _ _ _ _ _ _ Ng) as (Rt & L1 & Sk). destruct (negotiated_back _ _ _ _ _ _ _ _ Ng) as [Bs By].
  assert (Sk2 : sinkable s2). { destruct Sk as [X|X]; [left; now rewrite Er|].
    destruct (sample_rate s1) eqn:E1; [left; rewrite Er; discriminate|right; auto]. }
  destruct (sinkable_negotiated _ _ _ _ sk s2 Sk2) as (s2' & Ng2 & L2 & Y2 & S2). rewrite Er, <- Rt in Ng2.
  assert (E : covered ratio (slen s2') (length (sk_buf sk)) = covered ratio (slen s1') (length (sk_buf sk))) by now rewrite L1, L2, El.
  set (e := covered ratio (slen s1') (length (sk_buf sk))) in *.
  assert (exists ys it2, converted ys fs /\ length ys = length srcs /\ reads s2' ratio (resampler_index (sk_res sk)) e ys n it2) as (ys & it2 & Cy & Ly & R2).
  { destruct Rd as (Lt & [(P & Ge & En)|(t & P & Nx & Lx & En)]).
    - destruct (Fs srcs (Bs _ _ P)) as (ys & gs & Sy & C1 & C2). pose proof (converted_fun _ _ _ _ _ _ _ Cv C1) as <-.
      assert (Ly : length ys = length srcs) by (rewrite <- (converted_length _ _ _ _ _ _ C2), <- (converted_length _ _ _ _ _ _ C1); reflexivity).
      destruct (S2 _ Sy) as (it2 & Py). exists ys, it2. split; [exact C2|]. split; [exact Ly|]. split; rewrite Ly; [exact Lt|]. left.
      split; [exact Py|]. split; [exact Ge|exact En].
    - destruct (Fy srcs (By _ (ex_intro _ t (ex_intro _ it1 (conj P Nx))))) as (ys & gs & Sy & C1 & C2).
      pose proof (converted_fun _ _ _ _ _ _ _ Cv C1) as <-.
      assert (Ly : length ys = length srcs) by (rewrite <- (converted_length _ _ _ _ _ _ C2), <- (converted_length _ _ _ _ _ _ C1); reflexivity).
      destruct (Y2 _ Sy) as (t2 & it2 & Py & Ny). exists ys, it2. split; [exact C2|]. split; [exact Ly|]. split; rewrite Ly; [exact Lt|]. right.
      exists t2. split; [exact Py|]. split; [exact Ny|]. split; [exact Lx|]. rewrite L2, El, <- L1. exact En. }
  rewrite <- E in R2. destruct (stream_forward _ _ _ _ _ _ _ _ _ _ _ _ Ng2 R2 Cy) as (sk2 & St2 & Run). rewrite E in St2.
  exists it2. rewrite (streamed_fun _ _ _ _ _ _ _ _ _ (proj1 (covered_bounds _ _ _)) St St2). apply Run. lia.
Qed.
Lemma extend_follows l k l1 k1 l2 k2 fuel (a a' : audio l k) (s1 it1 : stream l1 k1) (s2 : stream l2 k2) :
  extend fuel a s1 = (a', Ok it1) -> sample_rate s2 = sample_rate s1 -> slen s2 = slen s1 ->
  (sample_rate s1 = None -> configurable s1 -> configurable s2) -> follows l k s1 s2 -> exists it2, extend fuel a s2 = (a', Ok it2).
Proof.
  intros H Er El Ec F. pose proof (extend_ok_inv _ _ _ _ _ _ _ _ _ H) as Hi.
  destruct (extend_appends _ _ _ _ _ _ _ _ _ H) as (n & _ & L1 & _).
  set (d := frames_for (s_rate a) (sample_rate s1) n).
  destruct (Z_le_gt_dec ((Z.of_nat (length (frames a)) + d) * bytes_per_frame l k) (2 ^ 63 - 1)) as [Al|Na].
  2:{ destruct (extend_too_long l k l1 k1 fuel a s1 n L1) as (p & E & _); [unfold allocatable; fold d; lia|]. congruence. }
  rewrite (extend_internal_eq l k l1 k1 fuel a s1 n L1 Al) in Hi.
  destruct (sink_stream fuel (tail_sink l k (s_rate a) (frames_for (s_rate a) (sample_rate s1) n)) s1) as [[sk it]| |] eqn:Es; try discriminate.
  cbn [bind] in Hi. destruct (flush sk) as [sk'| |] eqn:Ef; try discriminate. cbn [bind] in Hi. injection Hi as Ha Hit.
  rewrite <- Er in Es. rewrite Er in Es. destruct (sink_follows _ _ _ _ _ _ _ _ _ _ _ s2 Es Er El Ec F) as (it2 & E2).
  exists it2. unfold extend. rewrite (extend_internal_eq l k l2 k2 fuel a s2 n); [|congruence|rewrite Er; exact Al].
  rewrite Er, E2. cbn [bind]. rewrite Ef. cbn [bind]. rewrite Ha. reflexivity.
Qed.
(** A stream and the buffer of its frames. *)
Lemma follows_audio l k l1 k1 (s : stream l1 k1) r all : yields s all -> follows l k s (SAudio r all) /\ follows l k (SAudio r all) s.
Proof.
  intros (t & u & P & Nx). 
  assert (X : forall xs t', pulls s xs t' -> exists rest, all = xs ++ rest).
  { intros xs t' Px. destruct (Nat.le_gt_cases (length xs) (length all)) as [L|L].
    - exists (skipn (length xs) all). rewrite <- (firstn_skipn (length xs) all) at 1. f_equal.
      destruct (pulls_firstn _ _ _ _ _ (length xs) P) as (t2 & P2). apply (pulls_det _ _ _ _ _ _ _ P2 Px). rewrite firstn_length. lia.
    - destruct (pulls_next _ _ _ _ _ _ Px L) as (t2 & f & t3 & P2 & N2).
      destruct (pulls_det _ _ _ _ _ _ _ P P2) as [_ ->]; [rewrite firstn_length; lia|]. congruence. }
  split; split.
  - intros xs (t' & Px). destruct (X _ _ Px) as (rest & ->). destruct (converted_ex l k l1 k1 xs) as (fs & C).
    exists xs, fs. split; [exists (SAudio r rest); apply audio_pulls|auto].
  - intros xs Y. pose proof (yields_det _ _ _ _ _ Y (ex_intro _ t (ex_intro _ u (conj P Nx)))) as ->.
    destruct (converted_ex l k l1 k1 all) as (fs & C). exists all, fs. split; [apply audio_yields|auto].
  - intros xs (t' & Px). destruct (converted_ex l k l1 k1 xs) as (fs & C). exists xs, fs. split; [|auto].
    assert (L : (length xs <= length all)%nat).
    { destruct (Nat.le_gt_cases (length xs) (length all)) as [L|L]; [exact L|].
      destruct (pulls_next _ _ _ _ _ _ Px L) as (t2 & f & t3 & P2 & N2).
      destruct (audio_yields _ _ r all) as (t4 & t5 & P4 & N4).
      destruct (pulls_det _ _ _ _ _ _ _ P4 P2) as [_ ->]; [rewrite firstn_length; lia|]. congruence. }
    destruct (audio_yields _ _ r all) as (t4 & t5 & P4 & N4). destruct (pulls_firstn _ _ _ _ _ (length xs) P4) as (t6 & P6).
    destruct (pulls_det _ _ _ _ _ _ _ P6 Px) as [<- _]; [rewrite firstn_length; lia|]. exact (pulls_firstn _ _ _ _ _ _ P).
  - intros xs Y. pose proof (yields_det _ _ _ _ _ Y (audio_yields _ _ r all)) as ->.
    destruct (converted_ex l k l1 k1 all) as (fs & C). exists all, fs. split; [exists t, u; auto|auto].
Qed.

(** ** Values (C57, C59) *)
Lemma converted_firstn l k ls ks n : forall (xs : list (frame ls ks)) (fs : list (frame l k)), converted xs fs -> converted (firstn n xs) (firstn n fs).
Proof. unfold converted. induction n; intros xs fs H; [constructor|]. inversion H; subst; cbn; constructor; auto. Qed.
Lemma extend_values l k ls ks (a a' : audio l k) (s it : stream ls ks) n all (fs : list (frame l k)) :
  sinkable s -> honest s -> slen s = Some n -> yields s all -> converted all fs ->
  extend (S (N.to_nat n)) a s = (a', Ok it) ->
  let d := frames_for (s_rate a) (sample_rate s) n in
  let ratio := ratio_for (s_rate a) (sample_rate s) in
  let e := Z.min (floor_index (fmul ratio (fofZ (Z.of_N n)))) d in
  exists m, (m <= N.to_nat n)%nat /\ leaves ratio e m /\
    (exists s', (s' = s \/ set_sample_rate s (s_rate a) = Ok s') /\ pulls s' (firstn m all) it) /\
    forall p b, nth_error (frames a') (length (frames a) + p) = Some b -> appended ratio e m fs p b.
Proof.
  intros Hs Hh Hl Ya Cv H d ratio e. pose proof (extend_ok_inv _ _ _ _ _ _ _ _ _ H) as Hi.
  destruct (frames_for_bounds (s_rate a) (sample_rate s) n) as [Bd _]. fold d in Bd.
  destruct (Z_le_gt_dec ((Z.of_nat (length (frames a)) + d) * bytes_per_frame l k) (2 ^ 63 - 1)) as [Al|Na].
  2:{ destruct (extend_too_long l k ls ks (S (N.to_nat n)) a s n Hl) as (p & E & _); [unfold allocatable; fold d; lia|]. congruence. }
  rewrite (extend_internal_eq l k ls ks _ a s n Hl Al) in Hi. fold d in Hi.
  destruct (tail_outcome l k ls ks s (s_rate a) n d Hs Hh Hl Bd) as (m & sk1 & it1 & s' & srcs & gs & Hm & Lv & R & Ng & P & Ls & Cs & St & Ix).
  fold ratio in Lv, Ng, St, Ix. fold e in Lv, St. rewrite R in Hi. cbn [bind] in Hi.
  destruct (flush sk1) as [sk2| |] eqn:Ef; try discriminate. cbn [bind] in Hi. injection Hi as Ha Hit. subst it1 a'.
  assert (Ys : yields s' all).
  { destruct Ng as [(r & _ & _ & ->)|(_ & _ & X)]; [exact Ya|exact (set_rate_yields _ _ _ _ _ _ X Ya)]. }
  assert (Sm : srcs = firstn m all).
  { destruct Ys as (t & u & Pt & _). destruct (pulls_firstn _ _ _ _ _ m Pt) as (t2 & P2).
    apply (pulls_det _ _ _ _ _ _ _ P P2). rewrite firstn_length. pose proof (yields_count _ _ _ _ _ Hh Hl Ya). lia. }
  subst srcs. pose proof (converted_fun _ _ _ _ _ _ _ Cs (converted_firstn _ _ _ _ m _ _ Cv)) as ->.
  exists m. split; [exact Hm|]. split; [exact Lv|]. split.
  { exists s'. split; [|exact P]. destruct Ng as [(r & _ & _ & ->)|(_ & _ & X)]; [left; reflexivity|right; exact X]. }
  intros p b Hb. cbn [frames] in Hb. rewrite nth_error_app2 in Hb by lia. replace (length (frames a) + p - length (frames a))%nat with p in Hb by lia.
  destruct (flush_spec l k sk1) as (F1 & F2 & _). rewrite Ix in F1, F2.
  assert (Lb : Z.of_nat (length (sk_buf sk1)) = d).
  { rewrite (st_length _ _ _ _ _ _ St). cbn [tail_sink sk_buf]. rewrite repeat_length. lia. }
  rewrite Lb in F2.
  assert (Pd : Z.of_nat p < d).
  { rewrite <- Lb. destruct (flush_length _ _ _ _ Ef) as [<- _]. apply inj_lt. apply nth_error_Some. congruence. }
  assert (Old : forall x, nth_error (sk_buf sk1) p = Some x -> 
    (Z.of_nat p < e -> weighted_sum (frame_default l k) (contributions (Z.of_nat p) ratio (flit 0 0) 0 (firstn m fs)) x) /\
    (e <= Z.of_nat p -> x = frame_default l k)).
  { intros x Hx. split; [intros L; exact (st_covered _ _ _ _ _ _ St p x L Hx)|]. intros L.
    pose proof (tail_nth l k (s_rate a) d p ltac:(lia)) as T0.
    destruct p as [|p].
    - assert (E0 : e = 0). { assert (0 <= e); [|lia]. unfold e. apply Z.min_glb; [apply floor_index_bounds|exact Bd]. }
      rewrite (st_first _ _ _ _ _ _ St E0 _ T0) in Hx. injection Hx as <-.
      change (resampler_frame (sk_res (tail_sink l k (s_rate a) d))) with (frame_default l k). apply default_add_frame.
    - rewrite (st_rest _ _ _ _ _ _ St (S p) L ltac:(lia)) in Hx. rewrite T0 in Hx. congruence. }
  set (index := place ratio (flit 0 0) m) in *. unfold appended. fold index.
  destruct Lv as [Lv1 Lv2]. fold index in Lv2.
  destruct (Rle_or_lt (Rabs (frac index)) (bpow radix2 (-52))) as [Sm|Bg].
  - rewrite (F1 Sm) in Ef. injection Ef as <-. destruct (Old b Hb) as [O1 O2]. split; [exact O1|]. split; [intros; lra|]. intros L _. exact (O2 L).
  - destruct (nth_lt_some (sk_buf sk1) p) as (x & Hx); [lia|].
    destruct (Z.lt_ge_cases (floor_index index) d) as [Lt|Ge].
    2:{ destruct (flush_spec l k sk1) as (_ & _ & F3). rewrite Ix, Lb in F3. rewrite (F3 Bg Ge) in Ef. discriminate. }
    destruct (F2 Bg Lt) as (sk3 & E3 & _ & _ & _ & At & Off). assert (sk3 = sk2) by congruence. subst sk3.
    split; [|split].
    + intros L. rewrite (Off p ltac:(lia)) in Hb. exact (proj1 (Old b Hb) L).
    + intros _ Pi _. replace (Z.to_nat (floor_index index)) with p in At by lia. assert (b = resampler_frame (sk_res sk1)) by congruence. subst b.
      exact (st_frame _ _ _ _ _ _ St).
    + intros L [Ne|Sm]; [|lra]. rewrite (Off p Ne) in Hb. exact (proj2 (Old b Hb) L).
Qed.

(** Draining into another buffer. *)
Lemma extend_drain l k lb kb (a a' : audio l k) (b : audio lb kb) it :
  let n := N.of_nat (length (frames b)) in
  extend (S (length (frames b))) a (audio_drain b) = (a', Ok it) ->
  let d := frames_for (s_rate a) (Some (s_rate b)) n in
  let ratio := fdiv (s_rate a) (s_rate b) in
  exists m, leaves ratio (Z.min (floor_index (fmul ratio (fofZ (Z.of_N n)))) d) m /\
    drop_stream it = [pack (mkAudio (s_rate b) (skipn m (frames b)))].
Proof.
  intros n H d ratio. destruct (converted_ex l k lb kb (frames b)) as (fs & Cv).
  assert (Y : yields (audio_drain b) (frames b)) by (unfold audio_drain; rewrite <- (skipn_O (frames b)) at 2; apply drain_yields; lia).
  assert (Hl : slen (audio_drain b) = Some n). { unfold n, audio_drain. cbn [slen]. f_equal. }
  replace (S (length (frames b))) with (S (N.to_nat n)) in H by (unfold n; lia).
  assert (Ho : honest (audio_drain b)) by (apply well_formed_honest; reflexivity).
  assert (Hs : sinkable (audio_drain b)) by (left; discriminate).
  destruct (extend_values l k lb kb a a' (audio_drain b) it n (frames b) fs Hs Ho Hl Y Cv H) as (m & Hm & Lv & (s' & [->|Sr] & P) & _).
  - exists m. split; [exact Lv|]. destruct (drain_dropped _ _ _ _ _ P) as (_ & _ & D). rewrite D. repeat f_equal.
    rewrite firstn_length. rewrite Nat.min_l; [reflexivity|]. unfold n in Hm. lia.
  - discriminate Sr.
Qed.

(** ** Locality (C57) *)
Lemma contributions_local {l k} p ratio off : forall (fs gs : list (frame l k)) i, length fs = length gs ->
  (forall j, (j < length fs)%nat -> floor_index (place ratio off (i + j)) = p \/ ceil_index (place ratio off (i + j)) = p -> nth_error fs j = nth_error gs j) ->
  contributions p ratio off i fs = contributions p ratio off i gs.
Proof.
  induction fs as [|f fs IH]; intros [|g gs] i L H; try discriminate; [reflexivity|]. cbn [contributions].
  rewrite (IH gs (S i)); [|now injection L|].
  2:{ intros j Hj Hp. apply (H (S j)); [cbn; lia|]. replace (i + S j)%nat with (S i + j)%nat by lia. exact Hp. }
  specialize (H 0%nat ltac:(cbn; lia)). rewrite Nat.add_0_r in H.
  destruct (Z.eqb_spec (floor_index (place ratio off i)) p) as [E1|E1].
  - assert (f = g) by (specialize (H (or_introl E1)); cbn in H; congruence). subst g. reflexivity.
  - destruct (Z.eqb_spec (ceil_index (place ratio off i)) p) as [E2|E2]; [|reflexivity].
    assert (f = g) by (specialize (H (or_intror E2)); cbn in H; congruence). subst g. reflexivity.
Qed.
Lemma overhang_local {l k} e ratio off : forall (fs gs : list (frame l k)) i, length fs = length gs ->
  (forall j, (j < length fs)%nat -> e <= ceil_index (place ratio off (i + j)) -> nth_error fs j = nth_error gs j) ->
  overhang e ratio off i fs = overhang e ratio off i gs.
Proof.
  induction fs as [|f fs IH]; intros [|g gs] i L H; try discriminate; [reflexivity|]. cbn [overhang].
  rewrite (IH gs (S i)); [|now injection L|].
  2:{ intros j Hj Hp. apply (H (S j)); [cbn; lia|]. replace (i + S j)%nat with (S i + j)%nat by lia. exact Hp. }
  specialize (H 0%nat ltac:(cbn; lia)). rewrite Nat.add_0_r in H.
  destruct (Z.leb_spec e (ceil_index (place ratio off i))) as [E|E]; [|reflexivity].
  specialize (H E). cbn in H. injection H as <-. reflexivity.
Qed.

Section Near.
Context (rate src : f64) (R S : Z).
Hypothesis HR : whole_rate rate R.
Hypothesis HS : whole_rate src S.
Hypothesis S51 : (S <= 2 ^ 51)%Z.
Notation ratio := (fdiv rate src).

Lemma near p i : (R * Z.of_nat i <= 2 ^ 51) -> floor_index (place ratio (flit 0 0) i) = p \/ ceil_index (place ratio (flit 0 0) i) = p ->
  Z.abs (R * Z.of_nat i - S * p) <= S.
Proof.
  intros Hi Hp. pose proof HR as (_ & _ & BR). pose proof HS as (_ & _ & BS).
  assert (Hi' : Z.of_nat i <= 2 ^ 51) by nia.
  pose proof (place_err rate src R S HR HS S51 i Hi) as E. apply Rabs_le_inv in E.
  destruct (place_val rate src R S HR HS S51 i) as (_ & F & _); [lia|].
  pose proof (place_mono rate src R S HR HS S51 i i (le_n _) ltac:(lia)) as [P0 _].
  set (x := place ratio (flit 0 0) i) in *.
  pose proof (Spos src S HS S51) as Q. assert (IS : (0 < / IZR S)%R) by (apply Rinv_0_lt_compat; lra).
  assert (IS1 : (IZR S * / IZR S = 1)%R) by (apply Rinv_r; lra).
  assert (Xl : (IZR (R * Z.of_nat i) / IZR S <= IZR (2 ^ 51))%R).
  { apply Rle_trans with (IZR (R * Z.of_nat i)); [apply quot_le; [apply IZR_le; nia|lra]|apply IZR_le; exact Hi]. }
  assert (T34 : (3 / 4 / IZR S <= 3 / 4)%R) by (apply quot_le; lra).
  pose proof (Zfloor_lb (B2R x)) as Lb. pose proof (Zfloor_ub (B2R x)) as Ub.
  set (z := Zfloor (B2R x)) in *.
  assert (Z0 : 0 <= z). { unfold z. apply Zfloor_lub. exact P0. }
  assert (Z1 : z <= 2 ^ 52).
  { apply le_IZR. apply Rle_trans with (1 := Lb). apply Rle_trans with (IZR (2 ^ 51) + 1)%R; [lra|].
    change (IZR (2 ^ 51)) with 2251799813685248%R. change (IZR (2 ^ 52)) with 4503599627370496%R. lra. }
  destruct (floor_index_nonneg x z F) as [Fi _]; [lia|rewrite plus_IZR; lra|].
  destruct (ceil_index_bounds x) as [Cb _]. rewrite Fi in Hp, Cb.
  assert (Pz : p = z \/ p = z + 1) by lia.
  assert (Px : (IZR p - 1 <= B2R x <= IZR p + 1)%R).
  { destruct Pz as [->| ->]; [lra|rewrite plus_IZR; lra]. }
  assert (G : (- (IZR S + 3 / 4) <= IZR (R * Z.of_nat i) - IZR S * IZR p <= IZR S + 3 / 4)%R).
  { pose (A := IZR (R * Z.of_nat i)). pose (B := (A * / IZR S)%R). pose (C := (3 / 4 * / IZR S)%R).
    assert (EB : (- C <= B2R x - B <= C)%R) by exact E.
    assert (HB : (B * IZR S = A)%R) by (unfold B; rewrite Rmult_assoc, (Rmult_comm (/ IZR S)), IS1; lra).
    assert (HC : (C * IZR S = 3 / 4)%R) by (unfold C; rewrite Rmult_assoc, (Rmult_comm (/ IZR S)), IS1; lra).
    change (IZR (R * Z.of_nat i)) with A. clearbody A B C.
    assert (D : (- (1 + C) <= B - IZR p <= 1 + C)%R) by lra. clear - HB HC D Q. split; nra. }
  apply Z.abs_le. rewrite <- mult_IZR, <- minus_IZR in G. split.
  - apply Z.lt_succ_r. unfold Z.succ. apply lt_IZR. rewrite plus_IZR, opp_IZR. lra.
  - apply Z.lt_succ_r. unfold Z.succ. apply lt_IZR. rewrite plus_IZR. lra.
Qed.
Lemma covered_nearly n : R * Z.of_N n <= 2 ^ 51 ->
  (R * Z.of_N n + S - 1) / S - 1 <= floor_index (fmul ratio (fofZ (Z.of_N n))).
Proof.
  intros Hn. pose proof HR as (_ & _ & BR). pose proof HS as (_ & _ & BS).
  assert (NN : Z.of_nat (N.to_nat n) = Z.of_N n) by lia. assert (Hn' : Z.of_N n <= 2 ^ 51) by nia.
  pose proof (place_err rate src R S HR HS S51 (N.to_nat n) ltac:(lia)) as E. 
  destruct (place_val rate src R S HR HS S51 (N.to_nat n)) as (_ & _ & V & F); [lia|]. rewrite NN in E, V, F.
  rewrite <- V in E. apply Rabs_le_inv in E.
  pose proof (place_mono rate src R S HR HS S51 (N.to_nat n) (N.to_nat n) (le_n _) ltac:(lia)) as [P0 _]. rewrite <- V in P0.
  set (y := fmul ratio (fofZ (Z.of_N n))) in *.
  pose proof (Spos src S HS S51) as Q. assert (IS : (0 < / IZR S)%R) by (apply Rinv_0_lt_compat; lra).
  assert (IS1 : (IZR S * / IZR S = 1)%R) by (apply Rinv_r; lra).
  set (A := R * Z.of_N n) in *. pose proof (Z.div_mod (A + S - 1) S ltac:(lia)) as DM. pose proof (Z.mod_pos_bound (A + S - 1) S ltac:(lia)) as MB.
  set (d := (A + S - 1) / S) in *.
  assert (HA : 0 <= A) by (unfold A; nia). assert (D0 : 0 <= d) by (apply Z.div_pos; lia).
  rewrite floor_index_finite by exact F.
  assert (L : d - 1 <= Ztrunc (B2R y)).
  { rewrite Ztrunc_floor by exact P0. apply Zfloor_lub.
    assert (IZR (S * (d - 1)) <= IZR A - 1)%R by (rewrite <- minus_IZR; apply IZR_le; lia).
    rewrite mult_IZR in H. unfold Rdiv in E.
    assert (IZR (d - 1) = IZR S * IZR (d - 1) * / IZR S)%R by (rewrite (Rmult_comm (IZR S)), Rmult_assoc, IS1, Rmult_1_r; reflexivity).
    rewrite H0. nra. }
  assert (d <= 2 ^ 51) by nia. 
  unfold clampZ. destruct (Z.ltb_spec (Ztrunc (B2R y)) 0); [lia|]. destruct (Z.ltb_spec (2 ^ 64 - 1) (Ztrunc (B2R y))); lia.
Qed.
End Near.

Lemma firstn_nth {A} m (xs : list A) j : (j < m)%nat -> nth_error (firstn m xs) j = nth_error xs j.
Proof. exact (nth_error_firstn_lt m xs j). Qed.
Lemma converted_nth_none l k ls ks (xs : list (frame ls ks)) (fs : list (frame l k)) i : converted xs fs -> nth_error xs i = None -> nth_error fs i = None.
Proof. intros C H. apply nth_error_None. rewrite (converted_length _ _ _ _ _ _ C). now apply nth_error_None. Qed.
Lemma converted_nth_eq l k ls ks (xs ys : list (frame ls ks)) (fs gs : list (frame l k)) i : converted xs fs -> converted ys gs ->
  nth_error xs i = nth_error ys i -> nth_error fs i = nth_error gs i.
Proof.
  intros C1 C2 E. destruct (nth_error xs i) as [x|] eqn:Ex.
  - destruct (converted_nth _ _ _ _ _ _ _ _ C1 Ex) as (f & Hf & Cf). destruct (converted_nth _ _ _ _ _ _ _ _ C2 (eq_sym E)) as (g & Hg & Cg). congruence.
  - rewrite (converted_nth_none _ _ _ _ _ _ _ C1 Ex), (converted_nth_none _ _ _ _ _ _ _ C2 (eq_sym E)). reflexivity.
Qed.
Lemma extend_local l k ls ks (a a1 a2 : audio l k) (s1 s2 it1 it2 : stream ls ks) n all1 all2 src R S p :
  sample_rate s1 = Some src -> sample_rate s2 = Some src -> whole_rate src S -> whole_rate (s_rate a) R ->
  S <= 2 ^ 51 -> R * Z.of_N n <= 2 ^ 51 -> honest s1 -> honest s2 -> slen s1 = Some n -> slen s2 = Some n ->
  yields s1 all1 -> yields s2 all2 ->
  extend (Datatypes.S (N.to_nat n)) a s1 = (a1, Ok it1) -> extend (Datatypes.S (N.to_nat n)) a s2 = (a2, Ok it2) ->
  (forall i, Z.abs (R * Z.of_nat i - S * Z.of_nat p) <= S -> nth_error all1 i = nth_error all2 i) ->
  audio_get a1 (audio_len a + p) = audio_get a2 (audio_len a + p).
Proof.
  intros Er1 Er2 HS HR S51 Hn Ho1 Ho2 Hl1 Hl2 Y1 Y2 H1 H2 Ag.
  destruct (converted_ex l k ls ks all1) as (fs & C1). destruct (converted_ex l k ls ks all2) as (gs & C2).
  assert (Sk1 : sinkable s1) by (left; rewrite Er1; discriminate). assert (Sk2 : sinkable s2) by (left; rewrite Er2; discriminate).
  destruct (extend_values l k ls ks a a1 s1 it1 n all1 fs Sk1 Ho1 Hl1 Y1 C1 H1) as (m & Hm & Lv & _ & V1).
  destruct (extend_values l k ls ks a a2 s2 it2 n all2 gs Sk2 Ho2 Hl2 Y2 C2 H2) as (m2 & _ & Lv2 & _ & V2).
  rewrite Er1 in Lv, V1. rewrite Er2 in Lv2, V2. cbn [ratio_for] in *.
  rewrite (frames_for_exact _ _ R S HR HS S51 n Hn) in Lv, Lv2, V1, V2.
  set (ratio := fdiv (s_rate a) src) in *. set (d := (R * Z.of_N n + S - 1) / S) in *.
  pose proof (covered_nearly _ _ R S HR HS S51 n Hn) as Cn. fold ratio in Cn. fold d in Cn.
  set (e := Z.min _ d) in *. assert (He : d - 1 <= e <= d) by (unfold e; lia).
  pose proof (leaves_unique _ _ _ _ Lv Lv2) as <-. clear Lv2.
  destruct (extend_appends _ _ _ _ _ _ _ _ _ H1) as (n1 & add1 & En1 & F1 & _ & L1).
  destruct (extend_appends _ _ _ _ _ _ _ _ _ H2) as (n2 & add2 & En2 & F2 & _ & L2).
  assert (n1 = n) by congruence. assert (n2 = n) by congruence. subst n1 n2.
  rewrite Er1 in L1. rewrite Er2 in L2. rewrite (frames_for_exact _ _ R S HR HS S51 n Hn) in L1, L2. fold d in L1, L2.
  unfold audio_get, audio_len. specialize (V1 p). specialize (V2 p).
  destruct (nth_error (frames a1) (length (frames a) + p)) as [x|] eqn:Ex.
  2:{ apply nth_error_None in Ex. symmetry. apply nth_error_None. rewrite F1, app_length in Ex. rewrite F2, app_length. lia. }
  assert (Pd : Z.of_nat p < d).
  { assert (length (frames a) + p < length (frames a1))%nat by (apply nth_error_Some; congruence). rewrite F1, app_length in H. lia. }
  destruct (nth_lt_some (frames a2) (length (frames a) + p)) as (y & Ey); [rewrite F2, app_length; lia|]. rewrite Ey.
  specialize (V1 x eq_refl). specialize (V2 y Ey). f_equal.
  destruct V1 as (A1 & A2 & A3), V2 as (B1 & B2 & B3).
  assert (Lm : length (firstn m fs) = length (firstn m gs)).
  { rewrite !firstn_length, (converted_length _ _ _ _ _ _ C1), (converted_length _ _ _ _ _ _ C2).
    rewrite (yields_count _ _ _ _ _ Ho1 Hl1 Y1), (yields_count _ _ _ _ _ Ho2 Hl2 Y2). reflexivity. }
  assert (Nj : forall j q, (j < length (firstn m fs))%nat -> q = Z.of_nat p ->
     floor_index (place ratio (flit 0 0) j) = q \/ ceil_index (place ratio (flit 0 0) j) = q -> nth_error (firstn m fs) j = nth_error (firstn m gs) j).
  { intros j q Hj -> Hq. rewrite firstn_length in Hj. rewrite !firstn_nth by lia. apply (converted_nth_eq _ _ _ _ _ _ _ _ _ C1 C2). apply Ag.
    apply (near _ _ R S HR HS S51); [|exact Hq]. assert (0 < R) by apply HR. nia. }
  destruct (Z.lt_ge_cases (Z.of_nat p) e) as [L|L].
  - specialize (A1 L). specialize (B1 L).
    rewrite (contributions_local (Z.of_nat p) ratio (flit 0 0) (firstn m fs) (firstn m gs) 0 Lm) in A1.
    + exact (ws_unique _ _ _ _ _ _ A1 B1).
    + intros j Hj Hq. exact (Nj j _ Hj eq_refl Hq).
  - assert (Pe : Z.of_nat p = e) by lia.
    set (index := place ratio (flit 0 0) m) in *.
    destruct (Z.eq_dec (Z.of_nat p) (floor_index index)) as [Pi|Pi].
    + destruct (Rle_or_lt (Rabs (frac index)) (bpow radix2 (-52))) as [Sm|Bg].
      * rewrite (A3 L (or_intror Sm)), (B3 L (or_intror Sm)). reflexivity.
      * specialize (A2 L Pi Bg). specialize (B2 L Pi Bg).
        rewrite (overhang_local e ratio (flit 0 0) (firstn m fs) (firstn m gs) 0 Lm) in A2.
        -- exact (ws_unique _ _ _ _ _ _ A2 B2).
        -- intros j Hj Hq. cbn [Nat.add] in Hq. destruct Lv as [Lv _]. rewrite firstn_length in Hj. specialize (Lv j ltac:(lia)).
           destruct (ceil_index_bounds (place ratio (flit 0 0) j)) as [Cb _].
           apply (Nj j e); [rewrite firstn_length; exact Hj|lia|right; lia].
    + rewrite (A3 L (or_introl Pi)), (B3 L (or_introl Pi)). reflexivity.
Qed.
