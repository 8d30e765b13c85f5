(** * WordProofs.v -- targets of any pointer width *)
From Coq Require Import ZArith NArith Reals List Lia Bool Lra.
From Flocq Require Import Core.Core IEEE754.BinarySingleNaN.
From Verif Require Import Rust Float Math Chan Frame Ops Stream Audio Heap Word SpecChan SpecFrame SpecStream SpecSink SpecAudio SpecWord.
From Verif Require Import FloatProofs FloorProofs FArithProofs StreamProofs SinkProofs PlaceProofs SinkTerm SinkMore AudioProofs.
Import ListNotations.
Open Scope Z_scope.

Lemma umax_eq t : t_umax t = umax t.
Proof. unfold umax, bits, t_umax. now destruct (t_pointer t). Qed.
Lemma imax_eq t : t_imax t = imax t.
Proof. unfold imax, bits, t_imax. now destruct (t_pointer t). Qed.
Lemma umax_bounds t : 65535 <= umax t <= 2 ^ 64 - 1.
Proof. rewrite <- umax_eq. unfold t_umax. destruct (t_pointer t); lia. Qed.
Lemma imax_umax t : umax t = 2 * imax t + 1.
Proof. rewrite <- umax_eq, <- imax_eq. unfold t_umax, t_imax. now destruct (t_pointer t). Qed.

Lemma w_floor t j : w_as_usize t j = Z.min (umax t) (floor_index j).
Proof.
  unfold w_as_usize. rewrite umax_eq. pose proof (umax_bounds t) as B. destruct j as [s|s| |s m e H].
  - cbn [fcast floor_index B2R]. rewrite (Ztrunc_IZR 0), clampZ_maxmin; lia.
  - cbn [fcast floor_index]. destruct s; lia.
  - cbn [fcast floor_index]. lia.
  - rewrite (fcast_finite 53 1024) by (try reflexivity; lia).
    cbn [floor_index]. rewrite clampZ_maxmin by lia. lia.
Qed.
Lemma floor_trunc j : (bpow radix2 (-52) < frac j)%R -> floor_index j = Ztrunc (B2R j).
Proof.
  intros L. destruct (frac_small j L) as [Hs F]. destruct j; try discriminate; cbn [floor_index]; rewrite clampZ_maxmin by lia; lia.
Qed.
Definition isbeyond (t : target) (j : f64) : bool := flt eps64 (frem1 j) && (umax t <=? floor_index j).
Lemma isbeyond_iff t j : isbeyond t j = true <-> beyond t j.
Proof.
  unfold isbeyond, beyond. rewrite andb_true_iff, flt_eps_frac, Z.leb_le.
  split; intros [A B]; split; auto; rewrite (floor_trunc j A) in *; exact B.
Qed.
Lemma w_ceil t j : w_ceil_usize t j =
  if isbeyond t j then (if t_checks t then Panic ArithOverflow else Ok 0)
  else Ok (if ceil_index j =? floor_index j then Z.min (umax t) (floor_index j) else ceil_index j).
Proof.
  unfold w_ceil_usize, isbeyond. rewrite w_floor. pose proof (flt_eps_frac j) as H. pose proof (umax_bounds t) as B.
  pose proof (floor_index_bounds j) as FB.
  destruct (flt eps64 (frem1 j)) eqn:E.
  - assert (L := proj1 H eq_refl). unfold ceil_index. destruct (Rlt_dec (bpow radix2 (-52)) (frac j)) as [_|N]; [|contradiction].
    unfold w_add. rewrite umax_eq. cbn [andb]. destruct (Z.leb_spec (umax t) (floor_index j)).
    + destruct (Z.leb_spec (Z.min (umax t) (floor_index j) + 1) (umax t)); [lia|].
      destruct (t_checks t); [reflexivity|]. f_equal. rewrite Z.min_l by lia. apply Z_mod_same_full.
    + rewrite Z.min_r by lia. destruct (Z.leb_spec (floor_index j + 1) (umax t)); [|lia].
      destruct (Z.eqb_spec (floor_index j + 1) (floor_index j)); [lia|]. reflexivity.
  - cbn [andb]. unfold ceil_index. destruct (Rlt_dec (bpow radix2 (-52)) (frac j)) as [L|N].
    + apply H in L. discriminate.
    + now rewrite Z.eqb_refl.
Qed.
(** Below the largest index nothing changes. *)
Lemma w_ceil_below t j : floor_index j < umax t -> w_ceil_usize t j = Ok (ceil_index j).
Proof.
  intros L. rewrite w_ceil. unfold isbeyond. destruct (Z.leb_spec (umax t) (floor_index j)); [lia|]. rewrite andb_false_r.
  destruct (Z.eqb_spec (ceil_index j) (floor_index j)) as [->|]; [|reflexivity]. f_equal. lia.
Qed.

Section Loop.
Context {l : layout} {k : ck} (t : target) (ratio : f64) (e : Z).
Hypothesis He : 0 <= e <= umax t.

Lemma w_step {ls ks} fuel i (sk : sink l k) (it it' : stream ls ks) srclen src f :
  e <= Z.of_nat (length (sk_buf sk)) -> Z.of_nat i < umax t ->
  floor_index (place ratio (offseti (sk_res sk)) i) < e ->
  next it = Ok (Some src, it') -> convert l k src = Ok f ->
  w_loop t (S fuel) i ratio e sk it srclen = w_loop t fuel (S i) ratio e (step_sink ratio e i sk f) it' srclen.
Proof.
  intros Hb Hi Hf Hn Hc. cbn [w_loop]. unfold w_add. rewrite umax_eq.
  destruct (Z.leb_spec (Z.of_nat i + 1) (umax t)); [|lia]. cbn [bind].
  change (dst_pos ratio (offseti (sk_res sk)) i) with (place ratio (offseti (sk_res sk)) i).
  set (j := place ratio (offseti (sk_res sk)) i) in *.
  rewrite w_ceil_below by lia. cbn [bind]. rewrite w_floor, Z.min_r by lia.
  destruct (Z.ltb_spec (floor_index j) e); [|lia]. cbn [negb]. rewrite Hn. cbn [bind]. rewrite Hc. cbn [bind].
  rewrite fmulp_ok. cbn [bind]. pose proof (floor_index_bounds j). pose proof (ceil_index_bounds j).
  rewrite buf_add_ok by lia. cbn [bind]. rewrite fmulp_ok. cbn [bind].
  replace (Z.to_nat (Z.of_nat i + 1)) with (S i) by lia.
  unfold step_sink. fold j. destruct (Z.ltb_spec (ceil_index j) e); [|reflexivity].
  rewrite buf_add_ok by (rewrite ?addat_length; lia). cbn [bind]. reflexivity.
Qed.
Lemma w_run {ls ks} fuel i (sk : sink l k) (it it' : stream ls ks) srclen srcs fs :
  e <= Z.of_nat (length (sk_buf sk)) -> Z.of_nat (i + length srcs) <= umax t ->
  (forall a, (a < length srcs)%nat -> floor_index (place ratio (offseti (sk_res sk)) (i + a)) < e) ->
  pulls it srcs it' -> converted srcs fs ->
  w_loop t (length srcs + fuel) i ratio e sk it srclen =
  w_loop t fuel (i + length srcs) ratio e (run_sink ratio e i sk fs) it' srclen.
Proof.
  intros Hb Hi Hf Hp Hc; revert i sk it Hb Hi Hf Hp; induction Hc as [|src f srcs fs Hc0 Hc IH]; intros i sk it Hb Hi Hf Hp.
  - apply pulls_nil_inv in Hp as <-. cbn [length run_sink Nat.add]. now rewrite Nat.add_0_r.
  - apply pulls_cons_inv in Hp as (it1 & Hn & Hp). cbn [length run_sink]. cbn [length] in Hi, Hf.
    change (S (length srcs) + fuel)%nat with (S (length srcs + fuel)).
    rewrite (w_step _ _ _ _ it1 _ src f); auto.
    + rewrite IH; auto.
      * now rewrite Nat.add_succ_r.
      * now rewrite step_length.
      * lia.
      * intros a Ha. rewrite step_off. replace (S i + a)%nat with (i + S a)%nat by lia. apply Hf. lia.
    + lia.
    + specialize (Hf 0%nat ltac:(lia)). now rewrite Nat.add_0_r in Hf.
Qed.
(** The iteration in which the loop ends. *)
Lemma w_counter {ls ks} fuel i (sk : sink l k) (it : stream ls ks) srclen : debug t -> umax t <= Z.of_nat i ->
  w_loop t (S fuel) i ratio e sk it srclen = Panic ArithOverflow.
Proof.
  intros D Hi. cbn [w_loop]. unfold w_add. rewrite umax_eq. destruct (Z.leb_spec (Z.of_nat i + 1) (umax t)); [lia|].
  unfold debug in D. now rewrite D.
Qed.
Lemma w_last {ls ks} fuel i (sk : sink l k) (it : stream ls ks) srclen : Z.of_nat i < umax t ->
  let j := place ratio (offseti (sk_res sk)) i in
  (e <= floor_index j -> w_loop t (S fuel) i ratio e sk it srclen =
     if isbeyond t j && t_checks t then Panic ArithOverflow else Ok (sk, it, Some (N.of_nat i))) /\
  (floor_index j < e ->
    (forall it', next it = Ok (None, it') -> w_loop t (S fuel) i ratio e sk it srclen = Ok (sk, it', srclen)) /\
    (forall p, next it = Panic p -> w_loop t (S fuel) i ratio e sk it srclen = Panic p) /\
    (next it = OutOfFuel -> w_loop t (S fuel) i ratio e sk it srclen = OutOfFuel)).
Proof.
  intros Hi j. cbn [w_loop]. unfold w_add. rewrite umax_eq. destruct (Z.leb_spec (Z.of_nat i + 1) (umax t)); [|lia]. cbn [bind].
  change (dst_pos ratio (offseti (sk_res sk)) i) with j. rewrite w_floor. split.
  - intros Hj. rewrite w_ceil. destruct (Z.ltb_spec (Z.min (umax t) (floor_index j)) e); [lia|]. cbn [negb].
    destruct (isbeyond t j), (t_checks t); reflexivity.
  - intros Hj. rewrite w_ceil_below by lia. cbn [bind]. rewrite Z.min_r by lia.
    destruct (Z.ltb_spec (floor_index j) e); [|lia]. cbn [negb].
    split; [|split]; intros; match goal with H : next it = _ |- _ => rewrite H end; reflexivity.
Qed.

(** All outcomes. *)
Lemma w_all {ls ks} fuel (sk : sink l k) (it : stream ls ks) srclen : e <= Z.of_nat (length (sk_buf sk)) -> Z.of_nat fuel <= umax t ->
  let r := stream_loop fuel 0 ratio e sk it srclen in let w := w_loop t fuel 0 ratio e sk it srclen in
  w = r \/ (debug t /\ w = Panic ArithOverflow /\ exists i, (i < fuel)%nat /\
    (forall a, (a < i)%nat -> floor_index (place ratio (offseti (sk_res sk)) a) < e) /\ beyond t (place ratio (offseti (sk_res sk)) i)).
Proof.
  intros Hb Hfu r w. destruct (loop_inv l k ls ks ratio e fuel 0 sk it srclen ltac:(lia)) as (srcs & it1 & fs & P & Cv & Fl & C).
  fold r in C. cbn [Nat.add] in *.
  assert (Run : (length srcs <= fuel)%nat -> w = w_loop t (fuel - length srcs) (length srcs) ratio e (run_sink ratio e 0 sk fs) it1 srclen).
  { intros L. unfold w. replace fuel with (length srcs + (fuel - length srcs))%nat at 1 by lia.
    now rewrite (w_run _ 0 sk it it1 srclen srcs fs) by (auto; lia). }
  destruct (Nat.lt_ge_cases (length srcs) fuel) as [L|L].
  - rewrite Run by lia. replace (fuel - length srcs)%nat with (S (fuel - length srcs - 1)) by lia.
    destruct (w_last (fuel - length srcs - 1) (length srcs) (run_sink ratio e 0 sk fs) it1 srclen ltac:(lia)) as [W1 W2].
    rewrite run_off in W1, W2. destruct C as [(A & R)|[(A & C)|(R & E)]].
    + rewrite (W1 A). destruct (isbeyond t _) eqn:IB; cbn [andb]; [|left; now rewrite R].
      destruct (t_checks t) eqn:D; [|left; now rewrite R]. right. split; [exact D|]. split; [reflexivity|].
      exists (length srcs). split; [exact L|]. split; [exact Fl|]. now apply isbeyond_iff.
    + destruct (W2 A) as (X1 & X2 & X3). left. destruct C as [(it2 & N & R)|[(p & N & R)|(N & R)]]; rewrite R; auto.
    + lia.
  - left. clear C. rewrite <- (firstn_skipn fuel srcs) in P. apply pulls_app_inv in P as (u & P1 & _).
    destruct (converted_ex l k ls ks (firstn fuel srcs)) as (gs & Cg).
    assert (LF : length (firstn fuel srcs) = fuel) by (rewrite firstn_length; lia).
    assert (Fl' : forall a, (a < length (firstn fuel srcs))%nat -> floor_index (place ratio (offseti (sk_res sk)) (0 + a)) < e).
    { intros a Ha. apply Fl. lia. }
    unfold r, w. replace (w_loop t fuel) with (w_loop t (length (firstn fuel srcs) + 0) (l:=l) (k:=k) (ls:=ls) (ks:=ks)) by (f_equal; lia).
    replace (stream_loop fuel) with (stream_loop (length (firstn fuel srcs) + 0) (l:=l) (k:=k) (ls:=ls) (ks:=ks)) by (f_equal; lia).
    rewrite (w_run 0 0 sk it u srclen (firstn fuel srcs) gs), (loop_run ratio e 0 0 sk it u srclen (firstn fuel srcs) gs); auto. lia.
Qed.
End Loop.

(** ** [Sink::stream] *)
Lemma w_sink_eq t l k ls ks fuel (sk : sink l k) (s s' : stream ls ks) ratio : Z.of_nat (length (sk_buf sk)) <= umax t ->
  negotiated sk s ratio s' ->
  w_sink_stream t fuel sk s =
  ('(sk, it, srclen) <- w_loop t fuel 0 ratio (covered ratio (slen s') (length (sk_buf sk)))
     (prepared (covered ratio (slen s') (length (sk_buf sk))) sk) s' (slen s') ;;
   n <- of_opt UnwrapNone srclen ;;
   Ok (with_res sk (mkResampler (partial (sk_res sk)) (fadd (offseti (sk_res sk)) (fmul ratio (usize_as_f64 (Z.of_N n))))), it)).
Proof.
  intros Hu Hn. apply negotiated_iff in Hn. unfold w_sink_stream. rewrite Hn. cbn [bind]. cbv zeta. cbn [sk_buf with_buf].
  assert (E : w_dst_end t ratio (slen s') (add_partial (partial (sk_res sk)) (sk_buf sk)) = covered ratio (slen s') (length (sk_buf sk))).
  { unfold w_dst_end, covered. rewrite add_partial_length. destruct (slen s'); [|reflexivity].
    change (usize_as_f64 (Z.of_N n)) with (fofZ (Z.of_N n) : f64). rewrite w_floor. lia. }
  rewrite E. unfold buf_clear. rewrite add_partial_length.
  pose proof (covered_bounds ratio (slen s') (length (sk_buf sk))).
  destruct (Z.leb_spec (covered ratio (slen s') (length (sk_buf sk))) (Z.of_nat (length (sk_buf sk)))); [|lia].
  cbn [bind]. reflexivity.
Qed.
Lemma w_sink_unsinkable t l k ls ks fuel (sk : sink l k) (s : stream ls ks) : (forall ratio s', ~ negotiated sk s ratio s') ->
  w_sink_stream t fuel sk s = sink_stream fuel sk s.
Proof.
  intros N. unfold w_sink_stream, sink_stream. destruct (stream_ratio sk s) as [[ratio s']| |] eqn:E; [|reflexivity|reflexivity].
  elim (N ratio s'). now apply negotiated_iff.
Qed.
Lemma w_stream t l k ls ks fuel (sk : sink l k) (s : stream ls ks) :
  Z.of_nat (length (sk_buf sk)) <= umax t -> Z.of_nat fuel <= umax t ->
  w_sink_stream t fuel sk s = sink_stream fuel sk s \/ stops_beyond t fuel sk s (w_sink_stream t fuel sk s).
Proof.
  intros Hu Hf. destruct (stream_ratio sk s) as [[ratio s']| |] eqn:E;
    try (left; apply w_sink_unsinkable; intros r x N; apply negotiated_iff in N; congruence).
  apply negotiated_iff in E. rewrite (w_sink_eq _ _ _ _ _ _ _ _ _ _ Hu E), (sink_stream_eq _ _ _ _ _ _ _ _ _ E).
  set (e := covered ratio (slen s') (length (sk_buf sk))). pose proof (covered_bounds ratio (slen s') (length (sk_buf sk))) as B. fold e in B.
  destruct (w_all t ratio e ltac:(lia) fuel (prepared e sk) s' (slen s')) as [->|(D & -> & i & Hi & Fi & Bi)].
  - rewrite prepared_length; lia.
  - exact Hf.
  - now left.
  - right. split; [exact D|]. split; [reflexivity|]. exists ratio, s', i. split; [exact E|]. split; [exact Hi|]. split; [|exact Bi].
    intros a Ha. specialize (Fi a Ha). change (offseti (sk_res (prepared e sk))) with (resampler_index (sk_res sk)) in Fi. lia.
Qed.
Lemma w_exact t l k ls ks fuel (sk : sink l k) (s s' it : stream ls ks) ratio srcs n :
  Z.of_nat (length (sk_buf sk)) <= umax t -> negotiated sk s ratio s' ->
  reads s' ratio (resampler_index (sk_res sk)) (covered ratio (slen s') (length (sk_buf sk))) srcs n it ->
  (length srcs < fuel)%nat -> debug t ->
  (exists sk', sink_stream fuel sk s = Ok (sk', it)) /\
  (w_sink_stream t fuel sk s = sink_stream fuel sk s \/ w_sink_stream t fuel sk s = Panic ArithOverflow) /\
  (w_sink_stream t fuel sk s = Panic ArithOverflow <->
     umax t <= Z.of_nat (length srcs) \/ beyond t (place ratio (resampler_index (sk_res sk)) (length srcs))).
Proof.
  intros Hu Ng Rd Hf D. destruct (converted_ex l k ls ks srcs) as (fs & Cv).
  destruct (stream_forward _ _ _ _ sk s s' it ratio srcs fs n Ng Rd Cv) as (sk' & _ & F). specialize (F fuel Hf).
  split; [eauto|]. rewrite F. rewrite (w_sink_eq _ _ _ _ _ _ _ _ _ _ Hu Ng).
  rewrite (sink_stream_eq _ _ _ _ _ _ _ _ _ Ng) in F.
  set (e := covered ratio (slen s') (length (sk_buf sk))) in *. pose proof (covered_bounds ratio (slen s') (length (sk_buf sk))) as B. fold e in B.
  destruct Rd as (Fl & Rd). assert (Hp : exists u, pulls s' srcs u) by (destruct Rd as [[H _]|(u & H & _)]; eauto). destruct Hp as (u & Hp).
  assert (Hlen : e <= Z.of_nat (length (sk_buf (prepared e sk)))) by (rewrite prepared_length; lia).
  destruct (Z.le_gt_cases (umax t) (Z.of_nat (length srcs))) as [L|L].
  - pose proof (umax_bounds t) as UB. set (m := Z.to_nat (umax t)). rewrite <- (firstn_skipn m srcs) in Hp. apply pulls_app_inv in Hp as (v & P1 & _).
    destruct (converted_ex l k ls ks (firstn m srcs)) as (gs & Cg).
    assert (LF : length (firstn m srcs) = m) by (rewrite firstn_length; lia).
    assert (W : w_loop t fuel 0 ratio e (prepared e sk) s' (slen s') = Panic ArithOverflow).
    { replace fuel with (length (firstn m srcs) + S (fuel - m - 1))%nat by lia.
      rewrite (w_run t ratio e ltac:(lia) _ 0 (prepared e sk) s' v (slen s') (firstn m srcs) gs); auto.
      - apply w_counter; [exact D|]. cbn [Nat.add]. lia.
      - cbn [Nat.add]. lia.
      - intros a Ha. apply Fl. lia. }
    rewrite W. cbn [bind]. split; [now right|]. split; auto.
  - assert (W : w_loop t fuel 0 ratio e (prepared e sk) s' (slen s') =
      w_loop t (S (fuel - length srcs - 1)) (length srcs) ratio e (run_sink ratio e 0 (prepared e sk) fs) u (slen s')).
    { replace fuel with (length srcs + S (fuel - length srcs - 1))%nat at 1 by lia.
      rewrite (w_run t ratio e ltac:(lia) _ 0 (prepared e sk) s' u (slen s') srcs fs); auto. cbn [Nat.add]. lia. }
    assert (W' : stream_loop fuel 0 ratio e (prepared e sk) s' (slen s') =
      stream_loop (S (fuel - length srcs - 1)) (length srcs) ratio e (run_sink ratio e 0 (prepared e sk) fs) u (slen s')).
    { replace fuel with (length srcs + S (fuel - length srcs - 1))%nat at 1 by lia.
      rewrite (loop_run ratio e _ 0 (prepared e sk) s' u (slen s') srcs fs); auto. }
    rewrite W, <- F, W'. set (skr := run_sink ratio e 0 (prepared e sk) fs).
    destruct (w_last t ratio e ltac:(lia) (fuel - length srcs - 1) (length srcs) skr u (slen s') L) as [W1 W2].
    assert (Off : offseti (sk_res skr) = resampler_index (sk_res sk)) by (unfold skr; now rewrite run_off).
    rewrite Off in W1, W2. set (j := place ratio (resampler_index (sk_res sk)) (length srcs)) in *.
    destruct Rd as [(Hp' & Hfull & ->)|(u' & Hp' & Hend & Hlt & Hl)].
    + rewrite (W1 Hfull). rewrite loop_full by (rewrite Off; exact Hfull). unfold debug in D. rewrite D, andb_true_r.
      destruct (isbeyond t j) eqn:IB; cbn [bind of_opt].
      * split; [now right|]. split; [intros _; right; now apply isbeyond_iff|auto].
      * split; [now left|]. split; [discriminate|]. intros [X|X]; [lia|]. apply isbeyond_iff in X. congruence.
    + destruct (pulls_det _ _ _ _ _ _ _ Hp Hp' eq_refl) as [_ <-].
      rewrite (proj1 (W2 Hlt) it Hend).
      rewrite (proj1 (loop_next ratio e _ _ skr u (slen s') ltac:(rewrite Off; exact Hlt)) it Hend). rewrite Hl. cbn [bind of_opt].
      split; [now left|]. split; [discriminate|]. intros [X|(X1 & X2)]; [lia|]. rewrite <- (floor_trunc j X1) in X2. lia.
Qed.
Lemma w_release t l k ls ks fuel (sk : sink l k) (s : stream ls ks) : release t ->
  Z.of_nat (length (sk_buf sk)) <= umax t -> Z.of_nat fuel <= umax t -> w_sink_stream t fuel sk s = sink_stream fuel sk s.
Proof.
  intros R Hu Hf. destruct (w_stream t l k ls ks fuel sk s Hu Hf) as [H|(D & _)]; [exact H|]. unfold debug, release in *. congruence.
Qed.
Lemma not_beyond64 t j : bits t = 64 -> ~ beyond t j.
Proof. intros B (F & L). destruct (frac_small j F) as [H _]. unfold umax in L. rewrite B in L. lia. Qed.
Lemma w_64 t l k ls ks fuel (sk : sink l k) (s : stream ls ks) : bits t = 64 ->
  Z.of_nat (length (sk_buf sk)) <= umax t -> Z.of_nat fuel <= umax t -> w_sink_stream t fuel sk s = sink_stream fuel sk s.
Proof.
  intros B Hu Hf. destruct (w_stream t l k ls ks fuel sk s Hu Hf) as [H|(_ & _ & ratio & s' & i & _ & _ & _ & X)]; [exact H|].
  now elim (not_beyond64 t _ B X).
Qed.
(** A sink that never fills, fed by a stream that never ends. *)
Lemma w_endless t l k ls ks (sk : sink l k) (s : stream ls ks) fuel : sinkable s -> slen s = None -> honest s -> fresh sk ->
  sk_buf sk <> [] -> ~ positive (ratio_for (sk_rate sk) (sample_rate s)) ->
  Z.of_nat (length (sk_buf sk)) <= umax t -> debug t -> umax t < Z.of_nat fuel -> w_sink_stream t fuel sk s = Panic ArithOverflow.
Proof.
  intros Hs Hl Hh Hf Hb Hp Hu D Hfu. set (ratio := ratio_for _ _) in *. pose proof (umax_bounds t) as UB.
  destruct (sinkable_negotiated _ _ _ _ sk s Hs) as (s' & Ng & Ls & _ & St). fold ratio in Ng. rewrite Hl in Ls.
  rewrite (w_sink_eq _ _ _ _ _ _ _ _ _ _ Hu Ng). rewrite Ls. cbn [covered]. set (e := Z.of_nat (length (sk_buf sk))).
  assert (He : 1 <= e) by (unfold e; destruct (sk_buf sk); [easy|cbn [length]; lia]).
  assert (Off : offseti (sk_res (prepared e sk)) = B754_zero false).
  { unfold prepared. cbn. rewrite Hf. cbn. apply flit_0. }
  assert (Fl : forall a, floor_index (place ratio (offseti (sk_res (prepared e sk))) a) = 0).
  { intros a. rewrite Off. now apply place_low. }
  set (m := Z.to_nat (umax t)). destruct (honest_none _ _ _ Hh Hl m) as (gs & Sg & Lg). destruct (St _ Sg) as (u & Pg).
  rewrite <- (firstn_skipn m gs) in Pg. apply pulls_app_inv in Pg as (v & P1 & _).
  destruct (converted_ex l k ls ks (firstn m gs)) as (fs & Cv).
  assert (LF : length (firstn m gs) = m) by (rewrite firstn_length; lia).
  replace fuel with (length (firstn m gs) + S (fuel - m - 1))%nat by lia.
  rewrite (w_run t ratio e ltac:(unfold e in *; lia) _ 0 (prepared e sk) s' v None (firstn m gs) fs); auto.
  - rewrite w_counter; [reflexivity|exact D|cbn [Nat.add]; lia].
  - rewrite prepared_length; unfold e; lia.
  - cbn [Nat.add]. lia.
  - intros a _. rewrite Fl. lia.
Qed.

(** ** Short sinks *)
Lemma round_le_Z (x : R) z : Z.abs z <= 2 ^ 53 -> (x <= IZR z)%R -> (round64 x <= IZR z)%R.
Proof. intros Hz H. rewrite <- (rnd64_Z z Hz). now apply (rnd_mono 53 1024). Qed.
Lemma beyond_gt t j : beyond t j -> (IZR (umax t) < B2R j)%R /\ is_finite j = true.
Proof.
  intros (F & L). destruct (frac_small j F) as [_ Fin]. split; [|exact Fin]. unfold frac in F. pose proof (bpow_gt_0 radix2 (-52)).
  apply IZR_le in L. lra.
Qed.
Lemma place_le ratio off (i : nat) A B : is_finite ratio = true -> is_finite off = true -> Z.of_nat i <= 2 ^ 53 ->
  Z.abs A <= 2 ^ 53 -> Z.abs (A + B) <= 2 ^ 53 -> (B2R ratio * IZR (Z.of_nat i) <= IZR A)%R -> (B2R off <= IZR B)%R ->
  is_finite (place ratio off i) = true -> (B2R (place ratio off i) <= IZR (A + B))%R.
Proof.
  intros Fr Fo Hi HA HB H1 H2 Fj. unfold place in *. destruct (fofZ53 (Z.of_nat i) ltac:(lia)) as [E F].
  destruct (fmul_cases ratio (fofZ (Z.of_nat i)) Fr F) as [(F1 & E1)|(s & E1 & _)].
  - destruct (fadd_cases _ off F1 Fo) as [(F2 & E2)|(s & E2 & _)]; [|rewrite E2 in Fj; discriminate].
    rewrite E2. apply round_le_Z; [exact HB|]. rewrite E1, E, plus_IZR. pose proof (round_le_Z _ A HA H1). lra.
  - exfalso. rewrite E1 in Fj. destruct off, s; discriminate.
Qed.
Lemma off_covered ratio off (i : nat) z : is_finite ratio = true -> (0 <= B2R ratio)%R -> is_finite off = true -> 0 <= z <= 2 ^ 53 -> Z.of_nat i <= 2 ^ 53 ->
  (IZR z <= B2R off)%R -> z <= floor_index (place ratio off i).
Proof.
  intros Fr Pr Fo Hz Hi H. apply floor_above; [lia|]. unfold place. destruct (fofZ53 (Z.of_nat i) ltac:(lia)) as [E F].
  assert (P : above 0 (fmul ratio (fofZ (Z.of_nat i)))).
  { apply fmul_above; [lia|exact Fr|exact F|]. rewrite E. apply Rmult_le_pos; [exact Pr|apply (IZR_le 0); lia]. }
  rewrite (FArithProofs.fadd_comm 53 1024). apply fadd_above; [exact Hz|now apply above_finite|exact P].
Qed.
Lemma w_roomy t l k ls ks fuel (sk : sink l k) (s : stream ls ks) : roomy t sk s ->
  Z.of_nat (length (sk_buf sk)) <= umax t -> Z.of_nat fuel <= umax t -> w_sink_stream t fuel sk s = sink_stream fuel sk s.
Proof.
  intros (Fr & Pr & Fo & Po & Rm) Hu Hf. destruct (Z.eq_dec (bits t) 64) as [B64|B64]; [now apply w_64|].
  assert (Um : umax t <= 2 ^ 32 - 1) by (unfold umax, bits in *; destruct (t_pointer t); lia). pose proof (umax_bounds t) as UB.
  destruct (w_stream t l k ls ks fuel sk s Hu Hf) as [H|(_ & _ & ratio & s' & i & Ng & Hi & Fl & X)]; [exact H|]. exfalso.
  assert (Er : ratio = ratio_for (sk_rate sk) (sample_rate s)).
  { unfold ratio_for. destruct Ng as [(r & -> & -> & _)|(-> & -> & _)]; reflexivity. }
  rewrite <- Er in *. set (off := resampler_index (sk_res sk)) in *. set (L := Z.of_nat (length (sk_buf sk))) in *.
  destruct (beyond_gt t _ X) as [X1 X2]. destruct i as [|i].
  - pose proof (place_le ratio off 0 0 (umax t) Fr Fo) as Q. cbn [Z.of_nat] in Q. rewrite Rmult_0_r in Q.
    rewrite Z.add_0_l in Q. specialize (Q ltac:(lia) ltac:(lia) ltac:(lia) ltac:(lra) ltac:(lra) X2). lra.
  - specialize (Fl i ltac:(lia)). assert (L0 : 0 <= L) by (unfold L; lia).
    assert (A : (B2R ratio * IZR (Z.of_nat i) < IZR L)%R).
    { apply Rnot_le_lt. intros N. rewrite <- INR_IZR_INZ in N.
      pose proof (place_above ratio off i L Fr ltac:(apply above_finite; [exact Fo|apply Po]) ltac:(lia) ltac:(lia) N). lia. }
    assert (Bo : (B2R off < IZR L)%R).
    { apply Rnot_le_lt. intros N. pose proof (off_covered ratio off i L Fr Pr Fo ltac:(lia) ltac:(lia) N). lia. }
    pose proof (Zceil_ub (B2R ratio)) as C1. assert (C2 : 2 * L + Zceil (B2R ratio) <= umax t).
    { apply le_IZR. rewrite plus_IZR, mult_IZR. pose proof (Zceil_lb (B2R ratio)) as C. lra. }
    assert (C3 : 0 <= Zceil (B2R ratio)).
    { apply le_IZR. lra. }
    pose proof (place_le ratio off (S i) (L + Zceil (B2R ratio)) L Fr Fo ltac:(lia) ltac:(lia) ltac:(lia)) as Q.
    rewrite Nat2Z.inj_succ, succ_IZR, plus_IZR in Q.
    assert (Q1 : (B2R ratio * (IZR (Z.of_nat i) + 1) <= IZR L + IZR (Zceil (B2R ratio)))%R) by lra.
    specialize (Q Q1 ltac:(lra) X2). assert (IZR (L + Zceil (B2R ratio) + L) <= IZR (umax t))%R by (apply IZR_le; lia). lra.
Qed.
(** ** [flush], ranges *)
Lemma w_flush_eq t l k (sk : sink l k) : Z.of_nat (length (sk_buf sk)) <= umax t -> w_flush t sk = flush sk.
Proof.
  intros Hu. unfold w_flush, flush. destruct (_ || _)%bool; [|reflexivity]. rewrite floor_index_correct, w_floor.
  set (f := floor_index _). destruct (Z.ltb_spec (Z.min (umax t) f) (Z.of_nat (length (sk_buf sk)))), (Z.ltb_spec f (Z.of_nat (length (sk_buf sk)))); try lia; [|reflexivity].
  now replace (Z.min (umax t) f) with f by lia.
Qed.
Lemma w_range_eq t r len : Z.of_N len <= umax t -> w_range_bounds t r len = range_bounds r len.
Proof.
  intros Hu. pose proof (umax_bounds t) as UB. unfold w_range_bounds, range_bounds. rewrite umax_eq.
  assert (I : forall a b, (if N.eqb b (Z.to_N (umax t)) then Panic IndexOutOfBounds else
      if (N.leb a (N.succ b) && N.leb (N.succ b) len)%bool then Ok (a, N.succ b) else Panic IndexOutOfBounds) =
    (if N.eqb b (Z.to_N usize_max) then Panic IndexOutOfBounds else
      if (N.leb a (N.succ b) && N.leb (N.succ b) len)%bool then Ok (a, N.succ b) else Panic IndexOutOfBounds)).
  { intros a b. destruct (N.leb_spec (N.succ b) len) as [L|L].
    - destruct (N.eqb_spec b (Z.to_N (umax t))); [lia|]. destruct (N.eqb_spec b (Z.to_N usize_max)); [unfold usize_max in *; lia|reflexivity].
    - rewrite andb_false_r. destruct (N.eqb b _), (N.eqb b _); reflexivity. }
  destruct r; auto.
Qed.
Lemma w_audio_sink_eq t l k (a : audio l k) r : Z.of_nat (length (frames a)) <= umax t -> w_audio_sink t a r = audio_sink a r.
Proof. intros Hu. unfold w_audio_sink, audio_sink. rewrite w_range_eq; [reflexivity|]. lia. Qed.

(** ** [extend] *)
Lemma w_dstlen t ls ks rate (s : stream ls ks) n : Z.of_N n <= umax t ->
  w_extend_dstlen t rate s n = Z.min (umax t) (frames_for rate (sample_rate s) n).
Proof.
  intros Hn. rewrite <- dstlen_frames_for. unfold w_extend_dstlen, extend_dstlen. destruct (sample_rate s); [|lia].
  now rewrite w_floor, floor_index_correct.
Qed.
Lemma w_extend_internal_eq t l k ls ks fuel (a : audio l k) (s : stream ls ks) n : slen s = Some n -> Z.of_N n <= umax t ->
  let d := frames_for (s_rate a) (sample_rate s) n in
  fits t l k (Z.of_nat (length (frames a))) -> d = 0 \/ fits t l k (Z.max (2 * Z.of_nat (length (frames a))) (Z.of_nat (length (frames a)) + d)) ->
  w_extend_internal t fuel a s =
    ('(sk, it) <- w_sink_stream t fuel (new_frames l k (s_rate a) d) s ;; sk <- w_flush t sk ;;
     Ok (mkAudio (s_rate a) (frames a ++ sk_buf sk), it)).
Proof.
  intros Hl Hn d Ha Hd. unfold w_extend_internal. rewrite Hl. cbn [of_opt bind]. rewrite w_dstlen by exact Hn. fold d.
  destruct (frames_for_bounds (s_rate a) (sample_rate s) n) as [Bd _]. fold d in Bd. pose proof (imax_umax t) as IU. pose proof (umax_bounds t) as UB.
  unfold fits in Ha, Hd. rewrite <- frame_size_bytes in Ha, Hd.
  assert (P : 1 <= Z.of_nat (frame_size l k)) by (destruct l, k; cbn; lia).
  assert (Hs : Z.of_nat (length (frames a)) + d <= imax t) by (destruct Hd as [->|Hd]; nia).
  rewrite Z.min_r by lia. unfold w_add. rewrite umax_eq. destruct (Z.leb_spec (Z.of_nat (length (frames a)) + d) (umax t)); [|lia]. cbn [bind].
  assert (Rz : w_resize t (frames a) (Z.of_nat (length (frames a)) + d) = Ok (frames a ++ repeat (frame_default l k) (Z.to_nat d))).
  { unfold w_resize. rewrite imax_eq. destruct (Z.ltb_spec (Z.of_nat (length (frames a))) (Z.of_nat (length (frames a)) + d)) as [L|L].
    - destruct Hd as [Hd|Hd]; [lia|].
      destruct (Z.ltb_spec (imax t) (Z.max (2 * Z.of_nat (length (frames a))) (Z.of_nat (length (frames a)) + d) * Z.of_nat (frame_size l k))); [lia|].
      do 3 f_equal. lia.
    - assert (d = 0) as -> by lia. cbn [Z.to_nat repeat]. rewrite app_nil_r. f_equal. apply firstn_all2. lia. }
  rewrite Rz. cbn [bind]. unfold w_audio_sink. cbn [frames with_frames s_rate w_range_bounds].
  rewrite app_length, repeat_length.
  destruct (N.leb_spec (N.of_nat (length (frames a))) (N.of_nat (length (frames a) + Z.to_nat d))); [|lia].
  rewrite N.leb_refl. cbn [andb bind]. rewrite !Nnat.Nat2N.id.
  rewrite firstn_app, firstn_all, Nat.sub_diag, firstn_O, app_nil_r.
  rewrite skipn_app, skipn_all, Nat.sub_diag. cbn [skipn app].
  replace (length (frames a) + Z.to_nat d - length (frames a))%nat with (Z.to_nat d) by lia.
  rewrite firstn_all2 by (rewrite repeat_length; lia). fold (new_frames l k (s_rate a) d).
  destruct (w_sink_stream t fuel (new_frames l k (s_rate a) d) s) as [[sk it]| |]; cbn [bind]; try reflexivity.
  destruct (w_flush t sk) as [sk'| |]; cbn [bind]; try reflexivity.
  unfold audio_unsink. cbn [s_rate]. rewrite skipn_all2 by (rewrite app_length, repeat_length; lia). now rewrite app_nil_r.
Qed.
Lemma fits_allocatable t l k n : fits t l k n -> allocatable l k n.
Proof.
  unfold fits, allocatable. intros H. assert (imax t <= 2 ^ 63 - 1) by (rewrite <- imax_eq; unfold t_imax; destruct (t_pointer t); lia). lia.
Qed.
Lemma w_extend_fits t l k ls ks fuel (a : audio l k) (s : stream ls ks) n : slen s = Some n -> Z.of_N n <= umax t -> Z.of_nat fuel <= umax t ->
  let d := frames_for (s_rate a) (sample_rate s) n in
  fits t l k (Z.of_nat (length (frames a))) -> d = 0 \/ fits t l k (Z.max (2 * Z.of_nat (length (frames a))) (Z.of_nat (length (frames a)) + d)) ->
  w_extend t fuel a s = extend fuel a s \/
  (fst (w_extend t fuel a s) = with_frames (flit 0 0) [] /\ stops_beyond t fuel (new_frames l k (s_rate a) d) s (snd (w_extend t fuel a s))).
Proof.
  intros Hl Hn Hfu d Ha Hd. unfold w_extend, extend. rewrite (w_extend_internal_eq t l k ls ks fuel a s n Hl Hn Ha Hd).
  destruct (frames_for_bounds (s_rate a) (sample_rate s) n) as [Bd _]. fold d in Bd |- *. pose proof (imax_umax t) as IU. pose proof (umax_bounds t) as UB.
  assert (P : 1 <= bytes_per_frame l k) by (destruct l, k; cbn; lia).
  assert (Al : allocatable l k (Z.of_nat (length (frames a)) + d)).
  { apply (fits_allocatable t). unfold fits in *. destruct Hd as [->|Hd]; [now rewrite Z.add_0_r|nia]. }
  assert (Hs : d <= imax t) by (unfold fits in *; destruct Hd as [->|Hd]; nia).
  rewrite (extend_internal_eq l k ls ks fuel a s n Hl Al). fold d. change (tail_sink l k (s_rate a) d) with (new_frames l k (s_rate a) d).
  assert (Ln : Z.of_nat (length (sk_buf (new_frames l k (s_rate a) d))) <= umax t) by (cbn; rewrite repeat_length; lia).
  destruct (w_stream t l k ls ks fuel _ s Ln Hfu) as [E|E].
  - left. rewrite E. destruct (sink_stream fuel (new_frames l k (s_rate a) d) s) as [[sk it]| |] eqn:Es; cbn [bind]; try reflexivity.
    destruct (stream_length _ _ _ _ _ _ _ _ _ Es) as [L1 _]. rewrite w_flush_eq by (rewrite L1; exact Ln). reflexivity.
  - right. pose proof E as (_ & E2 & _). rewrite E2 in E |- *. cbn [bind fst snd]. split; [reflexivity|].
    destruct E as (D & _ & X). split; [exact D|]. split; [reflexivity|exact X].
Qed.
Lemma w_extend_too_long t l k ls ks fuel (a : audio l k) (s : stream ls ks) n : slen s = Some n -> Z.of_N n <= umax t ->
  let d := frames_for (s_rate a) (sample_rate s) n in
  fits t l k (Z.of_nat (length (frames a))) -> 0 < d -> ~ fits t l k (Z.max (2 * Z.of_nat (length (frames a))) (Z.of_nat (length (frames a)) + d)) ->
  exists p, w_extend t fuel a s = (with_frames (flit 0 0) [], Panic p).
Proof.
  intros Hl Hn d Ha Hd Nf. unfold w_extend. cut (exists p, w_extend_internal t fuel a s = Panic p); [intros (p & ->); eauto|].
  unfold w_extend_internal. rewrite Hl. cbn [of_opt bind]. rewrite w_dstlen by exact Hn. fold d.
  pose proof (imax_umax t) as IU. pose proof (umax_bounds t) as UB.
  unfold fits in Ha, Nf. rewrite <- frame_size_bytes in Ha, Nf.
  assert (P : 1 <= Z.of_nat (frame_size l k)) by (destruct l, k; cbn; lia).
  set (o := Z.of_nat (length (frames a))) in *. assert (O : 0 <= o <= imax t) by (split; [unfold o; lia|nia]).
  set (dw := Z.min (umax t) d). unfold w_add. rewrite umax_eq. destruct (Z.leb_spec (o + dw) (umax t)) as [L|L]; cbn [bind].
  - unfold w_resize. fold o. rewrite imax_eq. destruct (Z.ltb_spec o (o + dw)); [|unfold dw in *; lia].
    destruct (Z.ltb_spec (imax t) (Z.max (2 * o) (o + dw) * Z.of_nat (frame_size l k))) as [|N]; [cbn; eauto|].
    exfalso. apply Nf. unfold dw in N. destruct (Z.min_spec (umax t) d) as [[? E]|[? E]]; rewrite E in N; [nia|exact N].
  - destruct (t_checks t); cbn [bind]; [eauto|].
    assert (E : (o + dw) mod (umax t + 1) = o + dw - (umax t + 1)).
    { symmetry. apply (Z.mod_unique_pos _ _ 1); unfold dw in *; lia. }
    rewrite E. unfold w_resize. fold o. destruct (Z.ltb_spec o (o + dw - (umax t + 1))); [unfold dw in *; lia|]. cbn [bind].
    unfold w_audio_sink. cbn [frames with_frames w_range_bounds]. rewrite firstn_length.
    destruct (N.leb_spec (N.of_nat (length (frames a))) (N.of_nat (Nat.min (Z.to_nat (o + dw - (umax t + 1))) (length (frames a))))) as [Q|Q].
    + exfalso. unfold dw, o in *. lia.
    + cbn [andb bind]. eauto.
Qed.
Lemma w_extend_infinite t l k ls ks fuel (a : audio l k) (s : stream ls ks) : slen s = None -> w_extend t fuel a s = extend fuel a s.
Proof. intros Hl. unfold w_extend, extend, w_extend_internal, extend_internal. now rewrite Hl. Qed.
Lemma fdiv_value (x y : f64) : is_finite (fdiv x y) = true -> is_finite x = true -> B2R y <> 0%R -> B2R (fdiv x y) = round64 (B2R x / B2R y).
Proof.
  intros F Fx Ny. pose proof (Bdiv_correct 53 1024 _ _ mode_NE x y Ny) as C.
  change (round radix2 (SpecFloat.fexp 53 1024) (round_mode mode_NE)) with round64 in C.
  destruct (Rlt_bool (Rabs (round64 (B2R x / B2R y))) (bpow radix2 1024)).
  - apply C.
  - apply (B2SF_inf 53 1024) in C. unfold fdiv in F. rewrite C in F. discriminate.
Qed.
Lemma ratio_le_quotient rate src (n : Z) : 1 <= n <= 2 ^ 53 -> is_finite (fdiv rate src) = true -> (0 < B2R (fdiv rate src))%R ->
  is_finite (fdiv (fmul rate (fofZ n)) src) = true -> (B2R (fdiv rate src) <= B2R (fdiv (fmul rate (fofZ n)) src))%R.
Proof.
  intros Hn Fr Pr Fq. destruct (fofZ53 n ltac:(lia)) as [E F].
  assert (Frate : is_finite rate = true).
  { destruct rate as [| | |]; try reflexivity; destruct src as [| | |]; discriminate. }
  assert (Ns : B2R src <> 0%R).
  { intros N. destruct src as [s|s| |s m e H].
    - destruct rate as [| | |]; discriminate.
    - destruct rate as [| | |]; try discriminate; cbn in Pr; lra.
    - destruct rate as [| | |]; discriminate.
    - cbn in N. apply eq_0_F2R in N. destruct s; discriminate. }
  destruct (fmul_cases rate (fofZ n) Frate F) as [(F1 & E1)|(s & E1 & _)].
  - rewrite (fdiv_value _ _ Fq F1 Ns), E1, E. rewrite (fdiv_value _ _ Fr Frate Ns) in *. apply (rnd_mono 53 1024).
    assert (Rr : round64 (B2R rate) = B2R rate) by (apply (rnd_fmt 53 1024), (generic_format_B2R 53 1024)).
    assert (Pos : (0 < B2R rate / B2R src)%R).
    { apply Rnot_le_lt. intros N. apply (rnd_mono 53 1024) in N. change (round_to 53 1024) with round64 in N. rewrite round64_0 in N. lra. }
    assert (N1 : (1 <= IZR n)%R) by (apply (IZR_le 1); lia).
    unfold Rdiv in *. assert (I : (/ B2R src <> 0)%R) by (apply Rinv_neq_0_compat; exact Ns).
    destruct (Rlt_or_le 0 (/ B2R src)) as [S|S].
    + assert (0 < B2R rate)%R by nra. assert (B2R rate <= round64 (B2R rate * IZR n))%R by (rewrite <- Rr at 1; apply (rnd_mono 53 1024); nra). nra.
    + assert (B2R rate < 0)%R by nra. assert (round64 (B2R rate * IZR n) <= B2R rate)%R by (rewrite <- Rr at 2; apply (rnd_mono 53 1024); nra). nra.
  - exfalso. rewrite E1 in Fq. destruct src as [| | |]; discriminate.
Qed.
Lemma extend_not_beyond t l k ls ks {A} fuel rate (s : stream ls ks) n (r : res A) : Z.of_nat fuel <= umax t -> Z.of_N n <= umax t ->
  let d := frames_for rate (sample_rate s) n in d <= imax t -> ~ stops_beyond t fuel (new_frames l k rate d) s r.
Proof.
  intros Hf Hn d Hd (_ & _ & ratio & s' & i & Ng & Hi & Fl & X).
  destruct (Z.eq_dec (bits t) 64) as [B64|B64]; [now apply (not_beyond64 t _ B64) in X|].
  assert (Um : umax t <= 2 ^ 32 - 1) by (unfold umax, bits in *; destruct (t_pointer t); lia).
  pose proof (umax_bounds t) as UB. pose proof (imax_umax t) as IU.
  destruct (frames_for_bounds rate (sample_rate s) n) as [Bd _]. fold d in Bd.
  change (resampler_index (sk_res (new_frames l k rate d))) with (flit 0 0 : f64) in *.
  assert (Ln : Z.of_nat (length (sk_buf (new_frames l k rate d))) = d) by (cbn; rewrite repeat_length; lia). rewrite Ln in Fl. clear Ln.
  destruct (beyond_gt t _ X) as [X1 X2]. change (flit 0 0 : f64) with (flit 0 0 : f64) in X1.
  assert (F0 : is_finite (flit 0 0 : f64) = true /\ B2R (flit 0 0 : f64) = 0%R) by (rewrite flit_0; now split). destruct F0 as [F0 F0'].
  assert (Fr : is_finite ratio = true).
  { destruct (is_finite ratio) eqn:Fr; [reflexivity|]. exfalso. unfold place in X2. rewrite flit_0 in X2.
    destruct (fofZ53 (Z.of_nat i) ltac:(lia)) as [_ F]. destruct ratio as [| | |], (fofZ (Z.of_nat i) : f64) as [| | |]; discriminate. }
  assert (U : forall A : Z, 0 <= A <= umax t -> (B2R ratio * IZR (Z.of_nat i) <= IZR A)%R -> False).
  { intros A0 HA H. pose proof (place_le ratio (flit 0 0) i A0 0 Fr F0 ltac:(lia) ltac:(lia) ltac:(lia) H ltac:(lra) X2) as Q.
    rewrite Z.add_0_r in Q. assert (IZR A0 <= IZR (umax t))%R by (apply IZR_le; lia). lra. }
  destruct (Rle_or_lt (B2R ratio) 0) as [Neg|Pos].
  { apply (U 0 ltac:(lia)). assert (0 <= IZR (Z.of_nat i))%R by (apply (IZR_le 0); lia). nra. }
  destruct i as [|[|i]].
  - apply (U 0 ltac:(lia)). cbn [Z.of_nat]. lra.
  - apply (U (imax t + 1) ltac:(lia)). change (IZR (Z.of_nat 1)) with 1%R. rewrite Rmult_1_r.
    assert (D1 : 1 <= d). { specialize (Fl 0%nat ltac:(lia)). pose proof (floor_index_bounds (place ratio (flit 0 0) 0)). lia. }
    destruct Ng as [(src & Es & Er & _)|(Es & Er & _)].
    + unfold d, frames_for in D1, Hd. rewrite Es in D1, Hd. cbn [sk_rate new_frames] in Er. set (q := fdiv (fmul rate (fofZ (Z.of_N n))) src) in *.
      destruct (is_finite q) eqn:Fq; [|lia]. subst ratio.
      assert (N1 : 1 <= Z.of_N n).
      { destruct (N.eq_dec n 0) as [->|]; [|lia]. exfalso. assert (Q0 : B2R q = 0%R).
        { unfold q. change (fofZ (Z.of_N 0) : f64) with (fofZ 0 : f64). rewrite fofZ_0. clear - Fq Fr Pos.
          destruct rate as [| | |], src as [| | |]; try reflexivity; discriminate. }
        unfold ceil_index, frac in D1. rewrite Q0, (Ztrunc_IZR 0), Rminus_0_r in D1. pose proof (bpow_gt_0 radix2 (-52)).
        destruct (Rlt_dec _ _); [lra|]. destruct q; try discriminate; cbn [floor_index] in D1; rewrite Q0, (Ztrunc_IZR 0) in D1; cbn in D1; lia. }
      pose proof (ratio_le_quotient rate src (Z.of_N n) ltac:(lia) Fr Pos Fq) as LQ. fold q in LQ.
      pose proof (ceil_index_bounds q) as CB. pose proof (floor_index_bounds q) as FB.
      assert (P0 : (0 <= B2R q)%R) by lra.
      assert (T : (B2R q < IZR (Ztrunc (B2R q)) + 1)%R) by (rewrite Ztrunc_floor by exact P0; apply Zfloor_ub).
      assert (T2 : Ztrunc (B2R q) = floor_index q).
      { assert (Z0 : 0 <= Ztrunc (B2R q)) by (rewrite <- (Ztrunc_IZR 0); now apply Ztrunc_le).
        destruct q; try discriminate; cbn [floor_index] in *; rewrite clampZ_maxmin in * by lia; lia. }
      rewrite T2 in T. rewrite plus_IZR. assert (IZR (floor_index q) <= IZR (imax t))%R by (apply IZR_le; lia). lra.
    + rewrite Er. destruct (one_correct 53 1024) as [O _]. rewrite O. apply (IZR_le 1). lia.
  - apply (U (2 * d) ltac:(lia)). specialize (Fl (S i) ltac:(lia)).
    assert (Q : (B2R ratio * INR (S i) < IZR d)%R).
    { apply Rnot_le_lt. intros N.
      pose proof (place_above ratio (flit 0 0) (S i) d Fr ltac:(apply above_finite; [exact F0|lra]) ltac:(lia) ltac:(lia) N). lia. }
    rewrite <- INR_IZR_INZ. rewrite mult_IZR. rewrite (S_INR (S i)). rewrite S_INR in *. pose proof (pos_INR i). nra.
Qed.

Lemma w_extend_same t l k ls ks fuel (a : audio l k) (s : stream ls ks) n : slen s = Some n -> Z.of_N n <= umax t -> Z.of_nat fuel <= umax t ->
  let d := frames_for (s_rate a) (sample_rate s) n in
  fits t l k (Z.of_nat (length (frames a))) -> d = 0 \/ fits t l k (Z.max (2 * Z.of_nat (length (frames a))) (Z.of_nat (length (frames a)) + d)) ->
  w_extend t fuel a s = extend fuel a s.
Proof.
  intros Hl Hn Hf d Ha Hd. destruct (w_extend_fits t l k ls ks fuel a s n Hl Hn Hf Ha Hd) as [E|(_ & X)]; [exact E|]. exfalso.
  apply (extend_not_beyond t l k ls ks fuel (s_rate a) s n) in X; auto. fold d.
  assert (P : 1 <= bytes_per_frame l k) by (destruct l, k; cbn; lia). pose proof (imax_umax t). pose proof (umax_bounds t).
  destruct (frames_for_bounds (s_rate a) (sample_rate s) n) as [Bd _]. fold d in Bd. unfold fits in *. destruct Hd as [->|Hd]; nia.
Qed.
Lemma w_with_stream_same t l k ls ks fuel rate (s : stream ls ks) n : slen s = Some n -> Z.of_N n <= umax t -> Z.of_nat fuel <= umax t ->
  (fits t l k (frames_for rate (sample_rate s) n) -> w_with_stream t l k fuel rate s = with_stream l k fuel rate s) /\
  (~ fits t l k (frames_for rate (sample_rate s) n) -> exists p, w_with_stream t l k fuel rate s = Panic p).
Proof.
  intros Hl Hn Hf. destruct (frames_for_bounds rate (sample_rate s) n) as [Bd _].
  assert (I0 : fits t l k 0) by (unfold fits; pose proof (imax_umax t); pose proof (umax_bounds t); lia). unfold w_with_stream, with_stream. split.
  - intros Fi. rewrite (w_extend_same t l k ls ks fuel (with_frames rate []) s n); auto. cbn [with_frames frames s_rate length Z.of_nat].
    right. now rewrite Z.max_r by lia.
  - intros Fi. destruct (w_extend_too_long t l k ls ks fuel (with_frames rate []) s n) as (p & ->); auto; cbn [with_frames frames s_rate length Z.of_nat]; auto.
    + destruct (Z.eq_dec (frames_for rate (sample_rate s) n) 0) as [E|]; [|lia]. rewrite E in Fi. contradiction.
    + now rewrite Z.max_r by lia.
    + exists p. reflexivity.
Qed.

(** ** A 32-bit debug build stops where a 64-bit one does not. *)
Definition ex_rate : f64 := flit 8589934591 (-1).
Definition ex_sink : sink Mono K8 := mkSink ex_rate [frame_default Mono K8] (resampler_default Mono K8).
Definition ex_stream : stream Mono K8 := SAudio (flit 1 0) [frame_default Mono K8; frame_default Mono K8].
Lemma ex_ratio : fdiv ex_rate (flit 1 0) = ex_rate. Proof. apply B2SF_inj. vm_compute. reflexivity. Qed.
Lemma ex_floor i z : f64_as_usize (place ex_rate (flit 0 0) i) = z -> floor_index (place ex_rate (flit 0 0) i) = z.
Proof. now rewrite floor_index_correct. Qed.
Lemma ex_beyond : beyond (wasm32 true) (place ex_rate (flit 0 0) 1).
Proof.
  apply isbeyond_iff. unfold isbeyond. rewrite (ex_floor 1 4294967295) by (vm_compute; reflexivity).
  apply andb_true_intro. split; [vm_compute; reflexivity|reflexivity].
Qed.
Lemma ex_stops : (exists sk' it, sink_stream 2 ex_sink ex_stream = Ok (sk', it)) /\
  w_sink_stream (wasm32 true) 2 ex_sink ex_stream = Panic ArithOverflow.
Proof.
  assert (Ng : negotiated ex_sink ex_stream ex_rate ex_stream).
  { left. exists (flit 1 0). split; [reflexivity|]. split; [symmetry; exact ex_ratio|reflexivity]. }
  assert (Ec : covered ex_rate (slen ex_stream) (length (sk_buf ex_sink)) = 1).
  { unfold covered. cbn [slen ex_stream length ex_sink sk_buf]. rewrite <- floor_index_correct.
    assert (f64_as_usize (fmul ex_rate (fofZ (Z.of_N (N.of_nat 2)))) = 8589934591) as -> by (vm_compute; reflexivity). reflexivity. }
  assert (Hu : Z.of_nat (length (sk_buf ex_sink)) <= umax (wasm32 true)) by (unfold ex_sink; cbn [sk_buf length]; unfold umax, bits; cbn [t_pointer wasm32]; lia).
  assert (Rd : reads ex_stream ex_rate (resampler_index (sk_res ex_sink)) (covered ex_rate (slen ex_stream) (length (sk_buf ex_sink)))
    [frame_default Mono K8] 1%N (SAudio (flit 1 0) [frame_default Mono K8])).
  { rewrite Ec. change (resampler_index (sk_res ex_sink)) with (flit 0 0 : f64). split.
    + intros [|i] Hi; [|cbn [length] in Hi; lia]. rewrite (ex_floor 0 0) by (vm_compute; reflexivity). lia.
    + left. split; [|split; [|reflexivity]].
      * econstructor; [reflexivity|constructor].
      * cbn [length]. rewrite (ex_floor 1 4294967295) by (vm_compute; reflexivity). lia. }
  pose proof (w_exact (wasm32 true) Mono K8 Mono K8 2 ex_sink ex_stream ex_stream (SAudio (flit 1 0) [frame_default Mono K8]) ex_rate
    [frame_default Mono K8] 1%N Hu Ng Rd (le_n 2) (eq_refl true)) as X.
  destruct X as (E & _ & X). split.
  - destruct E as (sk' & E). exists sk', (SAudio (flit 1 0) [frame_default Mono K8]). exact E.
  - apply X. right. exact ex_beyond.
Qed.
