(** * GenericProofs.v -- other implementors of the traits (C72) *)
From Coq Require Import ZArith NArith Reals List Bool Lia.
From Flocq Require Import Core.Core IEEE754.BinarySingleNaN.
From Verif Require FArithProofs.
From Verif Require Import Rust Float Math Chan Frame Ops Stream Audio Unwind Generic SpecChan SpecFrame SpecStream SpecSink SpecAudio SpecUnwind SpecGeneric
  FrameProofs StreamProofs SinkProofs AudioProofs PlaceProofs CopyProofs UnwindProofs.
Import ListNotations.
Open Scope Z_scope.

(** ** The crate's frames *)
Lemma std_update l k i x (buf : list (frame l k)) : g_update (std_frame l k) i x buf = update_at i (fun b => frame_add b x) buf.
Proof. revert i; induction buf as [|b buf IH]; intros [|i]; cbn [g_update update_at bind std_frame fr_add]; try reflexivity. now rewrite <- IH. Qed.
Lemma std_buf_add l k e i x (buf : list (frame l k)) : g_buf_add (std_frame l k) e i x buf = buf_add e i x buf.
Proof. unfold g_buf_add, buf_add. destruct (_ && _)%bool; [apply std_update|reflexivity]. Qed.
Lemma std_buf_clear l k e (buf : list (frame l k)) : g_buf_clear (std_frame l k) e buf = buf_clear e buf.
Proof. reflexivity. Qed.
Lemma std_dst_end l k ratio n (buf : list (frame l k)) : g_dst_end (std_frame l k) ratio n buf = dst_end ratio n buf.
Proof. reflexivity. Qed.
Lemma std_add_partial l k p (buf : list (frame l k)) : g_add_partial (std_frame l k) p buf = Ok (add_partial p buf).
Proof. destruct buf; reflexivity. Qed.

(** ** Lengths *)
Lemma g_update_length T i x : forall buf buf', g_update T i x buf = Ok buf' -> length buf' = length buf.
Proof.
  revert i. intros i buf; revert i; induction buf as [|b buf IH]; intros [|i] buf' H; cbn [g_update] in H; try discriminate.
  - destruct (fr_add T b x); cbn [bind] in H; try discriminate. injection H as <-. reflexivity.
  - destruct (g_update T i x buf) eqn:E; cbn [bind] in H; try discriminate. injection H as <-. cbn. f_equal. eauto.
Qed.
Lemma g_buf_add_length T e i x buf buf' : g_buf_add T e i x buf = Ok buf' -> length buf' = length buf.
Proof. unfold g_buf_add. destruct (_ && _)%bool; [apply g_update_length|discriminate]. Qed.
Lemma std_buf_add_length l k e i x (buf buf' : list (frame l k)) : buf_add e i x buf = Ok buf' -> length buf' = length buf.
Proof. rewrite <- std_buf_add. apply (g_buf_add_length (std_frame l k)). Qed.
Lemma g_buf_clear_length T e buf buf' : g_buf_clear T e buf = Ok buf' -> 0 <= e -> length buf' = length buf.
Proof.
  unfold g_buf_clear. destruct (Z.leb_spec e (Z.of_nat (length buf))); [|discriminate]. intros H0 He. injection H0 as <-.
  rewrite app_length, repeat_length, skipn_length. lia.
Qed.
Lemma g_add_partial_length T p buf buf' : g_add_partial T p buf = Ok buf' -> length buf' = length buf.
Proof. destruct buf as [|b bs]; cbn; [intros H; injection H as <-; reflexivity|]. destruct (fr_add T b p); cbn; try discriminate. intros H; injection H as <-. reflexivity. Qed.
Lemma g_dst_end_pos T ratio n buf : 0 <= g_dst_end T ratio n buf.
Proof.
  destruct n as [n|]; cbn [g_dst_end]; [|lia]. pose proof (floor_index_bounds (fmul ratio (usize_as_f64 (Z.of_N n)))).
  rewrite floor_index_correct. lia.
Qed.

(** ** Any sink behaves as the stored state *)
Section View.
  Context {l : layout} {k : ck} (K : sink_type (frame l k)) (W : lawful K).
  Lemma view_buf s b : length b = length (si_buffer K s) -> view K (si_set_buffer K s b) = with_buf (view K s) b.
  Proof. intros H. unfold view, with_buf. cbn. now rewrite (law_rate_b K W), (law_p_b K W), (law_o_b K W), (law_b_b K W). Qed.
  Lemma view_partial s p : view K (si_set_partial K s p) = with_res (view K s) (mkResampler p (offseti (sk_res (view K s)))).
  Proof. unfold view, with_res. cbn. now rewrite (law_rate_p K W), (law_p_p K W), (law_o_p K W), (law_b_p K W). Qed.
  Lemma view_off s o : view K (si_set_offseti K s o) = with_res (view K s) (mkResampler (partial (sk_res (view K s))) o).
  Proof. unfold view, with_res. cbn. now rewrite (law_rate_o K W), (law_p_o K W), (law_o_o K W), (law_b_o K W). Qed.

  Lemma view_loop ls ks ratio e fuel : forall i (sk : si K) (it : stream ls ks) srclen,
    loop_st fuel i ratio e (view K sk) it srclen =
    (let '((sk', it'), r) := g_loop (std_frame l k) K (std_stream ls ks) (convert l k) fuel i ratio e sk it srclen in ((view K sk', it'), r)).
  Proof.
    induction fuel as [|fuel IH]; intros i sk it srclen; [reflexivity|]. cbn [loop_st g_loop].
    change (offseti (sk_res (view K sk))) with (si_offseti K sk).
    destruct (ceil_usize _) as [c|p|]; cbn [run]; try reflexivity.
    destruct (_ <? e); cbn [negb]; [|reflexivity]. cbn [std_stream so_next].
    destruct (next_st it) as [it' [[x|]|p|]]; cbn [run]; try reflexivity.
    destruct (convert l k x) as [x'|p|]; cbn [run]; try reflexivity. cbn [std_frame fr_mul fr_from_f64 fr_add].
    destruct (frame_mul x' (frame_from_f64 l k (floor_w ratio _))) as [xf|p|]; cbn [run]; try reflexivity.
    change (sk_buf (view K sk)) with (si_buffer K sk).
    rewrite (std_buf_add l k e _ xf). change (fr (std_frame l k)) with (frame l k). destruct (buf_add e _ xf (si_buffer K sk)) as [buf|p|] eqn:E1; cbn [run]; try reflexivity.
    apply std_buf_add_length in E1. pose proof (view_buf sk buf E1) as V1. rewrite <- V1.
    destruct (frame_mul x' (frame_from_f64 l k (ceil_w ratio _))) as [xc|p|]; cbn [run]; try reflexivity.
    destruct (c <? e).
    - change (sk_buf (view K (si_set_buffer K sk buf))) with (si_buffer K (si_set_buffer K sk buf)).
      rewrite (std_buf_add l k e c xc). destruct (buf_add e c xc (si_buffer K (si_set_buffer K sk buf))) as [buf2|p|] eqn:E2; cbn [run]; try reflexivity.
      apply std_buf_add_length in E2. rewrite <- (view_buf _ buf2 E2). apply IH.
    - cbn [run]. change (partial (sk_res (view K (si_set_buffer K sk buf)))) with (si_partial K (si_set_buffer K sk buf)).
      rewrite <- IH, view_partial. reflexivity.
  Qed.
  Lemma view_stream ls ks fuel (sk : si K) (s : stream ls ks) :
    sink_stream_st fuel (view K sk) s =
    (let '((sk', it'), r) := g_stream (std_frame l k) K (std_stream ls ks) (convert l k) fuel sk s in ((view K sk', it'), r)).
  Proof.
    unfold sink_stream_st, g_stream, ratio_st. cbn [std_stream so_rate so_set_rate so_len].
    change (sk_rate (view K sk)) with (si_rate K sk).
    destruct (match sample_rate s with Some r => _ | None => _ end) as [t [ratio|p|]]; cbn [run]; try reflexivity.
    rewrite std_add_partial. change (fr (std_frame l k)) with (frame l k). cbn [run]. change (partial (sk_res (view K sk))) with (si_partial K sk).
    change (sk_buf (view K sk)) with (si_buffer K sk).
    assert (L : length (add_partial (si_partial K sk) (si_buffer K sk)) = length (si_buffer K sk)) by apply add_partial_length.
    rewrite <- (view_buf sk _ L). set (sk1 := si_set_buffer K sk _).
    change (sk_buf (view K sk1)) with (si_buffer K sk1). rewrite std_dst_end.
    pose proof (g_dst_end_pos (std_frame l k) ratio (slen t) (si_buffer K sk1)) as Pe. rewrite std_dst_end in Pe.
    rewrite (std_buf_clear l k). change (fr (std_frame l k)) with (frame l k). destruct (buf_clear (dst_end ratio (slen t) (si_buffer K sk1)) (si_buffer K sk1)) as [buf|p|] eqn:E1; cbn [run]; try reflexivity.
    apply (g_buf_clear_length (std_frame l k)) in E1; [|exact Pe]. rewrite <- (view_buf sk1 buf E1). rewrite view_loop.
    destruct (g_loop _ _ _ _ _ _ _ _ _ _ _) as [[sk2 it] [o|p|]]; cbn [run]; try reflexivity.
    destruct o as [n|]; cbn [run of_opt]; [|reflexivity]. now rewrite view_off.
  Qed.
  Lemma view_flush (sk : si K) :
    flush (view K sk) = (let '(sk', r) := g_flush (std_frame l k) K sk in _ <- r ;; Ok (view K sk')).
  Proof.
    unfold flush, g_flush. change (offseti (sk_res (view K sk))) with (si_offseti K sk).
    change (partial (sk_res (view K sk))) with (si_partial K sk). change (sk_buf (view K sk)) with (si_buffer K sk).
    destruct (_ || _)%bool; [|reflexivity]. cbn [std_frame fr]. destruct (_ <? _); [|reflexivity].
    destruct (update_at _ _ (si_buffer K sk)) as [buf|p|] eqn:E; cbn [run bind]; try reflexivity. f_equal. symmetry. apply view_buf.
    clear -E. revert E. generalize (Z.to_nat (f64_as_usize (si_offseti K sk))) as i. generalize (si_buffer K sk) as b0. revert buf.
    intros buf b0; revert buf; induction b0 as [|b b0 IH]; intros buf [|i] H; cbn [update_at] in H; try discriminate.
    - injection H as <-. reflexivity.
    - destruct (update_at i _ b0) eqn:E; cbn [bind] in H; try discriminate. injection H as <-. cbn. f_equal. eapply IH; eauto.
  Qed.
End View.

(** ** Nothing else of the sink changes *)
Section Other.
  Context (T : frame_type) (K : sink_type (fr T)) {X : Type} (M : stream_type X) (conv : X -> res (fr T)) {O : Type} (ob : si K -> O) (H : other K ob).
  Lemma other_loop ratio e fuel : forall i sk it srclen,
    ob (fst (fst (g_loop T K M conv fuel i ratio e sk it srclen))) = ob sk.
  Proof.
    destruct H as (Hp & Ho & Hb).
    induction fuel as [|fuel IH]; intros i sk it srclen; [reflexivity|]. cbn [g_loop].
    destruct (ceil_usize _) as [c|p|]; cbn [run fst]; try reflexivity.
    destruct (_ <? e); cbn [negb]; [|reflexivity].
    destruct (so_next M it) as [it' [[x|]|p|]]; cbn [run fst]; try reflexivity.
    destruct (conv x) as [x'|p|]; cbn [run fst]; try reflexivity.
    destruct (fr_mul T x' _) as [xf|p|]; cbn [run fst]; try reflexivity.
    destruct (g_buf_add T e _ xf _) as [buf|p|]; cbn [run fst]; try reflexivity.
    destruct (fr_mul T x' _) as [xc|p|]; cbn [run fst]; try apply Hb.
    destruct (c <? e).
    - destruct (g_buf_add T e c xc _) as [buf2|p|]; cbn [run fst]; try apply Hb. now rewrite IH, !Hb.
    - destruct (fr_add T _ xc) as [q|p|]; cbn [run fst]; try apply Hb. now rewrite IH, Hp, Hb.
  Qed.
  Lemma other_stream fuel sk s : ob (fst (fst (g_stream T K M conv fuel sk s))) = ob sk.
  Proof.
    unfold g_stream. destruct (match so_rate M s with Some r => _ | None => _ end) as [t [ratio|p|]]; cbn [run fst]; try reflexivity.
    destruct (g_add_partial T _ _) as [b|p|]; cbn [run fst]; try reflexivity.
    destruct (g_buf_clear T _ _) as [b2|p|]; cbn [run fst]; try apply (proj2 (proj2 H)).
    set (e := g_dst_end _ _ _ _). set (sk1 := si_set_buffer K _ b2).
    pose proof (other_loop ratio e fuel 0%nat sk1 t (so_len M t)) as R.
    assert (E : ob sk1 = ob sk) by (unfold sk1; now rewrite !(proj2 (proj2 H))). rewrite E in R.
    destruct (g_loop T K M conv fuel 0 ratio e sk1 t (so_len M t)) as [[sk2 it] [[n|]|p|]]; cbn [run of_opt fst] in *; try exact R.
    now rewrite (proj1 (proj2 H)).
  Qed.
  Lemma other_flush sk : ob (fst (g_flush T K sk)) = ob sk.
  Proof.
    unfold g_flush. destruct (_ || _)%bool; [|reflexivity]. destruct (_ <? _); [|reflexivity].
    destruct (update_at _ _ _); cbn [run fst]; [apply (proj2 (proj2 H))|reflexivity|reflexivity].
  Qed.
End Other.

(** ** Any stream behaves as the list of its frames *)
Section Listed.
  Context {ls : layout} {ks : ck} (T : frame_type) (K : sink_type (fr T)) (M : stream_type (frame ls ks)) (conv : frame ls ks -> res (fr T)).
  Lemma after_S n s : after M (S n) s = fst (so_next M (after M n s)).
  Proof. revert s; induction n as [|n IH]; intros s; [reflexivity|]. cbn [after] in *. now rewrite <- IH. Qed.
  Lemma listed_loop ratio e s ur uc ul fuel : forall i n sk srclen,
    let '((sk1, _), r1) := g_loop T K M conv fuel i ratio e sk (after M n s) srclen in
    let '((sk2, _), r2) := g_loop T K (std_stream ls ks) conv fuel i ratio e sk (SUser (mkUser ur uc ul (item M s) n)) srclen in
    sk1 = sk2 /\ r1 = r2.
  Proof.
    induction fuel as [|fuel IH]; intros i n sk srclen; [split; reflexivity|]. cbn [g_loop].
    destruct (ceil_usize _) as [c|p|]; cbn [run]; try (split; reflexivity).
    destruct (_ <? e); cbn [negb]; [|split; reflexivity].
    cbn [std_stream so_next next_st u_item u_pos u_rate u_configurable u_len].
    change (item M s n) with (snd (so_next M (after M n s))).
    pose proof (after_S n s) as A. destruct (so_next M (after M n s)) as [it' o]. cbn [fst snd] in *.
    destruct o as [[x|]|p|]; cbn [run]; try (split; reflexivity).
    destruct (conv x) as [x'|p|]; cbn [run]; try (split; reflexivity).
    destruct (fr_mul T x' _) as [xf|p|]; cbn [run]; try (split; reflexivity).
    destruct (g_buf_add T e _ xf _) as [buf|p|]; cbn [run]; try (split; reflexivity).
    destruct (fr_mul T x' _) as [xc|p|]; cbn [run]; try (split; reflexivity).
    destruct (c <? e).
    - destruct (g_buf_add T e c xc _) as [buf2|p|]; cbn [run]; try (split; reflexivity). rewrite <- A. apply IH.
    - destruct (fr_add T _ xc) as [q|p|]; cbn [run]; try (split; reflexivity). rewrite <- A. apply IH.
  Qed.
  Lemma listed_stream fuel sk s : (so_rate M s = None -> plain_set_rate M s (si_rate K sk)) ->
    let '((sk1, _), r1) := g_stream T K M conv fuel sk s in
    let '((sk2, _), r2) := g_stream T K (std_stream ls ks) conv fuel sk (listed M s (si_rate K sk)) in
    sk1 = sk2 /\ r1 = r2.
  Proof.
    intros Hp. unfold g_stream, listed.
    assert (G : forall ratio t ur uc ul, ul = so_len M t ->
      let '((sk1, _), r1) := run (sk, t) (g_add_partial T (si_partial K sk) (si_buffer K sk)) (fun buf =>
        let sk := si_set_buffer K sk buf in
        let srclen := so_len M t in
        let end_ := g_dst_end T ratio (so_len M t) (si_buffer K sk) in
        run (sk, t) (g_buf_clear T end_ (si_buffer K sk)) (fun buf =>
        let sk := si_set_buffer K sk buf in
        let '((sk, it), r) := g_loop T K M conv fuel 0 ratio end_ sk t srclen in
        run (sk, it) r (fun srclen =>
        run (sk, it) (of_opt UnwrapNone srclen) (fun n =>
        ((si_set_offseti K sk (fadd (si_offseti K sk) (fmul ratio (usize_as_f64 (Z.of_N n)))), it), Ok tt))))) in
      let '((sk2, _), r2) := run (sk, SUser (mkUser ur uc ul (item M t) 0) : stream ls ks) (g_add_partial T (si_partial K sk) (si_buffer K sk)) (fun buf =>
        let sk := si_set_buffer K sk buf in
        let srclen := ul in
        let end_ := g_dst_end T ratio ul (si_buffer K sk) in
        run (sk, SUser (mkUser ur uc ul (item M t) 0) : stream ls ks) (g_buf_clear T end_ (si_buffer K sk)) (fun buf =>
        let sk := si_set_buffer K sk buf in
        let '((sk, it), r) := g_loop T K (std_stream ls ks) conv fuel 0 ratio end_ sk (SUser (mkUser ur uc ul (item M t) 0)) srclen in
        run (sk, it) r (fun srclen =>
        run (sk, it) (of_opt UnwrapNone srclen) (fun n =>
        ((si_set_offseti K sk (fadd (si_offseti K sk) (fmul ratio (usize_as_f64 (Z.of_N n)))), it), Ok tt))))) in
      sk1 = sk2 /\ r1 = r2).
    { intros ratio t ur uc ul ->. destruct (g_add_partial T _ _) as [b|p|]; cbn [run]; try (split; reflexivity). cbv zeta.
      destruct (g_buf_clear T _ _) as [b2|p|]; cbn [run]; try (split; reflexivity).
      match goal with |- context [g_loop T K M conv fuel 0 ratio ?e ?k1 t ?n] =>
        pose proof (listed_loop ratio e t ur uc (so_len M t) fuel 0%nat 0%nat k1 n) as L end.
      cbn [after] in L. destruct (g_loop T K M conv _ _ _ _ _ _ _) as [[k1 t1] r1].
      destruct (g_loop T K (std_stream ls ks) conv _ _ _ _ _ _ _) as [[k2 t2] r2]. destruct L as [<- <-].
      destruct r1 as [[n|]|p|]; cbn [run of_opt]; split; reflexivity. }
    destruct (so_rate M s) as [r|] eqn:Er.
    - cbn [run std_stream so_rate sample_rate u_rate so_len slen u_len]. apply G. reflexivity.
    - specialize (Hp eq_refl). unfold plain_set_rate in Hp. destruct (so_set_rate M s (si_rate K sk)) as [t [[]|p|]]; cbn [snd] in Hp.
      + cbn [run std_stream so_rate sample_rate u_rate so_set_rate set_rate_st u_configurable so_len slen u_len u_item u_pos]. apply G. reflexivity.
      + destruct Hp as [Hp|Hp]; [discriminate|]. injection Hp as ->. cbn. split; reflexivity.
      + destruct Hp; discriminate.
  Qed.
End Listed.

(** ** Custom frame types *)
Lemma foreign_refuses a b : foreign a b -> forall x, convert_any a b x = Panic ExplicitPanic.
Proof. intros [(T & ->)|(T & ->)] x; [reflexivity|]. destruct a; reflexivity. Qed.

Section Refuse.
  Context (T : frame_type) (K : sink_type (fr T)) {X : Type} (M : stream_type X) (conv : X -> res (fr T)).
  Lemma g_stream_started fuel sk s ratio s' : started K M sk s ratio s' ->
    g_stream T K M conv fuel sk s =
    run (sk, s') (g_add_partial T (si_partial K sk) (si_buffer K sk)) (fun buf =>
    let sk := si_set_buffer K sk buf in
    let srclen := so_len M s' in
    let end_ := g_dst_end T ratio (so_len M s') (si_buffer K sk) in
    run (sk, s') (g_buf_clear T end_ (si_buffer K sk)) (fun buf =>
    let sk := si_set_buffer K sk buf in
    let '((sk, it), r) := g_loop T K M conv fuel 0 ratio end_ sk s' srclen in
    run (sk, it) r (fun srclen =>
    run (sk, it) (of_opt UnwrapNone srclen) (fun n =>
    ((si_set_offseti K sk (fadd (si_offseti K sk) (fmul ratio (usize_as_f64 (Z.of_N n)))), it), Ok tt))))).
  Proof.
    intros [(r & E & -> & ->)|(E & E2 & ->)]; unfold g_stream; rewrite E; [reflexivity|]. rewrite E2. reflexivity.
  Qed.
  Lemma g_dst_end_covered ratio n (buf : list (fr T)) : g_dst_end T ratio n buf = covered ratio n (length buf).
  Proof. destruct n as [n|]; cbn [g_dst_end covered]; [|reflexivity]. rewrite floor_index_correct. unfold usize_as_f64. lia. Qed.
  Lemma g_prepared (W : lawful K) (A : adds T) sk ratio n :
    let e := covered ratio n (length (si_buffer K sk)) in
    exists buf1, g_add_partial T (si_partial K sk) (si_buffer K sk) = Ok buf1 /\ length buf1 = length (si_buffer K sk) /\
      skipn 1 buf1 = skipn 1 (si_buffer K sk) /\
      si_buffer K (si_set_buffer K sk buf1) = buf1 /\ g_dst_end T ratio n buf1 = e /\
      g_buf_clear T e buf1 = Ok (repeat (fr_default T) (Z.to_nat e) ++ skipn (Z.to_nat e) buf1) /\
      si_buffer K (si_set_buffer K (si_set_buffer K sk buf1) (repeat (fr_default T) (Z.to_nat e) ++ skipn (Z.to_nat e) buf1)) =
        repeat (fr_default T) (Z.to_nat e) ++ skipn (Z.to_nat e) buf1.
  Proof.
    intros e. pose proof (covered_bounds ratio n (length (si_buffer K sk))) as B. fold e in B.
    assert (exists buf1, g_add_partial T (si_partial K sk) (si_buffer K sk) = Ok buf1 /\ length buf1 = length (si_buffer K sk) /\
      skipn 1 buf1 = skipn 1 (si_buffer K sk)) as (buf1 & E1 & L1 & S1).
    { destruct (si_buffer K sk) as [|b bs]; cbn [g_add_partial]; [exists []; auto|].
      destruct (A b (si_partial K sk)) as (z & Ez). rewrite Ez. cbn [bind]. exists (z :: bs). auto. }
    exists buf1. split; [exact E1|]. split; [exact L1|]. split; [exact S1|].
    assert (G : si_buffer K (si_set_buffer K sk buf1) = buf1) by (apply (law_b_b K W); exact L1).
    split; [exact G|]. split; [rewrite g_dst_end_covered, L1; reflexivity|].
    split; [unfold g_buf_clear; rewrite L1; destruct (Z.leb_spec e (Z.of_nat (length (si_buffer K sk)))); [reflexivity|lia]|].
    apply (law_b_b K W). rewrite G, app_length, repeat_length, skipn_length. lia.
  Qed.
  Lemma refuse_stream (W : lawful K) (A : adds T) (R : forall x, conv x = Panic ExplicitPanic) fuel sk s ratio s' x s1 :
    started K M sk s ratio s' -> so_next M s' = (s1, Ok (Some x)) ->
    let e := covered ratio (so_len M s') (length (si_buffer K sk)) in
    floor_index (place ratio (si_offseti K sk) 0) < e ->
    exists sk', g_stream T K M conv (S fuel) sk s = ((sk', s1), Panic ExplicitPanic) /\
      si_rate K sk' = si_rate K sk /\ si_partial K sk' = si_partial K sk /\ si_offseti K sk' = si_offseti K sk /\
      si_buffer K sk' = repeat (fr_default T) (Z.to_nat e) ++ skipn (Z.to_nat e) (si_buffer K sk).
  Proof.
    intros St Nx e Lt. rewrite (g_stream_started _ _ _ _ _ St).
    destruct (g_prepared W A sk ratio (so_len M s')) as (buf1 & E1 & L1 & S1 & G1 & D & C & G2). fold e in D, C, G2.
    rewrite E1. cbn [run]. cbv zeta. rewrite G1, D, C. cbn [run g_loop].
    set (sk2 := si_set_buffer K (si_set_buffer K sk buf1) _) in *.
    assert (O : si_offseti K sk2 = si_offseti K sk) by (unfold sk2; now rewrite !(law_o_b K W)). rewrite O.
    change (dst_pos ratio (si_offseti K sk) 0) with (place ratio (si_offseti K sk) 0).
    rewrite ceil_index_correct, floor_index_correct. cbn [run].
    destruct (Z.ltb_spec (floor_index (place ratio (si_offseti K sk) 0)) e); [|lia]. cbn [negb]. rewrite Nx. cbn [run]. rewrite R. cbn [run].
    exists sk2. split; [reflexivity|]. split; [unfold sk2; now rewrite !(law_rate_b K W)|]. split; [unfold sk2; now rewrite !(law_p_b K W)|].
    split; [exact O|]. rewrite G2. f_equal. pose proof (floor_index_bounds (place ratio (si_offseti K sk) 0)).
    replace (Z.to_nat e) with (S (Z.to_nat e - 1)) by lia. clear -S1.
    destruct buf1 as [|b1 bs1], (si_buffer K sk) as [|b2 bs2]; cbn [skipn] in *; congruence || (subst; try reflexivity).
    - now rewrite skipn_nil.
    - now rewrite skipn_nil.
  Qed.
End Refuse.

(** ** Copying *)
Section Copy.
  Context (T : frame_type) (K : sink_type (fr T)) {X : Type} (M : stream_type X) (conv : X -> res (fr T)).
  Context (W : lawful K) (A : adds T) (C : unit_weights T).
  Lemma g_update_at pre b post x z : fr_add T b x = Ok z -> g_update T (length pre) x (pre ++ b :: post) = Ok (pre ++ z :: post).
  Proof. intros H. induction pre as [|p pre IH]; cbn [length app g_update]; [now rewrite H|]. now rewrite IH. Qed.
  Lemma g_buf_add_at e pre b post x z : fr_add T b x = Ok z -> Z.of_nat (length pre) < e <= Z.of_nat (length (pre ++ b :: post)) ->
    g_buf_add T e (Z.of_nat (length pre)) x (pre ++ b :: post) = Ok (pre ++ z :: post).
  Proof.
    intros H L. unfold g_buf_add. destruct (Z.leb_spec e (Z.of_nat (length (pre ++ b :: post)))), (Z.ltb_spec (Z.of_nat (length pre)) e); try lia.
    cbn [andb]. rewrite Nat2Z.id. now apply g_update_at.
  Qed.
  Lemma copy_loop rest srclen fuel : forall srcs fs pre sk it,
    Forall2 (fun x f => conv x = Ok f) srcs fs ->
    (forall i x, nth_error srcs i = Some x -> item M it i = Ok (Some x)) ->
    si_offseti K sk = fofZ 0 -> si_buffer K sk = pre ++ repeat (fr_default T) (length fs) ++ rest ->
    Z.of_nat (length pre + length fs) <= 2 ^ 53 ->
    exists sk', g_loop T K M conv (length srcs + S fuel) (length pre) (fofZ 1) (Z.of_nat (length pre + length fs)) sk it srclen =
        ((sk', after M (length srcs) it), Ok (Some (N.of_nat (length pre + length fs)))) /\
      si_buffer K sk' = pre ++ fs ++ rest /\ si_partial K sk' = si_partial K sk /\ si_offseti K sk' = si_offseti K sk /\
      si_rate K sk' = si_rate K sk.
  Proof.
    induction srcs as [|x srcs IH]; intros fs pre sk it Cv It Off Buf Le; inversion Cv as [|x' f srcs' fs' Hc Hcs]; subst; clear Cv.
    - cbn [length Nat.add g_loop]. rewrite Off. change (dst_pos (fofZ 1) (fofZ 0) (length pre)) with (place (fofZ 1) (fofZ 0) (length pre)).
      rewrite ceil_index_correct, floor_index_correct. cbn [run]. cbn [length] in Le.
      unfold place. rewrite (place_int 1 0 (Z.of_nat (length pre))) by lia. rewrite floor_fofZ by lia. cbn [length]. rewrite Nat.add_0_r in *.
      destruct (Z.ltb_spec (1 * Z.of_nat (length pre) + 0) (Z.of_nat (length pre))); [lia|]. cbn [negb].
      exists sk. auto.
    - cbn [length] in Le, Buf. cbn [length Nat.add g_loop]. rewrite Off.
      change (dst_pos (fofZ 1) (fofZ 0) (length pre)) with (place (fofZ 1) (fofZ 0) (length pre)).
      destruct (lattice_int 1 0 (length pre) 1 ltac:(lia) ltac:(lia) ltac:(lia) ltac:(lia) (length pre) ltac:(lia)) as (F1 & F2 & F3 & F4).
      rewrite ceil_index_correct, floor_index_correct. cbn [run].
      change (ceil_w (fofZ 1) (place (fofZ 1) (fofZ 0) (length pre))) with (upper_weight (fofZ 1) (place (fofZ 1) (fofZ 0) (length pre))).
      change (floor_w (fofZ 1) (place (fofZ 1) (fofZ 0) (length pre))) with (lower_weight (fofZ 1) (place (fofZ 1) (fofZ 0) (length pre))).
      rewrite F1, F2, F3, F4. replace (0 + 1 * Z.of_nat (length pre)) with (Z.of_nat (length pre)) by lia.
      destruct (Z.ltb_spec (Z.of_nat (length pre)) (Z.of_nat (length pre + S (length fs')))) as [L|L]; [|lia]. cbn [negb].
      pose proof (It 0%nat x eq_refl) as I0. unfold item in I0. cbn [after] in I0.
      destruct (so_next M it) as [it1 o] eqn:En. cbn [snd] in I0. subst o. cbn [run]. rewrite Hc. cbn [run].
      destruct C as (C0 & C1 & C2). rewrite flit_fofZ in C1. rewrite C1. cbn [run].
      cbn [repeat app] in Buf. rewrite Buf.
      assert (Len : Z.of_nat (length pre) < Z.of_nat (length pre + S (length fs')) <=
        Z.of_nat (length (pre ++ fr_default T :: repeat (fr_default T) (length fs') ++ rest))).
      { rewrite app_length. cbn [length]. rewrite app_length, repeat_length. lia. }
      rewrite (g_buf_add_at _ _ _ _ _ _ (C0 f) Len). cbn [run].
      destruct (C2 f) as (z & Ez & Hz). rewrite Ez. cbn [run].
      assert (Lb : forall y, length (pre ++ y :: repeat (fr_default T) (length fs') ++ rest) = length (si_buffer K sk)).
      { intros y. rewrite Buf, !app_length. reflexivity. }
      set (sk1 := si_set_buffer K sk _). assert (B1 : si_buffer K sk1 = pre ++ f :: repeat (fr_default T) (length fs') ++ rest)
        by (apply (law_b_b K W), Lb).
      rewrite B1. rewrite (g_buf_add_at _ _ _ _ _ _ (Hz f)); [|rewrite app_length in *; cbn [length] in *; lia]. cbn [run].
      set (sk2 := si_set_buffer K sk1 _).
      assert (B2 : si_buffer K sk2 = (pre ++ [f]) ++ repeat (fr_default T) (length fs') ++ rest).
      { unfold sk2. rewrite (law_b_b K W); [now rewrite <- app_assoc|]. rewrite B1. reflexivity. }
      destruct (IH fs' (pre ++ [f]) sk2 it1 Hcs) as (sk' & E & B & P & O & Rt).
      { intros i y Hy. pose proof (It (S i) y Hy) as I1. unfold item in *. cbn [after] in I1. now rewrite En in I1. }
      { unfold sk2, sk1. now rewrite !(law_o_b K W). }
      { exact B2. }
      { rewrite app_length. cbn. lia. }
      rewrite app_length in E. cbn [length] in E. replace (length pre + 1)%nat with (S (length pre)) in E by lia.
      cbn [Nat.add] in E. rewrite (Nat.add_succ_r (length pre)). rewrite E. exists sk'. cbn [after]. rewrite En. cbn [fst].
      split; [reflexivity|]. split; [now rewrite B, <- app_assoc|]. unfold sk2, sk1 in *.
      rewrite P, O, Rt, !(law_p_b K W), !(law_o_b K W), !(law_rate_b K W). auto.
  Qed.
  Lemma generic_copy sk s s' srcs fs fuel : started K M sk s (flit 1 0) s' -> si_offseti K sk = flit 0 0 -> srcs <> [] ->
    (forall i x, nth_error srcs i = Some x -> item M s' i = Ok (Some x)) ->
    Forall2 (fun x f => conv x = Ok f) srcs fs -> Z.of_nat (length (si_buffer K sk)) <= 2 ^ 53 ->
    length srcs = available (so_len M s') (length (si_buffer K sk)) -> (length srcs < fuel)%nat ->
    exists sk', g_stream T K M conv fuel sk s = ((sk', after M (length srcs) s'), Ok tt) /\
      si_buffer K sk' = fs ++ skipn (length srcs) (si_buffer K sk) /\ si_partial K sk' = si_partial K sk /\
      si_offseti K sk' = fofZ (Z.of_nat (length srcs)) /\ si_rate K sk' = si_rate K sk.
  Proof.
    intros St Off Ne It Cv Le Av Fu. rewrite (g_stream_started T K M conv _ _ _ _ _ St).
    destruct (g_prepared T K W A sk (flit 1 0) (so_len M s')) as (buf1 & E1 & L1 & S1 & G1 & D & Cl & G2).
    assert (Ec : covered (flit 1 0) (so_len M s') (length (si_buffer K sk)) = Z.of_nat (length srcs)).
    { rewrite covered_one by exact Le. rewrite Av. unfold available. destruct (so_len M s'); lia. }
    rewrite Ec in *. rewrite E1. cbn [run]. cbv zeta. rewrite G1, D, Cl. cbn [run].
    set (sk2 := si_set_buffer K (si_set_buffer K sk buf1) _) in *.
    assert (Lf : length srcs = length fs) by (clear -Cv; induction Cv; cbn; congruence). rewrite Nat2Z.id in G2.
    assert (Off2 : si_offseti K sk2 = fofZ 0) by (unfold sk2; rewrite !(law_o_b K W), Off; apply flit_fofZ).
    assert (P2 : si_partial K sk2 = si_partial K sk) by (unfold sk2; now rewrite !(law_p_b K W)).
    assert (R2 : si_rate K sk2 = si_rate K sk) by (unfold sk2; now rewrite !(law_rate_b K W)).
    assert (Lm : Z.of_nat (length (@nil (fr T)) + length fs) <= 2 ^ 53).
    { cbn [length Nat.add]. rewrite <- Lf, Av. unfold available. destruct (so_len M s'); lia. }
    rewrite Lf in G2 at 1.
    destruct (copy_loop (skipn (length srcs) buf1) (so_len M s') (fuel - length srcs - 1) srcs fs [] sk2 s' Cv It Off2 G2 Lm)
      as (sk3 & E & B & P & O & Rt).
    replace (length srcs + S (fuel - length srcs - 1))%nat with fuel in E by lia.
    cbn [length Nat.add app] in E, B. rewrite <- Lf in E. rewrite flit_fofZ, E. cbn [run of_opt].
    eexists. split; [reflexivity|].
    rewrite (law_b_o K W), (law_p_o K W), (law_o_o K W), (law_rate_o K W), B, P, Rt, O, Off2, P2, R2.
    split.
    { f_equal. destruct srcs as [|x srcs]; [congruence|]. cbn [length]. clear -S1.
      destruct buf1 as [|b1 bs1], (si_buffer K sk) as [|b2 bs2]; cbn [skipn] in *; subst; try reflexivity; now rewrite skipn_nil. }
    split; [reflexivity|]. split; [|reflexivity].
    unfold usize_as_f64. rewrite nat_N_Z.
    assert (Z.of_nat (length srcs) <= 2 ^ 53) by (rewrite Lf; exact Lm).
    rewrite (FArithProofs.fadd_comm 53 1024), (place_int 1 0 (Z.of_nat (length srcs))) by lia. f_equal. lia.
  Qed.
End Copy.

(** ** Buffers *)
Lemma audio_sink_lawful F : lawful (audio_sink_type F).
Proof. constructor; reflexivity || auto. Qed.
Lemma std_extend l k ls ks fuel (a : audio l k) (s : stream ls ks) :
  extend_st fuel a s =
  (let '((b, it), r) := g_extend (std_frame l k) (Z.of_nat (frame_size l k)) (std_stream ls ks) (convert l k) fuel
     (@mkBuffer (std_frame l k) (s_rate a) (frames a)) s in ((@mkAudio l k (b_rate b) (b_frames b), it), r)).
Proof.
  unfold extend_st, g_extend. cbn [std_stream so_len so_rate b_rate b_frames]. change (fr (std_frame l k)) with (frame l k).
  destruct (slen s) as [n|]; cbn [of_opt run b_rate b_frames]; [|reflexivity]. fold (extend_dstlen (s_rate a) s n). set (d := extend_dstlen (s_rate a) s n).
  unfold checked. destruct (_ && _)%bool eqn:Eb; cbn [run b_rate b_frames]; [|reflexivity].
  destruct (_ <? _) eqn:Ec; cbn [b_rate b_frames]; [reflexivity|].
  assert (Bd : 0 <= d). { unfold d. rewrite dstlen_frames_for. apply frames_for_bounds. }
  unfold audio_sink. cbn [frames with_frames s_rate range_bounds].
  rewrite app_length, repeat_length.
  destruct (N.leb_spec (N.of_nat (length (frames a))) (N.of_nat (length (frames a) + Z.to_nat d))); [|lia].
  rewrite N.leb_refl. cbn [andb bind run]. rewrite !Nnat.Nat2N.id.
  rewrite firstn_app, firstn_all, Nat.sub_diag, firstn_O, app_nil_r.
  rewrite skipn_app, skipn_all, Nat.sub_diag. cbn [skipn app].
  replace (length (frames a) + Z.to_nat d - length (frames a))%nat with (Z.to_nat d) by lia.
  rewrite firstn_all2 with (n := Z.to_nat d) by (rewrite repeat_length; lia).
  set (sk := mkState (s_rate a) (repeat (frame_default l k) (Z.to_nat d)) (frame_default l k) (flit 0 0)).
  change (fr_default (std_frame l k)) with (frame_default l k). fold sk.
  change (mkSink (s_rate a) (repeat (frame_default l k) (Z.to_nat d)) (resampler_default l k)) with (view (audio_sink_type (frame l k)) sk).
  rewrite (view_stream (audio_sink_type (frame l k)) (audio_sink_lawful _)).
  destruct (g_stream (std_frame l k) (audio_sink_type (frame l k)) (std_stream ls ks) (convert l k) fuel sk s) as [[sk1 it] [[]|p|]];
    cbn [run b_rate b_frames]; try reflexivity.
  rewrite (view_flush (audio_sink_type (frame l k)) (audio_sink_lawful _)).
  destruct (g_flush (std_frame l k) (audio_sink_type (frame l k)) sk1) as [sk2 [[]|p|]]; cbn [run bind b_rate b_frames]; try reflexivity.
  unfold audio_unsink. cbn [s_rate with_frames]. f_equal. f_equal. f_equal.
  rewrite skipn_all2 by (rewrite app_length, repeat_length; lia). now rewrite app_nil_r.
Qed.

Lemma place_first ratio : floor_index (place ratio (flit 0 0) 0) = 0.
Proof.
  rewrite <- floor_index_correct. unfold place. cbn [Z.of_nat]. destruct ratio as [[]|[]| |[] m e H]; vm_compute; reflexivity.
Qed.
Lemma refuse_extend (T : frame_type) bytes {X} (M : stream_type X) (conv : X -> res (fr T)) (A : adds T)
  (R : forall x, conv x = Panic ExplicitPanic) fuel self s n r s' x s1 :
  so_len M s = Some n -> so_rate M s = r ->
  let d := frames_for (b_rate self) r n in
  let ratio := match r with Some r => fdiv (b_rate self) r | None => flit 1 0 end in
  (r = None /\ so_set_rate M s (b_rate self) = (s', Ok tt) \/ r <> None /\ s' = s) ->
  0 < bytes -> (Z.of_nat (length (b_frames self)) + d) * bytes <= 2 ^ 63 - 1 ->
  0 < covered ratio (so_len M s') (Z.to_nat d) ->
  so_next M s' = (s1, Ok (Some x)) ->
  g_extend T bytes M conv (S fuel) self s = ((mkBuffer (flit 0 0) [], s1), Panic ExplicitPanic).
Proof.
  intros Hl Hr d ratio Hs Pb Ha Hc Nx. unfold g_extend. rewrite Hl. cbn [of_opt run].
  replace (match so_rate M s with Some src_sr => _ | None => _ end) with d.
  2:{ unfold d, frames_for. rewrite Hr. destruct r as [r|]; [|reflexivity]. symmetry. apply ceil_cast. }
  destruct (frames_for_bounds (b_rate self) r n) as [Bd _]. fold d in Bd.
  unfold checked, usize_max, isize_max.
  destruct (Z.leb_spec 0 (Z.of_nat (length (b_frames self)) + d)); [|lia].
  destruct (Z.leb_spec (Z.of_nat (length (b_frames self)) + d) 18446744073709551615); [|nia]. cbn [andb run].
  destruct (Z.ltb_spec 9223372036854775807 ((Z.of_nat (length (b_frames self)) + d) * bytes)); [lia|].
  set (sk := mkState _ _ _ _).
  destruct (refuse_stream T (audio_sink_type (fr T)) M conv (audio_sink_lawful _) A R fuel sk s ratio s' x s1) as (sk' & E & _).
  - destruct Hs as [(-> & Es)|(Nr & ->)].
    + right. split; [exact Hr|]. split; [exact Es|reflexivity].
    + left. destruct r as [r|]; [|congruence]. exists r. split; [exact Hr|]. split; reflexivity.
  - exact Nx.
  - cbn [audio_sink_type si_buffer si_offseti ss_buf sk ss_off]. rewrite repeat_length, place_first. exact Hc.
  - rewrite E. reflexivity.
Qed.

(** ** For PropGeneric.v *)
Lemma any_sink l k (K : sink_type (frame l k)) : lawful K ->
  (forall ls ks fuel (sk : si K) (s : stream ls ks),
     sink_stream_st fuel (view K sk) s =
     (let '((sk', it'), r) := g_stream (std_frame l k) K (std_stream ls ks) (convert l k) fuel sk s in ((view K sk', it'), r))) /\
  (forall sk : si K,
     flush (view K sk) = (let '(sk', r) := g_flush (std_frame l k) K sk in _ <- r ;; Ok (view K sk'))).
Proof. intros W. split; intros; [now apply view_stream|now apply view_flush]. Qed.
Lemma untouched T (K : sink_type (fr T)) O (ob : si K -> O) : other K ob ->
  (forall X (M : stream_type X) conv fuel sk s, ob (fst (fst (g_stream T K M conv fuel sk s))) = ob sk) /\
  (forall sk, ob (fst (g_flush T K sk)) = ob sk).
Proof. intros H. split; intros; [now apply other_stream|now apply other_flush]. Qed.
Lemma any_stream T (K : sink_type (fr T)) ls ks (M : stream_type (frame ls ks)) conv fuel sk s :
  (so_rate M s = None -> plain_set_rate M s (si_rate K sk)) ->
  let '((sk1, _), r1) := g_stream T K M conv fuel sk s in
  let '((sk2, _), r2) := g_stream T K (std_stream ls ks) conv fuel sk (listed M s (si_rate K sk)) in
  sk1 = sk2 /\ r1 = r2.
Proof. apply listed_stream. Qed.
Lemma custom_frames a b (K : sink_type (fr (impl b))) (M : stream_type (fr (impl a))) :
  foreign a b -> lawful K -> adds (impl b) ->
  forall fuel sk s ratio s' x s1, started K M sk s ratio s' -> so_next M s' = (s1, Ok (Some x)) ->
  let e := covered ratio (so_len M s') (length (si_buffer K sk)) in
  floor_index (place ratio (si_offseti K sk) 0) < e ->
  exists sk', g_stream (impl b) K M (convert_any a b) (S fuel) sk s = ((sk', s1), Panic ExplicitPanic) /\
    si_rate K sk' = si_rate K sk /\ si_partial K sk' = si_partial K sk /\ si_offseti K sk' = si_offseti K sk /\
    si_buffer K sk' = repeat (fr_default (impl b)) (Z.to_nat e) ++ skipn (Z.to_nat e) (si_buffer K sk).
Proof. intros Fo W A fuel sk s ratio s' x s1. now apply (refuse_stream (impl b) K M _ W A (foreign_refuses a b Fo)). Qed.
Lemma custom_extend a b bytes (M : stream_type (fr (impl a))) : foreign a b -> adds (impl b) ->
  forall fuel (self : any_buffer (impl b)) s n r s' x s1, so_len M s = Some n -> so_rate M s = r ->
  let d := frames_for (b_rate self) r n in
  let ratio := match r with Some r => fdiv (b_rate self) r | None => flit 1 0 end in
  (r = None /\ so_set_rate M s (b_rate self) = (s', Ok tt) \/ r <> None /\ s' = s) ->
  0 < bytes -> (Z.of_nat (length (b_frames self)) + d) * bytes <= 2 ^ 63 - 1 ->
  0 < covered ratio (so_len M s') (Z.to_nat d) ->
  so_next M s' = (s1, Ok (Some x)) ->
  g_extend (impl b) bytes M (convert_any a b) (S fuel) self s = ((mkBuffer (flit 0 0) [], s1), Panic ExplicitPanic).
Proof. intros Fo A fuel self s n r s' x s1. apply (refuse_extend (impl b) bytes M _ A (foreign_refuses a b Fo)). Qed.
Lemma any_copy T (K : sink_type (fr T)) X (M : stream_type X) conv : lawful K -> adds T -> unit_weights T ->
  forall sk s s' srcs fs fuel, started K M sk s (flit 1 0) s' -> si_offseti K sk = flit 0 0 -> srcs <> [] ->
  (forall i x, nth_error srcs i = Some x -> item M s' i = Ok (Some x)) ->
  Forall2 (fun x f => conv x = Ok f) srcs fs -> Z.of_nat (length (si_buffer K sk)) <= 2 ^ 53 ->
  length srcs = available (so_len M s') (length (si_buffer K sk)) -> (length srcs < fuel)%nat ->
  exists sk', g_stream T K M conv fuel sk s = ((sk', after M (length srcs) s'), Ok tt) /\
    si_buffer K sk' = fs ++ skipn (length srcs) (si_buffer K sk) /\ si_partial K sk' = si_partial K sk /\
    si_offseti K sk' = fofZ (Z.of_nat (length srcs)) /\ si_rate K sk' = si_rate K sk.
Proof. intros W A C sk s s' srcs fs fuel. now apply generic_copy. Qed.
