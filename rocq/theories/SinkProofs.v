(** * SinkProofs.v -- lemmas about Sink::stream and Sink::flush *)
From Coq Require Import ZArith NArith Reals List Bool Lia Lra.
From Flocq Require Import Core.Core IEEE754.BinarySingleNaN.
From Verif Require Import Rust Float Math Chan Frame Ops Stream SpecChan SpecFrame SpecStream SpecSink
  FloatProofs FloorProofs FrameProofs StreamProofs.
Import ListNotations.
Open Scope Z_scope.

(** ** Indices *)
Lemma clampZ_maxmin lo hi z : lo <= hi -> clampZ lo hi z = Z.max lo (Z.min hi z).
Proof. unfold clampZ. intros H. destruct (Z.ltb_spec z lo), (Z.ltb_spec hi z); lia. Qed.
Lemma floor_index_correct (j : f64) : f64_as_usize j = floor_index j.
Proof.
  unfold f64_as_usize. destruct j as [s|s| |s m e H]; try reflexivity.
  - cbn [fcast floor_index B2R]. rewrite (Ztrunc_IZR 0). reflexivity.
  - rewrite (fcast_finite 53 1024) by (try reflexivity; cbv; split; discriminate).
    cbn [floor_index]. rewrite clampZ_maxmin; [reflexivity|lia].
Qed.
Lemma floor_index_bounds (j : f64) : 0 <= floor_index j <= 2 ^ 64 - 1.
Proof.
  destruct j as [s|[]| |s m e H]; cbn [floor_index]; rewrite ?clampZ_maxmin by lia; lia.
Qed.
Lemma eps64_correct : B2R eps64 = bpow radix2 (-52) /\ is_finite eps64 = true.
Proof.
  unfold eps64. destruct (flit_correct 53 1024 1 (-52)) as [H1 H2].
  - apply (fmt_F2R 53 1024); cbn; lia.
  - unfold F2R. cbn [Fnum Fexp]. rewrite Rmult_1_l, Rabs_pos_eq by apply bpow_ge_0. apply bpow_lt. lia.
  - split; [|exact H2]. rewrite H1. unfold F2R. cbn [Fnum Fexp]. ring.
Qed.
Lemma flt_eps_frac (j : f64) : flt eps64 (frem1 j) = true <-> (bpow radix2 (-52) < frac j)%R.
Proof.
  destruct eps64_correct as [E1 E2]. destruct (is_finite j) eqn:F.
  - destruct (frem1_correct 53 1024 j F) as [R1 R2]. rewrite (flt_correct 53 1024 _ _ E2 R2), E1, R1. reflexivity.
  - unfold frac. assert (B2R j = 0%R) as -> by (destruct j; try discriminate; reflexivity).
    rewrite (Ztrunc_IZR 0). pose proof (bpow_gt_0 radix2 (-52)).
    assert (flt eps64 (frem1 j) = false) as -> by (destruct j; try discriminate; vm_compute; reflexivity).
    split; [discriminate|lra].
Qed.
(** A fraction above epsilon occurs only below 2^52. *)
Lemma frac_small (j : f64) : (bpow radix2 (-52) < frac j)%R -> (0 <= Ztrunc (B2R j) < 2 ^ 53)%Z /\ is_finite j = true.
Proof.
  intros H. pose proof (bpow_gt_0 radix2 (-52)) as Hb. unfold frac in H.
  assert (F : is_finite j = true).
  { destruct (is_finite j) eqn:F; [reflexivity|]. assert (B2R j = 0%R) as E by (destruct j; try discriminate; reflexivity).
    rewrite E, (Ztrunc_IZR 0) in H. lra. }
  split; [|exact F].
  assert (P : (0 <= B2R j)%R).
  { destruct (Rle_dec 0 (B2R j)) as [|N]; [assumption|]. exfalso.
    rewrite Ztrunc_ceil in H by lra. pose proof (Zceil_ub (B2R j)). lra. }
  rewrite Ztrunc_floor in * by exact P. split.
  { rewrite <- (Zfloor_IZR 0). now apply Zfloor_le. }
  apply Z.nle_gt. intros L.
  assert (L' : (bpow radix2 53 <= B2R j)%R).
  { apply Rle_trans with (IZR (Zfloor (B2R j))); [|apply Zfloor_lb]. change (bpow radix2 53) with (IZR (2 ^ 53)). now apply IZR_le. }
  assert (I : exists z, B2R j = IZR z).
  { destruct j as [s|s| |s m e He]; try discriminate.
    - exists 0. reflexivity.
    - cbn [B2R] in *. destruct (Z.le_gt_cases 0 e) as [Le|Le].
      + exists (SpecFloat.cond_Zopp s (Zpos m) * 2 ^ e). now apply F2R_nonneg_exp.
      + exfalso. apply Rle_not_lt in L'. apply L'. apply Rle_lt_trans with (Rabs (F2R (Float radix2 (SpecFloat.cond_Zopp s (Zpos m)) e))); [apply Rle_abs|].
        rewrite <- F2R_Zabs.
        replace (Z.abs (SpecFloat.cond_Zopp s (Zpos m))) with (Zpos m) by (now destruct s).
        assert (Hm : (Zpos m < 2 ^ 53)%Z).
        { pose proof He as Hb'. unfold SpecFloat.bounded in Hb'. apply andb_prop in Hb' as [Hc _].
          unfold SpecFloat.canonical_mantissa in Hc. apply Zeq_bool_eq in Hc.
          unfold SpecFloat.fexp, SpecFloat.emin in Hc.
          assert (Hd : Z.pos (SpecFloat.digits2_pos m) <= 53) by lia.
          rewrite Digits.Zpos_digits2_pos in Hd. pose proof (Digits.Zpower_gt_Zdigits radix2 53 (Zpos m) Hd). cbn in *. lia. }
        unfold F2R. cbn [Fnum Fexp]. apply Rle_lt_trans with (IZR (Zpos m) * 1)%R.
        * apply Rmult_le_compat_l; [apply IZR_le; lia|]. change 1%R with (bpow radix2 0). apply bpow_le. lia.
        * rewrite Rmult_1_r. change (bpow radix2 53) with (IZR (2 ^ 53)). now apply IZR_lt. }
  destruct I as (z & Hz). rewrite Hz, Zfloor_IZR in H. lra.
Qed.

Lemma ceil_index_correct (j : f64) : ceil_usize j = Ok (ceil_index j).
Proof.
  unfold ceil_usize, ceil_index. rewrite floor_index_correct. pose proof (flt_eps_frac j) as H.
  destruct (Rlt_dec (bpow radix2 (-52)) (frac j)) as [L|L].
  - rewrite (proj2 H L). destruct (frac_small j L) as [Hs F].
    assert (E : floor_index j = Ztrunc (B2R j)).
    { destruct j; try discriminate; cbn [floor_index]; rewrite clampZ_maxmin by lia; lia. }
    rewrite E. unfold checked, usize_max.
    destruct (Z.leb_spec 0 (Ztrunc (B2R j) + 1)), (Z.leb_spec (Ztrunc (B2R j) + 1) 18446744073709551615); cbn; try reflexivity; lia.
  - destruct (flt eps64 (frem1 j)); [elim L; now apply H|reflexivity].
Qed.
Lemma ceil_index_bounds (j : f64) : floor_index j <= ceil_index j <= floor_index j + 1 /\ ceil_index j <= 2 ^ 64 - 1.
Proof.
  unfold ceil_index. pose proof (floor_index_bounds j). destruct (Rlt_dec (bpow radix2 (-52)) (frac j)) as [L|L]; [|lia].
  destruct (frac_small j L) as [Hs F].
  assert (E : floor_index j = Ztrunc (B2R j)).
  { destruct j; try discriminate; cbn [floor_index]; rewrite clampZ_maxmin by lia; lia. }
  lia.
Qed.

(** ** next never runs out of fuel *)
Lemma convert_not_fuel l1 k1 l2 k2 (f : frame l1 k1) : convert l2 k2 f <> OutOfFuel.
Proof. destruct (convert_total l1 k1 l2 k2 f) as (g & ->). discriminate. Qed.

(** ** The loop as a fold *)
Section Loop.
Context {l : layout} {k : ck}.

Definition fmulp (f : frame l k) (w : f64) : frame l k :=
  match frame_mul f (frame_from_f64 l k w) with Ok z => z | _ => f end.
Lemma fmulp_ok f w : frame_mul f (frame_from_f64 l k w) = Ok (fmulp f w).
Proof.
  unfold fmulp. destruct (frame_ops_channelwise l k f (frame_from_f64 l k w)) as (_ & (z & Hz & _) & _). now rewrite Hz.
Qed.

Fixpoint addat (i : nat) (x : frame l k) (buf : list (frame l k)) : list (frame l k) :=
  match buf, i with
  | [], _ => []
  | b :: bs, O => frame_add b x :: bs
  | b :: bs, S i => b :: addat i x bs
  end.
Lemma addat_ok i x buf : (i < length buf)%nat -> update_at i (fun b => frame_add b x) buf = Ok (addat i x buf).
Proof.
  revert i; induction buf as [|b bs IH]; intros [|i] H; cbn in *; try lia; [reflexivity|]. rewrite IH by lia. reflexivity.
Qed.
Lemma addat_length i x buf : length (addat i x buf) = length buf.
Proof. revert i; induction buf as [|b bs IH]; intros [|i]; cbn; auto. Qed.
Lemma addat_nth i x buf p : nth_error (addat i x buf) p =
  if Nat.eqb i p then match nth_error buf p with Some b => Some (frame_add b x) | None => None end else nth_error buf p.
Proof.
  revert i p; induction buf as [|b bs IH]; intros [|i] [|p]; cbn; auto. destruct (Nat.eqb i p); reflexivity.
Qed.

Definition ws_fn (acc : frame l k) (r : list (frame l k * f64)) : frame l k :=
  fold_left (fun a fw => frame_add a (fmulp (fst fw) (snd fw))) r acc.
Lemma ws_fn_ok acc r : weighted_sum acc r (ws_fn acc r).
Proof.
  revert acc; induction r as [|[f w] r IH]; intros acc; cbn; [constructor|]. econstructor; [apply fmulp_ok|apply IH].
Qed.
Lemma ws_fn_app acc r r' : ws_fn acc (r ++ r') = ws_fn (ws_fn acc r) r'.
Proof. apply fold_left_app. Qed.
Lemma ws_fun acc r x : weighted_sum acc r x -> x = ws_fn acc r.
Proof.
  induction 1 as [acc|acc f w p r out Hm Hw IH]; [reflexivity|]. cbn.
  rewrite fmulp_ok in Hm. injection Hm as <-. exact IH.
Qed.

Context (ratio : f64) (e : Z).
Definition step_sink (i : nat) (sk : sink l k) (f : frame l k) : sink l k :=
  let j := place ratio (offseti (sk_res sk)) i in
  let buf := addat (Z.to_nat (floor_index j)) (fmulp f (lower_weight ratio j)) (sk_buf sk) in
  if ceil_index j <? e
  then with_buf sk (addat (Z.to_nat (ceil_index j)) (fmulp f (upper_weight ratio j)) buf)
  else with_res (with_buf sk buf)
         (mkResampler (frame_add (partial (sk_res sk)) (fmulp f (upper_weight ratio j))) (offseti (sk_res sk))).
Fixpoint run_sink (i : nat) (sk : sink l k) (fs : list (frame l k)) : sink l k :=
  match fs with [] => sk | f :: fs => run_sink (S i) (step_sink i sk f) fs end.

Lemma step_off i sk f : offseti (sk_res (step_sink i sk f)) = offseti (sk_res sk).
Proof. unfold step_sink. destruct (_ <? e); reflexivity. Qed.
Lemma step_rate i sk f : sk_rate (step_sink i sk f) = sk_rate sk.
Proof. unfold step_sink. destruct (_ <? e); reflexivity. Qed.
Lemma step_length i sk f : length (sk_buf (step_sink i sk f)) = length (sk_buf sk).
Proof. unfold step_sink. destruct (_ <? e); cbn; now rewrite ?addat_length. Qed.

Lemma buf_add_ok i x (buf : list (frame l k)) : 0 <= i < e -> e <= Z.of_nat (length buf) ->
  buf_add e i x buf = Ok (addat (Z.to_nat i) x buf).
Proof.
  intros Hi He. unfold buf_add. destruct (Z.leb_spec e (Z.of_nat (length buf))), (Z.ltb_spec i e); cbn [andb]; try lia.
  apply addat_ok. lia.
Qed.

(** One iteration. *)
Lemma loop_step {ls ks} fuel i (sk : sink l k) (it it' : stream ls ks) srclen src f :
  e <= Z.of_nat (length (sk_buf sk)) ->
  floor_index (place ratio (offseti (sk_res sk)) i) < e ->
  next it = Ok (Some src, it') -> convert l k src = Ok f ->
  stream_loop (S fuel) i ratio e sk it srclen = stream_loop fuel (S i) ratio e (step_sink i sk f) it' srclen.
Proof.
  intros He Hf Hn Hc. cbn [stream_loop].
  change (dst_pos ratio (offseti (sk_res sk)) i) with (place ratio (offseti (sk_res sk)) i).
  rewrite ceil_index_correct. cbn [bind]. rewrite floor_index_correct.
  set (j := place ratio (offseti (sk_res sk)) i) in *.
  destruct (Z.ltb_spec (floor_index j) e); [|lia]. cbn [negb]. rewrite Hn. cbn [bind]. rewrite Hc. cbn [bind].
  rewrite fmulp_ok. cbn [bind]. pose proof (floor_index_bounds j). pose proof (ceil_index_bounds j).
  rewrite buf_add_ok by lia. cbn [bind]. rewrite fmulp_ok. cbn [bind].
  unfold step_sink. fold j. destruct (Z.ltb_spec (ceil_index j) e); [|reflexivity].
  rewrite buf_add_ok by (rewrite ?addat_length; lia). cbn [bind]. reflexivity.
Qed.
Lemma loop_full {ls ks} fuel i (sk : sink l k) (it : stream ls ks) srclen :
  e <= floor_index (place ratio (offseti (sk_res sk)) i) ->
  stream_loop (S fuel) i ratio e sk it srclen = Ok (sk, it, Some (N.of_nat i)).
Proof.
  intros Hf. cbn [stream_loop]. change (dst_pos ratio (offseti (sk_res sk)) i) with (place ratio (offseti (sk_res sk)) i).
  rewrite ceil_index_correct. cbn [bind]. rewrite floor_index_correct.
  destruct (Z.ltb_spec (floor_index (place ratio (offseti (sk_res sk)) i)) e); [lia|]. reflexivity.
Qed.
Lemma loop_next {ls ks} fuel i (sk : sink l k) (it : stream ls ks) srclen :
  floor_index (place ratio (offseti (sk_res sk)) i) < e ->
  (forall it', next it = Ok (None, it') -> stream_loop (S fuel) i ratio e sk it srclen = Ok (sk, it', srclen)) /\
  (forall p, next it = Panic p -> stream_loop (S fuel) i ratio e sk it srclen = Panic p).
Proof.
  intros Hf. cbn [stream_loop]. change (dst_pos ratio (offseti (sk_res sk)) i) with (place ratio (offseti (sk_res sk)) i).
  rewrite ceil_index_correct. cbn [bind]. rewrite floor_index_correct.
  destruct (Z.ltb_spec (floor_index (place ratio (offseti (sk_res sk)) i)) e); [|lia]. cbn [negb].
  split; intros x ->; reflexivity.
Qed.

(** Many iterations. *)
Lemma loop_run {ls ks} fuel i (sk : sink l k) (it it' : stream ls ks) srclen srcs fs :
  e <= Z.of_nat (length (sk_buf sk)) ->
  (forall a, (a < length srcs)%nat -> floor_index (place ratio (offseti (sk_res sk)) (i + a)) < e) ->
  pulls it srcs it' -> converted srcs fs ->
  stream_loop (length srcs + fuel) i ratio e sk it srclen =
  stream_loop fuel (i + length srcs) ratio e (run_sink i sk fs) it' srclen.
Proof.
  intros He Hf Hp Hc; revert i sk it He Hf Hp; induction Hc as [|src f srcs fs Hc0 Hc IH]; intros i sk it He Hf Hp.
  - apply pulls_nil_inv in Hp as <-. cbn. now rewrite Nat.add_0_r.
  - apply pulls_cons_inv in Hp as (it1 & Hn & Hp). cbn [length Nat.add run_sink].
    rewrite (loop_step _ _ _ _ it1 _ src f); auto.
    + rewrite IH; auto.
      * now rewrite Nat.add_succ_r.
      * now rewrite step_length.
      * intros a Ha. rewrite step_off. replace (S i + a)%nat with (i + S a)%nat by lia. apply Hf. cbn. lia.
    + specialize (Hf 0%nat ltac:(cbn; lia)). now rewrite Nat.add_0_r in Hf.
Qed.

(** Effect of many iterations. *)
Lemma run_off i sk fs : offseti (sk_res (run_sink i sk fs)) = offseti (sk_res sk).
Proof. revert i sk; induction fs; intros i sk; cbn; [reflexivity|]. now rewrite IHfs, step_off. Qed.
Lemma run_rate i sk fs : sk_rate (run_sink i sk fs) = sk_rate sk.
Proof. revert i sk; induction fs; intros i sk; cbn; [reflexivity|]. now rewrite IHfs, step_rate. Qed.
Lemma run_length i sk fs : length (sk_buf (run_sink i sk fs)) = length (sk_buf sk).
Proof. revert i sk; induction fs; intros i sk; cbn; [reflexivity|]. now rewrite IHfs, step_length. Qed.

Lemma step_nth i sk f p b : Z.of_nat p < e -> nth_error (sk_buf sk) p = Some b ->
  nth_error (sk_buf (step_sink i sk f)) p = Some
    (ws_fn b (let j := place ratio (offseti (sk_res sk)) i in
      (if floor_index j =? Z.of_nat p then [(f, lower_weight ratio j)] else []) ++
      (if ceil_index j =? Z.of_nat p then [(f, upper_weight ratio j)] else []))).
Proof.
  intros Hp Hb. unfold step_sink. set (j := place ratio (offseti (sk_res sk)) i). cbv zeta.
  pose proof (floor_index_bounds j). pose proof (ceil_index_bounds j).
  assert (E1 : Nat.eqb (Z.to_nat (floor_index j)) p = (floor_index j =? Z.of_nat p)).
  { destruct (Nat.eqb_spec (Z.to_nat (floor_index j)) p), (Z.eqb_spec (floor_index j) (Z.of_nat p)); auto; lia. }
  assert (E2 : Nat.eqb (Z.to_nat (ceil_index j)) p = (ceil_index j =? Z.of_nat p)).
  { destruct (Nat.eqb_spec (Z.to_nat (ceil_index j)) p), (Z.eqb_spec (ceil_index j) (Z.of_nat p)); auto; lia. }
  destruct (Z.ltb_spec (ceil_index j) e); cbn [sk_buf with_buf with_res]; rewrite ?addat_nth, ?E1, ?E2, Hb.
  - rewrite ws_fn_app. destruct (floor_index j =? _), (ceil_index j =? _); reflexivity.
  - destruct (Z.eqb_spec (ceil_index j) (Z.of_nat p)); [lia|]. rewrite app_nil_r.
    destruct (floor_index j =? _); reflexivity.
Qed.
Lemma step_nth_out i sk f p : floor_index (place ratio (offseti (sk_res sk)) i) < e -> e <= Z.of_nat p ->
  nth_error (sk_buf (step_sink i sk f)) p = nth_error (sk_buf sk) p.
Proof.
  intros Hf Hp. unfold step_sink. set (j := place ratio (offseti (sk_res sk)) i) in *.
  pose proof (floor_index_bounds j). pose proof (ceil_index_bounds j).
  destruct (Z.ltb_spec (ceil_index j) e); cbn [sk_buf with_buf with_res]; rewrite !addat_nth.
  - destruct (Nat.eqb_spec (Z.to_nat (floor_index j)) p), (Nat.eqb_spec (Z.to_nat (ceil_index j)) p); try lia. reflexivity.
  - destruct (Nat.eqb_spec (Z.to_nat (floor_index j)) p); try lia. reflexivity.
Qed.
Lemma step_partial i sk f : partial (sk_res (step_sink i sk f)) =
  ws_fn (partial (sk_res sk)) (let j := place ratio (offseti (sk_res sk)) i in
    if e <=? ceil_index j then [(f, upper_weight ratio j)] else []).
Proof.
  unfold step_sink. cbv zeta. set (j := place ratio (offseti (sk_res sk)) i).
  destruct (Z.ltb_spec (ceil_index j) e), (Z.leb_spec e (ceil_index j)); try lia; reflexivity.
Qed.
Lemma run_nth fs : forall i sk p b, Z.of_nat p < e -> nth_error (sk_buf sk) p = Some b ->
  nth_error (sk_buf (run_sink i sk fs)) p = Some (ws_fn b (contributions (Z.of_nat p) ratio (offseti (sk_res sk)) i fs)).
Proof.
  induction fs as [|f fs IH]; intros i sk p b Hp Hb; cbn [run_sink contributions]; [exact Hb|].
  rewrite (IH _ _ _ _ Hp (step_nth _ _ f _ _ Hp Hb)), step_off. cbv zeta. rewrite app_assoc. now rewrite <- ws_fn_app.
Qed.
Lemma run_nth_out fs : forall i sk p,
  (forall a, (a < length fs)%nat -> floor_index (place ratio (offseti (sk_res sk)) (i + a)) < e) -> e <= Z.of_nat p ->
  nth_error (sk_buf (run_sink i sk fs)) p = nth_error (sk_buf sk) p.
Proof.
  induction fs as [|f fs IH]; intros i sk p Hf Hp; cbn [run_sink]; [reflexivity|]. rewrite IH; auto.
  - apply step_nth_out; auto. specialize (Hf 0%nat ltac:(cbn; lia)). now rewrite Nat.add_0_r in Hf.
  - intros a Ha. rewrite step_off. replace (S i + a)%nat with (i + S a)%nat by lia. apply Hf. cbn. lia.
Qed.
Lemma run_partial fs : forall i sk, partial (sk_res (run_sink i sk fs)) =
  ws_fn (partial (sk_res sk)) (overhang e ratio (offseti (sk_res sk)) i fs).
Proof.
  induction fs as [|f fs IH]; intros i sk; cbn [run_sink overhang]; [reflexivity|].
  rewrite IH, step_off, step_partial. cbv zeta. now rewrite ws_fn_app.
Qed.
End Loop.

(** ** One call of stream *)
Lemma negotiated_iff l k ls ks (sk : sink l k) (s s' : stream ls ks) ratio :
  stream_ratio sk s = Ok (ratio, s') <-> negotiated sk s ratio s'.
Proof.
  unfold stream_ratio, negotiated. destruct (sample_rate s) as [r|]; split.
  - intros H. injection H as <- <-. left. eauto.
  - intros [(r' & H & -> & ->)|(H & _)]; [|discriminate]. now injection H as ->.
  - destruct (set_sample_rate s (sk_rate sk)) as [t| |] eqn:E; try discriminate. cbn [bind]. intros H. injection H as <- <-. auto.
  - intros [(r' & H & _)|(_ & -> & E)]; [discriminate|]. rewrite E. reflexivity.
Qed.
Lemma dst_end_covered l k ratio len (buf : list (frame l k)) : dst_end ratio len buf = covered ratio len (length buf).
Proof. unfold dst_end, covered. destruct len; [|reflexivity]. now rewrite floor_index_correct. Qed.
Lemma covered_bounds ratio len n : 0 <= covered ratio len n <= Z.of_nat n.
Proof. unfold covered. destruct len; [|lia]. pose proof (floor_index_bounds (fmul ratio (fofZ (Z.of_N n0)))). lia. Qed.
Lemma add_partial_length l k (p : frame l k) buf : length (add_partial p buf) = length buf.
Proof. destruct buf; reflexivity. Qed.

Definition prepared {l k} (e : Z) (sk : sink l k) : sink l k :=
  with_buf sk (repeat (frame_default l k) (Z.to_nat e) ++ skipn (Z.to_nat e) (add_partial (partial (sk_res sk)) (sk_buf sk))).
Lemma prepared_length l k e (sk : sink l k) : 0 <= e <= Z.of_nat (length (sk_buf sk)) ->
  length (sk_buf (prepared e sk)) = length (sk_buf sk).
Proof. intros H. cbn. rewrite app_length, repeat_length, skipn_length, add_partial_length. lia. Qed.
Lemma nth_skipn {A} n (xs : list A) p : nth_error (skipn n xs) p = nth_error xs (n + p).
Proof. revert xs; induction n; intros [|x xs]; cbn; auto. now destruct p. Qed.
Lemma nth_repeat {A} (a : A) n p : (p < n)%nat -> nth_error (repeat a n) p = Some a.
Proof. revert p; induction n; intros [|p] H; cbn; try lia; auto. apply IHn. lia. Qed.
Lemma prepared_nth l k e (sk : sink l k) p : 0 <= e <= Z.of_nat (length (sk_buf sk)) ->
  nth_error (sk_buf (prepared e sk)) p =
  if Z.of_nat p <? e then Some (frame_default l k) else nth_error (add_partial (partial (sk_res sk)) (sk_buf sk)) p.
Proof.
  intros H. cbn [prepared sk_buf with_buf]. destruct (Z.ltb_spec (Z.of_nat p) e).
  - rewrite nth_error_app1 by (rewrite repeat_length; lia). apply nth_repeat. lia.
  - rewrite nth_error_app2 by (rewrite repeat_length; lia). rewrite repeat_length, nth_skipn. f_equal. lia.
Qed.

(** sink_stream up to the loop. *)
Lemma sink_stream_eq l k ls ks fuel (sk : sink l k) (s s' : stream ls ks) ratio :
  negotiated sk s ratio s' ->
  sink_stream fuel sk s =
  ('(sk, it, srclen) <- stream_loop fuel 0 ratio (covered ratio (slen s') (length (sk_buf sk)))
     (prepared (covered ratio (slen s') (length (sk_buf sk))) sk) s' (slen s') ;;
   n <- of_opt UnwrapNone srclen ;;
   Ok (with_res sk (mkResampler (partial (sk_res sk)) (fadd (offseti (sk_res sk)) (fmul ratio (usize_as_f64 (Z.of_N n))))), it)).
Proof.
  intros Hn. apply negotiated_iff in Hn. unfold sink_stream. rewrite Hn. cbn [bind]. cbv zeta. cbn [sk_buf with_buf].
  rewrite dst_end_covered, add_partial_length. unfold buf_clear. rewrite add_partial_length.
  pose proof (covered_bounds ratio (slen s') (length (sk_buf sk))).
  destruct (Z.leb_spec (covered ratio (slen s') (length (sk_buf sk))) (Z.of_nat (length (sk_buf sk)))); [|lia].
  cbn [bind]. reflexivity.
Qed.

Lemma run_streamed l k (sk : sink l k) ratio e fs n : 0 <= e <= Z.of_nat (length (sk_buf sk)) ->
  (forall a, (a < length fs)%nat -> floor_index (place ratio (offseti (sk_res sk)) a) < e) ->
  let sk1 := run_sink ratio e 0 (prepared e sk) fs in
  streamed sk ratio e fs n (with_res sk1 (mkResampler (partial (sk_res sk1)) (fadd (offseti (sk_res sk1)) (fmul ratio (usize_as_f64 (Z.of_N n)))))).
Proof.
  intros He Hf sk1. assert (Hoff : offseti (sk_res sk1) = offseti (sk_res sk)) by (unfold sk1; now rewrite run_off).
  constructor; cbn [sk_rate sk_buf sk_res with_res resampler_frame resampler_index partial offseti].
  - unfold sk1. now rewrite run_rate.
  - unfold sk1. now rewrite run_length, prepared_length.
  - intros p b Hp Hb. assert (E : nth_error (sk_buf (prepared e sk)) p = Some (frame_default l k)).
    { rewrite prepared_nth by exact He. destruct (Z.ltb_spec (Z.of_nat p) e); [reflexivity|lia]. }
    unfold sk1 in Hb. rewrite (run_nth ratio e fs 0 _ p _ Hp E) in Hb. injection Hb as <-. apply ws_fn_ok.
  - intros E0 b Hb. unfold sk1. rewrite run_nth_out; [|exact Hf|lia]. rewrite prepared_nth by exact He.
    destruct (Z.ltb_spec (Z.of_nat 0) e); [lia|]. destruct (sk_buf sk); cbn in *; [discriminate|]. now injection Hb as ->.
  - intros p Hp N. unfold sk1. rewrite run_nth_out; [|exact Hf|lia]. rewrite prepared_nth by exact He.
    destruct (Z.ltb_spec (Z.of_nat p) e); [lia|]. destruct (sk_buf sk), p; cbn; congruence.
  - unfold sk1. rewrite run_partial. apply ws_fn_ok.
  - now rewrite Hoff.
Qed.

Lemma converted_ex l k ls ks (srcs : list (frame ls ks)) : exists fs : list (frame l k), converted srcs fs.
Proof.
  induction srcs as [|s srcs (fs & IH)]; [exists []; constructor|].
  destruct (convert_total ls ks l k s) as (f & Hf). exists (f :: fs). constructor; auto.
Qed.
Lemma converted_length l k ls ks (srcs : list (frame ls ks)) (fs : list (frame l k)) : converted srcs fs -> length fs = length srcs.
Proof. induction 1; cbn; congruence. Qed.
Lemma converted_fun l k ls ks (srcs : list (frame ls ks)) (fs gs : list (frame l k)) : converted srcs fs -> converted srcs gs -> fs = gs.
Proof.
  intros H; revert gs; induction H as [|s f srcs fs Hs H IH]; intros gs G; inversion G; subst; [reflexivity|].
  f_equal; [|apply IH; assumption]. rewrite Hs in H2. now injection H2.
Qed.

Theorem stream_forward l k ls ks (sk : sink l k) (s s' it : stream ls ks) ratio srcs fs n :
  negotiated sk s ratio s' ->
  reads s' ratio (resampler_index (sk_res sk)) (covered ratio (slen s') (length (sk_buf sk))) srcs n it ->
  converted srcs fs ->
  exists sk', streamed sk ratio (covered ratio (slen s') (length (sk_buf sk))) fs n sk' /\
    forall fuel, (length srcs < fuel)%nat -> sink_stream fuel sk s = Ok (sk', it).
Proof.
  intros Hn (Hf & Hr) Hc. set (e := covered ratio (slen s') (length (sk_buf sk))) in *.
  pose proof (covered_bounds ratio (slen s') (length (sk_buf sk))) as He. fold e in He.
  pose proof (converted_length _ _ _ _ _ _ Hc) as L.
  eexists. split.
  - apply (run_streamed l k sk ratio e fs n He). intros a Ha. apply Hf. lia.
  - intros fuel Hfuel. rewrite (sink_stream_eq _ _ _ _ _ _ _ _ _ Hn). fold e.
    replace fuel with (length srcs + S (fuel - length srcs - 1))%nat by lia.
    assert (Hp : exists t, pulls s' srcs t) by (destruct Hr as [[H _]|(t & H & _)]; eauto). destruct Hp as (t & Hp).
    rewrite (loop_run ratio e _ 0 (prepared e sk) s' t (slen s') srcs fs); [|rewrite prepared_length; lia|exact Hf|exact Hp|exact Hc].
    rewrite Nat.add_0_l. destruct Hr as [(Hp' & Hfull & ->)|(t' & Hp' & Hend & Hlt & Hlen)].
    + destruct (pulls_det _ _ _ _ _ _ _ Hp Hp' eq_refl) as [_ ->]. rewrite loop_full; [|rewrite run_off; exact Hfull].
      reflexivity.
    + destruct (pulls_det _ _ _ _ _ _ _ Hp Hp' eq_refl) as [_ ->].
      rewrite (proj1 (loop_next ratio e _ _ (run_sink ratio e 0 (prepared e sk) fs) t' (slen s') ltac:(rewrite run_off; exact Hlt)) it Hend).
      rewrite Hlen. reflexivity.
Qed.

(** ** What can happen in the loop *)
Lemma loop_inv l k ls ks ratio e fuel : forall i (sk : sink l k) (it : stream ls ks) srclen,
  0 <= e <= Z.of_nat (length (sk_buf sk)) ->
  let off := offseti (sk_res sk) in let r := stream_loop fuel i ratio e sk it srclen in
  exists srcs it1 fs, pulls it srcs it1 /\ converted srcs fs /\
    (forall a, (a < length srcs)%nat -> floor_index (place ratio off (i + a)) < e) /\
    ((e <= floor_index (place ratio off (i + length srcs)) /\
        r = Ok (run_sink ratio e i sk fs, it1, Some (N.of_nat (i + length srcs)))) \/
     (floor_index (place ratio off (i + length srcs)) < e /\
        ((exists it2, next it1 = Ok (None, it2) /\ r = Ok (run_sink ratio e i sk fs, it2, srclen)) \/
         (exists p, next it1 = Panic p /\ r = Panic p) \/
         (next it1 = OutOfFuel /\ r = OutOfFuel))) \/
     (r = OutOfFuel /\ fuel = length srcs)).
Proof.
  induction fuel as [|fuel IH]; intros i sk it srclen He off r.
  - exists [], it, []. split; [constructor|]. split; [constructor|]. split; [intros a Ha; cbn in Ha; lia|]. right. right. split; reflexivity.
  - destruct (Z.lt_ge_cases (floor_index (place ratio off i)) e) as [Hlt|Hge].
    + destruct (next it) as [[[src|] it1]|p|] eqn:En.
      * destruct (convert_total ls ks l k src) as (f & Hf).
        destruct (IH (S i) (step_sink ratio e i sk f) it1 srclen) as (srcs & it2 & fs & Hp & Hc & Hall & Hcase);
          [now rewrite step_length|].
        rewrite step_off in Hall, Hcase. fold off in Hall, Hcase.
        exists (src :: srcs), it2, (f :: fs). split; [econstructor; eauto|]. split; [constructor; auto|].
        split. { intros [|a] Ha; [now rewrite Nat.add_0_r|]. rewrite Nat.add_succ_r. apply (Hall a). cbn in Ha. lia. }
        unfold r. rewrite (loop_step ratio e fuel i sk it it1 srclen src f); auto; try lia.
        cbn [length run_sink]. rewrite Nat.add_succ_r.
        destruct Hcase as [H|[H|[H ->]]]; auto.
      * exists [], it, []. split; [constructor|]. split; [constructor|]. split; [intros a Ha; cbn in Ha; lia|].
        right. left. cbn [length]. rewrite Nat.add_0_r. split; [exact Hlt|]. left. exists it1. split; [exact En|].
        exact (proj1 (loop_next ratio e fuel i sk it srclen Hlt) it1 En).
      * exists [], it, []. split; [constructor|]. split; [constructor|]. split; [intros a Ha; cbn in Ha; lia|].
        right. left. cbn [length]. rewrite Nat.add_0_r. split; [exact Hlt|]. right. left. exists p. split; [exact En|].
        exact (proj2 (loop_next ratio e fuel i sk it srclen Hlt) p En).
      * exists [], it, []. split; [constructor|]. split; [constructor|]. split; [intros a Ha; cbn in Ha; lia|].
        right. left. cbn [length]. rewrite Nat.add_0_r. split; [exact Hlt|]. right. right. split; [exact En|].
        unfold r. cbn [stream_loop]. change (dst_pos ratio (offseti (sk_res sk)) i) with (place ratio off i).
        rewrite ceil_index_correct. cbn [bind]. rewrite floor_index_correct.
        destruct (Z.ltb_spec (floor_index (place ratio off i)) e); [|lia]. cbn [negb]. rewrite En. reflexivity.
    + exists [], it, []. split; [constructor|]. split; [constructor|]. split; [intros a Ha; cbn in Ha; lia|].
      left. cbn [length]. rewrite Nat.add_0_r. split; [exact Hge|]. exact (loop_full ratio e fuel i sk it srclen Hge).
Qed.

(** If [stream] returns, it did what [stream_forward] says. *)
Lemma stream_backward l k ls ks fuel (sk sk' : sink l k) (s it : stream ls ks) :
  sink_stream fuel sk s = Ok (sk', it) ->
  exists ratio s' srcs fs n, negotiated sk s ratio s' /\
    reads s' ratio (resampler_index (sk_res sk)) (covered ratio (slen s') (length (sk_buf sk))) srcs n it /\
    converted srcs fs /\ streamed sk ratio (covered ratio (slen s') (length (sk_buf sk))) fs n sk' /\
    (length srcs < fuel)%nat.
Proof.
  intros H. destruct (stream_ratio sk s) as [[ratio s']| |] eqn:Er; try (unfold sink_stream in H; rewrite Er in H; discriminate H).
  apply negotiated_iff in Er. rewrite (sink_stream_eq _ _ _ _ _ _ _ _ _ Er) in H.
  set (e := covered ratio (slen s') (length (sk_buf sk))) in *.
  pose proof (covered_bounds ratio (slen s') (length (sk_buf sk))) as He. fold e in He.
  pose proof (loop_inv l k ls ks ratio e fuel 0 (prepared e sk) s' (slen s') ltac:(rewrite prepared_length; lia)) as
    (srcs & it1 & fs & Hp & Hc & Hall & Hcase). cbv zeta in Hcase. cbn [Nat.add] in *.
  cbn [prepared sk_res with_buf] in Hall, Hcase. fold (prepared e sk) in Hcase.
  pose proof (converted_length _ _ _ _ _ _ Hc) as L.
  assert (Hfs : forall a, (a < length fs)%nat -> floor_index (place ratio (offseti (sk_res sk)) a) < e) by (intros a Ha; apply Hall; lia).
  assert (Hfuel : forall x, stream_loop fuel 0 ratio e (prepared e sk) s' (slen s') = Ok x -> (length srcs < fuel)%nat).
  { intros x Hx. destruct (Nat.lt_ge_cases (length srcs) fuel) as [|G]; [assumption|]. exfalso.
    rewrite <- (firstn_skipn fuel srcs) in Hp. apply pulls_app_inv in Hp as (t & Hp & _).
    destruct (converted_ex l k ls ks (firstn fuel srcs)) as (gs & Hg).
    assert (Lf : length (firstn fuel srcs) = fuel) by (rewrite firstn_length; lia).
    pose proof (loop_run ratio e 0 0 (prepared e sk) s' t (slen s') (firstn fuel srcs) gs ltac:(rewrite prepared_length; lia)
      ltac:(intros a Ha; apply Hall; lia) Hp Hg) as Hr. rewrite Lf, Nat.add_0_r in Hr. rewrite Hr in Hx. discriminate Hx. }
  destruct Hcase as [(Hge & Hr)|[(Hlt & [(it2 & Hn & Hr)|[(p & Hn & Hr)|(Hn & Hr)]])|(Hr & _)]];
    rewrite Hr in H; cbn [bind] in H; try discriminate.
  - cbn [of_opt bind] in H. injection H as <- <-.
    exists ratio, s', srcs, fs, (N.of_nat (length srcs)). split; [exact Er|]. split; [split; [exact Hall|left; auto]|].
    split; [exact Hc|]. split; [exact (run_streamed l k sk ratio e fs _ He Hfs)|exact (Hfuel _ Hr)].
  - destruct (slen s') as [n|] eqn:El; [|discriminate]. cbn [of_opt bind] in H. injection H as <- <-.
    exists ratio, s', srcs, fs, n. split; [exact Er|]. rewrite El. fold e.
    split; [split; [exact Hall|right; exists it1; auto]|].
    split; [exact Hc|]. split; [exact (run_streamed l k sk ratio e fs _ He Hfs)|exact (Hfuel _ Hr)].
Qed.

(** [reads] always exists for a finite honest source. *)
Lemma scan (P : nat -> Prop) (D : forall i, {P i} + {~ P i}) n :
  (exists m, (m <= n)%nat /\ ~ P m /\ forall i, (i < m)%nat -> P i) \/ (forall i, (i <= n)%nat -> P i).
Proof.
  induction n as [|n [(m & Hm & N & H)|H]].
  - destruct (D 0%nat) as [H|N].
    + right. intros i Hi. now replace i with 0%nat by lia.
    + left. exists 0%nat. split; [lia|]. split; [exact N|]. intros i Hi. lia.
  - left. exists m. split; [lia|auto].
  - destruct (D (S n)) as [H1|N].
    + right. intros i Hi. destruct (Nat.eq_dec i (S n)) as [->|]; [exact H1|]. apply H. lia.
    + left. exists (S n). split; [lia|]. split; [exact N|]. intros i Hi. apply H. lia.
Qed.
Lemma reads_ex ls ks (s : stream ls ks) ratio off e all n : yields s all -> slen s = Some n ->
  exists srcs m it, reads s ratio off e srcs m it /\ exists rest, all = srcs ++ rest.
Proof.
  intros (t & t' & Hp & He) Hl.
  destruct (scan (fun i => floor_index (place ratio off i) < e) (fun i => Z_lt_dec _ _) (length all)) as [(m & Hm & Hge & Hlt)|H].
  - pose proof Hp as Hp'. rewrite <- (firstn_skipn m all) in Hp'. apply pulls_app_inv in Hp' as (it & Hp' & _).
    assert (L : length (firstn m all) = m) by (rewrite firstn_length; lia).
    exists (firstn m all), (N.of_nat m), it. split; [|exists (skipn m all); symmetry; apply firstn_skipn].
    split; [intros i Hi; apply Hlt; lia|]. left. split; [exact Hp'|]. rewrite L. split; [lia|reflexivity].
  - exists all, n, t'. split; [|exists []; now rewrite app_nil_r]. split; [intros i Hi; apply H; lia|].
    right. exists t. split; [exact Hp|]. split; [exact He|]. split; [apply H; lia|exact Hl].
Qed.

(** Termination on finite streams. *)
Lemma stream_finite l k ls ks (sk : sink l k) (s s' : stream ls ks) ratio all n :
  negotiated sk s ratio s' -> yields s' all -> slen s' = Some n ->
  exists sk' srcs fs m it, sink_stream (S (length all)) sk s = Ok (sk', it) /\
    reads s' ratio (resampler_index (sk_res sk)) (covered ratio (slen s') (length (sk_buf sk))) srcs m it /\
    (exists rest, all = srcs ++ rest) /\ converted srcs fs /\
    streamed sk ratio (covered ratio (slen s') (length (sk_buf sk))) fs m sk'.
Proof.
  intros Hn Hy Hl.
  destruct (reads_ex ls ks s' ratio (resampler_index (sk_res sk)) (covered ratio (slen s') (length (sk_buf sk))) all n Hy Hl)
    as (srcs & m & it & Hr & rest & ->).
  destruct (converted_ex l k ls ks srcs) as (fs & Hc).
  destruct (stream_forward _ _ _ _ _ _ _ _ _ _ _ _ Hn Hr Hc) as (sk' & Hs & Hf).
  exists sk', srcs, fs, m, it. split; [apply Hf; rewrite app_length; lia|]. split; [exact Hr|]. split; [eauto|]. auto.
Qed.
(** More fuel does not change a result. *)
Lemma stream_fuel l k ls ks fuel (sk sk' : sink l k) (s it : stream ls ks) : sink_stream fuel sk s = Ok (sk', it) ->
  forall fuel', (fuel <= fuel')%nat -> sink_stream fuel' sk s = Ok (sk', it).
Proof.
  intros H fuel' Hle. destruct (stream_backward _ _ _ _ _ _ _ _ _ H) as (ratio & s' & srcs & fs & n & Hn & Hr & Hc & _ & Hlt).
  destruct (stream_forward _ _ _ _ _ _ _ _ _ _ _ _ Hn Hr Hc) as (sk2 & _ & Hf).
  rewrite Hf in H by lia. injection H as ->. apply Hf. lia.
Qed.
