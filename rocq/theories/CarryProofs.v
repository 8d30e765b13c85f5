(** * CarryProofs.v -- lemmas for C94 *)
From Coq Require Import ZArith NArith Reals Bool List Lia Lra.
From Flocq Require Import Core.Core IEEE754.BinarySingleNaN.
From Verif Require Import Rust Float Chan Frame Ops Stream Audio SpecChan SpecFrame SpecStream SpecSink SpecCarry.
From Verif Require Import FloatProofs FArithProofs StreamProofs SinkProofs.
Import ListNotations.
Open Scope Z_scope.

(** A call either runs the source to its end or leaves the resampler behind the covered frames. *)
Lemma left_behind l k ls ks fuel (sk sk' : sink l k) (s it : stream ls ks) ratio s' : negotiated sk s ratio s' ->
  sink_stream fuel sk s = Ok (sk', it) ->
  (exists t, next t = Ok (None, it)) \/ covered ratio (slen s) (length (sk_buf sk)) <= floor_index (resampler_index (sk_res sk')).
Proof.
  intros Ng H. destruct (stream_backward l k ls ks fuel sk sk' s it H) as (r2 & s2 & srcs & fs & n & Ng2 & [_ Rd] & _ & St & _).
  apply negotiated_iff in Ng, Ng2. rewrite Ng in Ng2. injection Ng2 as <- <-.
  assert (Ls : slen s' = slen s).
  { apply negotiated_iff in Ng as [(r & _ & _ & ->)|(_ & _ & E)]; [reflexivity|]. exact (set_rate_len _ _ _ _ _ E). }
  rewrite Ls in *. destruct Rd as [(_ & L & ->)|(t & _ & E & _)]; [right|left; eauto].
  rewrite (st_index _ _ _ _ _ _ St). rewrite fadd_comm. unfold place in L. rewrite nat_N_Z. exact L.
Qed.

Lemma filled l k ls ks fuel (sk sk' : sink l k) (s it : stream ls ks) : slen s = None ->
  sink_stream fuel sk s = Ok (sk', it) -> behind (length (sk_buf sk)) (sk_res sk').
Proof.
  intros Ln H. destruct (stream_backward l k ls ks fuel sk sk' s it H) as (ratio & s' & srcs & fs & n & Ng & [_ Rd] & _ & St & _).
  assert (Ls : slen s' = None).
  { rewrite <- Ln. destruct Ng as [(r & _ & _ & ->)|(_ & _ & E)]; [reflexivity|]. exact (set_rate_len _ _ _ _ _ E). }
  rewrite Ls in *. destruct Rd as [(_ & L & ->)|(t & _ & _ & _ & E)]; [|discriminate E].
  unfold behind. rewrite (st_index _ _ _ _ _ _ St), fadd_comm. unfold place in L. rewrite nat_N_Z. exact L.
Qed.

(** Adding a zero moves no position. *)
Lemma zero_times (x : f64) : is_finite x = true -> exists b, fmul x (fofZ 0) = B754_zero b.
Proof. destruct x as [s|s| |s m e H]; intros F; try discriminate F; destruct s; eexists; reflexivity. Qed.
Lemma floor_zero (x : f64) b : floor_index (fadd (B754_zero b) x) = floor_index x.
Proof.
  destruct x as [s|s| |s m e H]; try reflexivity. destruct b, s; reflexivity.
Qed.

(** Nothing is pulled behind the end. *)
Lemma nothing l k ls ks (sk : sink l k) (s s' : stream ls ks) ratio n : negotiated sk s ratio s' -> is_finite ratio = true ->
  behind n (sk_res sk) -> (length (sk_buf sk) <= n)%nat ->
  let e := covered ratio (slen s) (length (sk_buf sk)) in
  exists sk', (forall fuel, (0 < fuel)%nat -> sink_stream fuel sk s = Ok (sk', s')) /\ length (sk_buf sk') = length (sk_buf sk) /\
    (forall p, (p < length (sk_buf sk))%nat -> Z.of_nat p < e -> nth_error (sk_buf sk') p = Some (frame_default l k)) /\
    (forall p, p <> 0%nat -> e <= Z.of_nat p -> nth_error (sk_buf sk') p = nth_error (sk_buf sk) p) /\
    resampler_frame (sk_res sk') = resampler_frame (sk_res sk) /\ behind n (sk_res sk').
Proof.
  intros Ng Fi Be Ln e. destruct (zero_times ratio Fi) as [b Z0].
  assert (Ls : slen s' = slen s).
  { destruct Ng as [(r & _ & _ & ->)|(_ & _ & E)]; [reflexivity|]. exact (set_rate_len _ _ _ _ _ E). }
  pose proof (covered_bounds ratio (slen s) (length (sk_buf sk))) as Ce. fold e in Ce.
  assert (Rd : reads s' ratio (resampler_index (sk_res sk)) (covered ratio (slen s') (length (sk_buf sk))) [] 0%N s').
  { rewrite Ls. fold e. split; [intros i Hi; cbn in Hi; lia|]. left. split; [constructor|]. split; [|reflexivity].
    cbn [length]. unfold place. change (Z.of_nat 0) with 0. rewrite Z0, floor_zero. unfold behind in Be. lia. }
  destruct (stream_forward l k ls ks sk s s' s' ratio [] [] 0%N Ng Rd (Forall2_nil _)) as (sk' & St & X).
  rewrite Ls in St. fold e in St.
  exists sk'. split; [intros fuel Hf; apply X; exact Hf|]. split; [exact (st_length _ _ _ _ _ _ St)|].
  split; [|split; [|split]].
  - intros p Hp He. destruct (nth_error (sk_buf sk') p) as [f|] eqn:Ef.
    + pose proof (st_covered _ _ _ _ _ _ St p f He Ef) as W. cbn [contributions] in W. inversion W; subst. reflexivity.
    + apply nth_error_None in Ef. rewrite (st_length _ _ _ _ _ _ St) in Ef. lia.
  - intros p P0 Hp. exact (st_rest _ _ _ _ _ _ St p Hp P0).
  - pose proof (st_frame _ _ _ _ _ _ St) as W. cbn [overhang] in W. inversion W; subst. congruence.
  - unfold behind. rewrite (st_index _ _ _ _ _ _ St). change (Z.of_N 0) with 0. rewrite Z0, fadd_comm, floor_zero. exact Be.
Qed.

Lemma all_default l k (n : nat) (buf : list (frame l k)) : length buf = n ->
  (forall p, (p < n)%nat -> nth_error buf p = Some (frame_default l k)) -> buf = repeat (frame_default l k) n.
Proof.
  revert buf. induction n as [|n IH]; intros buf L H; destruct buf as [|f buf]; try discriminate L; [reflexivity|].
  pose proof (H 0%nat ltac:(lia)) as H0. cbn in H0. injection H0 as ->. cbn [repeat]. f_equal. apply IH; [cbn in L; lia|].
  intros p Hp. exact (H (S p) ltac:(lia)).
Qed.

Lemma silent_after l k rate slots (r r' : resampler l k) bs : handed_on rate slots r bs r' -> behind slots r ->
  Forall (fun b => b = repeat (frame_default l k) slots) bs /\ behind slots r'.
Proof.
  induction 1 as [r|r buf fuel ls ks s it sk' bs r' Lb Ln Fi H _ IH]; intros Be; [split; [constructor|exact Be]|].
  destruct (stream_backward l k ls ks fuel _ sk' s it H) as (ratio & s' & srcs & _ & _ & Ng & _ & _ & _ & Fu).
  assert (Er : ratio = ratio_for rate (sample_rate s)).
  { unfold ratio_for. destruct Ng as [(q & E & -> & _)|(E & -> & _)]; rewrite E; reflexivity. }
  destruct (nothing l k ls ks (mkSink rate buf r) s s' ratio slots Ng) as (sk2 & Y & L2 & D & _ & _ & B2); [rewrite Er; exact Fi|exact Be|cbn [sk_buf]; lia|].
  rewrite (Y fuel ltac:(lia)) in H. injection H as <- <-. destruct (IH B2) as [F B3]. split; [|exact B3].
  constructor; [|exact F]. apply all_default; [rewrite L2; exact Lb|].
  intros p Hp. apply D; [cbn [sk_buf]; lia|]. rewrite Ln. unfold covered. cbn [sk_buf]. lia.
Qed.
Lemma one_block l k rate slots (r r' : resampler l k) b bs : handed_on rate slots r (b :: bs) r' ->
  Forall (fun b => b = repeat (frame_default l k) slots) bs.
Proof.
  intros H. inversion H as [|? buf fuel ls ks s it sk' bs' r2 Lb Ln Fi E K]; subst. pose proof (filled _ _ _ _ _ _ _ _ _ Ln E) as Be.
  cbn [sk_buf] in Be. exact (proj1 (silent_after _ _ _ _ _ _ _ K Be)).
Qed.
(** And any number of blocks can be played, once the first one has been. *)
Lemma played_on l k ls ks rate fuel (buf : list (frame l k)) r (s it : stream ls ks) sk' c :
  slen s = None -> is_finite (ratio_for rate (sample_rate s)) = true -> sink_stream fuel (mkSink rate buf r) s = Ok (sk', it) ->
  exists r', handed_on rate (length buf) r (sk_buf sk' :: repeat (repeat (frame_default l k) (length buf)) c) r'.
Proof.
  intros Ln Fi H. pose proof (filled _ _ _ _ _ _ _ _ _ Ln H) as Be. cbn [sk_buf] in Be.
  destruct (stream_backward l k ls ks fuel _ sk' s it H) as (ratio & s' & _ & _ & _ & Ng & _).
  assert (Er : ratio = ratio_for rate (sample_rate s)).
  { unfold ratio_for. destruct Ng as [(q & E & -> & _)|(E & -> & _)]; rewrite E; reflexivity. }
  cut (forall q : resampler l k, behind (length buf) q -> exists r', handed_on rate (length buf) q (repeat (repeat (frame_default l k) (length buf)) c) r').
  { intros G. destruct (G _ Be) as [r' K]. exists r'. exact (handed_block _ _ r buf fuel ls ks s it sk' _ r' eq_refl Ln Fi H K). }
  clear Be H. induction c as [|c IH]; intros q Be; [exists q; constructor|].
  assert (Ng2 : negotiated (mkSink rate buf q) s ratio s') by exact Ng.
  destruct (nothing l k ls ks (mkSink rate buf q) s s' ratio (length buf) Ng2) as (sk2 & Y & L2 & D & _ & _ & B2); [rewrite Er; exact Fi|exact Be|cbn [sk_buf]; lia|].
  destruct (IH _ B2) as [r' K]. exists r'. cbn [repeat].
  assert (Eb : sk_buf sk2 = repeat (frame_default l k) (length buf)).
  { apply all_default; [exact L2|]. intros p Hp. apply D; [exact Hp|]. rewrite Ln. unfold covered. cbn [sk_buf]. lia. }
  rewrite <- Eb at 1. exact (handed_block _ _ q buf 1%nat ls ks s s' sk2 _ r' eq_refl Ln Fi (Y 1%nat ltac:(lia)) K).
Qed.
