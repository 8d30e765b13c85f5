(** * UserPanProofs.v -- Pan on a user's frame type (C80) *)
From Coq Require Import ZArith Reals List Lia Bool Lra Sorted.
From Flocq Require Import Core.Core IEEE754.BinarySingleNaN.
From Verif Require Import Rust Float Chan Frame Ops UserPan SpecChan SpecFrame SpecUserPan.
From Verif Require Import FloatProofs FChanProofs FrameProofs OpsProofs.
Import ListNotations.

Lemma search_bound s i locs dflt : (dflt < i + length locs)%nat -> (pan_search s i locs dflt < i + length locs)%nat.
Proof.
  revert i; induction locs as [|c cs IH]; intros i H; cbn in *; [exact H|]. destruct (fle c s); [lia|].
  replace (i + S (length cs))%nat with (S i + length cs)%nat by lia. apply IH. lia.
Qed.
(** ** The two speakers *)
Lemma route_total conf s : conf <> [] -> exists a b th, u_route conf s = Ok (a, b, th) /\
  a = pan_search s 0 conf (length conf - 1) /\ b = Nat.modulo (a + 1) (length conf).
Proof.
  intros H. unfold u_route. set (n := length conf). assert (N : n <> 0%nat) by (unfold n; destruct conf; cbn; congruence).
  destruct (Nat.eqb_spec n 0); [congruence|]. set (a := pan_search s 0 conf (n - 1)).
  assert (A : (a < n)%nat) by (apply (search_bound s 0 conf (n - 1)); fold n; lia).
  assert (B : (Nat.modulo (a + 1) n < n)%nat) by (apply Nat.mod_upper_bound; exact N).
  apply nth_error_Some in A, B. destruct (nth_error conf (Nat.modulo (a + 1) n)) as [ce|]; [|congruence].
  destruct (nth_error conf a) as [cs|]; [|congruence]. cbn [of_opt bind]. eauto 8.
Qed.
Lemma sorted_above (c : f64) cs : Sorted (fun a b : f64 => (B2R a < B2R b)%R) (c :: cs) -> Forall (fun x => (B2R c < B2R x)%R) cs.
Proof.
  intros H. apply Sorted_StronglySorted in H; [|intros x y z; lra]. now inversion H.
Qed.
Lemma route conf s : left_to_right conf -> conf <> [] -> exists th, u_route conf s = Ok (speakers conf s, th).
Proof.
  intros [F S] H. destruct (route_total conf s H) as (a & b & th & E & A & B). exists th. rewrite E. f_equal. f_equal.
  destruct conf as [|c cs]; [congruence|]. cbn [speakers].
  rewrite pan_search_sorted in A.
  - change (Bleb c s) with (fle c s). destruct (fle c s); subst a b; [reflexivity|]. f_equal.
    replace (length (c :: cs) - 1 + 1)%nat with (length (c :: cs)) by (cbn; lia). apply Nat.mod_same. discriminate.
  - intros l0 ls El Hf. injection El as <- <-. apply Forall_cons_iff in F as [Fc Fcs]. pose proof (sorted_above c cs S) as AB.
    apply Forall_forall. intros x Hx. destruct (fle x s) eqn:Ex; [|reflexivity].
    assert (Q : fle c x = true). { apply (fle_correct 53 1024); [exact Fc|exact (proj1 (Forall_forall _ _) Fcs x Hx)|]. pose proof (proj1 (Forall_forall _ _) AB x Hx). lra. }
    rewrite (fle_trans c x s Q Ex) in Hf. discriminate.
Qed.
Lemma route_pair conf s : left_to_right conf -> conf <> [] -> exists a b th, u_route conf s = Ok (a, b, th) /\ speakers conf s = (a, b).
Proof. intros L H. destruct (route conf s L H) as (th & E). destruct (speakers conf s) as [a b]. eauto. Qed.

(** ** The loop *)
Lemma add_in k i (p : chan k) out : (i < length out)%nat -> exists out', u_add i p out = Ok out' /\ length out' = length out /\
  forall j, j <> i -> nth_error out' j = nth_error out j.
Proof.
  revert i; induction out as [|c cs IH]; intros i H; cbn in H; [lia|]. destruct i as [|i]; cbn.
  - eexists. split; [reflexivity|]. split; [reflexivity|]. intros [|j] N; [congruence|reflexivity].
  - destruct (IH i ltac:(lia)) as (o & -> & L & P). cbn [bind]. eexists. split; [reflexivity|]. cbn. split; [lia|].
    intros [|j] N; [reflexivity|]. apply P. congruence.
Qed.
Lemma add_out k i (p : chan k) out : (length out <= i)%nat -> u_add i p out = Panic IndexOutOfBounds.
Proof.
  revert i; induction out as [|c cs IH]; intros i H; cbn in *; [destruct i; reflexivity|]. destruct i as [|i]; [lia|]. cbn [u_add]. rewrite IH by lia. reflexivity.
Qed.
Lemma put_in k i (d x : chan k) out : (i < length out)%nat -> exists out', u_put i d x out = Ok out' /\ length out' = length out /\
  forall j, j <> i -> nth_error out' j = nth_error out j.
Proof. intros H. unfold u_put. destruct (mul_total k d x) as (p & ->). cbn [bind]. now apply add_in. Qed.
Lemma put_out k i (d x : chan k) out : (length out <= i)%nat -> u_put i d x out = Panic IndexOutOfBounds.
Proof. intros H. unfold u_put. destruct (mul_total k d x) as (p & ->). cbn [bind]. now apply add_out. Qed.

Lemma outcome k conf t (out ds ss : list (chan k)) : left_to_right conf -> conf <> [] ->
  Forall (fun s => present conf (length out) (to_f64 s)) (firstn (length ds) ss) ->
  exists out', u_pan conf t out ds ss = Ok out' /\ length out' = length out /\
    forall i, Forall (fun s => fst (speakers conf (to_f64 s)) <> i /\ snd (speakers conf (to_f64 s)) <> i) (firstn (length ds) ss) ->
      nth_error out' i = nth_error out i.
Proof.
  intros L N. revert out ss; induction ds as [|d ds IH]; intros out ss P; cbn [u_pan]; [exists out; repeat split; auto|].
  destruct ss as [|s ss]; [exists out; repeat split; auto|].
  cbn [length firstn] in P. apply Forall_cons_iff in P as [[P1 P2] P].
  destruct (route_pair conf (to_f64 s) L N) as (a & b & th & -> & E). rewrite E in P1, P2. cbn [fst snd bind] in *.
  destruct (put_in k a d (from_f64 k (t_cos t th)) out P1) as (o1 & -> & L1 & Q1). cbn [bind].
  destruct (put_in k b d (from_f64 k (t_sin t th)) o1 ltac:(lia)) as (o2 & -> & L2 & Q2). cbn [bind].
  assert (LL : length o2 = length out) by lia. rewrite <- LL in P.
  destruct (IH o2 ss P) as (o & H & L3 & Q3). exists o. split; [exact H|]. split; [lia|]. intros i F. cbn [length firstn] in F.
  apply Forall_cons_iff in F as [[F1 F2] F]. rewrite E in F1, F2. cbn [fst snd] in *. rewrite (Q3 i F), Q2, Q1; auto.
Qed.
Lemma panics k conf t (out ds ss : list (chan k)) : left_to_right conf -> conf <> [] ->
  Exists (fun s => ~ present conf (length out) (to_f64 s)) (firstn (length ds) ss) ->
  u_pan conf t out ds ss = Panic IndexOutOfBounds.
Proof.
  intros L N. revert out ss; induction ds as [|d ds IH]; intros out ss P; cbn [u_pan]; [inversion P|].
  destruct ss as [|s ss]; [inversion P|]. cbn [length firstn] in P.
  destruct (route_pair conf (to_f64 s) L N) as (a & b & th & -> & E). cbn [bind].
  destruct (Nat.lt_ge_cases a (length out)) as [A|A].
  2:{ now rewrite put_out. }
  destruct (put_in k a d (from_f64 k (t_cos t th)) out A) as (o1 & -> & L1 & Q1). cbn [bind].
  destruct (Nat.lt_ge_cases b (length out)) as [B|B].
  2:{ rewrite put_out by lia. reflexivity. }
  destruct (put_in k b d (from_f64 k (t_sin t th)) o1 ltac:(lia)) as (o2 & -> & L2 & Q2). cbn [bind].
  apply IH. replace (length o2) with (length out) by lia. inversion P as [? ? H|? ? H]; subst; [|exact H].
  elim H. unfold present. rewrite E. cbn. auto.
Qed.
Lemma no_speakers k t (d s : chan k) out ds ss : u_pan [] t out (d :: ds) (s :: ss) = Panic ArithOverflow.
Proof. reflexivity. Qed.
Lemma enough_present conf n s : conf <> [] -> (length conf <= n)%nat -> present conf n s.
Proof.
  intros H L. unfold present, speakers. destruct conf as [|c cs]; [congruence|]. cbn [length] in *.
  destruct (Bleb c s); cbn [fst snd]; split; try lia. apply Nat.lt_le_trans with (S (length cs)); [|exact L]. apply Nat.mod_upper_bound. discriminate.
Qed.
Lemma middle k conf t (out ds ss : list (chan k)) : left_to_right conf -> conf <> [] -> (length conf <= length out)%nat ->
  exists out', u_pan conf t out ds ss = Ok out' /\ length out' = length out /\
    forall i, (2 <= i)%nat -> i <> (length conf - 1)%nat -> nth_error out' i = nth_error out i.
Proof.
  intros L N E. destruct (outcome k conf t out ds ss L N) as (o & H & LL & P). { apply Forall_forall. intros s _. now apply enough_present. }
  exists o. split; [exact H|]. split; [exact LL|]. intros i I2 In. apply P. apply Forall_forall. intros s _.
  unfold speakers. destruct conf as [|c cs]; [congruence|]. destruct (Bleb _ _); cbn [fst snd]; split; try lia.
  pose proof (Nat.mod_le 1 (length (c :: cs)) ltac:(cbn; lia)). lia.
Qed.

(** ** The crate's frames are an instance *)
Lemma u_route_std l s : u_route (config l) s = (angle <- pan_angle l s ;; let '(a, b) := pan_route l s in Ok (a, b, angle)).
Proof.
  unfold u_route, pan_angle. destruct (pan_route l s) as [a b] eqn:E. unfold pan_route in E. injection E as <- <-.
  assert (N : Nat.eqb (length (config l)) 0 = false) by (destruct l; reflexivity). rewrite N.
  set (a := pan_search s 0 (config l) (length (config l) - 1)). 
  assert (A : (a < length (config l))%nat) by (apply (search_bound s 0); destruct l; cbn; lia).
  assert (B : (Nat.modulo (a + 1) (length (config l)) < length (config l))%nat) by (apply Nat.mod_upper_bound; destruct l; discriminate).
  apply nth_error_Some in A, B. destruct (nth_error (config l) a) as [cs|]; [|congruence].
  destruct (nth_error (config l) (Nat.modulo (a + 1) (length (config l)))) as [ce|]; [|congruence]. reflexivity.
Qed.
Lemma u_add_std k n i (p : chan k) (v : vec (chan k) n) :
  u_add i p (vlist v) = (w <- vupdate i (fun c => Ok (c_add_assign c p)) v ;; Ok (vlist w)).
Proof.
  revert i; induction n as [|n IH]; intros i; [destruct v, i; reflexivity|]. destruct v as [c v]. destruct i as [|i]; [reflexivity|].
  cbn [vlist u_add vupdate fst snd]. rewrite IH. destruct (vupdate i _ v); reflexivity.
Qed.
Lemma u_put_std l k i (d x : chan k) (out : frame l k) : u_put i d x (channels out) = (w <- pan_put i d x out ;; Ok (channels w)).
Proof.
  unfold u_put, pan_put. destruct (c_mul d x); cbn [bind]; try reflexivity. exact (u_add_std k (nchan l) i a out).
Qed.
Lemma u_pan_std l k t (ds ss : list (chan k)) (out : frame l k) :
  u_pan (config l) t (channels out) ds ss = (w <- pan_loop t out ds ss ;; Ok (channels w)).
Proof.
  revert out ss; induction ds as [|d ds IH]; intros out ss; cbn [u_pan pan_loop]; [reflexivity|]. destruct ss as [|s ss]; [reflexivity|].
  rewrite u_route_std. unfold pan_step. destruct (pan_angle l (to_f64 s)) as [ang|p|]; cbn [bind]; try reflexivity.
  destruct (pan_route l (to_f64 s)) as [a b]. cbn [bind]. rewrite u_put_std.
  destruct (pan_put a d _ out) as [o1|p|]; cbn [bind]; try reflexivity. rewrite u_put_std.
  destruct (pan_put b d _ o1) as [o2|p|]; cbn [bind]; try reflexivity. apply IH.
Qed.
Lemma instance l k t (d s : frame l k) :
  u_pan (config l) t (channels (frame_default l k)) (channels d) (channels s) = (w <- mix_frames (Pan_ t) d s ;; Ok (channels w)).
Proof. exact (u_pan_std l k t (channels d) (channels s) (frame_default l k)). Qed.
