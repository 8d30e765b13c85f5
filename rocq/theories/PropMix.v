(** * PropMix.v -- property theorems C80 and C81 *)
From Coq Require Import ZArith NArith Reals Bool List Lia Lra Permutation Sorted.
From Flocq Require Import Core.Core IEEE754.BinarySingleNaN.
From Verif Require Import Rust Float Chan Frame Ops Stream SpecChan SpecFrame SpecStream SpecLaw.
From Verif Require Import UserPan SpecUserPan UserPanProofs SpecMix MixProofs IntProofs PanProofs.
Import ListNotations.
Open Scope Z_scope.

(** ** C80 *)
(** The crate's own frames are one instance. *)
Theorem C80_instance : forall l k t (d s : frame l k),
  u_pan (config l) t (channels (frame_default l k)) (channels d) (channels s) = (w <- mix_frames (Pan_ t) d s ;; Ok (channels w)).
Proof. exact instance. Qed.
Print Assumptions C80_instance.
(** Which speakers a position is sent to. *)
Theorem C80_routing : forall conf s, left_to_right conf -> conf <> [] -> exists th, u_route conf s = Ok (speakers conf s, th).
Proof. exact route. Qed.
Print Assumptions C80_routing.
(** Speakers that no position is sent to keep the default. *)
Theorem C80_outcome : forall k conf t (out ds ss : list (chan k)), left_to_right conf -> conf <> [] ->
  Forall (fun s => present conf (length out) (to_f64 s)) (firstn (length ds) ss) ->
  exists out', u_pan conf t out ds ss = Ok out' /\ length out' = length out /\
    forall i, Forall (fun s => fst (speakers conf (to_f64 s)) <> i /\ snd (speakers conf (to_f64 s)) <> i) (firstn (length ds) ss) ->
      nth_error out' i = nth_error out i.
Proof. exact outcome. Qed.
Print Assumptions C80_outcome.
(** A configuration that names a speaker the frame does not have. *)
Theorem C80_panics : forall k conf t (out ds ss : list (chan k)), left_to_right conf -> conf <> [] ->
  Exists (fun s => ~ present conf (length out) (to_f64 s)) (firstn (length ds) ss) ->
  u_pan conf t out ds ss = Panic IndexOutOfBounds.
Proof. exact panics. Qed.
Print Assumptions C80_panics.
Theorem C80_no_speakers : forall k t (d s : chan k) out ds ss, u_pan [] t out (d :: ds) (s :: ss) = Panic ArithOverflow.
Proof. exact no_speakers. Qed.
Print Assumptions C80_no_speakers.
(** With a speaker per channel Pan never panics, and no speaker between the second and
    the last is ever used. *)
Theorem C80_middle_silent : forall k conf t (out ds ss : list (chan k)), left_to_right conf -> conf <> [] -> (length conf <= length out)%nat ->
  exists out', u_pan conf t out ds ss = Ok out' /\ length out' = length out /\
    forall i, (2 <= i)%nat -> i <> (length conf - 1)%nat -> nth_error out' i = nth_error out i.
Proof. exact middle. Qed.
Print Assumptions C80_middle_silent.
(** Four speakers, at -3/4, -1/4, 1/4 and 3/4. *)
Definition quad : list f64 := [flit (-3) (-2); flit (-1) (-2); flit 1 (-2); flit 3 (-2)].
Example C80_quad : left_to_right quad /\ quad <> [].
Proof.
  assert (A : (B2R (flit (-3) (-2) : f64) < B2R (flit (-1) (-2) : f64))%R) by (konst (flit (-3) (-2) : f64); konst (flit (-1) (-2) : f64); lra).
  assert (B : (B2R (flit (-1) (-2) : f64) < B2R (flit 1 (-2) : f64))%R) by (konst (flit 1 (-2) : f64); konst (flit (-1) (-2) : f64); lra).
  assert (C : (B2R (flit 1 (-2) : f64) < B2R (flit 3 (-2) : f64))%R) by (konst (flit 1 (-2) : f64); konst (flit 3 (-2) : f64); lra).
  split; [|discriminate]. split; [repeat constructor|]. repeat constructor; assumption.
Qed.
(** A sound placed exactly at the third speaker is not sent there. *)
Theorem C80_at_speaker_refuted : ~ forall conf s i, left_to_right conf -> nth_error conf i = Some s ->
  fst (speakers conf s) = i \/ snd (speakers conf s) = i.
Proof. intros H. destruct (H quad (flit 1 (-2)) 2%nat (proj1 C80_quad) eq_refl) as [E|E]; vm_compute in E; discriminate. Qed.
Print Assumptions C80_at_speaker_refuted.
(** Panning four channels on four speakers; on three, the leftmost positions panic. *)
Example C80_case : forall t (out ds : list (chan K16)), length out = 4%nat ->
  (exists out', u_pan quad t out ds (map (as_sint W16) [0; -30000; 8192; 30000]) = Ok out' /\ length out' = 4%nat /\ nth_error out' 2 = nth_error out 2) /\
  (forall d, u_pan quad t (firstn 3 out) (d :: ds) [as_sint W16 (-30000)] = Panic IndexOutOfBounds).
Proof.
  intros t out ds L. destruct C80_quad as [Q N]. split.
  - destruct (C80_middle_silent K16 quad t out ds (map (as_sint W16) [0; -30000; 8192; 30000]) Q N) as (o & E & Lo & M); [rewrite L; cbn; lia|].
    exists o. split; [exact E|]. split; [congruence|]. apply M; [lia|cbn; lia].
  - intros d. apply C80_panics; auto. cbn [length]. rewrite firstn_cons. left. rewrite firstn_length, L. unfold present.
    assert (E : speakers quad (to_f64 (as_sint W16 (-30000) : chan K16)) = (3, 0)%nat) by (vm_compute; reflexivity).
    rewrite E. cbn. lia.
Qed.

(** ** C81 *)
(** A mix of tracks: accepted, as long as the shortest, each sample the running sum of
    the tracks' samples. *)
Theorem C81_mixdown : forall l k r (a : stream l k) bs, tracks_at r (a :: bs) ->
  exists t, mixdown a bs = Ok t /\ sample_rate t = Some r /\ honest t /\ slen t = shortest (a :: bs) /\
    forall n j c, given t n j c <-> exists x ys, together (a :: bs) n j (x :: ys) /\ c = sum_up x ys.
Proof. exact mixdown_ends. Qed.
Print Assumptions C81_mixdown.
(** Integers: exact unless the magnitudes add up to more than full scale. *)
Theorem C81_exact_int : forall l k (a : stream l k) bs t n j c, is_int k -> mixdown a bs = Ok t -> given t n j c ->
  exists cs, together (a :: bs) n j cs /\ ((loudness cs <= top k)%R -> rval c = total cs).
Proof. exact mixdown_int. Qed.
Print Assumptions C81_exact_int.
(** Floats: half an ulp of 1 per addition. *)
Theorem C81_error_float : forall l k (a : stream l k) bs t n j c, is_float k -> mixdown a bs = Ok t -> given t n j c ->
  exists cs, together (a :: bs) n j cs /\
    (Forall valid cs -> (loudness cs <= 1)%R -> (Rabs (rval c - total cs) <= INR (length bs) * add_error k)%R).
Proof. exact mixdown_float. Qed.
Print Assumptions C81_error_float.
(** Quiet integer tracks can be mixed in any order. *)
Theorem C81_order : forall l k r (a a' : stream l k) bs bs', is_int k -> tracks_at r (a :: bs) -> quiet (a :: bs) ->
  Permutation (a :: bs) (a' :: bs') ->
  exists t t', mixdown a bs = Ok t /\ mixdown a' bs' = Ok t' /\ alike t t'.
Proof. exact mixdown_order. Qed.
Print Assumptions C81_order.
(** Not so when the sum saturates on the way (100 + 100 - 100 is 27, 100 - 100 + 100 is 100),
    nor with floats (1/2 + 2^-25 + 2^-25 is 1/2, 2^-25 + 2^-25 + 1/2 is not). *)
Theorem C81_order_int_refuted : ~ forall r (a b c : stream Mono K8), tracks_at r [a; b; c] ->
  exists t t', mixdown a [b; c] = Ok t /\ mixdown b [c; a] = Ok t' /\ alike t t'.
Proof.
  intros H. destruct (order_matters K8 (flit 48000 0) (as_sint W8 100) (as_sint W8 100) (as_sint W8 (-100)) eq_refl) as (T & t & t' & E & E' & N).
  { intros E. apply (f_equal (@sv W8)) in E. vm_compute in E. discriminate E. }
  destruct (H _ _ _ _ T) as (u & u' & F & F' & A). rewrite E in F. rewrite E' in F'. injection F as <-. injection F' as <-. exact (N A).
Qed.
Print Assumptions C81_order_int_refuted.
Theorem C81_order_float_refuted : ~ forall r (a b c : stream Mono K32), tracks_at r [a; b; c] -> quiet [a; b; c] ->
  exists t t', mixdown a [b; c] = Ok t /\ mixdown b [c; a] = Ok t' /\ alike t t'.
Proof. exact float_order. Qed.
Print Assumptions C81_order_float_refuted.
(** Three tracks of two channels. *)
Notation w16 := (as_sint W16).
Definition track1 : list (frame Stereo K16) := [(w16 1000, (w16 2000, tt)); (w16 3000, (w16 (-4000), tt))].
Definition track2 : list (frame Stereo K16) := [(w16 5000, (w16 (-20000), tt))].
Definition track3 : list (frame Stereo K16) := [(w16 (-7000), (w16 9000, tt)); (w16 32767, (w16 32767, tt))].
Example C81_case : let r := flit 48000 0 in let tracks := map (SAudio r) [track1; track2; track3] in
  tracks_at r tracks /\ quiet tracks /\ shortest tracks = Some 1%N /\
  (exists t, mixdown (SAudio r track1) (map (SAudio r) [track2; track3]) = Ok t /\ forall c, given t 0 1 c -> rval c = (-9000)%R).
Proof.
  intros r tracks.
  assert (T : tracks_at r tracks) by (split; [reflexivity|]; repeat constructor; apply audio_honest).
  assert (V : forall z, -32768 <= z <= 32767 -> rval (w16 z : chan K16) = IZR z) by (intros z Hz; cbn [rval]; now rewrite sv_as16).
  assert (Q : quiet tracks).
  { intros n j cs H. unfold tracks in H. apply together_audio in H.
    inversion H as [|? c1 ? cs1 (x1 & N1 & C1) H1]; subst. inversion H1 as [|? c2 ? cs2 (x2 & N2 & C2) H2]; subst.
    inversion H2 as [|? c3 ? cs3 (x3 & N3 & C3) H3]; subst. inversion H3; subst.
    destruct n as [|n]; [|destruct n; discriminate]. injection N1 as <-. injection N2 as <-. injection N3 as <-.
    destruct j as [|[|j]]; [| |destruct j; discriminate]; injection C1 as <-; injection C2 as <-; injection C3 as <-;
      unfold loudness, fold_right; rewrite !V by lia; cbn [top]; rewrite <- !abs_IZR, ?Rplus_0_r, <- !plus_IZR; apply IZR_le; cbn; lia. }
  split; [exact T|]. split; [exact Q|]. split; [reflexivity|].
  destruct (C81_mixdown _ _ r (SAudio r track1) (map (SAudio r) [track2; track3]) T) as (t & E & _). exists t. split; [exact E|].
  intros c G. destruct (C81_exact_int _ _ _ _ t 0%nat 1%nat c (or_intror eq_refl) E G) as (cs & Tg & V').
  rewrite V' by exact (Q _ _ _ Tg). change (together tracks 0 1 cs) in Tg. unfold tracks in Tg. apply together_audio in Tg.
  inversion Tg as [|? c1 ? cs1 (x1 & N1 & C1) H1]; subst. inversion H1 as [|? c2 ? cs2 (x2 & N2 & C2) H2]; subst.
  inversion H2 as [|? c3 ? cs3 (x3 & N3 & C3) H3]; subst. inversion H3; subst.
  injection N1 as <-. injection N2 as <-. injection N3 as <-. injection C1 as <-. injection C2 as <-. injection C3 as <-.
  unfold total, fold_right. rewrite !V by lia. lra.
Qed.
