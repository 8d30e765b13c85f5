(** * ChunkProofs.v -- extending in pieces (C65) *)
From Coq Require Import ZArith NArith Reals List Lia Lra.
From Flocq Require Import Core.Core IEEE754.BinarySingleNaN.
From Verif Require Import Rust Float Math Chan Frame Ops Stream Audio Heap SpecChan SpecFrame SpecStream SpecSink SpecAudio SpecMore SpecLaw.
From Verif Require Import FloatProofs FloorProofs FArithProofs StreamProofs SinkProofs PlaceProofs SinkMore SinkTerm AudioProofs DrainProofs ResampleProofs WholeProofs MoreProofs.
Import ListNotations.
Open Scope Z_scope.

(** What an equal-rate copy of [f] is stored as. *)
Definition stored {l k} (f : frame l k) : frame l k := ws_fn (frame_default l k) [(f, flit 1 0); (f, B754_zero false)].

Lemma extend_equal l k ls ks (a : audio l k) (s : stream ls ks) z all (fs : list (frame l k)) :
  whole_rate (s_rate a) z -> piece (s_rate a) s all -> converted all fs ->
  z * Z.of_nat (length all) <= 2 ^ 53 -> allocatable l k (Z.of_nat (length (frames a)) + Z.of_nat (length all)) ->
  exists it, extend (S (length all)) a s = (mkAudio (s_rate a) (frames a ++ map stored fs), Ok it).
Proof.
  intros W (Ya & Hl & Hr) Cv Hb Al.
  assert (Hz : 0 < z <= 2 ^ 53) by apply W.
  assert (Hh : honest s) by (unfold honest; rewrite Hl; eauto).
  assert (Sk : sinkable s) by (unfold sinkable; destruct Hr as [->|[_ C]]; [left; discriminate|now right]).
  set (n := N.of_nat (length all)) in *. assert (En : Z.of_N n = Z.of_nat (length all)) by (unfold n; lia).
  assert (Nn : N.to_nat n = length all) by (unfold n; lia).
  assert (Bn : Z.of_nat (length all) <= 2 ^ 53) by nia.
  assert (D : frames_for (s_rate a) (sample_rate s) n = Z.of_N n).
  { destruct Hr as [->|[-> _]]; [apply (frames_for_whole _ z); [exact W|lia]|reflexivity]. }
  assert (Rt : ratio_for (s_rate a) (sample_rate s) = fofZ 1).
  { destruct Hr as [->|[-> _]]; [|reflexivity]. destruct W as (F & E & _). apply ratio_one; [exact F|]. rewrite E. apply not_0_IZR. lia. }
  assert (Pl : forall i, (i <= length all)%nat -> place (fofZ 1) (flit 0 0) i = fofZ (Z.of_nat i)).
  { intros i Hi. rewrite place_whole by lia. f_equal. lia. }
  assert (Lvu : forall m, leaves (fofZ 1) (Z.of_N n) m -> m = length all).
  { intros m Lv. apply (leaves_at _ _ _ _ Lv).
    - intros i Hi. rewrite Pl, floor_fofZ by lia. lia.
    - rewrite Pl, floor_fofZ by lia. lia. }
  assert (Ee : Z.min (floor_index (fmul (fofZ 1) (fofZ (Z.of_N n)))) (Z.of_N n) = Z.of_N n).
  { rewrite mul_int, floor_fofZ by lia. lia. }
  destruct (extend_outcome l k ls ks a s n Sk Hh Hl) as [_ Ok_]. rewrite D, Rt, Ee, Nn, En in Ok_.
  destruct (Ok_ Al) as (m & _ & Lv & _ & Out). rewrite <- En in Lv. apply Lvu in Lv. subst m.
  destruct Out as (it & Eit).
  { intros [Q _]. rewrite Pl in Q by lia. rewrite (frac_Z _ (Z.of_nat (length all))) in Q by (apply fofZ53; lia).
    rewrite Rabs_R0 in Q. pose proof (bpow_gt_0 radix2 (-52)). lra. }
  exists it. destruct (extend (S (length all)) a s) as [a' r] eqn:Ex. cbn [snd] in Eit. subst r. f_equal.
  rewrite <- Nn in Ex. destruct (extend_values l k ls ks a a' s it n all fs Sk Hh Hl Ya Cv Ex) as (m & _ & Lv & _ & Vs).
  destruct (extend_appends _ _ _ _ _ _ _ _ _ Ex) as (n' & added & Hl' & Ef & Er & La).
  rewrite Hl in Hl'. injection Hl' as <-. rewrite D in La. rewrite D, Rt, Ee in Vs. rewrite D, Rt, Ee in Lv. apply Lvu in Lv. subst m.
  pose proof (converted_length _ _ _ _ _ _ Cv) as Lf.
  destruct a' as [r' fr']. cbn [s_rate frames] in *. subst r' fr'. f_equal. f_equal.
  apply nth_ext_eq; [rewrite map_length; lia|]. intros p x y Hx Hy.
  assert (p < length added)%nat by (apply nth_error_Some; congruence).
  destruct (Vs p x) as [V _]. { rewrite nth_error_app2 by lia. replace (_ + p - _)%nat with p by lia. exact Hx. }
  rewrite nth_error_map in Hy. destruct (nth_error fs p) as [f|] eqn:Hf; [|discriminate]. injection Hy as <-.
  specialize (V ltac:(lia)). rewrite firstn_all2 in V by lia.
  assert (Lt : lattice (fofZ 1) (fofZ 0) 1 0 (fofZ 1) (B754_zero false) 0 (length fs)) by (apply lattice_int; lia).
  replace (Z.of_nat p) with (0 + 1 * Z.of_nat (0 + p)) in V by lia.
  change (flit 0 0 : f64) with (fofZ 0 : f64) in V.
  rewrite (contributions_at (fofZ 1) (fofZ 0) 1 0 (fofZ 1) (B754_zero false) fs 0 p f ltac:(lia) Lt Hf) in V.
  apply (ws_fun _ _ _ V).
Qed.

Lemma extend_pieces l k ls ks (ss : list (stream ls ks)) xss : forall (a : audio l k) z,
  whole_rate (s_rate a) z -> Forall2 (piece (s_rate a)) ss xss ->
  z * Z.of_nat (length (concat xss)) <= 2 ^ 53 -> allocatable l k (Z.of_nat (length (frames a)) + Z.of_nat (length (concat xss))) ->
  exists fs : list (frame l k), converted (concat xss) fs /\ extended a ss (mkAudio (s_rate a) (frames a ++ map stored fs)).
Proof.
  intros a z W H. revert a z W H. induction ss as [|s ss IH] in xss |- *; intros a z W H Hb Al.
  - inversion H; subst. exists []. split; [constructor|]. cbn [map]. rewrite app_nil_r. destruct a. constructor.
  - inversion H as [|s' xs ss' xss' P H']; subst. cbn [concat] in *. rewrite app_length in *.
    destruct (converted_ex l k _ _ xs) as (f1 & C1). pose proof (converted_length _ _ _ _ _ _ C1) as L1.
    assert (Hz : 0 < z) by apply W. unfold allocatable in *.
    assert (0 < bytes_per_frame l k) by (destruct l, k; reflexivity).
    destruct (extend_equal l k ls ks a s z xs f1 W P C1) as (it & E); [nia|unfold allocatable; nia|].
    destruct (IH xss' (mkAudio (s_rate a) (frames a ++ map stored f1)) z W H') as (f2 & C2 & E2); [nia| |].
    { cbn [frames]. rewrite app_length, map_length, L1. nia. }
    exists (f1 ++ f2). split; [now apply Forall2_app|].
    cbn [frames s_rate] in E2. rewrite <- app_assoc, <- map_app in E2.
    refine (extended_cons _ _ _ _ _ _ _ (proj1 (proj2 P)) _ E2). rewrite Nat2N.id. exact E.
Qed.

Lemma extended_fun l k ls ks (a b : audio l k) (ss : list (stream ls ks)) : extended a ss b -> forall c, extended a ss c -> b = c.
Proof.
  induction 1 as [a|a s n a' it ss b Hl E X IH]; intros c Y; inversion Y; subst; [reflexivity|].
  rewrite Hl in H1. injection H1 as <-. rewrite E in H3. injection H3 as <- _. now apply IH.
Qed.

Theorem pieces l k ls ks (a : audio l k) z (ss : list (stream ls ks)) xss s :
  whole_rate (s_rate a) z -> Forall2 (piece (s_rate a)) ss xss -> piece (s_rate a) s (concat xss) ->
  z * Z.of_nat (length (concat xss)) <= 2 ^ 53 -> allocatable l k (Z.of_nat (audio_len a) + Z.of_nat (length (concat xss))) ->
  exists b, extended a ss b /\ extended a [s] b /\ audio_len b = (audio_len a + length (concat xss))%nat.
Proof.
  unfold audio_len. intros W H P Hb Al. destruct (extend_pieces l k ls ks ss xss a z W H Hb Al) as (fs & C & X).
  destruct (extend_equal l k ls ks a s z _ fs W P C Hb Al) as (it & E).
  eexists. split; [exact X|]. split.
  - refine (extended_cons _ _ _ _ _ _ _ (proj1 (proj2 P)) _ (extended_nil _)). rewrite Nat2N.id. exact E.
  - cbn [frames]. rewrite app_length, map_length, (converted_length _ _ _ _ _ _ C). reflexivity.
Qed.

(** At differing rates it makes a difference: every piece starts quietly. *)
Lemma pieces_differ : ~ (forall l k ls ks (a b c : audio l k) (ss : list (stream ls ks)) xss s src,
  whole_rate (s_rate a) 24000 -> whole_rate src 48000 -> Forall2 (piece src) ss xss -> piece src s (concat xss) ->
  extended a ss b -> extended a [s] c -> b = c).
Proof.
  intros H. pose (x := (as_sint W8 100, tt) : frame Mono K8). pose (src := flit 48000 0 : f64).
  pose (s4 := SAudio src (repeat x 4) : stream Mono K8). pose (s8 := SAudio src (repeat x 8) : stream Mono K8).
  pose (a := mkAudio (flit 24000 0) [] : audio Mono K8).
  pose (code := fun b : audio Mono K8 => map (fun f : frame Mono K8 => map sv (channels f)) (frames b)).
  pose (fin := fun r : audio Mono K8 * res (stream Mono K8) => match snd r with Ok _ => true | _ => false end).
  assert (F1 : fin (extend 5 a s4) = true) by (vm_compute; reflexivity).
  assert (F2 : fin (extend 5 (fst (extend 5 a s4)) s4) = true) by (vm_compute; reflexivity).
  assert (F3 : fin (extend 9 a s8) = true) by (vm_compute; reflexivity).
  assert (N : code (fst (extend 5 (fst (extend 5 a s4)) s4)) <> code (fst (extend 9 a s8))) by (vm_compute; discriminate).
  destruct (extend 5 a s4) as [b1 [i1| |]] eqn:E1; try discriminate F1. cbn [fst] in *.
  destruct (extend 5 b1 s4) as [b2 [i2| |]] eqn:E2; try discriminate F2. cbn [fst] in *.
  destruct (extend 9 a s8) as [c [i3| |]] eqn:E3; try discriminate F3. cbn [fst] in *.
  apply N. f_equal. apply (H Mono K8 Mono K8 a b2 c [s4; s4] [repeat x 4; repeat x 4] s8 src).
  - destruct (flit_Z 53 1024 24000 ltac:(lia)). repeat split; try assumption; lia.
  - destruct (flit_Z 53 1024 48000 ltac:(lia)). repeat split; try assumption; lia.
  - assert (piece src s4 (repeat x 4)) by (split; [apply audio_yields|split; [reflexivity|now left]]). do 2 (constructor; [assumption|]). constructor.
  - split; [apply audio_yields|split; [reflexivity|now left]].
  - apply (extended_cons a s4 4%N b1 i1); [reflexivity|exact E1|]. apply (extended_cons b1 s4 4%N b2 i2); [reflexivity|exact E2|constructor].
  - apply (extended_cons a s8 8%N c i3); [reflexivity|exact E3|constructor].
Qed.
