(** * ApartProofs.v -- sinks over separate parts of a buffer (C68) *)
From Coq Require Import ZArith NArith List Lia.
From Verif Require Import Rust Float Chan Frame Ops Stream Audio SpecChan SpecFrame SpecStream SpecSink SpecAudio SpecLaw.
From Verif Require Import SinkProofs AudioProofs MoreProofs.
Import ListNotations.
Open Scope Z_scope.

Lemma region_fun r len x y x' y' : region r len x y -> region r len x' y' -> x = x' /\ y = y'.
Proof. destruct r; unfold region; lia. Qed.
Lemma nth_all {A} (xs ys : list A) : length xs = length ys -> (forall i, (i < length xs)%nat -> nth_error xs i = nth_error ys i) -> xs = ys.
Proof.
  intros L H. apply nth_ext_eq; [exact L|]. intros p x y Hx Hy.
  rewrite (H p) in Hx by (apply nth_error_Some; congruence). congruence.
Qed.
Lemma audio_eq {l k} (a b : audio l k) : audio_sample_rate a = audio_sample_rate b -> audio_len a = audio_len b ->
  (forall i, (i < audio_len a)%nat -> audio_get a i = audio_get b i) -> a = b.
Proof. destruct a as [ra fa], b as [rb fb]. cbn. intros -> L H. f_equal. now apply nth_all. Qed.

Theorem sinks_commute l k (a b c : audio l k) r1 r2 sk1 sk1' sk2 sk2' : Z.of_nat (audio_len a) <= 2 ^ 64 - 1 -> apart a r1 r2 ->
  through a r1 sk1 sk1' b -> through b r2 sk2 sk2' c ->
  exists b', through a r2 sk2 sk2' b' /\ through b' r1 sk1 sk1' c.
Proof.
  intros HL (x1 & y1 & x2 & y2 & G1 & G2 & Hd) (pre1 & post1 & S1 & U1 & ->) (pre2 & post2 & S2 & U2 & ->).
  assert (B1 : (x1 <= y1 <= N.of_nat (audio_len a))%N) by apply G1. assert (B2 : (x2 <= y2 <= N.of_nat (audio_len a))%N) by apply G2.
  destruct (audio_sink_confined _ _ _ _ _ _ _ _ HL S1 U1) as (x & y & G & (F1 & T1 & L1 & C1) & Lb & Tb & Ob & Ib).
  destruct (region_fun _ _ _ _ _ _ G1 G) as [<- <-]. clear G.
  set (b := audio_unsink a pre1 sk1' post1) in *.
  assert (HLb : Z.of_nat (audio_len b) <= 2 ^ 64 - 1) by lia.
  destruct (audio_sink_confined _ _ _ _ _ _ _ _ HLb S2 U2) as (x & y & G & (F2 & T2 & L2 & C2) & Lc & Tc & Oc & Ic).
  rewrite Lb in G. destruct (region_fun _ _ _ _ _ _ G2 G) as [<- <-]. clear G.
  set (c := audio_unsink b pre2 sk2' post2) in *.
  (* the other order *)
  destruct (audio_sink_spec l k a r2 HL) as [Ex _]. destruct Ex as (pre3 & sk3 & post3 & S3); [eauto|].
  assert (E3 : sk3 = sk2).
  { destruct (audio_sink_confined _ _ _ _ _ _ _ _ HL S3 (used_not _)) as (x & y & G & (F3 & T3 & L3 & C3) & _).
    destruct (region_fun _ _ _ _ _ _ G2 G) as [<- <-].
    destruct sk3 as [q3 z3 w3], sk2 as [q2 z2 w2]. unfold fresh in F2, F3. cbn in *. subst. f_equal.
    apply nth_all; [congruence|]. intros i Hi. rewrite C3, C2 by lia. symmetry. apply Ob. lia. }
  subst sk3. exists (audio_unsink a pre3 sk2' post3). split; [exists pre3, post3; auto|].
  destruct (audio_sink_confined _ _ _ _ _ _ _ _ HL S3 U2) as (x & y & G & _ & L3 & T3 & O3 & I3).
  destruct (region_fun _ _ _ _ _ _ G2 G) as [<- <-]. clear G.
  set (b' := audio_unsink a pre3 sk2' post3) in *.
  assert (HL' : Z.of_nat (audio_len b') <= 2 ^ 64 - 1) by lia.
  destruct (audio_sink_spec l k b' r1 HL') as [Ex _]. destruct Ex as (pre4 & sk4 & post4 & S4); [rewrite L3; eauto|].
  assert (E4 : sk4 = sk1).
  { destruct (audio_sink_confined _ _ _ _ _ _ _ _ HL' S4 (used_not _)) as (x & y & G & (F4 & T4 & L4 & C4) & _).
    rewrite L3 in G. destruct (region_fun _ _ _ _ _ _ G1 G) as [<- <-].
    destruct sk4 as [q4 z4 w4], sk1 as [q1 z1 w1]. unfold fresh in F1, F4. cbn in *. subst. f_equal.
    apply nth_all; [congruence|]. intros i Hi. rewrite C4, C1 by lia. apply O3. lia. }
  subst sk4. exists pre4, post4. split; [exact S4|]. split; [exact U1|].
  destruct (audio_sink_confined _ _ _ _ _ _ _ _ HL' S4 U1) as (x & y & G & _ & L5 & T5 & O5 & I5).
  rewrite L3 in G. destruct (region_fun _ _ _ _ _ _ G1 G) as [<- <-]. clear G.
  apply audio_eq; [congruence|congruence|]. intros i Hi. rewrite Lc, Lb in Hi.
  destruct (Nat.lt_ge_cases i (N.to_nat x1)) as [A|A]; [|destruct (Nat.lt_ge_cases i (N.to_nat y1)) as [A'|A']].
  1,3: rewrite (O5 i) by lia; destruct (Nat.lt_ge_cases i (N.to_nat x2)) as [D|D]; [|destruct (Nat.lt_ge_cases i (N.to_nat y2)) as [D'|D']].
  1,3,4,6: rewrite Oc, Ob, O3 by lia; reflexivity.
  1,2: replace i with (N.to_nat x2 + (i - N.to_nat x2))%nat by lia; rewrite Ic, I3 by lia; reflexivity.
  rewrite Oc by lia. replace i with (N.to_nat x1 + (i - N.to_nat x1))%nat by lia. rewrite Ib, I5 by lia. reflexivity.
Qed.
