(** * PropSuper.v -- property theorems C83 *)
From Coq Require Import ZArith NArith Reals Bool List Lia Lra.
From Flocq Require Import Core.Core IEEE754.BinarySingleNaN.
From Verif Require Import Rust Float Chan Frame Ops Stream Audio SpecChan SpecFrame SpecStream SpecSink SpecAudio SpecMix SpecFade SpecMore.
From Verif Require Import FloatProofs IntProofs MixProofs SuperProofs MoreProofs.
Import ListNotations.
Open Scope R_scope.

(** ** C83 *)
(** Lowering the rate from [S] to [R] Hz is linear.  If, around frame [p], the levels of a
    third source are [al] times those of the first plus [be] times those of the second (up to
    [t]), so are the levels of what is made of them, up to the rounding of at most S/R + 6
    additions. *)
Theorem C83_linear : forall rate src R S, whole_rate rate R -> whole_rate src S -> (S <= 2 ^ 50)%Z -> (R <= S)%Z ->
  forall l k l1 k1 l2 k2 l3 k3 (a1 a1' a2 a2' a3 a3' : audio l k) (s1 it1 : stream l1 k1) (s2 it2 : stream l2 k2) (s3 it3 : stream l3 k3)
    n all1 all2 all3 (f1 f2 f3 : list (frame l k)) p c al be t b1 b2 b3 y1 y2 y3,
  s_rate a1 = rate -> s_rate a2 = rate -> s_rate a3 = rate ->
  sample_rate s1 = Some src -> honest s1 -> slen s1 = Some n -> yields s1 all1 -> converted all1 f1 ->
  sample_rate s2 = Some src -> honest s2 -> slen s2 = Some n -> yields s2 all2 -> converted all2 f2 ->
  sample_rate s3 = Some src -> honest s3 -> slen s3 = Some n -> yields s3 all3 -> converted all3 f3 ->
  (R * Z.of_N n <= 2 ^ 51)%Z -> ((Z.of_nat p + 1) * S < R * Z.of_N n)%Z ->
  extend (Datatypes.S (N.to_nat n)) a1 s1 = (a1', Ok it1) -> extend (Datatypes.S (N.to_nat n)) a2 s2 = (a2', Ok it2) ->
  extend (Datatypes.S (N.to_nat n)) a3 s3 = (a3', Ok it3) ->
  0 <= t ->
  (forall i g1 g2 g3 x1 x2 x3, nth_error f1 i = Some g1 -> nth_error f2 i = Some g2 -> nth_error f3 i = Some g3 ->
     (Z.abs (R * Z.of_nat i - S * Z.of_nat p) <= S)%Z ->
     nth_error (channels g1) c = Some x1 -> nth_error (channels g2) c = Some x2 -> nth_error (channels g3) c = Some x3 ->
     valid x1 /\ valid x2 /\ valid x3 /\ Rabs (level x3 - (al * level x1 + be * level x2)) <= t) ->
  audio_get a1' (audio_len a1 + p) = Some b1 -> audio_get a2' (audio_len a2 + p) = Some b2 -> audio_get a3' (audio_len a3 + p) = Some b3 ->
  nth_error (channels b1) c = Some y1 -> nth_error (channels b2) c = Some y2 -> nth_error (channels b3) c = Some y3 ->
  let d := (INR p + 6) * bpow radix2 (-49) in
  Rabs (level y3 - (al * level y1 + be * level y2)) <=
    (1 + Rabs al + Rabs be) * (IZR S / IZR R + 6) * (step k + d) + t * (1 + d).
Proof. exact extend_linear. Qed.
Print Assumptions C83_linear.
(** Mixing two tracks before lowering the rate, or after. *)
Theorem C83_mix : forall rate src R S, whole_rate rate R -> whole_rate src S -> (S <= 2 ^ 50)%Z -> (R <= S)%Z ->
  forall l k (s1 s2 t it1 it2 it3 : stream l k) (a a1 a2 a3 : audio l k) n p c b1 b2 b3 y1 y2 y3,
  s_rate a = rate -> tracks_at src [s1; s2] -> slen s1 = Some n -> slen s2 = Some n -> blend s1 s2 Plus = Ok t ->
  (R * Z.of_N n <= 2 ^ 51)%Z -> ((Z.of_nat p + 1) * S < R * Z.of_N n)%Z ->
  (forall i x1 x2, (Z.abs (R * Z.of_nat i - S * Z.of_nat p) <= S)%Z -> given s1 i c x1 -> given s2 i c x2 ->
     valid x1 /\ valid x2 /\ Rabs (rval x1 + rval x2) <= top k) ->
  extend (Datatypes.S (N.to_nat n)) a s1 = (a1, Ok it1) -> extend (Datatypes.S (N.to_nat n)) a s2 = (a2, Ok it2) ->
  extend (Datatypes.S (N.to_nat n)) a t = (a3, Ok it3) ->
  audio_get a1 (audio_len a + p) = Some b1 -> audio_get a2 (audio_len a + p) = Some b2 -> audio_get a3 (audio_len a + p) = Some b3 ->
  nth_error (channels b1) c = Some y1 -> nth_error (channels b2) c = Some y2 -> nth_error (channels b3) c = Some y3 ->
  Rabs (level y3 - (level y1 + level y2)) <= (3 * (IZR S / IZR R + 6) + 1) * (step k + (INR p + 6) * bpow radix2 (-49)).
Proof. exact mix_either_way. Qed.
Print Assumptions C83_mix.
(** A constant gain [ga]. *)
Theorem C83_fade : forall rate src R S, whole_rate rate R -> whole_rate src S -> (S <= 2 ^ 50)%Z -> (R <= S)%Z ->
  forall l k (s g t it1 it3 : stream l k) (a a1 a3 : audio l k) ga n p c b1 b3 y1 y3,
  s_rate a = rate -> tracks_at src [s; g] -> slen s = Some n -> slen g = None \/ slen g = Some n -> blend s g Amplify = Ok t ->
  (R * Z.of_N n <= 2 ^ 51)%Z -> ((Z.of_nat p + 1) * S < R * Z.of_N n)%Z ->
  (forall i x z, (Z.abs (R * Z.of_nat i - S * Z.of_nat p) <= S)%Z -> given s i c x -> given g i c z ->
     SpecFade.within x /\ SpecFade.within z /\ level z = ga) ->
  extend (Datatypes.S (N.to_nat n)) a s = (a1, Ok it1) -> extend (Datatypes.S (N.to_nat n)) a t = (a3, Ok it3) ->
  audio_get a1 (audio_len a + p) = Some b1 -> audio_get a3 (audio_len a + p) = Some b3 ->
  nth_error (channels b1) c = Some y1 -> nth_error (channels b3) c = Some y3 ->
  Rabs (level y3 - ga * level y1) <= ((1 + Rabs ga) * (IZR S / IZR R + 6) + 1) * (step k + (INR p + 6) * bpow radix2 (-49)).
Proof. exact fade_either_way. Qed.
Print Assumptions C83_fade.
(** Not exact, even where nothing saturates: from 48 to 32 kHz. *)
Notation "'w16' z" := ((as_sint W16 z, tt) : frame Mono K16) (at level 9, z at next level, only parsing).
Definition at48 (fs : list (frame Mono K16)) : stream Mono K16 := SAudio (flit 48000 0) fs.
Definition track1 : stream Mono K16 := at48 [w16 1000; w16 (-2000); w16 3000; w16 4001; w16 500; w16 600].
Definition track2 : stream Mono K16 := at48 [w16 20000; w16 10001; w16 (-300); w16 (-4001); w16 501; w16 603].
Definition half : stream Mono K16 := at48 (repeat (w16 16000) 6).
Definition to32 (r : res (stream Mono K16)) : list (list Z) :=
  codes_of (s <- r ;; with_stream Mono K16 7 (flit 32000 0) s).
Example tracks_ok : tracks_at (flit 48000 0) [track1; track2].
Proof. split; [reflexivity|]; repeat constructor; apply audio_honest. Qed.
Example tracks_quiet : quiet [track1; track2].
Proof.
  intros n j cs H. apply (together_audio Mono K16 (flit 48000 0) [_; _]) in H.
  inversion H as [|? c1 ? cs1 (x1 & N1 & C1) H1]; subst. inversion H1 as [|? c2 ? cs2 (x2 & N2 & C2) H2]; subst. inversion H2; subst.
  assert (V : forall z, (-32768 <= z <= 32767)%Z -> rval (as_sint W16 z : chan K16) = IZR z) by (intros z Hz; cbn [rval]; now rewrite sv_as16).
  do 6 (destruct n as [|n]; [injection N1 as <-; injection N2 as <-; destruct j as [|j]; [|destruct j; discriminate];
    injection C1 as <-; injection C2 as <-; unfold loudness, fold_right; rewrite !V by lia; cbn [top]; rewrite <- !abs_IZR, ?Rplus_0_r, <- !plus_IZR; apply IZR_le; cbn; lia|]).
  destruct n; discriminate.
Qed.
Theorem C83_mix_exact_refuted : ~ forall (s1 s2 t : stream Mono K16) a1 a2 a3 it1 it2 it3 p b1 b2 b3,
  tracks_at (flit 48000 0) [s1; s2] -> quiet [s1; s2] -> slen s1 = Some 6%N -> slen s2 = Some 6%N -> blend s1 s2 Plus = Ok t ->
  with_stream Mono K16 7 (flit 32000 0) s1 = Ok (a1, it1) -> with_stream Mono K16 7 (flit 32000 0) s2 = Ok (a2, it2) ->
  with_stream Mono K16 7 (flit 32000 0) t = Ok (a3, it3) ->
  audio_get a1 p = Some b1 -> audio_get a2 p = Some b2 -> audio_get a3 p = Some b3 -> b3 = frame_add b1 b2.
Proof.
  intros H. destruct (plus_ok _ _ track1 track2 (flit 48000 0) tracks_ok) as (t & E).
  assert (V1 : codes_of (with_stream Mono K16 7 (flit 32000 0) track1) = [[666]; [-334]; [3666]; [532]]%Z) by (vm_compute; reflexivity).
  assert (V2 : codes_of (with_stream Mono K16 7 (flit 32000 0) track2) = [[13333]; [6568]; [-2766]; [533]]%Z) by (vm_compute; reflexivity).
  assert (V3 : to32 (blend track1 track2 Plus) = [[14000]; [6233]; [899]; [1067]]%Z) by (vm_compute; reflexivity).
  rewrite E in V3. unfold to32 in V3. cbn [bind] in V3.
  apply first_code in V1 as (a1 & it1 & x1 & E1 & F1 & S1). apply first_code in V2 as (a2 & it2 & x2 & E2 & F2 & S2). apply first_code in V3 as (a3 & it3 & x3 & E3 & F3 & S3).
  pose proof (H track1 track2 t a1 a2 a3 it1 it2 it3 0%nat (x1, tt) (x2, tt) (x3, tt) tracks_ok tracks_quiet eq_refl eq_refl E E1 E2 E3 F1 F2 F3) as B.
  exact (sum_differs x1 x2 x3 666 13333 14000 S1 S2 S3 ltac:(lia) ltac:(lia) B).
Qed.
Print Assumptions C83_mix_exact_refuted.
(** The hypotheses of C83_mix and C83_fade for these tracks, and half the first: 14000 against
    666 + 13333, 325 against 666 * 16000 / 32767.  The bound for frame 1 is 59 codes for a mix. *)
Example C83_case : whole_rate (flit 32000 0) 32000 /\ whole_rate (flit 48000 0) 48000 /\
  tracks_at (flit 48000 0) [track1; track2] /\ quiet [track1; track2] /\ slen track1 = Some 6%N /\ slen track2 = Some 6%N /\
  to32 (Ok track1) = [[666]; [-334]; [3666]; [532]]%Z /\ to32 (Ok track2) = [[13333]; [6568]; [-2766]; [533]]%Z /\
  to32 (blend track1 track2 Plus) = [[14000]; [6233]; [899]; [1067]]%Z /\ to32 (blend track1 half Amplify) = [[325]; [-163]; [1789]; [259]]%Z /\
  ((1 + 1) * 48000 < 32000 * 6)%Z /\ (3 * (48000 / 32000 + 6) + 1) * (step K16 + (INR 1 + 6) * bpow radix2 (-49)) < 59 / 32767 /\
  (forall i x z, given track1 i 0 x -> given half i 0 z -> SpecFade.within x /\ SpecFade.within z /\ level z = 16000 / 32767).
Proof.
  destruct (flit_Z 53 1024 32000 ltac:(lia)), (flit_Z 53 1024 48000 ltac:(lia)).
  split; [repeat split; try assumption; lia|]. split; [repeat split; try assumption; lia|].
  split; [exact tracks_ok|]. split; [exact tracks_quiet|]. do 2 (split; [reflexivity|]). do 4 (split; [vm_compute; reflexivity|]). split; [lia|]. split.
  - cbn [step INR]. change (bpow radix2 (-49)) with (/ 562949953421312). lra.
  - intros i x z Gx Gz. apply given_audio in Gx as (f & N & C). apply given_audio in Gz as (g & M & D).
    assert (V : forall z, (-32768 <= z <= 32767)%Z -> rval (as_sint W16 z : chan K16) = IZR z) by (intros v Hz; cbn [rval]; now rewrite sv_as16).
    assert (G : forall z, (-32767 <= z <= 32767)%Z -> SpecFade.within (as_sint W16 z : chan K16)).
    { intros v Hv. split; [exact I|]. rewrite V by lia. cbn [top]. rewrite <- abs_IZR. apply IZR_le. lia. }
    apply nth_error_In, repeat_spec in M. subst g. injection D as <-. split.
    + do 6 (destruct i as [|i]; [injection N as <-; injection C as <-; apply G; lia|]). destruct i; discriminate.
    + split; [apply G; lia|]. cbn [level]. rewrite sv_as16 by lia. reflexivity.
Qed.
