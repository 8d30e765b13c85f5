(** * ProgramProofs.v -- the example programs (C78) *)
From Coq Require Import ZArith NArith Reals List Lia Bool Lra.
From Flocq Require Import Core.Core IEEE754.BinarySingleNaN.
From Verif Require Import Rust Float Math Chan Frame Ops Stream Audio SpecChan SpecFrame SpecStream SpecSink SpecAudio SpecMore SpecRel SpecMany Programs.
From Verif Require Import StreamProofs SinkProofs CopyProofs EqualProofs SinkTerm AudioProofs PanicProofs DriftProofs RelProofs ManyProofs.
Import ListNotations.
Open Scope Z_scope.

Lemma nth_all {A} (xs : list A) : forall ys, (forall p, nth_error xs p = nth_error ys p) -> xs = ys.
Proof.
  induction xs as [|x xs IH]; intros [|y ys] H; [reflexivity|specialize (H O); discriminate|specialize (H O); discriminate|].
  pose proof (H O) as H0. cbn in H0. injection H0 as ->. f_equal. apply IH. intros p. exact (H (S p)).
Qed.
Definition one {l k} (x : frame l k) : source := mkSource l k (STake (SFrame x) 1) [x].
Lemma one_sends l k ls ks (sk : sink l k) (x : frame ls ks) : sends sk (one x).
Proof.
  split; [exact I|]. split; [|split; [reflexivity|discriminate]].
  exists (STake (SFrame x) 0), (STake (SFrame x) 0). split; [|reflexivity]. econstructor; [reflexivity|constructor].
Qed.
Lemma bind_ext {A B} (r : res A) (f g : A -> res B) : (forall x, f x = g x) -> bind r f = bind r g.
Proof. intros H. destruct r; cbn; auto. Qed.
Lemma overwrite_each l k ls ks fuel (a : audio ls ks) rate is : (forall i, In i is -> (i < audio_len a)%nat) ->
  exists xs, map Some xs = map (audio_get a) is /\ forall sk : sink l k, overwrite fuel sk a rate is = stream_each fuel sk (map one xs).
Proof.
  induction is as [|i is IH]; intros H.
  - exists []. split; reflexivity.
  - destruct IH as (xs & E1 & E2); [intros m M; apply H; now right|].
    assert (X : exists x, audio_get a i = Some x).
    { unfold audio_get. destruct (nth_error (frames a) i) eqn:E; [eauto|]. apply nth_error_None in E. specialize (H i (or_introl eq_refl)). unfold audio_len in H. lia. }
    destruct X as (x & Ex). exists (x :: xs). cbn [map]. rewrite E1, Ex. split; [reflexivity|]. intros sk.
    change (overwrite fuel sk a rate (i :: is)) with
      (bind (of_opt UnwrapNone (audio_get a i)) (fun x => bind (set_sample_rate (take (SFrame x) 1) rate) (fun thing =>
         bind (sink_stream fuel sk thing) (fun '(sk, _) => overwrite fuel sk a rate is)))).
    rewrite Ex. change (bind (sink_stream fuel sk (STake (SFrame x) 1)) (fun '(sk, _) => overwrite fuel sk a rate is) =
      bind (sink_stream fuel sk (STake (SFrame x) 1)) (fun '(sk, _) => stream_each fuel sk (map one xs))).
    apply bind_ext. intros [sk' it]. apply E2.
Qed.
Lemma longest_ones l k (xs : list (frame l k)) : longest (map one xs) = Nat.min 1 (length xs).
Proof. induction xs as [|x xs IH]; [reflexivity|]. cbn [map longest length]. rewrite IH. change (size (one x)) with 1%nat. lia. Qed.
Lemma ones_size l k (xs : list (frame l k)) c : In c (map one xs) -> size c = 1%nat.
Proof. intros H. apply in_map_iff in H as (x & <- & _). reflexivity. Qed.

(** Frame by frame: the first slot ends up silent, nothing else is written. *)
Lemma overwrite_first l k ls ks (sk : sink l k) (a : audio ls ks) rate : fresh sk -> Z.of_nat (length (sk_buf sk)) <= 2 ^ 53 -> (2 <= audio_len a)%nat ->
  exists sk', (forall fuel, (1 < fuel)%nat -> overwrite fuel sk a rate (seq 0 (audio_len a)) = Ok sk') /\
    sk_buf sk' = match sk_buf sk with [] => [] | _ :: fs => frame_default l k :: fs end.
Proof.
  intros F B H2.
  assert (E : exists xs : list (frame ls ks), length xs = audio_len a /\ forall fuel, overwrite fuel sk a rate (seq 0 (audio_len a)) = stream_each fuel sk (map one xs)).
  { exists (frames a). split; [reflexivity|]. intros fuel.
    destruct (overwrite_each l k ls ks fuel a rate (seq 0 (audio_len a))) as (xs & E2 & E1). { intros i Hi. apply in_seq in Hi. lia. }
    rewrite E1. do 2 f_equal. apply (f_equal (map (fun o => match o with Some x => [x] | None => [] end))) in E2. rewrite !map_map in E2.
    assert (G : forall ys : list (frame ls ks), concat (map (fun x => [x]) ys) = ys) by (induction ys as [|y ys IH]; cbn; [reflexivity|now rewrite IH]).
    rewrite <- (G xs), E2. clear. unfold audio_get, audio_len.
    assert (Q : forall pre fs : list (frame ls ks), concat (map (fun i => match nth_error (pre ++ fs) i with Some x => [x] | None => [] end) (seq (length pre) (length fs))) = fs).
    { intros pre fs. revert pre. induction fs as [|f fs IH]; intros pre; [reflexivity|]. cbn [length seq map concat].
      rewrite nth_error_app2, Nat.sub_diag by lia. cbn [nth_error app]. f_equal.
      specialize (IH (pre ++ [f])). rewrite <- app_assoc, app_length in IH. cbn [length app] in IH. rewrite Nat.add_1_r in IH. exact IH. }
    exact (Q [] (frames a)). }
  destruct E as (xs & Lx & E). destruct (many l k sk (map one xs) F B) as (sk' & R & _ & Len & _ & Pos).
  { intros c Hc. apply in_map_iff in Hc as (x & <- & _). apply one_sends. }
  exists sk'. split. { intros fuel Hf. rewrite E. apply R. rewrite longest_ones. lia. }
  apply nth_all. intros p. destruct (Nat.lt_ge_cases p (length (sk_buf sk))) as [Hp|Hp].
  2:{ rewrite (proj2 (nth_error_None _ _)) by lia. symmetry. apply nth_error_None. destruct (sk_buf sk); cbn in *; lia. }
  destruct (Pos p Hp) as (Pa & _ & Pc). destruct p as [|p].
  - destruct xs as [|x [|y xs]]; cbn in Lx; try lia. rewrite (Pc [] (one x) [] (one y) (map one xs)) by (cbn; auto).
    destruct (sk_buf sk); [cbn in Hp; lia|reflexivity].
  - rewrite Pa by (intros c Hc; rewrite (ones_size _ _ _ _ Hc); lia). destruct (sk_buf sk); reflexivity.
Qed.

(** ** examples/resampler.rs *)
Lemma full_sink l k (a : audio l k) : audio_sink a RFull = Ok ([], mkSink (s_rate a) (frames a) (resampler_default l k), []).
Proof.
  unfold audio_sink, range_bounds. rewrite N.leb_refl, (proj2 (N.leb_le 0 _)) by apply N.le_0_l. cbn [andb bind].
  rewrite Nnat.Nat2N.id. change (N.to_nat 0) with O. rewrite Nat.sub_0_r. cbn [firstn skipn]. now rewrite firstn_all, skipn_all.
Qed.
Lemma program_output fuel samples a output it : with_i16_buffer Stereo hz44100 samples = Ok a ->
  with_stream Stereo K32 fuel hz48000 (audio_stream a) = Ok (output, it) ->
  (1 < fuel)%nat -> (2 <= audio_len a)%nat -> Z.of_nat (audio_len output) <= 2 ^ 53 ->
  resampler_program fuel samples = Ok (match as_raw_slice output with _ :: _ :: rest => MID K32 :: MID K32 :: rest | _ => [] end).
Proof.
  intros E1 E2 Hf H2 B. unfold resampler_program. rewrite E1. cbn [bind]. rewrite E2. cbn [bind]. rewrite full_sink. cbn [bind].
  destruct (overwrite_first _ _ _ _ (mkSink (s_rate output) (frames output) (resampler_default Stereo K32)) a hz44100 eq_refl B H2) as (sk' & R & Bu).
  rewrite (R fuel Hf). cbn [bind]. unfold audio_unsink, as_raw_slice. cbn [frames app]. rewrite Bu, app_nil_r. cbn [sk_buf]. unfold raw_samples.
  destruct (frames output) as [|[x [y []]] fs]; reflexivity.
Qed.

(** ** examples/sawtooth.rs *)
Lemma mapi_length A (g : nat -> A -> A) xs : forall i, length (mapi g i xs) = length xs.
Proof. induction xs as [|x xs IH]; intros i; cbn; [reflexivity|now rewrite IH]. Qed.
Lemma pairs_raw (fs : list (frame Mono K16)) (gs : list (frame Stereo K16)) : Forall2 (routed (fun _ => O)) fs gs ->
  raw_samples gs = flat_map (fun x => [x; x]) (raw_samples fs).
Proof.
  induction 1 as [|f g fs gs H _ IH]; [reflexivity|]. destruct f as [x []], g as [u [v []]]. cbn [raw_samples flat_map channels] in *.
  pose proof (H O u eq_refl) as Hu. pose proof (H 1%nat v eq_refl) as Hv. cbn in Hu, Hv. injection Hu as <-. injection Hv as <-.
  unfold raw_samples in IH. cbn [flat_map app]. cbn. f_equal. f_equal. exact IH.
Qed.

Lemma whole_44100 : whole_rate hz44100 44100.
Proof. split; [reflexivity|]. split; [|lia]. cbn. unfold F2R. cbn. lra. Qed.
Lemma whole_48000 : whole_rate hz48000 48000.
Proof. split; [reflexivity|]. split; [|lia]. cbn. unfold F2R. cbn. lra. Qed.
Lemma sawtooth_output wave : exists left : list (chan K16), length left = 279%nat /\
  sawtooth 257 wave = Ok (flat_map (fun x => [x; x]) left).
Proof.
  unfold sawtooth. set (w := audio_iter_mut _ _).
  assert (Lw : length (frames w) = 256%nat). { unfold w, audio_iter_mut. cbn [frames]. now rewrite mapi_length. }
  assert (Rw : s_rate w = hz44100) by reflexivity. clearbody w. set (s := audio_stream w).
  assert (Hs : sample_rate s = Some hz44100) by (unfold s, audio_stream; cbn [sample_rate]; now rewrite Rw).
  assert (Hl : slen s = Some 256%N) by (unfold s, audio_stream; cbn [slen]; now rewrite Lw).
  assert (Hh : honest s) by exact (well_formed_honest _ _ s I).
  assert (A1 : allocatable Mono K16 (Z.of_nat (audio_len (@with_frames Mono K16 hz48000 [])) + (48000 * Z.of_N 256 + 44100 - 1) / 44100)) by (unfold allocatable; cbn; lia).
  assert (B1 : 44100 <= 2 ^ 51) by lia. assert (B2 : 48000 * Z.of_N 256 <= 2 ^ 51) by lia.
  assert (NW : (48000 * Z.of_N 256) mod 44100 <> 0) by discriminate.
  pose proof (extend_rounded_down Mono K16 Mono K8 (with_frames hz48000 []) s 256 hz44100 48000 44100 Hs whole_44100 whole_48000 B1 B2 Hh Hl A1 (or_intror NW)) as X.
  destruct X as (m & it & E & _ & added & Ef & Ld).
  assert (A2 : allocatable Stereo K16 (Z.of_nat (length (frames (@with_frames Mono K16 hz48000 []))) + frames_for (s_rate (@with_frames Mono K16 hz48000 [])) (sample_rate s) 256)).
  { rewrite Hs. cbn [with_frames s_rate frames length]. rewrite <- frames_forb_ok. unfold allocatable. vm_compute. discriminate. }
  destruct (extend_both (fun _ => True) _ (routed (fun _ => O)) eq stereo_of_mono (S (N.to_nat 256)) (with_frames hz48000 []) (with_frames hz48000 []) s s m it 256
    eq_refl (Forall2_nil _) (paired_refl s) (weights_any _ _) Hl A2 E) as (b & it2 & E2 & _ & F2 & _).
  exists (raw_samples (frames m)). split.
  { rewrite Ef. cbn [with_frames frames app]. change ((48000 * Z.of_N 256 + 44100 - 1) / 44100) with 279 in Ld.
    assert (G : forall fs : list (frame Mono K16), length (raw_samples fs) = length fs) by (induction fs as [|[x []] fs IH]; cbn; [reflexivity|now f_equal]).
    rewrite G. lia. }
  unfold with_stream. change 257%nat with (S (N.to_nat 256)). rewrite E2. cbn [bind]. unfold as_raw_slice. now rewrite (pairs_raw _ _ F2).
Qed.

(** The samples of the two programs. *)
Lemma waves : forall i, (i < 256)%nat ->
  sv (wave_example i) = Z.of_nat i - 128 /\
  sv (wave_doc i) = if (i <? 128)%nat then Z.of_nat i else Z.of_nat i - 256.
Proof.
  intros i H.
  assert (A : forallb (fun i => (sv (wave_example i) =? Z.of_nat i - 128)%Z &&
    (sv (wave_doc i) =? (if (i <? 128)%nat then Z.of_nat i else Z.of_nat i - 256))%Z) (seq 0 256) = true) by (vm_compute; reflexivity).
  rewrite forallb_forall in A. specialize (A i). rewrite in_seq in A. specialize (A ltac:(lia)).
  apply andb_prop in A. destruct A as [A B]. split; apply Z.eqb_eq; assumption.
Qed.
Lemma wave_rises : forall i j, (i < j < 256)%nat -> sv (wave_example i) < sv (wave_example j).
Proof. intros i j H. rewrite (proj1 (waves i ltac:(lia))), (proj1 (waves j ltac:(lia))). lia. Qed.
Fixpoint evens {A} (l : list A) : list A := match l with a :: _ :: r => a :: evens r | _ => [] end.
