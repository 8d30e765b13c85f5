(** * DriftProofs.v -- positions at whole-number rates, and their consequences (C56, C59, C63) *)
From Coq Require Import ZArith NArith Reals List Lia Bool Lra.
From Flocq Require Import Core.Core IEEE754.BinarySingleNaN.
From Verif Require Import Rust Float Math Chan Frame Ops Stream Audio Heap SpecChan SpecFrame SpecStream SpecSink SpecAudio SpecMore.
From Verif Require Import FloatProofs FloorProofs FArithProofs StreamProofs SinkProofs PlaceProofs SinkMore AudioProofs ResampleProofs PanicProofs WholeProofs MoreProofs SinkTerm.
Import ListNotations.
Open Scope R_scope.

(** ** A ratio that is not rounded up never overshoots *)
Lemma rounded_down (rate src : f64) (R S : Z) n : whole_rate rate R -> whole_rate src S -> (S <= 2 ^ 51)%Z -> (R * Z.of_N n <= 2 ^ 51)%Z ->
  B2R (fdiv rate src) * IZR S <= IZR R -> ~ overshoots rate src R S n.
Proof.
  intros HR HS S51 B Hd (M & Q2 & Hov). pose proof HR as (_ & _ & [Rp _]). pose proof HS as (_ & _ & [Sp _]).
  assert (Hn : (Z.of_nat (N.to_nat n) <= 2 ^ 51)%Z) by nia.
  destruct (place_val rate src R S HR HS S51 (N.to_nat n) ltac:(lia)) as (E & _ & F & _).
  rewrite N_nat_Z in *. rewrite F, E in Hov. set (q := (R * Z.of_N n / S)%Z) in *.
  assert (Eq : (R * Z.of_N n = S * q)%Z) by (unfold q; pose proof (Z.div_mod (R * Z.of_N n) S ltac:(lia)); lia).
  apply Rlt_not_le in Hov. apply Hov. apply (rnd_le_fmt 53 1024); [apply (fmt_Z 53 1024); nia|].
  apply Rmult_le_reg_r with (IZR S); [apply IZR_lt; lia|].
  rewrite <- mult_IZR, (Z.mul_comm q S), <- Eq, mult_IZR.
  replace (B2R (fdiv rate src) * IZR (Z.of_N n) * IZR S) with (B2R (fdiv rate src) * IZR S * IZR (Z.of_N n)) by ring.
  apply Rmult_le_compat_r; [apply IZR_le; lia|exact Hd].
Qed.
Lemma extend_rounded_down l k ls ks (a : audio l k) (s : stream ls ks) n src R S : sample_rate s = Some src ->
  whole_rate src S -> whole_rate (s_rate a) R -> (S <= 2 ^ 51)%Z -> (R * Z.of_N n <= 2 ^ 51)%Z ->
  honest s -> slen s = Some n ->
  let d := ((R * Z.of_N n + S - 1) / S)%Z in
  allocatable l k (Z.of_nat (audio_len a) + d) ->
  (B2R (fdiv (s_rate a) src) * IZR S <= IZR R \/ (R * Z.of_N n) mod S <> 0%Z) ->
  exists a' it, extend (Datatypes.S (N.to_nat n)) a s = (a', Ok it) /\
     audio_sample_rate a' = audio_sample_rate a /\ exists added, frames a' = frames a ++ added /\ Z.of_nat (length added) = d.
Proof.
  intros Es HS HR S51 B Hh Hl d A Hc. apply (extend_whole l k ls ks a s n src R S); try assumption.
  destruct Hc as [Hc|Hc]; [now apply rounded_down|]. intros (M & _). contradiction.
Qed.

(** ** Drained buffers at equal rates *)
Lemma drain_all l k lb kb (a a' : audio l k) (b : audio lb kb) it z : s_rate a = s_rate b -> whole_rate (s_rate b) z ->
  (z * Z.of_nat (audio_len b) <= 2 ^ 53)%Z ->
  extend (S (audio_len b)) a (audio_drain b) = (a', Ok it) -> drop_stream it = [pack (mkAudio (s_rate b) ([] : list (frame lb kb)))].
Proof.
  intros Er W B Ex. pose proof W as (W1 & W2 & W3). destruct (extend_drain l k lb kb a a' b it Ex) as (m & Lv & D). rewrite D.
  assert (Hn : (Z.of_nat (length (frames b)) <= 2 ^ 53)%Z) by (unfold audio_len in B; nia).
  rewrite Er in Lv. rewrite (ratio_one (s_rate b)) in Lv by (try assumption; rewrite W2; apply IZR_neq; lia).
  rewrite (frames_for_whole _ z) in Lv by (try assumption; unfold audio_len in B; lia).
  change (flit 1 0 : f64) with (fofZ 1 : f64) in Lv. rewrite nat_N_Z, mul_int, floor_fofZ in Lv by lia.
  assert (m = length (frames b)) as ->.
  { apply (leaves_at _ _ _ _ Lv); intros; rewrite place_whole, floor_fofZ by lia; lia. }
  now rewrite skipn_all.
Qed.

(** ** No drift *)
Lemma index_no_drift l k ls ks fuel (sk sk' : sink l k) (s it : stream ls ks) src R S :
  sink_stream fuel sk s = Ok (sk', it) -> fresh sk -> sample_rate s = Some src ->
  whole_rate src S -> whole_rate (sk_rate sk) R -> (S <= 2 ^ 51)%Z ->
  exists srcs n, ((pulls s srcs it /\ n = N.of_nat (length srcs)) \/ (exists t, pulls s srcs t /\ next t = Ok (None, it) /\ slen s = Some n)) /\
    ((R * Z.of_N n <= 2 ^ 51)%Z ->
     Rabs (B2R (resampler_index (sk_res sk')) - IZR (R * Z.of_N n) / IZR S) <= 3 / 4 / IZR S).
Proof.
  intros Hs Fr Es HS HR S51. destruct (stream_books l k ls ks fuel sk sk' s it Hs) as (s' & srcs & fs & n & Ng & _ & Hn & Ix & _).
  assert (s' = s) as -> by (destruct Ng as [(r & _ & _ & ->)|(Nn & _)]; [reflexivity|congruence]).
  exists srcs, n. split; [tauto|]. intros B. rewrite Ix, Fr, Es. cbn [ratio_for]. change (resampler_index (resampler_default l k)) with (flit 0 0 : f64).
  pose proof HR as (_ & _ & [Rp _]).
  destruct (place_val (sk_rate sk) src R S HR HS S51 (N.to_nat n) ltac:(nia)) as (_ & F & G & FG).
  rewrite N_nat_Z in *. 
  pose proof (place_err (sk_rate sk) src R S HR HS S51 (N.to_nat n)) as E. rewrite N_nat_Z in E. specialize (E B).
  rewrite (fadd_comm 53 1024). destruct (zero_correct 53 1024) as [Z0 Z1].
  destruct (fadd_zero 53 1024 _ (flit 0 0) FG Z1 Z0) as [_ D]. rewrite D, G. exact E.
Qed.

(** ** Common rates *)
Lemma SF_value (x : f64) m e : B2SF x = SpecFloat.S754_finite false m e -> B2R x = IZR (Zpos m) * bpow radix2 e.
Proof. intros H. rewrite <- SF2R_B2SF, H. reflexivity. Qed.
Lemma down_48_441 : B2R (fdiv (flit 44100 0) (flit 48000 0)) * IZR 48000 <= IZR 44100.
Proof.
  rewrite (SF_value _ 8275364315293286 (-53)) by (vm_compute; reflexivity).
  change (bpow radix2 (-53)) with (/ 9007199254740992). lra.
Qed.
Lemma over_441_48 : overshoots (flit 48000 0) (flit 44100 0) 48000 44100 147.
Proof.
  split; [reflexivity|]. split; [vm_compute; discriminate|]. 
  erewrite SF_value by (vm_compute; reflexivity). match goal with |- context [bpow radix2 ?e] => change (bpow radix2 e) with (/ 35184372088832) end.
  change (48000 * Z.of_N 147 / 44100)%Z with 160%Z. lra.
Qed.
