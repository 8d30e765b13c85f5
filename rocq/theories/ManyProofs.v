(** * ManyProofs.v -- several streams into one sink (C77) *)
From Coq Require Import ZArith NArith Reals List Lia Bool.
From Flocq Require Import Core.Core IEEE754.BinarySingleNaN.
From Verif Require Import Rust Float Math Chan Frame Ops Stream SpecChan SpecFrame SpecStream SpecSink SpecMany.
From Verif Require Import StreamProofs SinkProofs CopyProofs EqualProofs SinkTerm.
Import ListNotations.
Open Scope Z_scope.

Lemma sends_same l k (sk sk' : sink l k) c : sk_rate sk' = sk_rate sk -> sends sk c -> sends sk' c.
Proof. intros E (A & B). split; [now apply (equal_rate_same _ _ _ _ sk)|exact B]. Qed.

Lemma each l k cs : forall (sk : sink l k) M,
  resampler_index (sk_res sk) = fofZ (Z.of_nat M) -> Z.of_nat M <= 2 ^ 53 -> Z.of_nat (length (sk_buf sk)) <= 2 ^ 53 ->
  (forall c, In c cs -> sends sk c) ->
  exists sk', (forall fuel, (longest cs < fuel)%nat -> stream_each fuel sk cs = Ok sk') /\
    sk_rate sk' = sk_rate sk /\ length (sk_buf sk') = length (sk_buf sk) /\
    resampler_frame (sk_res sk') = resampler_frame (sk_res sk) /\
    resampler_index (sk_res sk') = fofZ (Z.of_nat (Nat.max M (Nat.min (longest cs) (length (sk_buf sk))))) /\
    forall p, (p < length (sk_buf sk))%nat ->
      ((forall c, In c cs -> (size c <= p)%nat) -> nth_error (sk_buf sk') p = nth_error (sk_buf sk) p) /\
      (forall before c after, cs = before ++ c :: after -> (forall d, In d (before ++ after) -> (size d <= p)%nat) -> (p < size c)%nat ->
         if (p <? M)%nat then nth_error (sk_buf sk') p = Some (frame_default l k)
         else holds (nth_error (sk_buf sk') p) c (p - Nat.max M (longest before))) /\
      (forall before c mid d after, cs = before ++ c :: mid ++ d :: after -> (p < size c)%nat -> (p < size d)%nat ->
         nth_error (sk_buf sk') p = Some (frame_default l k)).
Proof.
  induction cs as [|c cs IH]; intros sk M HM LM LB HS.
  - exists sk. split; [reflexivity|]. do 3 (split; [reflexivity|]). split.
    { rewrite HM. do 2 f_equal. cbn [longest]. lia. }
    intros p Hp. split; [reflexivity|]. split; intros; destruct before; discriminate.
  - destruct (HS c (or_introl eq_refl)) as (E & Y & L & NE). destruct Y as (t & u & P & _).
    set (B := length (sk_buf sk)) in *. set (n := size c). fold (size c) in L. fold n in L.
    assert (Hn : (1 <= n)%nat). { unfold n, size. destruct (so_frames c); [congruence|cbn; lia]. }
    destruct (equal_copy _ _ _ _ sk (so_stream c) M (firstn (Nat.min n B - M) (so_frames c))) as
      (sk1 & s' & it & _ & _ & R1 & Rt1 & Len1 & Sil1 & Cp1 & Rest1 & _ & Fr1 & Ix1); auto.
    { eapply pulls_firstn. exact P. } { rewrite L, firstn_length. cbn [available]. fold B. rewrite Nnat.Nat2N.id. unfold n, size. lia. }
    rewrite L in *. cbn [available] in *. fold B in Len1, Sil1, Cp1, Rest1, Ix1, R1. rewrite Nnat.Nat2N.id in *.
    assert (FL : length (firstn (Nat.min n B - M) (so_frames c)) = (Nat.min n B - M)%nat) by (rewrite firstn_length; unfold n, size; lia).
    rewrite FL in R1, Ix1.
    destruct (IH sk1 (Nat.max M (Nat.min n B))) as (sk' & R & Rt & Len & Fr & Ix & Pos).
    { rewrite Ix1. do 2 f_equal. lia. } { lia. } { rewrite Len1. exact LB. } { intros d Hd. apply (sends_same _ _ sk); [exact Rt1|]. apply HS. now right. }
    rewrite Len1 in *. fold B in Len, Ix, Pos.
    exists sk'. split. { intros fuel Hf. cbn [longest] in Hf. cbn [stream_each]. rewrite R1 by lia. cbn. apply R. lia. }
    split; [congruence|]. split; [exact Len|]. split; [congruence|]. split. { rewrite Ix. do 2 f_equal. cbn [longest]. fold n. lia. }
    intros p Hp. destruct (Pos p Hp) as (Pa & Pb & Pc). clear Pos.
    assert (SL : forall d : source, (forall x, In x cs -> (size x <= p)%nat) -> nth_error (sk_buf sk') p = nth_error (sk_buf sk1) p) by (intros _; exact Pa).
    assert (Q : (p < n)%nat -> forall b d a, cs = b ++ d :: a -> (p < size d)%nat -> nth_error (sk_buf sk') p = Some (frame_default l k)).
    { intros Hpn b d a Ec Hd.
      assert (D : (forall x, In x (b ++ a) -> (size x <= p)%nat) \/ exists x, In x (b ++ a) /\ (p < size x)%nat).
      { clear. induction (b ++ a) as [|x xs IHx]; [left; now intros ? []|]. destruct (Nat.le_gt_cases (size x) p).
        - destruct IHx as [IHx|(y & I & Hy)]; [left; intros z [<-|I]; auto|right; exists y; split; [now right|exact Hy]].
        - right. exists x. split; [now left|exact H]. }
      destruct D as [D|(x & I & Hx)].
      - specialize (Pb _ _ _ Ec D Hd). replace (p <? Nat.max M (Nat.min n B))%nat with true in Pb; [exact Pb|]. symmetry. apply Nat.ltb_lt. lia.
      - apply in_app_or in I as [I|I]; apply in_split in I as (x1 & x2 & ->).
        + apply (Pc x1 x x2 d a); auto. rewrite Ec, <- app_assoc. reflexivity.
        + apply (Pc b d x1 x x2); auto. }
    split; [|split].
    + intros HA. rewrite Pa by (intros; apply HA; now right). apply Rest1; specialize (HA c (or_introl eq_refl)); fold n in HA; lia.
    + intros before d after Ec HO Hd. destruct before as [|b before]; cbn in Ec; injection Ec as -> Ec.
      * subst after. rewrite (Pa HO). fold n in Hd. cbn [longest]. rewrite Nat.max_0_r. destruct (Nat.ltb_spec p M).
        { apply Sil1; lia. }
        assert (X : exists x, nth_error (so_frames d) (p - M) = Some x).
        { destruct (nth_error (so_frames d) (p - M)) eqn:Ex; [eauto|]. apply nth_error_None in Ex. unfold n, size in Hd. lia. }
        destruct X as (x & Ex). destruct (Cp1 (p - M)%nat x) as (f & y & Cf & Ny & Cy). { rewrite nth_error_firstn_lt by lia. exact Ex. }
        exists x, f, y. replace (M + (p - M))%nat with p in Ny by lia. auto.
      * assert (Hb : (n <= p)%nat) by (apply (HO b); now left).
        specialize (Pb before d after Ec (fun x I => HO x (or_intror I)) Hd).
        replace (p <? Nat.max M (Nat.min n B))%nat with (p <? M)%nat in Pb.
        2:{ destruct (Nat.ltb_spec p M), (Nat.ltb_spec p (Nat.max M (Nat.min n B))); try reflexivity; lia. }
        destruct (p <? M)%nat; [exact Pb|]. cbn [longest]. fold n. replace (Nat.max M (Nat.max n (longest before))) with (Nat.max (Nat.max M (Nat.min n B)) (longest before)) by lia. exact Pb.
    + intros before d mid e after Ec Hd He. destruct before as [|b before]; cbn in Ec; injection Ec as -> Ec.
      * now apply (Q Hd mid e after).
      * now apply (Pc before d mid e after).
Qed.

Lemma many l k (sk : sink l k) cs : fresh sk -> Z.of_nat (length (sk_buf sk)) <= 2 ^ 53 -> (forall c, In c cs -> sends sk c) ->
  exists sk', (forall fuel, (longest cs < fuel)%nat -> stream_each fuel sk cs = Ok sk') /\
    sk_rate sk' = sk_rate sk /\ length (sk_buf sk') = length (sk_buf sk) /\
    sk_res sk' = mkResampler (frame_default l k) (fofZ (Z.of_nat (Nat.min (longest cs) (length (sk_buf sk))))) /\
    forall p, (p < length (sk_buf sk))%nat ->
      ((forall c, In c cs -> (size c <= p)%nat) -> nth_error (sk_buf sk') p = nth_error (sk_buf sk) p) /\
      (forall before c after, cs = before ++ c :: after -> (forall d, In d (before ++ after) -> (size d <= p)%nat) -> (p < size c)%nat ->
         holds (nth_error (sk_buf sk') p) c (p - longest before)) /\
      (forall before c mid d after, cs = before ++ c :: mid ++ d :: after -> (p < size c)%nat -> (p < size d)%nat ->
         nth_error (sk_buf sk') p = Some (frame_default l k)).
Proof.
  intros F LB HS. unfold fresh in F. destruct (each l k cs sk 0) as (sk' & R & Rt & Len & Fr & Ix & Pos); auto.
  { rewrite F. apply B2SF_inj. vm_compute. reflexivity. }
  exists sk'. do 3 (split; [assumption|]). split.
  { rewrite Nat.max_0_l in Ix. destruct (sk_res sk') as [q o]. cbn in Fr, Ix. rewrite F in Fr. cbn in Fr. subst. reflexivity. }
  intros p Hp. destruct (Pos p Hp) as (A & B & C). split; [exact A|]. split; [|exact C].
  intros before c after E1 E2 E3. exact (B before c after E1 E2 E3).
Qed.
