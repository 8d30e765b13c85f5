(** * MinChoiceProofs.v -- the choice between +0 and -0 has no effect *)
From Coq Require Import ZArith NArith Reals Bool List Lia Lra.
From Flocq Require Import Core.Core IEEE754.BinarySingleNaN.
From Verif Require Import Rust Float Math Chan Frame Ops Stream Audio MinChoice SpecMinChoice.
From Verif Require Import FloatProofs PlaceProofs.
Import ListNotations.
Open Scope Z_scope.

Section M.
Context (prec emax : Z) (Hp : FLX.Prec_gt_0 prec) (He : Prec_lt_emax prec emax).
Notation fl := (binary_float prec emax).
Lemma finite_nonzero s m e b : B2R (B754_finite s m e b : fl) <> 0%R.
Proof. cbn [B2R]. apply F2R_neq_0. destruct s; discriminate. Qed.
Lemma cmp_eq (x y : fl) : Bcompare x y = Some Eq -> x = y \/ exists s s', x = B754_zero s /\ y = B754_zero s'.
Proof.
  intros H. destruct (is_finite x && is_finite y) eqn:F.
  - apply andb_prop in F. destruct F as [F1 F2]. rewrite (Bcompare_correct prec emax x y F1 F2) in H. injection H as H. apply Rcompare_Eq_inv in H.
    destruct x as [s| | |s m e b]; try discriminate; destruct y as [s'| | |s' m' e' b']; try discriminate.
    + right. eauto.
    + exfalso. symmetry in H. exact (finite_nonzero s' m' e' b' H).
    + exfalso. exact (finite_nonzero s m e b H).
    + left. apply B2R_inj; auto.
  - destruct x as [s|s| |s m e b], y as [s'|s'| |s' m' e' b']; try discriminate; cbn in H; try (destruct s; discriminate); try (destruct s'; discriminate).
    destruct s, s'; try discriminate; now left.
Qed.
Lemma nan_cmp (x : fl) : is_nan x = true <-> x = B754_nan.
Proof. destruct x; split; intros H; try discriminate; reflexivity. Qed.
Lemma flt_cmp (x y : fl) : flt x y = match Bcompare x y with Some Lt => true | _ => false end.
Proof. reflexivity. Qed.
Lemma cmp_none (x y : fl) : Bcompare x y = None -> x = B754_nan \/ y = B754_nan.
Proof. destruct x as [s|s| |s m e b], y as [s'|s'| |s' m' e' b']; intros H; auto; exfalso; revert H; cbn; try discriminate; try (destruct s; discriminate); try (destruct s'; discriminate).
Qed.
Lemma cmp_nan (x y : fl) : x = B754_nan \/ y = B754_nan -> Bcompare x y = None.
Proof. intros [-> | ->]; [reflexivity|]. destruct x; reflexivity. Qed.
Lemma is_min_cases (x y r : fl) : is_min x y r -> r = fmin x y \/ exists s s' s2, x = B754_zero s /\ y = B754_zero s' /\ r = B754_zero s2.
Proof.
  unfold is_min, fmin. rewrite flt_cmp. rewrite (Bcompare_swap prec emax x y). destruct (Bcompare x y) as [c|] eqn:E.
  - destruct (is_nan x) eqn:Nx; [apply nan_cmp in Nx; rewrite cmp_nan in E by auto; discriminate|].
    destruct (is_nan y) eqn:Ny; [apply nan_cmp in Ny; rewrite cmp_nan in E by auto; discriminate|].
    destruct c; cbn [CompOpp].
    + destruct (cmp_eq x y E) as [-> |(s & s' & -> & ->)]; intros [-> | ->]; eauto 7.
    + auto.
    + auto.
  - intros [[-> ->]|(Nx & -> & ->)]; left; [reflexivity|]. destruct (is_nan x) eqn:N; [apply nan_cmp in N; contradiction|]. destruct x; reflexivity.
Qed.
Lemma is_max_cases (x y r : fl) : is_max x y r -> r = fmax x y \/ exists s s' s2, x = B754_zero s /\ y = B754_zero s' /\ r = B754_zero s2.
Proof.
  unfold is_max, fmax. rewrite flt_cmp. destruct (Bcompare x y) as [c|] eqn:E.
  - destruct (is_nan x) eqn:Nx; [apply nan_cmp in Nx; rewrite cmp_nan in E by auto; discriminate|].
    destruct (is_nan y) eqn:Ny; [apply nan_cmp in Ny; rewrite cmp_nan in E by auto; discriminate|].
    destruct c; cbn [CompOpp].
    + destruct (cmp_eq x y E) as [-> |(s & s' & -> & ->)]; intros [-> | ->]; eauto 7.
    + auto.
    + auto.
  - intros [[-> ->]|(Nx & -> & ->)]; left; [reflexivity|]. destruct (is_nan x) eqn:N; [apply nan_cmp in N; contradiction|]. destruct x; reflexivity.
Qed.
Lemma is_min_fmin (x y : fl) : is_min x y (fmin x y).
Proof.
  unfold is_min, fmin. rewrite flt_cmp, (Bcompare_swap prec emax x y). destruct (Bcompare x y) as [c|] eqn:E.
  - destruct (is_nan x) eqn:Nx; [apply nan_cmp in Nx; rewrite cmp_nan in E by auto; discriminate|].
    destruct (is_nan y) eqn:Ny; [apply nan_cmp in Ny; rewrite cmp_nan in E by auto; discriminate|].
    destruct c; cbn [CompOpp]; auto.
  - apply cmp_none in E. destruct (is_nan x) eqn:Nx; [apply nan_cmp in Nx; auto|]. right. destruct E as [E|E]; [apply nan_cmp in E; congruence|].
    split; [intros X; apply nan_cmp in X; congruence|]. split; [exact E|]. subst y. reflexivity.
Qed.

(** Adding a zero to something other than -0. *)
Lemma fadd_any_zero (x : fl) s : x <> B754_zero true -> fadd x (B754_zero s) = x.
Proof. intros N. destruct x as [[]|s'| |s' m e b]; try contradiction; try reflexivity. destruct s; reflexivity. Qed.
Lemma fmul_zero (x : fl) s s' : fmul x (B754_zero s) = fmul x (B754_zero s') \/ exists t t', fmul x (B754_zero s) = B754_zero t /\ fmul x (B754_zero s') = B754_zero t'.
Proof. destruct x; [right|now left|now left|right]; eexists _, _; split; reflexivity. Qed.
Lemma fadd_nz (x y : fl) : x <> B754_zero true -> fadd x y <> B754_zero true.
Proof.
  intros N E. destruct (is_finite x && is_finite y) eqn:F.
  - apply andb_prop in F. destruct F as [F1 F2]. pose proof (Bplus_correct prec emax Hp He mode_NE x y F1 F2) as C. fold (fadd x y) in C. rewrite E in C.
    destruct (Rlt_bool _ _) in C.
    + destruct C as (C1 & _ & C3). cbn [B2R Bsign] in C1, C3.
      destruct (Rle_or_lt 0 (B2R x + B2R y)) as [P|P].
      * destruct (Rcompare_spec (B2R x + B2R y) 0) as [G|G|G]; [lra| |discriminate]. symmetry in C3. apply andb_prop in C3. destruct C3 as [Sx Sy].
        destruct x as [sx| | |sx mx ex bx]; try discriminate; cbn [Bsign] in Sx; subst; [contradiction N; reflexivity|].
        assert (B2R y <= 0)%R. { destruct y as [sy| | |sy my ey By]; try discriminate; cbn [Bsign] in Sy; rewrite ?Sy; cbn [B2R]; try lra; apply F2R_le_0; rewrite ?Sy; cbn; lia. }
        assert (B2R (B754_finite true mx ex bx : fl) < 0)%R. { cbn [B2R]. apply F2R_lt_0. cbn. lia. } lra.
      * destruct (Req_dec (B2R x + B2R y) 0) as [H'|H']; [lra|exfalso]. symmetry in C1. revert C1.
        apply (Plus_error.round_plus_neq_0 radix2 (SpecFloat.fexp prec emax)); try typeclasses eauto; try apply generic_format_B2R; exact H'.
    + destruct C as [C _]. discriminate C.
  - destruct x as [sx|sx| |sx mx ex bx], y as [sy|sy| |sy my ey By]; try discriminate; cbn in E; try discriminate; destruct sx, sy; discriminate.
Qed.
Lemma one_nz (z : Z) : z = 1 \/ z = -1 -> (flit z 0 : fl) <> B754_zero true.
Proof. intros Hz E. pose proof (f_equal B2R E) as R. revert R. unfold flit. cbn [B2R]. destruct Hz as [-> | ->]; intros R.
  - destruct (one_correct prec emax) as [O _]. unfold flit in O. rewrite R in O. lra.
  - destruct (mone_correct prec emax) as [O _]. unfold flit in O. rewrite R in O. lra.
Qed.
Lemma clamp_nz (x : fl) : x <> B754_zero true -> fmax (fmin x (flit 1 0)) (flit (-1) 0) <> B754_zero true.
Proof.
  intros N. assert (M : fmin x (flit 1 0) <> B754_zero true).
  { unfold fmin. destruct (is_nan x); [apply one_nz; auto|]. destruct (is_nan _); [exact N|]. destruct (flt _ _); [apply one_nz; auto|exact N]. }
  unfold fmax. destruct (is_nan _); [apply one_nz; auto|]. destruct (is_nan _); [exact M|]. destruct (flt _ _); [apply one_nz; auto|exact M].
Qed.
End M.

(** A channel that is not -0. *)
Definition nz {k} : chan k -> Prop :=
  match k with K8 | K16 => fun _ => True | K32 => fun c : f32 => c <> B754_zero true | K64 => fun c : f64 => c <> B754_zero true end.
Lemma add_nz k (x p : chan k) : nz x -> nz (c_add x p).
Proof. destruct k; cbn [nz c_add]; try trivial; intros N; unfold ch32_add, ch64_add, clamp32, clamp64; apply clamp_nz; auto; now apply fadd_nz. Qed.
Lemma from_f64_zeros k s s' : k = K8 \/ k = K16 -> from_f64 k (B754_zero s) = from_f64 k (B754_zero s').
Proof.
  assert (Sv : forall w (a b : sint w), sv a = sv b -> a = b). { intros w [a Ha] [b Hb] E. cbn in E. subst. f_equal. apply Eqdep_dec.UIP_dec, Bool.bool_dec. }
  intros [-> | ->]; apply Sv; destruct s, s'; vm_compute; reflexivity.
Qed.
Lemma mul_zeros k (x src : chan k) s s' : nz x -> match c_mul src (from_f64 k (B754_zero s)), c_mul src (from_f64 k (B754_zero s')) with
  | Ok p, Ok p' => c_add x p = c_add x p' | Panic a, Panic b => a = b | OutOfFuel, OutOfFuel => True | _, _ => False end.
Proof.
  intros N. destruct k.
  - rewrite (from_f64_zeros K8 s s') by auto. destruct (c_mul src _); auto.
  - rewrite (from_f64_zeros K16 s s') by auto. destruct (c_mul src _); auto.
  - cbn [c_mul from_f64 c_add nz] in *. unfold ch32_add, ch32_mul, ch32_from_f64. cbn [f64_as_f32 fconv].
    destruct (fmul_zero 24 128 _ _ src s s') as [E|(t & t' & E & E')]; [rewrite E; reflexivity|]. rewrite E, E', !fadd_any_zero by exact N. reflexivity.
  - cbn [c_mul from_f64 c_add nz] in *. unfold ch64_add, ch64_mul, ch64_from_f64.
    destruct (fmul_zero 53 1024 _ _ src s s') as [E|(t & t' & E & E')]; [rewrite E; reflexivity|]. rewrite E, E', !fadd_any_zero by exact N. reflexivity.
Qed.
Fixpoint vnz {k n} : vec (chan k) n -> Prop := match n with O => fun _ => True | S n => fun v => nz (fst v) /\ vnz (snd v) end.
Lemma vadd_nz {k} n : forall x p : vec (chan k) n, vnz x -> vnz (vmap2 c_add_assign x p).
Proof. induction n as [|n IH]; intros x p H; cbn in *; [trivial|]. destruct H as [A B]. split; [apply add_nz; exact A|apply IH; exact B]. Qed.
Lemma vmul_zeros {k} n s s' : forall x src d : vec (chan k) n, vnz x ->
  match vmap2M c_mul_assign src (vmap2 (fun _ _ => from_f64 k (B754_zero s)) d d), vmap2M c_mul_assign src (vmap2 (fun _ _ => from_f64 k (B754_zero s')) d d) with
  | Ok p, Ok p' => vmap2 c_add_assign x p = vmap2 c_add_assign x p' | Panic a, Panic b => a = b | OutOfFuel, OutOfFuel => True | _, _ => False end.
Proof.
  induction n as [|n IH]; intros x src d H; [reflexivity|]. destruct H as [A B]. cbn [vmap2M vmap2 fst snd].
  change (c_mul_assign (fst src) (from_f64 k (B754_zero s))) with (c_mul (fst src) (from_f64 k (B754_zero s))). change (c_mul_assign (fst src) (from_f64 k (B754_zero s'))) with (c_mul (fst src) (from_f64 k (B754_zero s'))).
  pose proof (mul_zeros k (fst x) (fst src) s s' A) as C. specialize (IH (snd x) (snd src) (snd d) B).
  destruct (c_mul (fst src) (from_f64 k (B754_zero s))) as [a|a|], (c_mul (fst src) (from_f64 k (B754_zero s'))) as [b|b|]; cbn [bind]; try contradiction; try exact C.
  destruct (vmap2M c_mul_assign (snd src) (vmap2 (fun _ _ => from_f64 k (B754_zero s)) (snd d) (snd d))) as [p|p|],
    (vmap2M c_mul_assign (snd src) (vmap2 (fun _ _ => from_f64 k (B754_zero s')) (snd d) (snd d))) as [q|q|]; cbn [bind]; try contradiction; try exact IH.
  cbn [vmap2 fst snd]. f_equal; [exact C|exact IH].
Qed.
Lemma fmul_zeros {l k} (x src : frame l k) s s' : vnz x ->
  match frame_mul src (frame_from_f64 l k (B754_zero s)), frame_mul src (frame_from_f64 l k (B754_zero s')) with
  | Ok p, Ok p' => frame_add x p = frame_add x p' | Panic a, Panic b => a = b | OutOfFuel, OutOfFuel => True | _, _ => False end.
Proof. intros H. exact (vmul_zeros (nchan l) s s' x src (frame_default l k) H). Qed.
Lemma default_nz l k : vnz (frame_default l k).
Proof.
  assert (C : nz (chan_default k)) by (destruct k; cbn; try exact I; intros E; apply (f_equal Bsign) in E; vm_compute in E; discriminate).
  destruct l; cbn; repeat split; exact C.
Qed.

(** The cells of the range. *)
Definition clean {l k} (end_ : Z) (buf : list (frame l k)) : Prop := forall i f, Z.of_nat i < end_ -> nth_error buf i = Some f -> vnz f.
Lemma update_ext {A} (f g : A -> A) : forall xs i, (forall b, nth_error xs i = Some b -> f b = g b) -> update_at i f xs = update_at i g xs.
Proof.
  induction xs as [|x xs IH]; intros [|i] H; cbn [update_at]; try reflexivity.
  - rewrite (H x eq_refl). reflexivity.
  - rewrite (IH i H). reflexivity.
Qed.
Lemma update_nth {A} (f : A -> A) : forall xs i ys, update_at i f xs = Ok ys -> forall j y, nth_error ys j = Some y ->
  (j = i /\ exists x, nth_error xs i = Some x /\ y = f x) \/ nth_error xs j = Some y.
Proof.
  induction xs as [|x xs IH]; intros [|i] ys H j y Hj; cbn [update_at] in H; try discriminate.
  - injection H as <-. destruct j as [|j]; cbn in Hj; [injection Hj as <-; left; split; [reflexivity|]; exists x; auto|right; exact Hj].
  - destruct (update_at i f xs) as [zs|p|] eqn:E; cbn [bind] in H; try discriminate. injection H as <-. destruct j as [|j]; cbn in Hj; [right; exact Hj|].
    destruct (IH i zs E j y Hj) as [[-> X]|X]; [left; auto|right; exact X].
Qed.
Lemma buf_add_clean {l k} end_ i (x : frame l k) buf buf' : clean end_ buf -> buf_add end_ i x buf = Ok buf' -> clean end_ buf'.
Proof.
  unfold buf_add. intros C H. destruct (_ && _); [|discriminate]. intros j f Hj Hf. destruct (update_nth _ _ _ _ H j f Hf) as [[-> (b & Hb & ->)]|X]; [|exact (C j f Hj X)].
  apply vadd_nz. exact (C _ b Hj Hb).
Qed.
Lemma buf_add_ext {l k} end_ i (x y : frame l k) buf : 0 <= i -> clean end_ buf -> (forall b, vnz b -> frame_add b x = frame_add b y) -> buf_add end_ i x buf = buf_add end_ i y buf.
Proof.
  intros Hi C H. unfold buf_add. destruct (_ && _) eqn:E; [|reflexivity]. apply andb_prop in E. destruct E as [_ E]. apply Z.ltb_lt in E.
  apply update_ext. intros b Hb. apply H. apply (C (Z.to_nat i) b); [lia|exact Hb].
Qed.
Lemma f64_usize_pos (x : f64) : 0 <= f64_as_usize x.
Proof. unfold f64_as_usize, fcast, usize_max. destruct x as [s|s| |s m e b]; try destruct s; lia. Qed.
Lemma flt_eps_zero s : flt eps64 (B754_zero s) = false.
Proof. destruct s; vm_compute; reflexivity. Qed.

Lemma bind_ext {A B} (m : res A) (f g : A -> res B) : (forall a, m = Ok a -> f a = g a) -> bind m f = bind m g.
Proof. intros H. destruct m as [a|p|]; cbn; auto. Qed.
Lemma m_loop_same {l k ls ks} (mins : nat -> f64 -> f64 -> f64) : (forall i x y, is_min x y (mins i x y)) ->
  forall fuel i ratio end_ (sk : sink l k) (it : stream ls ks) srclen, clean end_ (sk_buf sk) ->
  m_loop mins fuel i ratio end_ sk it srclen = stream_loop fuel i ratio end_ sk it srclen.
Proof.
  intros M. induction fuel as [|fuel IH]; intros i ratio end_ sk it srclen C; [reflexivity|]. cbn [m_loop stream_loop].
  set (j := dst_pos ratio (offseti (sk_res sk)) i). apply bind_ext. intros ceil Ec. destruct (negb _) eqn:Ne; [reflexivity|].
  apply Bool.negb_false_iff, Z.ltb_lt in Ne. apply bind_ext. intros [o it'] En. destruct o as [src|]; [|reflexivity]. apply bind_ext. intros src' Es.
  destruct (is_min_cases 53 1024 _ _ _ (M i (frem1 j) ratio)) as [E|(s & s' & s2 & E1 & E2 & E3)].
  - rewrite E. unfold floor_w, ceil_w. apply bind_ext. intros xf Ex. apply bind_ext. intros buf Eb. apply bind_ext. intros xc Exc.
    pose proof (buf_add_clean _ _ _ _ _ C Eb) as C1. destruct (ceil <? end_).
    + apply bind_ext. intros buf2 Eb2. apply IH. cbn [sk_buf with_buf]. exact (buf_add_clean _ _ _ _ _ C1 Eb2).
    + apply IH. cbn [sk_buf with_buf with_res]. exact C1.
  - assert (Cl : ceil = f64_as_usize j). { unfold ceil_usize in Ec. rewrite E1, flt_eps_zero in Ec. injection Ec as <-. reflexivity. }
    assert (exists s3, fmin (frem1 j) ratio = B754_zero s3) as [s3 E4]. { rewrite E1, E2. destruct s, s'; eexists; reflexivity. }
    assert (exists s4, fsub ratio (mins i (frem1 j) ratio) = B754_zero s4) as [s4 E5]. { rewrite E3, E2. destruct s', s2; eexists; reflexivity. }
    assert (exists s5, floor_w ratio j = B754_zero s5) as [s5 E6]. { unfold floor_w, ceil_w. rewrite E4, E2. destruct s', s3; eexists; reflexivity. }
    unfold ceil_w. rewrite E4, E5, E6, E3. rewrite Cl. destruct (Z.ltb_spec (f64_as_usize j) end_) as [Lt|Ge]; [|lia]. pose proof (f64_usize_pos j) as Jp.
    assert (Fz : forall x s s', vnz x -> match frame_mul src' (frame_from_f64 l k (B754_zero s)), frame_mul src' (frame_from_f64 l k (B754_zero s')) with
      | Ok p, Ok p' => frame_add x p = frame_add x p' | Panic a, Panic b => a = b | OutOfFuel, OutOfFuel => True | _, _ => False end)
      by (intros x t t' Hx; exact (fmul_zeros x src' t t' Hx)).
    pose proof (Fz (frame_default l k) s4 s5 (default_nz l k)) as F1.
    destruct (frame_mul src' (frame_from_f64 l k (B754_zero s4))) as [p|p|] eqn:P1, (frame_mul src' (frame_from_f64 l k (B754_zero s5))) as [q|q|] eqn:Q1; cbn [bind]; try contradiction; try congruence.
    rewrite (buf_add_ext end_ (f64_as_usize j) p q (sk_buf sk) Jp C) by (intros b Hb; pose proof (Fz b s4 s5 Hb) as X; rewrite P1, Q1 in X; exact X).
    apply bind_ext. intros buf Eb. pose proof (buf_add_clean _ _ _ _ _ C Eb) as C1.
    pose proof (Fz (frame_default l k) s2 s3 (default_nz l k)) as F2.
    destruct (frame_mul src' (frame_from_f64 l k (B754_zero s2))) as [p2|p2|] eqn:P2, (frame_mul src' (frame_from_f64 l k (B754_zero s3))) as [q2|q2|] eqn:Q2; cbn [bind]; try contradiction; try congruence.
    rewrite (buf_add_ext end_ (f64_as_usize j) p2 q2 buf Jp C1) by (intros b Hb; pose proof (Fz b s2 s3 Hb) as X; rewrite P2, Q2 in X; exact X).
    apply bind_ext. intros buf2 Eb2. apply IH. cbn [sk_buf with_buf]. exact (buf_add_clean _ _ _ _ _ C1 Eb2).
Qed.
Lemma buf_clear_clean {l k} end_ (buf buf' : list (frame l k)) : buf_clear end_ buf = Ok buf' -> clean end_ buf'.
Proof.
  unfold buf_clear. destruct (_ <=? _); [|discriminate]. intros X. injection X as <-. intros i f Hi Hf.
  rewrite nth_error_app1 in Hf by (rewrite repeat_length; lia). apply nth_error_In, repeat_spec in Hf. subst f. apply default_nz.
Qed.
Lemma m_stream_same {l k ls ks} (mins : nat -> f64 -> f64 -> f64) fuel (sk : sink l k) (s : stream ls ks) : (forall i x y, is_min x y (mins i x y)) ->
  m_sink_stream mins fuel sk s = sink_stream fuel sk s.
Proof.
  intros M. unfold m_sink_stream, sink_stream. apply bind_ext. intros [ratio s'] _. apply bind_ext. intros buf Eb. rewrite m_loop_same; [reflexivity|exact M|].
  cbn [sk_buf with_buf]. exact (buf_clear_clean _ _ _ Eb).
Qed.
Lemma m_extend_same {l k ls ks} (mins : nat -> f64 -> f64 -> f64) fuel (a : audio l k) (s : stream ls ks) : (forall i x y, is_min x y (mins i x y)) ->
  m_extend mins fuel a s = extend fuel a s.
Proof.
  intros M. unfold m_extend, extend. assert (E : m_extend_internal mins fuel a s = extend_internal fuel a s); [|rewrite E; reflexivity].
  unfold m_extend_internal, extend_internal. apply bind_ext. intros n _. apply bind_ext. intros n2 _. destruct (_ <? _); [reflexivity|].
  apply bind_ext. intros [[pre sk] post] _. rewrite m_stream_same by exact M. reflexivity.
Qed.
Lemma clamp_choice {prec emax} (Hp : FLX.Prec_gt_0 prec) (He : Prec_lt_emax prec emax) (x m r : binary_float prec emax) :
  is_min x (flit 1 0) m -> is_max m (flit (-1) 0) r -> r = fmax (fmin x (flit 1 0)) (flit (-1) 0).
Proof.
  intros Hm Hr. destruct (one_correct prec emax) as [O _]. destruct (mone_correct prec emax) as [Mo _].
  destruct (is_min_cases prec emax _ _ _ Hm) as [->|(s & s' & s2 & _ & E & _)]; [|apply (f_equal B2R) in E; cbn [B2R] in E; exfalso; revert E O; unfold flit; intros E O; rewrite E in O; lra].
  destruct (is_max_cases prec emax _ _ _ Hr) as [->|(s & s' & s2 & _ & E & _)]; [reflexivity|apply (f_equal B2R) in E; cbn [B2R] in E; exfalso; revert E Mo; unfold flit; intros E Mo; rewrite E in Mo; lra].
Qed.
