(** * PropRing.v -- property C90: memory over any history of calls *)
From Coq Require Import ZArith List Bool Arith.
From Verif Require Import Rust Float Chan Frame Audio Heap Ring SpecRing RingProofs.
Import ListNotations.
Open Scope nat_scope.

(** Any number of raw buffers, vectors of frames and audios, any calls in any order, any choices of the
    standard library: as long as no audio with frames is turned into a raw buffer, no call touches memory that was freed,
    is out of bounds or was never written, and none frees with the wrong layout.  Every variable then holds the
    samples the list history says, every live allocation is owned by exactly one variable. *)
Theorem C90_safe {k} (os : list (op k)) : all_sound [] os ->
  exists h vs, run_ops [] [] os = MOk (h, vs) /\ reads h vs (spec_ops [] os) /\ accounted h vs.
Proof. exact (ring_safe os). Qed.
Print Assumptions C90_safe.

(** When the variables go out of scope nothing is left allocated. *)
Theorem C90_all_freed {k} (os : list (op k)) : all_sound [] os ->
  exists h vs, run_ops [] [] (os ++ drop_all (length (spec_ops [] os))) = MOk (h, vs) /\ forall b, ~ live_at h b.
Proof. exact (ring_all_freed os). Qed.
Print Assumptions C90_all_freed.

(** The condition is exact: a program in which every variable goes out of scope is free of undefined
    behaviour exactly when it never turns an audio with frames into a raw buffer. *)
Theorem C90_safe_iff {k} (os : list (op k)) :
  (exists h vs, run_ops [] [] (os ++ drop_all (length (spec_ops [] os))) = MOk (h, vs)) <-> all_sound [] os.
Proof. exact (ring_safe_iff os). Qed.
Print Assumptions C90_safe_iff.

(** After such a conversion, and any calls on other variables, reading or writing any sample of the raw buffer is a use
    after free, dropping it a double free. *)
Theorem C90_into_raw {k} (os rest : list (op k)) i l d c : all_sound [] os -> nth_error (spec_ops [] os) i = Some (Some (KAudio l, d)) -> d <> [] ->
  forallb (fun o => negb (about i o)) rest = true -> all_sound (put_at i None (spec_ops [] os)) rest ->
  exists h vs, run_ops [] [] (os ++ OIntoRaw i c :: rest) = MOk (h, vs) /\ call h vs (ODrop i) = MUb DoubleFree /\
  (forall j, j < length d -> call h vs (OLoad i j) = MUb UseAfterFree) /\ (forall j x, j < length d -> call h vs (OStore i j x) = MUb UseAfterFree).
Proof. exact (ring_into_raw os rest i l d c). Qed.
Print Assumptions C90_into_raw.

(** "Every program is memory safe" is false. *)
Definition small (z : Z) : chan K8 := as_sint W8 z.
Theorem C90_every_program_refuted : ~ forall os : list (op K8), exists r, run_ops [] [] os = MOk r.
Proof.
  intros H. destruct (H [ONewRaw [small 1; small 2]; OWithBuffer 0 Stereo None; OIntoRaw 0 None; ODrop 0]) as [r E]. vm_compute in E. discriminate.
Qed.
Print Assumptions C90_every_program_refuted.

(** Three mono frames moved to an allocation of five, two drained, three added in one of eight, one more drained, one
    overwritten; a second audio shares nothing with it. *)
Definition history : list (op K8) :=
  [ONewRaw [small 1; small 2; small 3]; OWithBuffer 0 Mono (Some 5); ODrain 0 2; OExtend 0 Mono [(small 4, tt); (small 5, tt); (small 6, tt)] None 9 (Some 8) 3;
   ODrain 0 1; OStore 0 2 (small 7); ONewFrames Stereo [(small 8, (small 9, tt))]; OWithFrames 1 None; OContiguous 0 7; OIntoFrames 0 false (Some 6)].
Example C90_case_sound : all_sound [] history /\ spec_ops [] history = [Some (KVec Mono, [small 4; small 5; small 7]); Some (KAudio Stereo, [small 8; small 9])].
Proof. split; [repeat split|vm_compute; reflexivity]. Qed.
Example C90_case_run : match run_ops [] [] history with
  | MOk (h, [Some (_, v); Some (_, w)]) => load_all h v = MOk [small 4; small 5; small 7] /\ load_all h w = MOk [small 8; small 9] /\ o_cap v = 6
  | _ => False end.
Proof. vm_compute. auto. Qed.
(** A ring that wraps: capacity 4, head 3, two frames. *)
Example C90_case_wraps : let v := mkOwn (Some 0) 1 4 3 2 in let h := [mkArea [Some (small 5); None; None; Some (small 4)] 1 true] in
  owns h v [small 4; small 5] /\ load_all h v = MOk [small 4; small 5] /\
  match contiguous h v 1 with MOk (v', h') => o_head v' = 1 /\ load_all h' v' = MOk [small 4; small 5] | MUb _ => False end.
Proof.
  cbv zeta. split; [|split; [vm_compute; reflexivity|vm_compute; auto]]. split; [|reflexivity]. repeat (split; [cbn; auto with arith|]). right. eexists _, _. repeat (split; [reflexivity|]).
  intros [|[|[|j]]] c H; cbn in H; try discriminate; injection H as <-; reflexivity.
Qed.
(** Misuse the model notices: freeing with the length instead of the capacity. *)
Example C90_case_layout : mfree [mkArea [Some (small 5); None] 1 true] (Some 0) 1 1 = MUb LayoutMismatch.
Proof. reflexivity. Qed.
