(** * Unwind.v -- what remains when a panic is caught.

    [sink_stream], [extend] and [next] say only that a panic happens.  Here the
    same functions also return the state of the sink and of the stream at that
    moment: unwinding drops the stream (src/streaming.rs:72 takes it by value),
    which runs [Drop for AudioDrain] (src/audio.rs:478-482), and the sink and the
    buffers borrowed by drains can be used again by whoever catches the panic.
    [PropUnwind.v] states that the outcomes are the same as those of the functions
    without state. *)
From Coq Require Import ZArith NArith List Bool.
From Verif Require Import Rust Float Math Chan Frame Ops Stream Audio.
Import ListNotations.
Open Scope Z_scope.

(** Go on with the value of [x], or stop in state [st]. *)
Definition run {A B St} (st : St) (x : res A) (f : A -> St * res B) : St * res B :=
  match x with
  | Ok a => f a
  | Panic p => (st, Panic p)
  | OutOfFuel => (st, OutOfFuel)
  end.

(** [Iterator::next] as in Stream.v ([next]).  [core::iter::Take::next]
    counts before it calls the inner iterator. *)
Fixpoint next_st {l k} (s : stream l k) : stream l k * res (option (frame l k)) :=
  match s in stream l k return stream l k * res (option (frame l k)) with
  | SFrame f => (SFrame f, Ok (Some f))
  | SAudio r [] => (SAudio r [], Ok None)
  | SAudio r (f :: fs) => (SAudio r fs, Ok (Some f))
  | SDrain r fs c =>
      match nth_error fs c with
      | Some f => (SDrain r fs (S c), Ok (Some f))
      | None => (SDrain r fs c, Ok None)
      end
  | STake s n =>
      if N.eqb n 0 then (STake s n, Ok None)
      else let '(s, o) := next_st s in (STake s (N.pred n), o)
  | @SBlend l k l' k' a b op =>
      let '(a, oa) := next_st a in
      run (SBlend a b op) oa (fun oa =>
      match oa with
      | None => (SBlend a b op, Ok None)
      | Some fa =>
          let '(b, ob) := next_st b in
          run (SBlend a b op) ob (fun ob =>
          match ob with
          | None => (SBlend a b op, Ok None)
          | Some fb =>
              run (SBlend a b op) (convert l k fb) (fun fb =>
              run (SBlend a b op) (mix_frames op fa fb) (fun m =>
              (SBlend a b op, Ok (Some m))))
          end)
      end)
  | SUser u =>
      let u' := SUser (mkUser (u_rate u) (u_configurable u) (u_len u) (u_item u) (S (u_pos u))) in
      run u' (u_item u (u_pos u)) (fun o => (u', Ok o))
  end.

(** [Stream::set_sample_rate]: src/streaming.rs:144-150, 210-212, 270-274,
    src/frame.rs:211. *)
Fixpoint set_rate_st {l k} (s : stream l k) (sr : f64) : stream l k * res unit :=
  match s in stream l k return stream l k * res unit with
  | SFrame f => (SFrame f, Ok tt)
  | SAudio r fs => (SAudio r fs, Panic ExplicitPanic)
  | SDrain r fs c => (SDrain r fs c, Panic ExplicitPanic)
  | STake s n => let '(s, r) := set_rate_st s sr in (STake s n, r)
  | SBlend a b op =>
      let '(a, r) := set_rate_st a sr in
      run (SBlend a b op) r (fun _ => let '(b, r) := set_rate_st b sr in (SBlend a b op, r))
  | SUser u =>
      if u_configurable u
      then (SUser (mkUser (Some sr) (u_configurable u) (u_len u) (u_item u) (u_pos u)), Ok tt)
      else (SUser u, Panic ExplicitPanic)
  end.

(** src/streaming.rs:98-122: the loop of [Sink::stream]. *)
Fixpoint loop_st {l k ls ks} (fuel : nat) (i : nat) (ratio : f64) (end_ : Z)
  (sk : sink l k) (it : stream ls ks) (srclen : option N)
  : (sink l k * stream ls ks) * res (option N) :=
  match fuel with
  | O => ((sk, it), OutOfFuel)
  | S fuel =>
      let j := dst_pos ratio (offseti (sk_res sk)) i in
      run (sk, it) (ceil_usize j) (fun ceil =>
      let floor := f64_as_usize j in
      if negb (floor <? end_) then ((sk, it), Ok (Some (N.of_nat i)))
      else
        let ceil_a := frame_from_f64 l k (ceil_w ratio j) in
        let floor_a := frame_from_f64 l k (floor_w ratio j) in
        let '(it, o) := next_st it in
        run (sk, it) o (fun o =>
        match o with
        | None => ((sk, it), Ok srclen)
        | Some src =>
            run (sk, it) (convert l k src) (fun src =>
            run (sk, it) (frame_mul src floor_a) (fun xf =>
            run (sk, it) (buf_add end_ floor xf (sk_buf sk)) (fun buf =>
            let sk := with_buf sk buf in
            run (sk, it) (frame_mul src ceil_a) (fun xc =>
            if ceil <? end_ then
              run (sk, it) (buf_add end_ ceil xc (sk_buf sk)) (fun buf =>
              loop_st fuel (S i) ratio end_ (with_buf sk buf) it srclen)
            else
              let r := mkResampler (frame_add (partial (sk_res sk)) xc) (offseti (sk_res sk)) in
              loop_st fuel (S i) ratio end_ (with_res sk r) it srclen))))
        end))
  end.

(** src/streaming.rs:74-79. *)
Definition ratio_st {l k ls ks} (sk : sink l k) (s : stream ls ks) : stream ls ks * res f64 :=
  match sample_rate s with
  | Some r => (s, Ok (fdiv (sk_rate sk) r))
  | None => let '(s, r) := set_rate_st s (sk_rate sk) in run s r (fun _ => (s, Ok (flit 1 0)))
  end.

(** src/streaming.rs:72-125 [Sink::stream]. *)
Definition sink_stream_st {l k ls ks} (fuel : nat) (sk : sink l k) (s : stream ls ks)
  : (sink l k * stream ls ks) * res unit :=
  let '(s, r) := ratio_st sk s in
  run (sk, s) r (fun ratio =>
  let sk := with_buf sk (add_partial (partial (sk_res sk)) (sk_buf sk)) in
  let srclen := slen s in
  let end_ := dst_end ratio (slen s) (sk_buf sk) in
  run (sk, s) (buf_clear end_ (sk_buf sk)) (fun buf =>
  let sk := with_buf sk buf in
  let '((sk, it), r) := loop_st fuel 0 ratio end_ sk s srclen in
  run (sk, it) r (fun srclen =>
  run (sk, it) (of_opt UnwrapNone srclen) (fun n =>
  let off := fadd (offseti (sk_res sk)) (fmul ratio (usize_as_f64 (Z.of_N n))) in
  ((with_res sk (mkResampler (partial (sk_res sk)) off), it), Ok tt))))).

(** src/audio.rs:276-317 [extend] and [extend_internal]: the buffer the caller
    is left with, and the stream when it was dropped. *)
Definition extend_st {l k ls ks} (fuel : nat) (self : audio l k) (s : stream ls ks)
  : (audio l k * stream ls ks) * res unit :=
  let temp_move : audio l k := with_frames (flit 0 0) [] in
  let rate := s_rate self in
  run (temp_move, s) (of_opt UnwrapNone (slen s)) (fun srclen =>
  let dstlen := extend_dstlen rate s srclen in
  let orig_len := length (frames self) in
  run (temp_move, s) (checked 0 usize_max (Z.of_nat orig_len + dstlen)) (fun new_len =>
  if isize_max <? new_len * Z.of_nat (frame_size l k) then ((temp_move, s), Panic CapacityOverflow)
  else
    let aud := with_frames rate (frames self ++ repeat (frame_default l k) (Z.to_nat dstlen)) in
    run (temp_move, s) (audio_sink aud (RFrom (N.of_nat orig_len))) (fun '(pre, sk, post) =>
    let '((sk, it), r) := sink_stream_st fuel sk s in
    run (temp_move, it) r (fun _ =>
    run (temp_move, it) (flush sk) (fun sk =>
    ((audio_unsink aud pre sk post, it), Ok tt)))))).
