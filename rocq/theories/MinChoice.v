(** * MinChoice.v -- streaming when [f64::min] of two zeros may return either

    Rust leaves open which of +0.0 and -0.0 [f64::min] and [f64::max] return.  Float.v fixes the
    receiver.  Here the minimum of each iteration is an argument. *)
From Coq Require Import ZArith NArith List Bool.
From Verif Require Import Rust Float Math Chan Frame Ops Stream Audio.
Import ListNotations.
Open Scope Z_scope.

(** src/streaming.rs:98-122: the loop, with [mins i] for the [min] of line 107 in iteration [i]. *)
Fixpoint m_loop {l k ls ks} (mins : nat -> f64 -> f64 -> f64) (fuel : nat) (i : nat) (ratio : f64) (end_ : Z)
  (sk : sink l k) (it : stream ls ks) (srclen : option N)
  : res (sink l k * stream ls ks * option N) :=
  match fuel with
  | O => OutOfFuel
  | S fuel =>
      let j := dst_pos ratio (offseti (sk_res sk)) i in
      ceil <- ceil_usize j ;;
      let floor := f64_as_usize j in
      if negb (floor <? end_) then Ok (sk, it, Some (N.of_nat i))
      else
        let ceil_f64 := mins i (frem1 j) ratio in
        let ceil_a := frame_from_f64 l k ceil_f64 in
        let floor_a := frame_from_f64 l k (fsub ratio ceil_f64) in
        '(o, it) <- next it ;;
        match o with
        | None => Ok (sk, it, srclen)
        | Some src =>
            src <- convert l k src ;;
            xf <- frame_mul src floor_a ;;
            buf <- buf_add end_ floor xf (sk_buf sk) ;;
            xc <- frame_mul src ceil_a ;;
            if ceil <? end_ then
              buf <- buf_add end_ ceil xc buf ;;
              m_loop mins fuel (S i) ratio end_ (with_buf sk buf) it srclen
            else
              let r := mkResampler (frame_add (partial (sk_res sk)) xc) (offseti (sk_res sk)) in
              m_loop mins fuel (S i) ratio end_ (with_res (with_buf sk buf) r) it srclen
        end
  end.

(** src/streaming.rs:72-125 [Sink::stream]. *)
Definition m_sink_stream {l k ls ks} (mins : nat -> f64 -> f64 -> f64) (fuel : nat) (sk : sink l k) (s : stream ls ks)
  : res (sink l k * stream ls ks) :=
  '(ratio, s) <- stream_ratio sk s ;;
  let sk := with_buf sk (add_partial (partial (sk_res sk)) (sk_buf sk)) in
  let srclen := slen s in
  let end_ := dst_end ratio (slen s) (sk_buf sk) in
  buf <- buf_clear end_ (sk_buf sk) ;;
  let sk := with_buf sk buf in
  '(sk, it, srclen) <- m_loop mins fuel 0 ratio end_ sk s srclen ;;
  n <- of_opt UnwrapNone srclen ;;
  let r := sk_res sk in
  let off := fadd (offseti r) (fmul ratio (usize_as_f64 (Z.of_N n))) in
  Ok (with_res sk (mkResampler (partial r) off), it).

(** src/audio.rs:285-317 [extend_internal], 273-283 [extend]. *)
Definition m_extend_internal {l k ls ks} (mins : nat -> f64 -> f64 -> f64) (fuel : nat) (self : audio l k) (s : stream ls ks)
  : res (audio l k * stream ls ks) :=
  let rate := s_rate self in
  srclen <- of_opt UnwrapNone (slen s) ;;
  let dstlen := extend_dstlen rate s srclen in
  let orig_len := length (frames self) in
  new_len <- checked 0 usize_max (Z.of_nat orig_len + dstlen) ;;
  if isize_max <? new_len * Z.of_nat (frame_size l k) then Panic CapacityOverflow
  else
    let aud := with_frames rate (frames self ++ repeat (frame_default l k) (Z.to_nat dstlen)) in
    '(pre, sk, post) <- audio_sink aud (RFrom (N.of_nat orig_len)) ;;
    '(sk, it) <- m_sink_stream mins fuel sk s ;;
    sk <- flush sk ;;
    Ok (audio_unsink aud pre sk post, it).
Definition m_extend {l k ls ks} (mins : nat -> f64 -> f64 -> f64) (fuel : nat) (self : audio l k) (s : stream ls ks)
  : audio l k * res (stream ls ks) :=
  let temp_move : audio l k := with_frames (flit 0 0) [] in
  match m_extend_internal mins fuel self s with
  | Ok (a, it) => (a, Ok it)
  | Panic p => (temp_move, Panic p)
  | OutOfFuel => (temp_move, OutOfFuel)
  end.
