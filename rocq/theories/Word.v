(** * Word.v -- the functions of src/streaming.rs, src/math.rs and src/audio.rs
    whose outcome depends on the width of [usize] or on overflow checks, for any target *)
From Coq Require Import ZArith NArith List Bool.
From Verif Require Import Rust Float Math Chan Frame Ops Stream Audio Heap.
Import ListNotations.
Open Scope Z_scope.

(** A target: the width of [usize] (Rust has targets with 16, 32 and 64 bits)
    and whether overflow checks are compiled in (debug builds) or additions wrap
    (release builds).  The rest of the model is the 64-bit debug build without a loop counter. *)
Inductive pointer : Set := P16 | P32 | P64.
Record target : Set := mkTarget { t_pointer : pointer; t_checks : bool }.
(** [usize::MAX], [isize::MAX]. *)
Definition t_umax (t : target) : Z :=
  match t_pointer t with P16 => 65535 | P32 => 4294967295 | P64 => 18446744073709551615 end.
Definition t_imax (t : target) : Z :=
  match t_pointer t with P16 => 32767 | P32 => 2147483647 | P64 => 9223372036854775807 end.

(** [a + b] for [usize]. *)
Definition w_add (t : target) (a b : Z) : res Z :=
  if a + b <=? t_umax t then Ok (a + b)
  else if t_checks t then Panic ArithOverflow else Ok ((a + b) mod (t_umax t + 1)).

(** [x as usize] for an f64. *)
Definition w_as_usize (t : target) (x : f64) : Z := fcast 0 (t_umax t) x.

(** src/math.rs:73-80 [ceil_usize]. *)
Definition w_ceil_usize (t : target) (input : f64) : res Z :=
  let fract := frem1 input in
  let whole := w_as_usize t input in
  if flt eps64 fract then w_add t whole 1 else Ok whole.

(** src/streaming.rs:98-122: the loop [for i in 0.. { .. }].  [RangeFrom::next]
    (core::iter::range) computes the next counter before it hands out the current one. *)
Fixpoint w_loop (t : target) {l k ls ks} (fuel : nat) (i : nat) (ratio : f64) (end_ : Z)
  (sk : sink l k) (it : stream ls ks) (srclen : option N)
  : res (sink l k * stream ls ks * option N) :=
  match fuel with
  | O => OutOfFuel
  | S fuel =>
      i_next <- w_add t (Z.of_nat i) 1 ;;
      let j := dst_pos ratio (offseti (sk_res sk)) i in
      ceil <- w_ceil_usize t j ;;
      let floor := w_as_usize t j in
      if negb (floor <? end_) then Ok (sk, it, Some (N.of_nat i))
      else
        let ceil_f64 := ceil_w ratio j in
        let ceil_a := frame_from_f64 l k ceil_f64 in
        let floor_a := frame_from_f64 l k (floor_w ratio j) in
        '(o, it) <- next it ;;
        match o with
        | None => Ok (sk, it, srclen)
        | Some src =>
            src <- convert l k src ;;
            xf <- frame_mul src floor_a ;;
            buf <- buf_add end_ floor xf (sk_buf sk) ;;
            xc <- frame_mul src ceil_a ;;
            if ceil <? end_ then
              buf <- buf_add end_ ceil xc buf ;;
              w_loop t fuel (Z.to_nat i_next) ratio end_ (with_buf sk buf) it srclen
            else
              let r := mkResampler (frame_add (partial (sk_res sk)) xc) (offseti (sk_res sk)) in
              w_loop t fuel (Z.to_nat i_next) ratio end_ (with_res (with_buf sk buf) r) it srclen
        end
  end.

(** src/streaming.rs:87-91: end of the destination range. *)
Definition w_dst_end (t : target) {l k} (ratio : f64) (len : option N) (buf : list (frame l k)) : Z :=
  match len with
  | Some n => Z.min (w_as_usize t (fmul ratio (usize_as_f64 (Z.of_N n)))) (Z.of_nat (length buf))
  | None => Z.of_nat (length buf)
  end.

(** src/streaming.rs:72-125 [Sink::stream]. *)
Definition w_sink_stream (t : target) {l k ls ks} (fuel : nat) (sk : sink l k) (s : stream ls ks)
  : res (sink l k * stream ls ks) :=
  '(ratio, s) <- stream_ratio sk s ;;
  let sk := with_buf sk (add_partial (partial (sk_res sk)) (sk_buf sk)) in
  let srclen := slen s in
  let end_ := w_dst_end t ratio (slen s) (sk_buf sk) in
  buf <- buf_clear end_ (sk_buf sk) ;;
  let sk := with_buf sk buf in
  '(sk, it, srclen) <- w_loop t fuel 0 ratio end_ sk s srclen ;;
  n <- of_opt UnwrapNone srclen ;;
  let r := sk_res sk in
  let off := fadd (offseti r) (fmul ratio (usize_as_f64 (Z.of_N n))) in
  Ok (with_res sk (mkResampler (partial r) off), it).

(** src/streaming.rs:61-68 [Sink::flush]. *)
Definition w_flush (t : target) {l k} (sk : sink l k) : res (sink l k) :=
  let fr := frem1 (offseti (sk_res sk)) in
  if flt eps64 fr || flt fr (fneg eps64) then
    let i := w_as_usize t (offseti (sk_res sk)) in
    if i <? Z.of_nat (length (sk_buf sk)) then
      buf <- update_at (Z.to_nat i) (fun _ => partial (sk_res sk)) (sk_buf sk) ;;
      Ok (with_buf sk buf)
    else Panic IndexOutOfBounds
  else Ok sk.

(** Slice indexing (see [range_bounds]). *)
Definition w_range_bounds (t : target) (r : range) (len : N) : res (N * N) :=
  let check (a b : N) : res (N * N) :=
    if (N.leb a b && N.leb b len)%bool then Ok (a, b) else Panic IndexOutOfBounds in
  let incl (a b : N) : res (N * N) :=
    if N.eqb b (Z.to_N (t_umax t)) then Panic IndexOutOfBounds else check a (N.succ b) in
  match r with
  | RFull => check 0%N len
  | RFrom a => check a len
  | RTo b => check 0%N b
  | RRange a b => check a b
  | RToIncl b => incl 0%N b
  | RIncl a b => incl a b
  end.

(** src/audio.rs:245-257 [Audio::sink]. *)
Definition w_audio_sink (t : target) {l k} (a : audio l k) (r : range)
  : res (list (frame l k) * sink l k * list (frame l k)) :=
  '(s, e) <- w_range_bounds t r (N.of_nat (length (frames a))) ;;
  let s := N.to_nat s in
  let e := N.to_nat e in
  Ok (firstn s (frames a),
      mkSink (s_rate a) (firstn (e - s) (skipn s (frames a))) (resampler_default l k),
      skipn e (frames a)).

(** src/audio.rs:297-301: number of frames to add. *)
Definition w_extend_dstlen (t : target) {ls ks} (rate : f64) (s : stream ls ks) (srclen : N) : Z :=
  match sample_rate s with
  | Some src_sr => w_as_usize t (ceil (fdiv (fmul rate (usize_as_f64 (Z.of_N srclen))) src_sr))
  | None => Z.of_N srclen
  end.

(** [Vec::resize_with(n, Default::default)] (src/audio.rs:307) of a vector
    whose capacity is its length: growing reserves at least twice the capacity
    (alloc::raw_vec), which panics beyond isize::MAX bytes; a smaller length truncates. *)
Definition w_resize (t : target) {l k} (fs : list (frame l k)) (n : Z) : res (list (frame l k)) :=
  if Z.of_nat (length fs) <? n then
    if t_imax t <? Z.max (2 * Z.of_nat (length fs)) n * Z.of_nat (frame_size l k) then Panic CapacityOverflow
    else Ok (fs ++ repeat (frame_default l k) (Z.to_nat (n - Z.of_nat (length fs))))
  else Ok (firstn (Z.to_nat n) fs).

(** src/audio.rs:285-317 [extend_internal]. *)
Definition w_extend_internal (t : target) {l k ls ks} (fuel : nat) (self : audio l k) (s : stream ls ks)
  : res (audio l k * stream ls ks) :=
  let rate := s_rate self in
  srclen <- of_opt UnwrapNone (slen s) ;;
  let dstlen := w_extend_dstlen t rate s srclen in
  let orig_len := length (frames self) in
  new_len <- w_add t (Z.of_nat orig_len) dstlen ;;
  fs <- w_resize t (frames self) new_len ;;
  let aud := with_frames rate fs in
  '(pre, sk, post) <- w_audio_sink t aud (RFrom (N.of_nat orig_len)) ;;
  '(sk, it) <- w_sink_stream t fuel sk s ;;
  sk <- w_flush t sk ;;
  Ok (audio_unsink aud pre sk post, it).

(** src/audio.rs:276-283 [extend]. *)
Definition w_extend (t : target) {l k ls ks} (fuel : nat) (self : audio l k) (s : stream ls ks)
  : audio l k * res (stream ls ks) :=
  let temp_move : audio l k := with_frames (flit 0 0) [] in
  match w_extend_internal t fuel self s with
  | Ok (a, it) => (a, Ok it)
  | Panic p => (temp_move, Panic p)
  | OutOfFuel => (temp_move, OutOfFuel)
  end.

(** src/audio.rs:99-110 [with_stream]. *)
Definition w_with_stream (t : target) (l : layout) (k : ck) {ls ks} (fuel : nat) (rate : f64) (s : stream ls ks)
  : res (audio l k * stream ls ks) :=
  let '(a, r) := w_extend t fuel (with_frames rate []) s in
  it <- r ;; Ok (a, it).
