(** * Stream.v -- model of src/streaming.rs and of the [Stream] impls of
    src/frame.rs:199-212 and src/audio.rs:372-389, 452-482 *)
From Coq Require Import ZArith NArith List Bool.
From Verif Require Import Rust Float Math Chan Frame Ops.
Import ListNotations.
Open Scope Z_scope.

(** ** Streams *)

(** A user implementation of the public [Stream] trait: a reported rate and
    length, and what its iterator does on successive [next] calls: return a frame
    or [None], panic, or never return ([OutOfFuel]).
    [u_configurable] says whether [set_sample_rate] is overridden (and stores
    the rate) or left at its panicking default. *)
Record user_stream (l : layout) (k : ck) : Type := mkUser {
  u_rate : option f64;
  u_configurable : bool;
  u_len : option N;
  u_item : nat -> res (option (frame l k));
  u_pos : nat
}.
Arguments mkUser {l k}. Arguments u_rate {l k}. Arguments u_configurable {l k}.
Arguments u_len {l k}. Arguments u_item {l k}. Arguments u_pos {l k}.

(** Stream expressions; the same type is used for the iterator obtained with
    [into_iter] (each of these is its own iterator state).
    - [SFrame f]: a frame used as an infinite stream (src/frame.rs:199-212,
      [Iterator for Mono/Stereo/Surround]: src/mono.rs:138-144 etc.)
    - [SAudio r fs]: [&Audio] (src/audio.rs:372-389); [fs] = frames not yet yielded
    - [SDrain r fs c]: [AudioDrain] with [cursor = c] (src/audio.rs:453-482)
    - [STake s n]: [TakeStream(s, n)] (src/streaming.rs:184-213)
    - [SBlend a b op]: [BlendStream(a, b)] (src/streaming.rs:215-275)
    - [SUser u]: a user-defined stream. *)
Inductive stream : layout -> ck -> Type :=
| SFrame {l k} (f : frame l k) : stream l k
| SAudio {l k} (rate : f64) (fs : list (frame l k)) : stream l k
| SDrain {l k} (rate : f64) (fs : list (frame l k)) (cursor : nat) : stream l k
| STake {l k} (s : stream l k) (n : N) : stream l k
| SBlend {l k l' k'} (a : stream l k) (b : stream l' k') (op : blend_op) : stream l k
| SUser {l k} (u : user_stream l k) : stream l k.

(** [Stream::sample_rate]: src/frame.rs:201-203, src/audio.rs:382-384,
    469-471, src/streaming.rs:200-202, 255-257. *)
Fixpoint sample_rate {l k} (s : stream l k) : option f64 :=
  match s with
  | SFrame _ => None
  | SAudio r _ => Some r
  | SDrain r _ _ => Some r
  | STake s _ => sample_rate s
  | SBlend a _ _ => sample_rate a
  | SUser u => u_rate u
  end.

(** [Stream::len]: src/frame.rs:206-208, src/audio.rs:386-388, 473-475,
    src/streaming.rs:205-207, 260-267. *)
Fixpoint slen {l k} (s : stream l k) : option N :=
  match s with
  | SFrame _ => None
  | SAudio _ fs => Some (N.of_nat (length fs))
  | SDrain _ fs _ => Some (N.of_nat (length fs))
  | STake s n => Some (match slen s with Some a => N.min a n | None => n end)
  | SBlend a b _ =>
      match slen a, slen b with
      | None, None => None
      | None, Some n => Some n
      | Some n, None => Some n
      | Some x, Some y => Some (N.min x y)
      end
  | SUser u => u_len u
  end.

(** [Stream::is_empty] (src/streaming.rs:138-140). *)
Definition s_is_empty {l k} (s : stream l k) : bool :=
  match slen s with Some n => N.eqb n 0 | None => false end.

(** [Stream::set_sample_rate]: src/frame.rs:211 (no effect),
    src/streaming.rs:144-150 (default: panic; used by [&Audio] and
    [AudioDrain]), 210-212 (take), 270-274 (blend). *)
Fixpoint set_sample_rate {l k} (s : stream l k) (sr : f64) : res (stream l k) :=
  match s with
  | SFrame f => Ok (SFrame f)
  | SAudio _ _ => Panic ExplicitPanic
  | SDrain _ _ _ => Panic ExplicitPanic
  | STake s n => s <- set_sample_rate s sr ;; Ok (STake s n)
  | SBlend a b op =>
      a <- set_sample_rate a sr ;; b <- set_sample_rate b sr ;; Ok (SBlend a b op)
  | SUser u =>
      if u_configurable u
      then Ok (SUser (mkUser (Some sr) (u_configurable u) (u_len u) (u_item u) (u_pos u)))
      else Panic ExplicitPanic
  end.

(** [Stream::take] (src/streaming.rs:153-155). *)
Definition take {l k} (s : stream l k) (n : N) : stream l k := STake s n.

(** Equality of [Option<f64>] (derived [PartialEq]; NaN is not equal to itself). *)
Definition opt_feq (a b : option f64) : bool :=
  match a, b with
  | None, None => true
  | Some x, Some y => feq x y
  | _, _ => false
  end.

(** [Stream::blend] (src/streaming.rs:161-181). *)
Definition blend {l k l' k'} (first : stream l k) (second : stream l' k') (op : blend_op)
  : res (stream l k) :=
  let sr_a := sample_rate first in
  let sr_b := sample_rate second in
  if negb (opt_feq sr_a sr_b) then
    match sr_a, sr_b with
    | None, None => Ok (SBlend first second op)
    | None, Some sr => first <- set_sample_rate first sr ;; Ok (SBlend first second op)
    | Some sr, None => second <- set_sample_rate second sr ;; Ok (SBlend first second op)
    | Some _, Some _ => Panic AssertFailed
    end
  else Ok (SBlend first second op).

(** [Iterator::next]:
    - frames: src/mono.rs:141-143, src/stereo.rs:141-143, src/surround.rs:155-157
    - [&Audio]: [Cloned<vec_deque::Iter>] (src/audio.rs:376-378)
    - drain: src/audio.rs:461-465
    - take: [core::iter::Take::next] (src/streaming.rs:193-195)
    - blend: [core::iter::Zip::next] (pulls left first, then right), then
      [O::mix_frames(a, b.convert())] (src/streaming.rs:238-243). *)
Fixpoint next {l k} (s : stream l k) : res (option (frame l k) * stream l k) :=
  match s in stream l k return res (option (frame l k) * stream l k) with
  | SFrame f => Ok (Some f, SFrame f)
  | SAudio r [] => Ok (None, SAudio r [])
  | SAudio r (f :: fs) => Ok (Some f, SAudio r fs)
  | SDrain r fs c =>
      match nth_error fs c with
      | Some f => Ok (Some f, SDrain r fs (S c))
      | None => Ok (None, SDrain r fs c)
      end
  | STake s n =>
      if N.eqb n 0 then Ok (None, STake s n)
      else '(o, s) <- next s ;; Ok (o, STake s (N.pred n))
  | @SBlend l k l' k' a b op =>
      '(oa, a) <- next a ;;
      match oa with
      | None => Ok (None, SBlend a b op)
      | Some fa =>
          '(ob, b) <- next b ;;
          match ob with
          | None => Ok (None, SBlend a b op)
          | Some fb =>
              fb <- convert l k fb ;;
              m <- mix_frames op fa fb ;;
              Ok (Some m, SBlend a b op)
          end
      end
  | SUser u =>
      o <- u_item u (u_pos u) ;;
      Ok (o, SUser (mkUser (u_rate u) (u_configurable u) (u_len u) (u_item u) (S (u_pos u))))
  end.

(** ** Resampler and Sink *)

(** src/streaming.rs:19-24 [Resampler { partial, offseti }]. *)
Record resampler (l : layout) (k : ck) : Type := mkResampler {
  partial : frame l k;
  offseti : f64
}.
Arguments mkResampler {l k}. Arguments partial {l k}. Arguments offseti {l k}.

(** [Resampler::new] (src/streaming.rs:28-33), [Default] (derived),
    [frame] (36-38), [index] (41-43). *)
Definition resampler_new {l k} (f : frame l k) (index : f64) : resampler l k :=
  mkResampler f index.
Definition resampler_default (l : layout) (k : ck) : resampler l k :=
  mkResampler (frame_default l k) (flit 0 0).
Definition resampler_frame {l k} (r : resampler l k) : frame l k := partial r.
Definition resampler_index {l k} (r : resampler l k) : f64 := offseti r.

(** A [Sink] (src/streaming.rs:47-57): the three required methods
    [sample_rate], [resampler] and [buffer], as stored state (that is what
    [AudioSink], src/audio.rs:392-410, does). *)
Record sink (l : layout) (k : ck) : Type := mkSink {
  sk_rate : f64;
  sk_buf : list (frame l k);
  sk_res : resampler l k
}.
Arguments mkSink {l k}. Arguments sk_rate {l k}. Arguments sk_buf {l k}. Arguments sk_res {l k}.

Definition with_buf {l k} (sk : sink l k) (b : list (frame l k)) : sink l k :=
  mkSink (sk_rate sk) b (sk_res sk).
Definition with_res {l k} (sk : sink l k) (r : resampler l k) : sink l k :=
  mkSink (sk_rate sk) (sk_buf sk) r.

(** [n as f64] for [n: usize]. *)
Definition usize_as_f64 (n : Z) : f64 := fofZ n.

(** [Sink::flush] (src/streaming.rs:61-68); consumes the sink, returns its
    final state.  [offseti % 1.0 < -f64::EPSILON] is the second disjunct. *)
Definition flush {l k} (sk : sink l k) : res (sink l k) :=
  let fr := frem1 (offseti (sk_res sk)) in
  if flt eps64 fr || flt fr (fneg eps64) then
    let i := f64_as_usize (offseti (sk_res sk)) in
    if i <? Z.of_nat (length (sk_buf sk)) then
      buf <- update_at (Z.to_nat i) (fun _ => partial (sk_res sk)) (sk_buf sk) ;;
      Ok (with_buf sk buf)
    else Panic IndexOutOfBounds
  else Ok sk.

(** [self.buffer()[..end_][i] += x]; panics when [end_] exceeds the buffer or
    [i] is not below [end_]. *)
Definition buf_add {l k} (end_ i : Z) (x : frame l k) (buf : list (frame l k))
  : res (list (frame l k)) :=
  if (end_ <=? Z.of_nat (length buf)) && (i <? end_)
  then update_at (Z.to_nat i) (fun b => frame_add b x) buf
  else Panic IndexOutOfBounds.

(** src/streaming.rs:93-95: [for f in self.buffer()[..end_].iter_mut()
    { *f = F::default() }]. *)
Definition buf_clear {l k} (end_ : Z) (buf : list (frame l k)) : res (list (frame l k)) :=
  if end_ <=? Z.of_nat (length buf)
  then Ok (repeat (frame_default l k) (Z.to_nat end_) ++ skipn (Z.to_nat end_) buf)
  else Panic IndexOutOfBounds.

(** src/streaming.rs:100: position of source frame [i] in the sink. *)
Definition dst_pos (ratio off : f64) (i : nat) : f64 :=
  fadd (fmul ratio (usize_as_f64 (Z.of_nat i))) off.

(** src/streaming.rs:107-109: the weights [ceil_f64] and [ratio - ceil_f64]. *)
Definition ceil_w (ratio j : f64) : f64 := fmin (frem1 j) ratio.
Definition floor_w (ratio j : f64) : f64 := fsub ratio (ceil_w ratio j).

(** src/streaming.rs:98-122: the loop [for i in 0.. { .. }].  Returns the sink,
    the iterator and [srclen].  (Overflow of the counter [i] after 2^64
    iterations is not modelled.) *)
Fixpoint stream_loop {l k ls ks} (fuel : nat) (i : nat) (ratio : f64) (end_ : Z)
  (sk : sink l k) (it : stream ls ks) (srclen : option N)
  : res (sink l k * stream ls ks * option N) :=
  match fuel with
  | O => OutOfFuel
  | S fuel =>
      let j := dst_pos ratio (offseti (sk_res sk)) i in
      ceil <- ceil_usize j ;;
      let floor := f64_as_usize j in
      if negb (floor <? end_) then Ok (sk, it, Some (N.of_nat i))
      else
        let ceil_f64 := ceil_w ratio j in
        let ceil_a := frame_from_f64 l k ceil_f64 in
        let floor_a := frame_from_f64 l k (floor_w ratio j) in
        '(o, it) <- next it ;;
        match o with
        | None => Ok (sk, it, srclen)
        | Some src =>
            src <- convert l k src ;;
            xf <- frame_mul src floor_a ;;
            buf <- buf_add end_ floor xf (sk_buf sk) ;;
            xc <- frame_mul src ceil_a ;;
            if ceil <? end_ then
              buf <- buf_add end_ ceil xc buf ;;
              stream_loop fuel (S i) ratio end_ (with_buf sk buf) it srclen
            else
              let r := mkResampler (frame_add (partial (sk_res sk)) xc) (offseti (sk_res sk)) in
              stream_loop fuel (S i) ratio end_ (with_res (with_buf sk buf) r) it srclen
        end
  end.

(** src/streaming.rs:74-79: ratio of destination to source frames; a stream
    without a rate is told the sink's rate. *)
Definition stream_ratio {l k ls ks} (sk : sink l k) (s : stream ls ks)
  : res (f64 * stream ls ks) :=
  match sample_rate s with
  | Some r => Ok (fdiv (sk_rate sk) r, s)
  | None => s <- set_sample_rate s (sk_rate sk) ;; Ok (flit 1 0, s)
  end.

(** src/streaming.rs:87-91: end of the destination range. *)
Definition dst_end {l k} (ratio : f64) (len : option N) (buf : list (frame l k)) : Z :=
  match len with
  | Some n => Z.min (f64_as_usize (fmul ratio (usize_as_f64 (Z.of_N n)))) (Z.of_nat (length buf))
  | None => Z.of_nat (length buf)
  end.

(** src/streaming.rs:81-84: [if let Some(dst) = buffer.get_mut(0) { *dst += partial }]. *)
Definition add_partial {l k} (p : frame l k) (buf : list (frame l k)) : list (frame l k) :=
  match buf with [] => [] | b :: bs => frame_add b p :: bs end.

(** src/streaming.rs:72-125 [Sink::stream].  Returns the sink and the iterator
    as it is when it gets dropped at the end of the call. *)
Definition sink_stream {l k ls ks} (fuel : nat) (sk : sink l k) (s : stream ls ks)
  : res (sink l k * stream ls ks) :=
  '(ratio, s) <- stream_ratio sk s ;;
  let sk := with_buf sk (add_partial (partial (sk_res sk)) (sk_buf sk)) in
  let srclen := slen s in
  let end_ := dst_end ratio (slen s) (sk_buf sk) in
  buf <- buf_clear end_ (sk_buf sk) ;;
  let sk := with_buf sk buf in
  '(sk, it, srclen) <- stream_loop fuel 0 ratio end_ sk s srclen ;;
  n <- of_opt UnwrapNone srclen ;;
  let r := sk_res sk in
  let off := fadd (offseti r) (fmul ratio (usize_as_f64 (Z.of_N n))) in
  Ok (with_res sk (mkResampler (partial r) off), it).
