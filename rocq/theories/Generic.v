(** * Generic.v -- the provided methods of [Sink] for any implementor.

    [Stream.v] fixes the frame types of the crate, sinks that store their state
    and streams built from the crate's constructors.  The traits are public, so
    [Sink::stream] and [Sink::flush] also run with other implementors.  Here they
    are modelled over records of the methods they call.  As in [Unwind.v] the
    state at a panic is returned too. *)
From Coq Require Import ZArith NArith List Bool.
From Verif Require Import Rust Float Math Chan Frame Ops Stream Audio Unwind.
Import ListNotations.
Open Scope Z_scope.

(** What [Sink::stream] uses of a frame type (src/frame.rs:25-70): [Default],
    [from_f64], [AddAssign], [Mul].  A user's operators may panic. *)
Record frame_type : Type := mkFrameType {
  fr : Type;
  fr_default : fr;
  fr_from_f64 : f64 -> fr;
  fr_add : fr -> fr -> res fr;
  fr_mul : fr -> fr -> res fr
}.

(** The frame types of the crate. *)
Definition std_frame (l : layout) (k : ck) : frame_type :=
  mkFrameType (frame l k) (frame_default l k) (frame_from_f64 l k) (fun x y => Ok (frame_add x y)) frame_mul.

(** Any frame type: one of the crate's or a user's. *)
Inductive any_frame : Type := Std (l : layout) (k : ck) | Custom (T : frame_type).
Definition impl (a : any_frame) : frame_type := match a with Std l k => std_frame l k | Custom T => T end.

(** src/frame.rs:103-196, the provided [Frame::convert]: the crate's types are
    recognised by their [TypeId]; lines 191-194 panic for all others. *)
Definition convert_any (a b : any_frame) : fr (impl a) -> res (fr (impl b)) :=
  match a, b return fr (impl a) -> res (fr (impl b)) with
  | Std l1 k1, Std l2 k2 => fun x => @convert l1 k1 l2 k2 x
  | _, _ => fun _ => Panic ExplicitPanic
  end.

(** A [Stream] (src/streaming.rs:128-150) of frames [X], and its iterator. *)
Record stream_type (X : Type) : Type := mkStreamType {
  so : Type;
  so_rate : so -> option f64;
  so_len : so -> option N;
  so_set_rate : so -> f64 -> so * res unit;
  so_next : so -> so * res (option X)
}.
Arguments so {X}. Arguments so_rate {X}. Arguments so_len {X}. Arguments so_set_rate {X}. Arguments so_next {X}.

Definition std_stream (l : layout) (k : ck) : stream_type (frame l k) :=
  mkStreamType (frame l k) (stream l k) sample_rate slen set_rate_st next_st.

(** A [Sink] (src/streaming.rs:47-57): [sample_rate], and what can be read and
    written through [resampler] and [buffer]. *)
Record sink_type (F : Type) : Type := mkSinkType {
  si : Type;
  si_rate : si -> f64;
  si_partial : si -> F;
  si_offseti : si -> f64;
  si_set_partial : si -> F -> si;
  si_set_offseti : si -> f64 -> si;
  si_buffer : si -> list F;
  si_set_buffer : si -> list F -> si
}.
Arguments si {F}. Arguments si_rate {F}. Arguments si_partial {F}. Arguments si_offseti {F}. Arguments si_set_partial {F}.
Arguments si_set_offseti {F}. Arguments si_buffer {F}. Arguments si_set_buffer {F}.

Section Gen.
  Context (T : frame_type) (K : sink_type (fr T)) {X : Type} (M : stream_type X) (conv : X -> res (fr T)).

  (** [buffer[..end_][i] += x]. *)
  Fixpoint g_update (i : nat) (x : fr T) (buf : list (fr T)) : res (list (fr T)) :=
    match buf, i with
    | [], _ => Panic IndexOutOfBounds
    | b :: bs, O => b <- fr_add T b x ;; Ok (b :: bs)
    | b :: bs, S i => bs <- g_update i x bs ;; Ok (b :: bs)
    end.
  Definition g_buf_add (end_ i : Z) (x : fr T) (buf : list (fr T)) : res (list (fr T)) :=
    if (end_ <=? Z.of_nat (length buf)) && (i <? end_) then g_update (Z.to_nat i) x buf else Panic IndexOutOfBounds.
  Definition g_buf_clear (end_ : Z) (buf : list (fr T)) : res (list (fr T)) :=
    if end_ <=? Z.of_nat (length buf)
    then Ok (repeat (fr_default T) (Z.to_nat end_) ++ skipn (Z.to_nat end_) buf)
    else Panic IndexOutOfBounds.
  Definition g_dst_end (ratio : f64) (len : option N) (buf : list (fr T)) : Z :=
    match len with
    | Some n => Z.min (f64_as_usize (fmul ratio (usize_as_f64 (Z.of_N n)))) (Z.of_nat (length buf))
    | None => Z.of_nat (length buf)
    end.
  (** src/streaming.rs:81-84. *)
  Definition g_add_partial (p : fr T) (buf : list (fr T)) : res (list (fr T)) :=
    match buf with [] => Ok [] | b :: bs => b <- fr_add T b p ;; Ok (b :: bs) end.

  (** src/streaming.rs:98-122. *)
  Fixpoint g_loop (fuel : nat) (i : nat) (ratio : f64) (end_ : Z) (sk : si K) (it : so M) (srclen : option N)
    : (si K * so M) * res (option N) :=
    match fuel with
    | O => ((sk, it), OutOfFuel)
    | S fuel =>
        let j := dst_pos ratio (si_offseti K sk) i in
        run (sk, it) (ceil_usize j) (fun ceil =>
        let floor := f64_as_usize j in
        if negb (floor <? end_) then ((sk, it), Ok (Some (N.of_nat i)))
        else
          let ceil_a := fr_from_f64 T (ceil_w ratio j) in
          let floor_a := fr_from_f64 T (floor_w ratio j) in
          let '(it, o) := so_next M it in
          run (sk, it) o (fun o =>
          match o with
          | None => ((sk, it), Ok srclen)
          | Some src =>
              run (sk, it) (conv src) (fun src =>
              run (sk, it) (fr_mul T src floor_a) (fun xf =>
              run (sk, it) (g_buf_add end_ floor xf (si_buffer K sk)) (fun buf =>
              let sk := si_set_buffer K sk buf in
              run (sk, it) (fr_mul T src ceil_a) (fun xc =>
              if ceil <? end_ then
                run (sk, it) (g_buf_add end_ ceil xc (si_buffer K sk)) (fun buf =>
                g_loop fuel (S i) ratio end_ (si_set_buffer K sk buf) it srclen)
              else
                run (sk, it) (fr_add T (si_partial K sk) xc) (fun p =>
                g_loop fuel (S i) ratio end_ (si_set_partial K sk p) it srclen)))))
          end))
    end.

  (** src/streaming.rs:72-125 [Sink::stream]. *)
  Definition g_stream (fuel : nat) (sk : si K) (s : so M) : (si K * so M) * res unit :=
    let '(s, r) :=
      match so_rate M s with
      | Some r => (s, Ok (fdiv (si_rate K sk) r))
      | None => let '(s, r) := so_set_rate M s (si_rate K sk) in run s r (fun _ => (s, Ok (flit 1 0)))
      end in
    run (sk, s) r (fun ratio =>
    run (sk, s) (g_add_partial (si_partial K sk) (si_buffer K sk)) (fun buf =>
    let sk := si_set_buffer K sk buf in
    let srclen := so_len M s in
    let end_ := g_dst_end ratio (so_len M s) (si_buffer K sk) in
    run (sk, s) (g_buf_clear end_ (si_buffer K sk)) (fun buf =>
    let sk := si_set_buffer K sk buf in
    let '((sk, it), r) := g_loop fuel 0 ratio end_ sk s srclen in
    run (sk, it) r (fun srclen =>
    run (sk, it) (of_opt UnwrapNone srclen) (fun n =>
    ((si_set_offseti K sk (fadd (si_offseti K sk) (fmul ratio (usize_as_f64 (Z.of_N n)))), it), Ok tt)))))).

  (** src/streaming.rs:61-68 [Sink::flush]. *)
  Definition g_flush (sk : si K) : si K * res unit :=
    let fr := frem1 (si_offseti K sk) in
    if flt eps64 fr || flt fr (fneg eps64) then
      let i := f64_as_usize (si_offseti K sk) in
      if i <? Z.of_nat (length (si_buffer K sk)) then
        run sk (update_at (Z.to_nat i) (fun _ => si_partial K sk) (si_buffer K sk)) (fun buf =>
        (si_set_buffer K sk buf, Ok tt))
      else (sk, Panic IndexOutOfBounds)
    else (sk, Ok tt).
End Gen.

(** ** [Audio] of any frame type: src/audio.rs:23-28. *)
Record any_buffer (T : frame_type) : Type := mkBuffer { b_rate : f64; b_frames : list (fr T) }.
Arguments mkBuffer {T}. Arguments b_rate {T}. Arguments b_frames {T}.

(** [AudioSink] (src/audio.rs:388-410): the stored state. *)
Record sink_state (F : Type) : Type := mkState { ss_rate : f64; ss_buf : list F; ss_partial : F; ss_off : f64 }.
Arguments mkState {F}. Arguments ss_rate {F}. Arguments ss_buf {F}. Arguments ss_partial {F}. Arguments ss_off {F}.
Definition audio_sink_type (F : Type) : sink_type F :=
  mkSinkType F (sink_state F) ss_rate ss_partial ss_off
    (fun s p => mkState (ss_rate s) (ss_buf s) p (ss_off s)) (fun s o => mkState (ss_rate s) (ss_buf s) (ss_partial s) o)
    ss_buf (fun s b => mkState (ss_rate s) b (ss_partial s) (ss_off s)).

(** src/audio.rs:276-317 [extend] and [extend_internal]; [bytes] is the size of a
    frame.  As in [extend_st]: the buffer and the stream the caller is left with. *)
Definition g_extend (T : frame_type) (bytes : Z) {X} (M : stream_type X) (conv : X -> res (fr T))
  (fuel : nat) (self : any_buffer T) (s : so M) : (any_buffer T * so M) * res unit :=
  let temp_move := mkBuffer (flit 0 0) [] in
  let rate := b_rate self in
  run (temp_move, s) (of_opt UnwrapNone (so_len M s)) (fun srclen =>
  let dstlen :=
    match so_rate M s with
    | Some src_sr => f64_as_usize (ceil (fdiv (fmul rate (usize_as_f64 (Z.of_N srclen))) src_sr))
    | None => Z.of_N srclen
    end in
  let orig := b_frames self in
  run (temp_move, s) (checked 0 usize_max (Z.of_nat (length orig) + dstlen)) (fun new_len =>
  if isize_max <? new_len * bytes then ((temp_move, s), Panic CapacityOverflow)
  else
    let K := audio_sink_type (fr T) in
    let sk := mkState rate (repeat (fr_default T) (Z.to_nat dstlen)) (fr_default T) (flit 0 0) in
    let '((sk, it), r) := g_stream T K M conv fuel sk s in
    run (temp_move, it) r (fun _ =>
    let '(sk, r) := g_flush T K sk in
    run (temp_move, it) r (fun _ =>
    ((mkBuffer rate (orig ++ ss_buf sk), it), Ok tt))))).
