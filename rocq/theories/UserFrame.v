(** * UserFrame.v -- provided methods of [Frame] and [Blend], and the stream
    adaptors, for any implementor.

    [Frame.v], [Ops.v] and [Stream.v] fix the frame types of the crate.  The
    provided methods of the public traits also run on a user's frame type, which
    only brings [Default], [channels] and [channels_mut].  (Its channel type is one
    of the crate's: [Channel] is sealed, src/private.rs.)  [take] and [blend]
    run on any [Stream] of any frames. *)
From Coq Require Import ZArith NArith List Bool.
From Verif Require Import Rust Float Chan Frame Ops Stream Unwind Generic.
Import ListNotations.

(** src/frame.rs:25-61: a frame type of channel type [k].  [cf_mut] is what the
    slice returned by [channels_mut] shows, [cf_put] the frame after new values
    were written through it (a slice keeps its length). *)
Record chan_frame (k : ck) : Type := mkChanFrame {
  cf : Type;
  cf_default : cf;
  cf_channels : cf -> list (chan k);
  cf_mut : cf -> list (chan k);
  cf_put : cf -> list (chan k) -> cf
}.
Arguments cf {k}. Arguments cf_default {k}. Arguments cf_channels {k}. Arguments cf_mut {k}. Arguments cf_put {k}.

Section Provided.
  Context {k : ck} (F : chan_frame k).

  (** src/frame.rs:64-70 [Frame::from_f64]. *)
  Definition p_from_f64 (value : f64) : cf F :=
    let ret := cf_default F in cf_put F ret (map (fun _ => from_f64 k value) (cf_mut F ret)).
  (** src/frame.rs:73-79 [Frame::from_channel]. *)
  Definition p_from_channel (ch : chan k) : cf F :=
    let ret := cf_default F in cf_put F ret (map (fun _ => ch) (cf_mut F ret)).
  (** src/frame.rs:85-87 [Frame::from_mono]. *)
  Definition p_from_mono (f : frame Mono k) : res (cf F) :=
    c <- of_opt IndexOutOfBounds (nth_error (channels f) 0) ;; Ok (p_from_channel c).

  (** src/frame.rs:93-97: four zipped iterators; the values of [out] afterwards. *)
  Fixpoint lerp_zip (out this rhs t : list (chan k)) : res (list (chan k)) :=
    match out, this, rhs, t with
    | _ :: out, a :: this, b :: rhs, c :: t =>
        x <- c_lerp a b c ;; out <- lerp_zip out this rhs t ;; Ok (x :: out)
    | _, _, _, _ => Ok out
    end.
  (** src/frame.rs:91-99 [Frame::lerp]. *)
  Definition p_lerp (self rhs t : cf F) : res (cf F) :=
    let out := cf_default F in
    cs <- lerp_zip (cf_mut F out) (cf_channels F self) (cf_channels F rhs) (cf_channels F t) ;;
    Ok (cf_put F out cs).

  (** src/ops.rs:25-29: the loop over the zipped channels. *)
  Fixpoint mix_zip (mix : chan k -> chan k -> res (chan k)) (dst src : list (chan k)) : res (list (chan k)) :=
    match dst, src with
    | d :: dst, s :: src => x <- mix d s ;; dst <- mix_zip mix dst src ;; Ok (x :: dst)
    | _, _ => Ok dst
    end.
  (** src/ops.rs:23-31, the provided [Blend::mix_frames], for an operator with this [mix]. *)
  Definition p_mix_frames (mix : chan k -> chan k -> res (chan k)) (dst src : cf F) : res (cf F) :=
    cs <- mix_zip mix (cf_mut F dst) (cf_channels F src) ;; Ok (cf_put F dst cs).
End Provided.

(** The frame types of the crate ([channels_mut]: src/mono.rs:49-51,
    src/stereo.rs:49-51, src/surround.rs:63-65). *)
Definition crate_frame (l : layout) (k : ck) : chan_frame k :=
  mkChanFrame k (frame l k) (frame_default l k) channels channels
    (fun f cs => match vof_list (nchan l) cs with Ok g => g | _ => f end).

(** ** Adaptors *)

(** [TakeStream] and its iterator [core::iter::Take] (src/streaming.rs:185-213). *)
Definition g_take {X} (M : stream_type X) : stream_type X :=
  mkStreamType X (so M * N)
    (fun s => so_rate M (fst s))
    (fun s => Some (match so_len M (fst s) with Some a => N.min a (snd s) | None => snd s end))
    (fun s sr => let '(s', r) := so_set_rate M (fst s) sr in ((s', snd s), r))
    (fun s => if N.eqb (snd s) 0 then (s, Ok None)
              else let '(s', o) := so_next M (fst s) in ((s', N.pred (snd s)), o)).

(** [BlendStream] (src/streaming.rs:216-275): [zip] pulls left first, then right;
    then [O::mix_frames(a, b.convert())]. *)
Definition g_blend {X Y} (A : stream_type X) (B : stream_type Y) (conv : Y -> res X) (mixf : X -> X -> res X) : stream_type X :=
  mkStreamType X (so A * so B)
    (fun s => so_rate A (fst s))
    (fun s => match so_len A (fst s), so_len B (snd s) with
              | None, None => None
              | None, Some n | Some n, None => Some n
              | Some a, Some b => Some (N.min a b)
              end)
    (fun s sr =>
       let '(a, r) := so_set_rate A (fst s) sr in
       run (a, snd s) r (fun _ => let '(b, r) := so_set_rate B (snd s) sr in ((a, b), r)))
    (fun s =>
       let '(a, oa) := so_next A (fst s) in
       run (a, snd s) oa (fun oa =>
       match oa with
       | None => ((a, snd s), Ok None)
       | Some fa =>
           let '(b, ob) := so_next B (snd s) in
           run (a, b) ob (fun ob =>
           match ob with
           | None => ((a, b), Ok None)
           | Some fb =>
               run (a, b) (conv fb) (fun fb =>
               run (a, b) (mixf fa fb) (fun m => ((a, b), Ok (Some m))))
           end)
       end)).

(** src/streaming.rs:161-181 [Stream::blend]. *)
Definition g_blend_new {X Y} (A : stream_type X) (B : stream_type Y) (a : so A) (b : so B) : (so A * so B) * res unit :=
  let sr_a := so_rate A a in
  let sr_b := so_rate B b in
  if negb (opt_feq sr_a sr_b) then
    match sr_a, sr_b with
    | None, None => ((a, b), Ok tt)
    | None, Some sr => let '(a, r) := so_set_rate A a sr in ((a, b), r)
    | Some sr, None => let '(b, r) := so_set_rate B b sr in ((a, b), r)
    | Some _, Some _ => ((a, b), Panic AssertFailed)
    end
  else ((a, b), Ok tt).
