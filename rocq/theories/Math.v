(** * Math.v -- model of src/math.rs *)
From Coq Require Import ZArith Bool.
From Verif Require Import Rust Float.
Open Scope Z_scope.

(** [f64::EPSILON] and [f32::EPSILON]. *)
Definition eps64 : f64 := flit 1 (-52).
Definition eps32 : f32 := flit 1 (-23).

(** src/math.rs:51-58 [ceilh]. *)
Definition ceilh (input : f32) : f32 :=
  let fract := frem1 input in
  let whole := fsub input fract in
  if flt eps32 fract then fadd whole (flit 1 0) else whole.

(** src/math.rs:62-69 [ceil]. *)
Definition ceil (input : f64) : f64 :=
  let fract := frem1 input in
  let whole := fsub input fract in
  if flt eps64 fract then fadd whole (flit 1 0) else whole.

(** src/math.rs:14-20 [floorh_i16]. *)
Definition floorh_i16 (input : f32) : i16 :=
  as_sint W16 (if flt input (flit 0 0) then fcast (-32768) 32767 (fneg (ceilh (fneg input)))
               else fcast (-32768) 32767 input).

(** src/math.rs:23-29 [floorh_i8]. *)
Definition floorh_i8 (input : f32) : i8 :=
  as_sint W8 (if flt input (flit 0 0) then fcast (-128) 127 (fneg (ceilh (fneg input)))
              else fcast (-128) 127 input).

(** src/math.rs:32-38 [floor_i16]. *)
Definition floor_i16 (input : f64) : i16 :=
  as_sint W16 (if flt input (flit 0 0) then fcast (-32768) 32767 (fneg (ceil (fneg input)))
               else fcast (-32768) 32767 input).

(** src/math.rs:41-47 [floor_i8]. *)
Definition floor_i8 (input : f64) : i8 :=
  as_sint W8 (if flt input (flit 0 0) then fcast (-128) 127 (fneg (ceil (fneg input)))
              else fcast (-128) 127 input).

(** [x as usize] (64-bit target). *)
Definition f64_as_usize (x : f64) : Z := fcast 0 usize_max x.

(** src/math.rs:73-80 [ceil_usize]; [whole += 1] is a checked usize addition. *)
Definition ceil_usize (input : f64) : res Z :=
  let fract := frem1 input in
  let whole := f64_as_usize input in
  if flt eps64 fract then checked 0 usize_max (whole + 1) else Ok whole.
