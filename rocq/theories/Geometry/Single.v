(** The segment of a point in single precision: src/data_store/utils.rs:3-7.  Geometry/Model.v has the same function over the real numbers. *)
From Coq Require Import ZArith Arith Bool.
From Flocq Require Import IEEE754.BinarySingleNaN.
From Verif.Base Require Import Res Float32.
Local Open Scope Z_scope.

(** [std::f32::consts::PI], data_store/utils.rs:1: the bits 40490fdb. *)
Definition f_pi : f32 := f_of 13176795 (-22).
(** [2.0 * PI], data_store/utils.rs:4-5. *)
Definition f_two_pi : f32 := f_mul (f_of 2 0) f_pi.
(** [x.floor() as usize], data_store/utils.rs:6: the cast gives 0 for NaN and for everything below 1, and 2^64 - 1 for everything too large.  (Below 0 [Btrunc], which
    rounds towards 0, differs from [floor], but the cast gives 0 for both.) *)
Definition floor_usize (x : f32) : Z :=
  match x with
  | B754_nan => 0
  | B754_infinity true => 0
  | B754_infinity false => 2 ^ 64 - 1
  | _ => Z.max 0 (Z.min (2 ^ 64 - 1) (Btrunc x))
  end.
(** [get_segment_id], data_store/utils.rs:3-7; [%] aborts for 0. *)
Definition f_segment_id (angle : f32) (n_segments : nat) : res nat :=
  let positive_angle := f_add f_two_pi angle in
  let segment_size := f_div f_two_pi (f_of_nat n_segments) in
  if (n_segments =? 0)%nat then Panic DivByZero
  else Ok (Z.to_nat (floor_usize (f_div positive_angle segment_size) mod Z.of_nat n_segments)).
