(** Rust's [f32]: IEEE 754 single precision, round to nearest even; the payload of NaN is not modelled. *)
From Coq Require Import ZArith Bool List Reals.
From Flocq Require Import IEEE754.BinarySingleNaN Core.
From Verif.Base Require Import Res.
Import ListNotations.

(** The type [f32] of the engine (parameters, data, coordinates and scores), e.g. data_store/point.rs:10-16, scoring/helper.rs:10-17: IEEE-754 binary32 with one NaN. *)
Definition f32 := binary_float 24 128.
(** Side condition of the format (no code; the precision 24 is that of [f32]). *)
Definition prec_pos : Prec_gt_0 24 := eq_refl.
(** Side condition of the format (no code; see [f32]). *)
Definition prec_max : Prec_lt_emax 24 128 := eq_refl.
(** The literal [0.0], e.g. scoring/helper.rs:24. *)
Definition f_zero : f32 := B754_zero false.
(** [+] on f32, e.g. scoring/helper.rs:24-33; all operations round to nearest, ties to even. *)
Definition f_add : f32 -> f32 -> f32 := Bplus (prec_gt_0_ := prec_pos) (prec_lt_emax_ := prec_max) mode_NE.
(** [-] on f32, e.g. scoring/mod.rs:190-197. *)
Definition f_sub : f32 -> f32 -> f32 := Bminus (prec_gt_0_ := prec_pos) (prec_lt_emax_ := prec_max) mode_NE.
(** [*] on f32, e.g. utils/float_approx.rs:15-20. *)
Definition f_mul : f32 -> f32 -> f32 := Bmult (prec_gt_0_ := prec_pos) (prec_lt_emax_ := prec_max) mode_NE.
(** [/] on f32, e.g. scoring/helper.rs:34. *)
Definition f_div : f32 -> f32 -> f32 := Bdiv (prec_gt_0_ := prec_pos) (prec_lt_emax_ := prec_max) mode_NE.
(** Negation of f32, e.g. scoring/helper.rs:65. *)
Definition f_neg : f32 -> f32 := @Bopp 24 128.
(** [f32::abs], e.g. multi_kde/mod.rs:118. *)
Definition f_abs : f32 -> f32 := @Babs 24 128.
(** [m * 2^e], rounded. *)
(** [as f32] on an integer, rounded. *)
Definition f_of (m e : Z) : f32 := binary_normalize 24 128 prec_pos prec_max mode_NE m e false.
(** [x as f32] for [x : usize]. *)
(** [as f32] on a [usize], e.g. scoring/helper.rs:24-33. *)
Definition f_of_nat (n : nat) : f32 := f_of (Z.of_nat n) 0.
(** [partial_cmp]; [>]; [==]. *)
(** [partial_cmp] on f32, e.g. utils/float_approx.rs:65-69; NaN is not comparable. *)
Definition f_cmp : f32 -> f32 -> option comparison := @Bcompare 24 128.
(** [gt], e.g. multi_kde/mod.rs:91. *)
Definition f_gt (a b : f32) : bool := match f_cmp a b with Some Gt => true | _ => false end.
(** [eq], utils/float_approx.rs:47-51. *)
Definition f_eq (a b : f32) : bool := match f_cmp a b with Some Eq => true | _ => false end.
(** Neither NaN nor infinite; decides [to_isize], utils/float_approx.rs:15-20. *)
Definition f_finite : f32 -> bool := @is_finite 24 128.
(** [f32::NAN] of a division 0/0, e.g. scoring/helper.rs:34. *)
Definition f_nan : f32 -> bool := @is_nan 24 128.
(** The real number of a finite [f32]. *)
(** The real number a finite f32 stands for (specification, no code). *)
Definition f_real : f32 -> R := @B2R 24 128.

(** [max] and [min] of ndarray-stats 0.5 (QuantileExt): errors for an empty array and for values that cannot be compared. *)
(** [min]/[max] of ndarray-stats, scoring/mod.rs:190-197: None when a comparison is undefined or there is no element. *)
Definition f_extreme (c : comparison) (l : list f32) : res f32 :=
  match l with
  | [] => Panic EmptyInput
  | first :: _ => foldM (fun acc x => match f_cmp x acc with
                                      | None => Panic UnwrapNone
                                      | Some o => Ok (match o, c with Gt, Gt | Lt, Lt => x | _, _ => acc end) end) l first
  end.
(** [max] of ndarray-stats, scoring/mod.rs:190-197. *)
Definition f_max := f_extreme Gt.
(** [min] of ndarray-stats, scoring/mod.rs:190-197. *)
Definition f_min := f_extreme Lt.
