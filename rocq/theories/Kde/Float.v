(** The clustering in single precision.  [exp] and [powf] of the Rust standard library are parameters: any functions. *)
From Coq Require Import List Arith Bool ZArith.
From Flocq Require Import IEEE754.BinarySingleNaN.
From Verif.Base Require Import Res Float32.
From Verif.Kde Require Import Model System.
Import ListNotations.
Local Open Scope nat_scope.

(** [|p - x|], mod.rs:116-118. *)
Definition f_dist (p x : f32) : f32 := f_abs (f_sub p x).
(** [approximate(8)] does not abort, utils/float_approx.rs:15-20: [80 x] lies in the range of [isize] (num-traits: [>= -2^63] and [< 2^63]). *)
Definition f_hashable (x : f32) : bool :=
  let y := f_mul x (f_of 80 0) in
  match f_cmp y (f_of 1 63), f_cmp y (f_neg (f_of 1 63)) with Some Lt, Some (Gt | Eq) => true | _, _ => false end.
(** [Array::linspace(a, b, n)] of ndarray 0.15: [a + step * i]. *)
(** [Array::linspace] of ndarray as called in multi_kde/mod.rs:64 and gaussian_kde.rs:48. *)
Definition linspace (a b : f32) (n : nat) : list f32 :=
  let step := if 1 <? n then f_div (f_sub b a) (f_of_nat (n - 1)) else f_zero in
  map (fun i => f_add a (f_mul step (f_of_nat i))) (seq 0 n).
(** The literal 0.1. *)
(** The literal [0.1], multi_kde/mod.rs:63, gaussian_kde.rs:47. *)
Definition f_tenth : f32 := f_of 13421773 (-27).
(** mod.rs:63-64, gaussian_kde.rs:45-49; the resolution is 250 (mod.rs:165, actors/mod.rs:105). *)
Definition f_grid (resolution : nat) (column : list f32) : res (list f32) :=
  let! lo := f_min column in
  let! hi := f_max column in
  let padding := f_mul (f_sub hi lo) f_tenth in
  Ok (linspace (f_sub lo padding) (f_add hi padding) resolution).

(** [cov(1.)] of ndarray-stats 0.5 for one variable: aborts unless there are two observations.  The library adds in an order of its own; here from left to right. *)
(** [sum] and [dot], gaussian_kde.rs:99, 111: from the left. *)
Definition f_sum (l : list f32) : f32 := fold_left f_add l f_zero.
(** [cov(1.)] of ndarray-stats for one variable, gaussian_kde.rs:99. *)
Definition f_cov (l : list f32) : res f32 :=
  let n := length l in
  if n <? 2 then Panic Explicit
  else let mean := f_div (f_sum l) (f_of_nat n) in
       let d := map (fun x => f_sub x mean) l in
       Ok (f_div (f_sum (map (fun x => f_mul x x) d)) (f_sub (f_of_nat n) (f_of 1 0))).
(** [inv().unwrap()] of a 1x1 matrix: LAPACK reports a zero pivot. *)
(** [inv] of a 1x1 matrix, gaussian_kde.rs:100: fails for 0. *)
Definition f_inv (c : f32) : res f32 := if f_eq c f_zero then Panic UnwrapNone else Ok (f_div (f_of 1 0) c).
(** [cholesky(Lower).unwrap()] of a 1x1 matrix: the root of a positive number.  (It runs when a helper thread starts; the failure ends that thread.) *)
(** [cholesky(Lower)] of a 1x1 matrix, actors/helper.rs:42: fails unless positive. *)
Definition f_cholesky (p : f32) : res f32 := if f_gt p f_zero then Ok (Bsqrt (prec_gt_0_ := prec_pos) (prec_lt_emax_ := prec_max) mode_NE p) else Panic UnwrapNone.

Section Kernel.
Context (exp : f32 -> f32) (powf : f32 -> f32 -> f32).
(** 2 * PI. *)
(** [2. * PI], actors/helper.rs:45. *)
Definition f_2pi : f32 := f_of 13176795 (-21).
(** [compute_covariance] with [scotts_factor], [neff], [calculate_weights], gaussian_kde.rs:98-118, one dimension. *)
Definition f_weight (n : nat) : f32 := f_div (f_of 1 0) (f_of_nat n).
(** [scotts_factor], gaussian_kde.rs:104-108 with 110-118. *)
Definition f_factor (n : nat) : f32 :=
  let w := f_weight n in
  let neff := f_div (f_of 1 0) (f_sum (repeat (f_mul w w) n)) in
  powf neff (f_div (f_of (-1) 0) (f_of_nat 5)).
(** [compute_covariance], gaussian_kde.rs:98-102. *)
Definition f_precision (column : list f32) : res f32 :=
  let factor := f_factor (length column) in
  let! c := f_cov column in
  let! i := f_inv c in
  Ok (f_div i (f_mul factor factor)).
(** helper.rs:42-49, 60-84 for one dimension: the contributions of point [x] at the positions of [grid]. *)
Definition f_kernel (n : nat) (whitening : f32) (grid : list f32) (x : f32) : list f32 :=
  let norm := f_mul (powf f_2pi (f_div (f_mul (f_of_nat 1) (f_of (-1) 0)) (f_of 2 0))) whitening in
  map (fun g =>
    let residual := f_sub (f_mul x whitening) (f_mul g whitening) in
    let arg := f_add f_zero (f_mul residual residual) in
    f_mul (f_weight n) (f_mul (exp (f_div (f_neg arg) (f_of 2 0))) norm)) grid.
(** All responses for a column, gaussian_kde.rs:44-96. *)
Definition f_parts (resolution threads : nat) (column : list f32) : res (list (list f32)) :=
  let! grid := f_grid resolution column in
  let! p := f_precision column in
  let! whitening := f_cholesky p in
  let! rs := kde_ranges threads (length column) in
  let kernel i := match nth_error column i with Some x => f_kernel (length column) whitening grid x | None => repeat f_zero resolution end in
  Ok (map (part_estimate f_zero f_add kernel resolution) rs).
(** The clustering actors of the engine: resolution 250, order of peaks 1 (mod.rs:162-169). *)
Definition f_run (resolution threads : nat) (columns : list (list f32)) (schedule : list nat) : res system :=
  run f_gt f_cmp f_dist f_eq f_hashable f_zero f_add (f_grid resolution) 1 (f_parts resolution threads) columns schedule.
(** The engine's clustering done column by column, actors/mod.rs:45-93 (reference for System.v). *)
Definition f_sequential (resolution threads : nat) (columns : list (list f32)) : res (list nat * list (list f32)) :=
  sequential f_gt f_cmp f_dist f_eq f_hashable f_zero f_add (f_grid resolution) 1 (f_parts resolution threads) columns.
End Kernel.
