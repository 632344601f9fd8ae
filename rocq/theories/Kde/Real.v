(** The clustering of the crossings of a segment over the real numbers: node_estimation/mod.rs:52-87 and node_estimation/multi_kde.
    Simplifications: f32 is the real numbers (Kde/Float.v has the single precision version); the range check of utils/float_approx.rs:15-20 is left out. *)
From Coq Require Import List Arith Bool Reals.
From Flocq Require Import Core.Raux.
From Verif.Base Require Import Res ListX.
From Verif.Kde Require Import Model System.
Import ListNotations.
Local Open Scope R_scope.

(** [main.gt(plus)], multi_kde/mod.rs:92. *)
Definition r_gt (x y : R) : bool := if Rlt_dec y x then true else false.
(** [partial_cmp] in [argmin] (ndarray-stats), multi_kde/mod.rs:119. *)
Definition r_cmp (x y : R) : option comparison := Some (Rcompare x y).
(** [|p - x|], multi_kde/mod.rs:116-118. *)
Definition r_dist (p x : R) : R := Rabs (p - x).
(** [eq] of two [FloatApprox], utils/float_approx.rs:47-51. *)
Definition r_eq (x y : R) : bool := if Req_EM_T x y then true else false.
(** [column.min().unwrap()], actors/mod.rs:78, gaussian_kde.rs:45. *)
Definition r_min (l : list R) : res R := match l with [] => Panic UnwrapNone | x :: t => Ok (fold_left Rmin t x) end.
(** [column.max().unwrap()], actors/mod.rs:79, gaussian_kde.rs:46. *)
Definition r_max (l : list R) : res R := match l with [] => Panic UnwrapNone | x :: t => Ok (fold_left Rmax t x) end.
(** [Array::linspace] of ndarray as called in multi_kde/mod.rs:64 and gaussian_kde.rs:48. *)
Definition r_linspace (a b : R) (n : nat) : list R :=
  let step := if (1 <? n)%nat then (b - a) / INR (n - 1) else 0 in
  map (fun i => a + step * INR i) (seq 0 n).
(** multi_kde/mod.rs:63-64, gaussian_kde.rs:45-49. *)
Definition r_grid (resolution : nat) (column : list R) : res (list R) :=
  let! lo := r_min column in
  let! hi := r_max column in
  let padding := (hi - lo) * (1 / 10) in
  Ok (r_linspace (lo - padding) (hi + padding) resolution).

(** [sum], gaussian_kde.rs:111. *)
Definition r_sum (l : list R) : R := fold_left Rplus l 0.
(** [cov(1.)] of ndarray-stats for one variable, gaussian_kde.rs:99; aborts unless there are two observations. *)
Definition r_cov (l : list R) : res R :=
  let n := length l in
  if (n <? 2)%nat then Panic Explicit
  else let mean := r_sum l / INR n in
       let d := map (fun x => x - mean) l in
       Ok (r_sum (map (fun x => x * x) d) / (INR n - 1)).
(** [inv] of a 1x1 matrix, gaussian_kde.rs:100: fails for 0. *)
Definition r_inv (c : R) : res R := if Req_EM_T c 0 then Panic UnwrapNone else Ok (1 / c).
(** [cholesky(Lower)] of a 1x1 matrix, actors/helper.rs:42: fails unless positive. *)
Definition r_cholesky (p : R) : res R := if Rlt_dec 0 p then Ok (sqrt p) else Panic UnwrapNone.
(** [calculate_weights], gaussian_kde.rs:115-118. *)
Definition r_weight (n : nat) : R := 1 / INR n.
(** [scotts_factor] with [neff], gaussian_kde.rs:104-113; one dimension. *)
Definition r_factor (n : nat) : R :=
  let w := r_weight n in
  let neff := 1 / r_sum (repeat (w * w) n) in
  Rpower neff (-1 / INR 5).
(** [compute_covariance], gaussian_kde.rs:98-102. *)
Definition r_precision (column : list R) : res R :=
  let factor := r_factor (length column) in
  let! c := r_cov column in
  let! i := r_inv c in
  Ok (i / (factor * factor)).
(** actors/helper.rs:42-49, 60-84 for one dimension: the contributions of point [x] at the positions of [grid]. *)
Definition r_kernel (n : nat) (whitening : R) (grid : list R) (x : R) : list R :=
  let norm := Rpower (2 * PI) (INR 1 * -1 / 2) * whitening in
  map (fun g =>
    let residual := x * whitening - g * whitening in
    let arg := 0 + residual * residual in
    r_weight n * (exp (- arg / 2) * norm)) grid.
(** All answers of the threads for a column, gaussian_kde.rs:44-96. *)
Definition r_parts (resolution threads : nat) (column : list R) : res (list (list R)) :=
  let! grid := r_grid resolution column in
  let! p := r_precision column in
  let! whitening := r_cholesky p in
  let! rs := kde_ranges threads (length column) in
  let kernel i := match nth_error column i with Some x => r_kernel (length column) whitening grid x | None => repeat 0 resolution end in
  Ok (map (part_estimate 0 Rplus kernel resolution) rs).
(** The engine's clustering done column by column, actors/mod.rs:45-93 (in any order of messages: C50); order of peaks 1, multi_kde/mod.rs:162-169. *)
Definition r_sequential (resolution threads : nat) (columns : list (list R)) : res (list nat * list (list R)) :=
  sequential r_gt r_cmp r_dist r_eq (fun _ => true) 0 Rplus (r_grid resolution) 1 (r_parts resolution threads) columns.
(** [stack(Axis(0), coordinates)], node_estimation/mod.rs:58-60, and [data.slice(s![.., k..k + 1])], actors/mod.rs:49-51: the columns of the rows. *)
Definition stack_columns (rows : list (list R)) : res (list (list R)) :=
  match rows with
  | [] => Panic UnwrapNone
  | r :: _ => if forallb (fun x => length x =? length r)%nat rows then Ok (rows_of (length r) rows) else Panic UnwrapNone
  end.
(** [estimate_nodes], node_estimation/mod.rs:52-72, for at least two crossings: the labels; resolution 250 (actors/mod.rs:105, multi_kde/mod.rs:165). *)
Definition r_cluster (threads : nat) (rows : list (list R)) : res (list nat) :=
  let! columns := stack_columns rows in
  let! (labels, _) := r_sequential 250 threads columns in
  Ok labels.
