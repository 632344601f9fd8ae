(** One column of the windows in single precision: the means of the chunks and what the main node makes of them. *)
From Coq Require Import List Arith.
From Verif.Base Require Import Float32.
From Verif.Pca Require Import Model.
Import ListNotations.

(** [sum_axis(Axis(0))] of ndarray for one column of a row-major array, pca/mod.rs:98-103, 205-211, pca/helper.rs:38-43, 121-127: the rows are added one after the other, from zero.
    Simplification: a column-major array or one of a single column is added in eight lanes instead. *)
Definition f_sum (l : list f32) : f32 := fold_left f_add l f_zero.

(** [mean_axis(Axis(0))] of ndarray for one column, pca/mod.rs:98-103, pca/helper.rs:38-43: the sum by the number of rows. *)
Definition f_mean (column : list f32) : f32 := f_div (f_sum column) (f_of_nat (length column)).

(** [global_means], pca/mod.rs:205-211, pca/helper.rs:121-127, for one column: a row of [column_means] and [n] is the mean and the number of rows of one node, in order of arrival.
    Simplification: [n.sum()] adds in eight lanes when there are at least eight; sums of numbers of rows up to 2^24 are exact in any order. *)
Definition f_global_mean (rows : list (nat * f32)) : f32 :=
  f_div (f_sum (map (fun r => f_mul (f_of_nat (fst r)) (snd r)) rows)) (f_sum (map (fun r => f_of_nat (fst r)) rows)).

(** The values of a column that helper thread [i] gets, pca/mod.rs:135-144; a thread without a chunk gets no [Setup]. *)
Definition rows_of (column : list f32) (threads i : nat) : list f32 :=
  match nth_error (assigned (length column) threads) i with
  | Some (lo, hi) => firstn (hi - lo) (skipn lo column)
  | None => []
  end.

(** What thread [i] contributes to [column_means] and [n], pca/helper.rs:36-44, 69-75. *)
Definition row_of (column : list f32) (threads i : nat) : nat * f32 :=
  let c := rows_of column threads i in (length c, f_mean c).

(** The mean of the column that the threads of a host find when the rows of [column_means] are those of the threads [order], pca/helper.rs:117-148. *)
Definition threads_mean (column : list f32) (threads : nat) (order : list nat) : f32 :=
  f_global_mean (map (row_of column threads) order).

(** What a host brings to the analysis of the hosts, pca/mod.rs:70-76: with one thread the mean of its rows (92-107), otherwise what its threads found (320-331, helper.rs:121-148), with its number of rows.
    Simplification: the threads count the rows in single precision, which is exact up to 2^24 rows. *)
Definition host_row (column : list f32) (threads : nat) (order : list nat) : nat * f32 :=
  (length column, if threads =? 1 then f_mean column else threads_mean column threads order).

(** The mean by which all hosts centre the column: [finalize] of the main host, pca/mod.rs:205-211, 232, when the means of the hosts [order] are there.  Host [h] has the rows [parts h], [threads h] threads, and its threads
    reported in the order [orders h]. *)
Definition cluster_mean (parts : nat -> list f32) (threads : nat -> nat) (orders : nat -> list nat) (order : list nat) : f32 :=
  f_global_mean (map (fun h => host_row (parts h) (threads h) (orders h)) order).
(** One machine is a cluster of one host. *)
Definition machine_mean (column : list f32) (threads : nat) (order : list nat) : f32 := cluster_mean (fun _ => column) (fun _ => threads) (fun _ => order) [0].
