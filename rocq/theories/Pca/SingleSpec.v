(** What the theorems about the means in single precision say. *)
From Coq Require Import List Arith.
From Verif.Base Require Import Float32.
From Verif.Pca Require Import Model Spec Single.
From Coq Require Import Reals.
Import ListNotations.

(** The helper threads of a host, run to the end on [rows] rows, used the means of the threads in the order [order] and the factor [t]. *)
Definition complete_run (rows threads : nat) (order : list nat) (t : rtree) : Prop :=
  let cf := helper_threads threads (length (assigned rows threads)) in
  exists s, reachable cf any_run s /\ quiescent cf s /\ finals s = [(order, t)].

(** The unit roundoff of single precision and half the smallest positive number. *)
Definition u : R := (/ 2 ^ 24)%R.
Definition eta : R := (/ 2 ^ 150)%R.

(** The exact mean. *)
Definition sum_of (l : list f32) : R := fold_right (fun x a => (f_real x + a)%R) 0%R l.
Definition mean_of (l : list f32) : R := (sum_of l / INR (length l))%R.

(** The values are numbers of absolute value at most [bound]. *)
Definition within (bound : R) (l : list f32) : Prop := Forall (fun x => f_finite x = true /\ (Rabs (f_real x) <= bound)%R) l.

(** The hosts of a cluster of [n] with one thread each, run to the end without a factor that comes too early (C19), used the means of the hosts in the order [order] and the factor [t]. *)
Definition complete_cluster_run (n : nat) (ordered : bool) (order : list nat) (t : rtree) : Prop :=
  let cf := hosts n false ordered 1 in exists s, reachable cf (nobody_early cf) s /\ quiescent cf s /\ finals s = [(order, t)].
