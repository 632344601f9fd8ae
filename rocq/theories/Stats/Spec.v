(** Specification vocabulary for column statistics. *)
From Coq Require Import List Arith Reals.
Import ListNotations.
Local Open Scope R_scope.

(** [x] occurs in column [j] of the rows. *)
Definition entry (rows : list (list R)) (j : nat) (x : R) : Prop := exists r, In r rows /\ nth_error r j = Some x.
Definition column_minimum (rows : list (list R)) (j : nat) (m : R) : Prop :=
  entry rows j m /\ forall x, entry rows j x -> m <= x.
Definition column_maximum (rows : list (list R)) (j : nat) (m : R) : Prop :=
  entry rows j m /\ forall x, entry rows j x -> x <= m.

(** Sample statistics of a list of numbers. *)
Definition Rsum (l : list R) : R := fold_right Rplus 0 l.
Definition mean (l : list R) : R := Rsum l / INR (length l).
Definition scatter (l : list R) : R := Rsum (map (fun x => (x - mean l) * (x - mean l)) l).
Definition sample_std (l : list R) : R := sqrt (scatter l / (INR (length l) - 1)).

(** What is added too much when the squared difference of two means gets the weight 1 instead of [n * m / (n + m)]. *)
Definition surplus (before b : list R) : R :=
  (mean b - mean before) * (mean b - mean before) * (1 - INR (length before) * INR (length b) / (INR (length before) + INR (length b))).
(** The same for parts that are merged one after the other. *)
Fixpoint excess_from (before : list R) (parts : list (list R)) : R :=
  match parts with [] => 0 | b :: t => surplus before b + excess_from (before ++ b) t end.
Definition excess (parts : list (list R)) : R := match parts with [] => 0 | a :: t => excess_from a t end.
