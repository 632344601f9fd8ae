(** Specification vocabulary for the statistics stage. *)
From Coq Require Import List Arith ZArith Reals.
From Verif.Base Require Import ListX Params.
From Verif.Topology Require Import Spec.
From Verif.Reader Require Import Spec.
From Verif.Stats Require Import Spec.
Import ListNotations.

(** The numbers of a record in the columns the user selected; [width]: cells per record, [val]: the number a cell stands for. *)
Definition selected {cell} (p : params) (width : nat) (val : cell -> R) (r : list cell) : list R :=
  map val (slice (column_start p) (Z.to_nat (column_limit width (column_end p))) r).

(** [mn] and [mx] are the minimum and the maximum of each of the [w] columns. *)
Definition column_extremes (rows : list (list R)) (w : nat) (mn mx : list R) : Prop :=
  length mn = w /\ length mx = w /\
  forall j, j < w -> exists v u, nth_error mn j = Some v /\ nth_error mx j = Some u
    /\ column_minimum rows j v /\ column_maximum rows j u.

(** Every host knows every other host under its index. *)
Definition introduced (N : nat) (peers : nat -> list (nat * nat)) : Prop :=
  forall h, h < N -> all_but h N (map fst (peers h)) /\ forall j a, In (j, a) (peers h) -> a = j.
