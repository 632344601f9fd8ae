(** What the theorem about missing measurements says. *)
From Coq Require Import List Arith Permutation.
From Verif.Base Require Import Res Params Float32.
From Verif.Reader Require Import Spec.
From Verif.Pca Require Import SingleSpec.
From Verif.Front Require Import Single.
Import ListNotations.

(** The value of row [r] in column [c] is no number. *)
Definition missing (rows : list (list f32)) (r c : nat) : Prop := exists row x, nth_error rows r = Some row /\ nth_error row c = Some x /\ f_nan x = true.
(** [atan2] of the platform: no number if one of its arguments is none. *)
Definition keeps_nan (atan2 : f32 -> f32 -> f32) : Prop := forall y x, f_nan y = true \/ f_nan x = true -> f_nan (atan2 y x) = true.

(** [N] hosts have the windows of their parts of the series, and the means of every channel have been found: the threads of each host reported, in some complete run, in the order [orders c h], the hosts in the order
    [order c]. *)
Definition centred_by (p : params) (dim N : nat) (rows : list (list f32)) (windows : nat -> list (list (list f32))) (threads : nat -> nat) (orders : nat -> nat -> list nat) (order : nat -> list nat) : Prop :=
  (forall h, h < N -> f_embed p dim (partition_of N (pattern_length p - 1) h rows) = Ok (windows h)) /\
  (forall h, h < N -> 1 <= threads h) /\
  (forall c h, c < dim -> h < N -> exists t, complete_run (length (windows h)) (threads h) (orders c h) t) /\
  (forall c, c < dim -> Permutation (order c) (seq 0 N)).
(** Three components of [width] entries and a matrix of three rows and columns for each of [dim] channels, with any entries. *)
Definition components_and_matrices (dim width : nat) (comps ms : list (list (list f32))) : Prop :=
  length comps = dim /\ length ms = dim /\ Forall (fun comp => length comp = 3 /\ Forall (fun row => length row = width) comp) comps /\ Forall (fun m => length m = 3 /\ Forall (fun row => length row = 3) m) ms.
