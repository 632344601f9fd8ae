(** The embedding defined without reuse of previous windows. *)
From Coq Require Import List Arith.
From Verif.Base Require Import ListX.
Import ListNotations.

(** Window [i] of the series: its entry [j] is the sum of the [L] rows starting at [i + j]. *)
Definition window {V} (rowsum : list V -> V) (P L : nat) (rows : list V) (i : nat) : list V :=
  map (fun j => rowsum (slice (i + j) (i + j + L) rows)) (seq 0 (P - L)).
Definition embedding {V} (rowsum : list V -> V) (P L : nat) (rows : list V) : list (list V) :=
  map (window rowsum P L rows) (seq 0 (length rows - (P - 1))).
