(** What transposition is supposed to achieve. *)
From Coq Require Import List Arith Bool Sorted.
From Verif.Edges Require Import Model.
Import ListNotations.

(** The host whose part of [n] rows contains time stamp [t]: [N] parts of [n / N] rows, the last takes the rest. *)
Definition in_part (n N own t : nat) : bool :=
  (own * (n / N) <=? t) && ((t <? S own * (n / N)) || (S own =? N)).
(** Ascending time stamps. *)
Definition ascending (l : list edge) : Prop := StronglySorted le (map to_id l).
(** All edges of the cluster. *)
Definition all_edges (N : nat) (edges : nat -> list edge) : list edge := concat (map edges (seq 0 N)).
