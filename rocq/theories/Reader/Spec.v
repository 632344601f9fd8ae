(** Specification vocabulary for the distribution of rows and the selection of columns. *)
From Coq Require Import List Arith ZArith.
From Verif.Base Require Import ListX.
Import ListNotations.

(** The rows that receiver [i] of [N] must get: its own [n/N] rows followed by the first [overlap] rows of its successor;
    the last receiver gets all remaining rows. *)
Definition partition_of {A} (N overlap i : nat) (rows : list A) : list A :=
  let w := length rows / N in
  if S i =? N then slice (i * w) (length rows) rows
  else slice (i * w) (S i * w + overlap) rows.

(** The column index the user's [column_end] stands for, in a row of [w] cells: 0 means all, negative counts from the end. *)
Definition column_limit (w : nat) (e : Z) : Z :=
  (if e =? 0 then Z.of_nat w else if 0 <? e then e else Z.of_nat w + e)%Z.

(** Where the rows handed to receiver [j] begin, for a share of [w] rows and an overlap of [o] rows: every receiver but the
    first advances by its share, or by one row more than the overlap when that is longer. *)
Definition part_start (w o j : nat) : nat :=
  match j with O => 0 | S j' => w + j' * Nat.max w (S o) end.

(** How many of [N] receivers are served when [n] rows are read: a receiver after the first is served when a row follows
    the rows of its predecessor. *)
Definition served (N w o n : nat) : nat :=
  S (length (filter (fun j => part_start w o j + o <? n) (seq 1 (N - 1)))).
