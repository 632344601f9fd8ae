(** The hand-over of the alignment matrix: src/training/rotation/mod.rs:55-66, 191-203 and 248-275. *)
From Coq Require Import List Arith Bool.
Import ListNotations.

(** The part of [Rotation] that decides about the matrix, rotation/mod.rs:20-30.  [applied]: how often [apply_rotation_matrix] ran;
    [done_]: how many [RotationDoneMessage]s the host sent to itself (both observers only). *)
Record host := { n_reduced : nat; broadcasted : bool; matrix_buffer : bool; applied : nat; done_ : nat }.

(** After [rotate], mod.rs:42-53: the first analysis is running. *)
Definition started : host := {| n_reduced := 1; broadcasted := false; matrix_buffer := false; applied := 0; done_ := 0 |}.

(** [PCADoneMessage], mod.rs:248-261, with [run_pca] 55-66 and [broadcast_rotation_matrix] 191-203.
    Returns the new state and the matrix messages sent, by receiver; [hosts]: number of hosts, [me]: own number (0 is the main host). *)
Definition pca_done (hosts channels me : nat) (h : host) : host * list nat :=
  if n_reduced h <? channels then
    ({| n_reduced := S (n_reduced h); broadcasted := broadcasted h; matrix_buffer := matrix_buffer h; applied := applied h; done_ := done_ h |}, [])
  else
    ({| n_reduced := n_reduced h; broadcasted := true; matrix_buffer := false; applied := applied h; done_ := done_ h |},
     (if me =? 0 then seq 0 hosts else []) ++ (if matrix_buffer h then [me] else [])).

(** [RotationMatrixMessage], mod.rs:263-275. *)
Definition matrix (h : host) : host :=
  if broadcasted h then
    {| n_reduced := n_reduced h; broadcasted := true; matrix_buffer := matrix_buffer h; applied := S (applied h); done_ := S (done_ h) |}
  else
    {| n_reduced := n_reduced h; broadcasted := false; matrix_buffer := true; applied := applied h; done_ := done_ h |}.

(** All hosts.  [pca_left p]: analyses host [p] has not finished yet (one per channel); [flying]: undelivered matrices, by receiver. *)
(** All hosts and the messages under way (telepathy; no code). *)
Record world := { hosts_ : nat -> host; pca_left : nat -> nat; flying : list nat }.
(** Change of one host (no code). *)
Definition set {A} (f : nat -> A) (i : nat) (a : A) : nat -> A := fun j => if j =? i then a else f j.
(** Before: every host has called [rotate], rotation/mod.rs:42-53. *)
Definition start (channels : nat) : world := {| hosts_ := fun _ => started; pca_left := fun _ => channels; flying := [] |}.

(** One event: an analysis finishes at a host, or any undelivered matrix is handled. *)
(** Delivery (no code): an analysis ends at a host (rotation/mod.rs:248-261) or a matrix arrives (263-275), in any order. *)
Inductive step (n channels : nat) : world -> world -> Prop :=
| finish : forall w p, p < n -> 0 < pca_left w p ->
    step n channels w
      {| hosts_ := set (hosts_ w) p (fst (pca_done n channels p (hosts_ w p)));
         pca_left := set (pca_left w) p (pca_left w p - 1);
         flying := flying w ++ snd (pca_done n channels p (hosts_ w p)) |}
| deliver : forall w p l r, flying w = l ++ p :: r ->
    step n channels w {| hosts_ := set (hosts_ w) p (matrix (hosts_ w p)); pca_left := pca_left w; flying := l ++ r |}.

(** All executions (specification; handlers of rotation/mod.rs:248-275). *)
Inductive reachable (n channels : nat) : world -> Prop :=
| at_start : reachable n channels (start channels)
| after : forall w w', reachable n channels w -> step n channels w w' -> reachable n channels w'.
