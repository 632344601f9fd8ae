(** Specification vocabulary for edges: the walk of the series through the graph. *)
From Coq Require Import List Arith Bool Permutation.
From Verif.Base Require Import Params.
From Verif.Segmentation Require Import Model Spec.
From Verif.Edges Require Import Model.
Import ListNotations.

(** The node of a crossing (point id, segment), its cluster given by [label]. *)
Definition labelled (label : nat -> nat -> nat) (c : nat * nat) : node := {| n_segment := snd c; n_cluster := label (fst c) (snd c); n_from := fst c |}.
(** The nodes visited by the series, in time and travel order. *)
Definition walk (label : nat -> nat -> nat) (rate : nat) (ts : list transition) : list node := map (labelled label) (path rate ts).

(** The nodes of host [h] as they are added to the store: one bucket per segment in ascending order, each in any order. *)
Definition stored_by_segment (p : params) (h : nat) (nodes : list node) (store : list node) : Prop :=
  exists bucket, store = concat (map bucket (seq 0 (rate p))) /\
    forall s, s < rate p -> Permutation (bucket s) (if owner p s =? h then filter (fun x => n_segment x =? s) nodes else []).

(** The answers host [h] got: for every step of the walk that leaves [h], the node it leads to, and nothing else about nodes of the walk. *)
Definition answers_complete (p : params) (h : nat) (nodes : list node) (foreign : foreign_nodes) : Prop :=
  (forall x y, In (x, y) (pairs nodes) -> owner p (n_segment x) = h -> owner p (n_segment y) <> h ->
     Assoc.lookup key_eqb (n_from x, n_segment x) foreign = Some (n_from y, y)) /\
  (forall x, In x nodes -> owner p (n_segment x) = h -> (forall y, In (x, y) (pairs nodes) -> owner p (n_segment y) = h) ->
     Assoc.lookup key_eqb (n_from x, n_segment x) foreign = None).

(** The first transition crosses into the last segment and then into segment 0. *)
Definition starts_across (rate : nat) (nodes : list node) : Prop :=
  exists x y rest, nodes = x :: y :: rest /\ n_segment x = rate - 1 /\ n_segment y = 0 /\ n_from x = n_from y.
