(** Specification vocabulary for nodes, questions and answers. *)
From Coq Require Import List Arith Bool Permutation.
From Verif.Base Require Import Params.
From Verif.Segmentation Require Import Model Spec.
From Verif.Edges Require Import Model Spec.
From Verif.Nodes Require Import Model.
Import ListNotations.

(** The questions collected by the hosts ([asked k] at host [k]) ask for every step of the path that changes the host; every question is about a crossing of the path,
    and about the crossing that follows the previous one if the previous one is a crossing of the path. *)
Definition questions_cover (p : params) (crossed : list (nat * nat)) (asked : nat -> questions) : Prop :=
  (forall s a b, In s (pairs crossed) -> between_hosts p a b (as_question s) = true -> exists k, k < n_cluster_nodes p /\ In (as_question s) (questions_of (asked k) b a)) /\
  (forall k a b q, k < n_cluster_nodes p -> In q (questions_of (asked k) b a) ->
     between_hosts p a b q = true /\ In (q_id q, q_segment q) crossed /\ (In (q_prev_id q, q_prev_segment q) crossed -> In q (map as_question (pairs crossed)))).

(** The other hosts of host [b], in any order. *)
Definition other_hosts (p : params) (b : nat) (l : list nat) : Prop := NoDup l /\ forall a, In a l <-> a < n_cluster_nodes p /\ a <> b.

(** The crossings of a host: those of the path in its segments, each once, in any order. *)
Definition holds_crossings {C} (p : params) (h : nat) (crossed : list (nat * nat)) (store : list (crossing C)) : Prop :=
  Permutation (map (fun c => (c_id c, c_segment c)) store) (filter (fun c => owner p (snd c) =? h) crossed).

(** The step over the border between the partitions [k] and [k + 1], from the last crossing before it to the first crossing of the next partition, stays on one host,
    or no usable transition spans the border and the first usable transition of the next partition starts on another host than the one where the path arrived. *)
Definition border_asked (p : params) (part : nat -> list pt) (k : nat) : Prop :=
  forall a t, hd_error (part (k + 1)) = Some a -> hd_error (usable_pairs (rate p) (part (k + 1))) = Some t ->
    let before := last (usable_pairs (rate p) (part k ++ [a])) t in
    owner p (pseg (snd before)) = owner p ((pseg (fst t) + 1) mod rate p) \/
    (usable (rate p) (last (part k) a, a) = false /\ owner p (pseg (fst t)) <> owner p (pseg (snd before))).
