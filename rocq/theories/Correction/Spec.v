(** What the hosts of a cluster should decide together, without the ring. *)
From Coq Require Import List Arith Bool.
From Verif.Base Require Import Params.
From Verif.Transition Require Import Spec.
From Verif.Segmentation Require Import Model Spec.
Import ListNotations.

(** A pair that turns clockwise over at least one segment border. *)
Definition turns_back (rate : nat) (t : pt * pt) : bool := negb (ccw rate (pseg (fst t)) (pseg (snd t)) <=? rate / 2).
(** The usable pairs of one host; those that start in its own segments are counted twice (see C53). *)
Definition usable_count (p : params) (part : nat -> list pt) (k : nat) : nat :=
  length (usable_pairs (rate p) (part k)) + length (filter (fun t => owner p (pseg (fst t)) =? k) (usable_pairs (rate p) (part k))).
Definition back_count (p : params) (part : nat -> list pt) (k : nat) : nat := length (filter (turns_back (rate p)) (pairs (part k))).
(** Are there, all hosts together, more clockwise pairs? *)
Definition should_mirror (p : params) (part : nat -> list pt) : bool :=
  list_sum (map (usable_count p part) (seq 0 (n_cluster_nodes p))) <? list_sum (map (back_count p part) (seq 0 (n_cluster_nodes p))).
