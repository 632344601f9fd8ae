(** What the contributions are supposed to be. *)
From Coq Require Import List Arith Bool ZArith Reals Permutation.
From Verif.Base Require Import Float32 Float32Proofs.
From Verif.Edges Require Import Model.
From Verif.Kde Require Import Float.
From Verif.Transposition Require Import Spec.
From Verif.Contribution Require Import Model.
Import ListNotations.
Local Open Scope nat_scope.

(** A clustering of the crossings of one segment: a label for every crossing, a centre with [w] coordinates for every label, every label used. *)
Record clustered := { labels : list nat; centers : list (list f32) }.
Definition well_clustered (w : nat) (c : clustered) : Prop :=
  labels c <> [] /\ (forall l, In l (labels c) <-> l < length (centers c)) /\
  (forall r, In r (centers c) -> length r = w /\ Forall (fun x => f_hashable x = true) r) /\ (Z.of_nat (length (labels c)) <= 2 ^ 24)%Z.
(** Coordinate [d] of centre [l]; two coordinates agree. *)
Definition coordinate (c : clustered) (l d : nat) : option f32 := match nth_error (centers c) l with Some r => nth_error r d | None => None end.
Definition agree (a b : option f32) : bool := match a, b with Some x, Some y => f_eq x y | _, _ => false end.
(** The number of crossings whose centre agrees with centre [k] in dimension [d]. *)
Definition agreeing (c : clustered) (k d : nat) : nat := length (filter (fun l => agree (coordinate c k d) (coordinate c l d)) (labels c)).
(** The share of the other crossings, in single precision. *)
Definition rarity (c : clustered) (k d : nat) : R := (rnd (1 - rnd (INR (agreeing c k d) / INR (length (labels c)))))%R.

(** [x] is a sum of the numbers of [l] in single precision, in some order and with some parentheses (and zeros added). *)
Inductive adds_up : list f32 -> f32 -> Prop :=
| add_none : adds_up [] f_zero
| add_one : forall x, adds_up [x] x
| add_two : forall l1 l2 l x y, Permutation l (l1 ++ l2) -> adds_up l1 x -> adds_up l2 y -> adds_up l (f_add x y).

(** The nodes of segment [s]: one for every crossing, with its label. *)
Definition nodes_match (s : nat) (c : clustered) (nodes : list node) : Prop := Forall2 (fun x l => n_segment x = s /\ n_cluster x = l) nodes (labels c).
(** All crossings of the segment agree in dimension [d]. *)
Definition uniform (c : clustered) (d : nat) : Prop := forall k l, k < length (centers c) -> l < length (centers c) -> agree (coordinate c k d) (coordinate c l d) = true.
(** Segment, clustering and nodes; the message that is sent for them. *)
Definition segment_record := (nat * clustered * list node)%type.
Definition message (m : segment_record) : list node * list (list f32) * list nat := let '(_, c, nodes) := m in (nodes, centers c, label_counts (labels c)).
Definition proper (w : nat) (ms : list segment_record) : Prop :=
  ms <> [] /\ NoDup (map (fun m => fst (fst m)) ms) /\ forall s c nodes, In (s, c, nodes) ms -> well_clustered w c /\ nodes_match s c nodes.
(** Node [x] belongs to the segment with clustering [c]. *)
Definition belongs (ms : list segment_record) (x : node) (c : clustered) : Prop := exists nodes, In (n_segment x, c, nodes) ms /\ n_cluster x < length (centers c).

(** Row [i] of [out] is that of the last window up to [i] that is not blank (or the very first row). *)
Definition carries (blank : list f32 -> bool) (rows out : list (list f32)) : Prop :=
  length out = length rows /\ forall i r, nth_error out i = Some r -> exists j, j <= i /\ nth_error rows j = Some r /\ (blank r = false \/ j = 0) /\
  forall k r', j < k <= i -> nth_error rows k = Some r' -> blank r' = true.
(** [t] is the value at position [len / 2] of the sorted list. *)
Definition upper_median (l : list f32) (t : f32) : Prop :=
  In t l /\ length (filter (fun x => f_gt t x) l) <= length l / 2 < length (filter (fun x => negb (f_gt x t)) l).
(** Dimension [d] of row [i]. *)
Definition value_at (rows : list (list f32)) (i d : nat) : option f32 := match nth_error rows i with Some r => nth_error r d | None => None end.
(** What the edges of a single machine satisfy (C41, C42), and their first nodes are known. *)
Definition proper_edges (ms : list segment_record) (edges : list edge) (num q : nat) : Prop :=
  ascending edges /\ (forall e, In e edges -> to_id e < num - 1) /\ (edges <> [] -> exists e, In e edges /\ to_id e <> 0) /\ 1 <= q < num /\
  (Z.of_nat (length edges) <= 2 ^ 24)%Z /\ forall e, In e edges -> exists c, belongs ms (fst e) c.
(** Equal numbers at equal places. *)
Fixpoint same_list {A} (eq : A -> A -> bool) (l r : list A) : bool :=
  match l, r with [], [] => true | x :: l, y :: r => eq x y && same_list eq l r | _, _ => false end.
Definition same_table : list (list f32) -> list (list f32) -> bool := same_list (same_list f_eq).
