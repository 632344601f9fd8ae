(** What scoring is supposed to compute. *)
From Coq Require Import List Arith Bool.
From Verif.Base Require Import ListX.
From Verif.Edges Require Import Model.
Import ListNotations.

(** Nodes and edges are identified by segment and cluster. *)
Definition same_node (a b : node) : bool := (n_segment a =? n_segment b) && (n_cluster a =? n_cluster b).
Definition same_edge (a b : edge) : bool := same_node (fst a) (fst b) && same_node (snd a) (snd b).
Definition count {A} (f : A -> bool) (l : list A) : nat := length (filter f l).
(** Number of edges of the graph equal to [e]. *)
Definition multiplicity (edges : list edge) (e : edge) : nat := count (same_edge e) edges.
(** One representative of every class of equal edges. *)
Fixpoint distinct (edges : list edge) : list edge :=
  match edges with [] => [] | e :: r => e :: filter (fun x => negb (same_edge e x)) (distinct r) end.
(** Distinct edges leaving plus distinct edges entering (a self loop counts twice). *)
Definition degree (edges : list edge) (x : node) : nat :=
  count (fun e => same_node x (fst e)) (distinct edges) + count (fun e => same_node x (snd e)) (distinct edges).

(** Number of edges up to time [t]. *)
Definition edges_until (edges : list edge) (t : nat) : nat := count (fun e => to_id e <=? t) edges.
(** The edges of the window that begins at time [i], for query length [q] >= 1: those after [i] up to [i + q - 1] and the next edge, if any. *)
Definition window_edges (edges : list edge) (q i : nat) : list edge :=
  filter (fun e => (i <? to_id e) && (to_id e <=? i + q - 1)) edges ++ firstn 1 (filter (fun e => i + q - 1 <? to_id e) edges).
(** The same on host [k] of [N] with parts of length [d]: the next edge is seen only up to [q - 1] after the end of the part. *)
Definition cluster_window (edges : list edge) (N d q k i : nat) : list edge :=
  filter (fun e => (i <? to_id e) && (to_id e <=? i + q - 1)) edges
  ++ firstn 1 (filter (fun e => (i + q - 1 <? to_id e) && ((to_id e <=? S k * d + q - 1) || (S k =? N))) edges).
(** weight times degree minus one, in the whole graph. *)
Definition edge_term (all : list edge) (e : edge) : nat := multiplicity all e * (degree all (fst e) - 1).

Section Carry.
Context {F : Type} (value : list nat -> F).
(** A window without edges has the score of the window before. *)
Fixpoint carry (before : F) (windows : list (list nat)) : list F :=
  match windows with
  | [] => []
  | w :: r => let v := match w with [] => before | _ => value w end in v :: carry v r
  end.
End Carry.
