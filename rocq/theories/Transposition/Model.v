(** Edges are handed to the owner of their time stamp: src/training/transposition/mod.rs; data_store/mod.rs: wipe_graph, add_materialized_edges, sort_edges. *)
From Coq Require Import List Arith Bool.
From Verif.Base Require Import Res.
From Verif.Edges Require Import Model.
From Verif.Protocol Require Import Model Exchange.
Import ListNotations.

(** [partition_len], mod.rs:30-31, for [n] rows and [N] hosts; [range_start_point], mod.rs:32-34. *)
Definition partition_len (n N : nat) : res nat := udiv n N.
(** [range_start_point], transposition/mod.rs:32-34. *)
Definition range_start (len own : nat) : nat := len * own.

(** The addressee of an edge, mod.rs:54-64. *)
Definition addressee (N len : nat) (e : edge) : res nat :=
  let! c := udiv (to_id e) len in
  if N <=? c then usub N 1 else Ok c.

(** [assign_edges_to_neighbours], mod.rs:45-76: every edge with its addressee, in the order of the edge list.
    The map addressee -> edges is [assigned]: the edges of one addressee in this order. *)
Definition assign_edges (N len : nat) (edges : list edge) : res (list (nat * edge)) :=
  mapM (fun e => let! c := addressee N len e in Ok (c, e)) edges.
(** The edges assigned to host [k], transposition/mod.rs:45-76. *)
Definition assigned (a : list (nat * edge)) (i : nat) : list edge := map snd (filter (fun x => fst x =? i) a).

(** [transpose], mod.rs:29-43, at host [own] of [N]: the start of its range and the assignments. *)
Definition transpose (n N own : nat) (edges : list edge) : res (nat * list (nat * edge)) :=
  let! len := partition_len n N in
  let! a := assign_edges N len edges in
  Ok (range_start len own, a).

(** The exchange of the assignments [a k] of every host [k] (transpose_rotation, mod.rs:78-93), an instance of Protocol/Exchange.v. *)
Definition edge_exchange (N : nat) (a : nat -> list (nat * edge)) : exchange (list edge) :=
  {| hosts := N; to_self := false; bucket := fun from to => assigned (a from) to |}.

(** The edge list of host [own] after [transpose_finalize], mod.rs:95-98, 101-119: its own edges, then the received ones in the order of arrival, sorted. *)
Definition transposed (own : nat) (a : list (nat * edge)) (h : host (list edge)) : list edge :=
  sort_edges (assigned a own ++ concat (map snd (processed h))).
