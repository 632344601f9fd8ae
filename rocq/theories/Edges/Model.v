(** Edge creation: src/training/edge_estimation/{edges_orderer,mod}.rs, data_store/{node/independent,edge/mod,index,mod}.rs.
    References ([NodeRef], [EdgeRef]) are the values they point to. *)
From Coq Require Import List Arith Bool.
From Verif.Base Require Import Res Assoc.
Import ListNotations.

(** [IndependentNode], independent.rs:5-10. *)
Record node := { n_segment : nat; n_cluster : nat; n_from : nat }.
(** [PartialEq], independent.rs:38-42: the point id is ignored. *)
Definition node_eqb (a b : node) : bool := (n_segment a =? n_segment b) && (n_cluster a =? n_cluster b).
(** [eq] on [Option<IndependentNode>], derived from independent.rs:38-42. *)
Definition opt_node_eqb (a b : option node) : bool :=
  match a, b with Some x, Some y => node_eqb x y | None, None => true | _, _ => false end.

(** [Edge], edge/mod.rs:8-13, [get_to_id] 27-29. *)
Definition edge := (node * node)%type.
(** [get_to_id], edge/mod.rs:27-29. *)
Definition to_id (e : edge) : nat := n_from (snd e).

(** [EdgesOrderer], edges_orderer.rs:18-26. *)
Record orderer := { o_previous : option node; o_small : list edge; o_large : list edge; o_first : option node; o_middle : option node; o_last : option node }.
(** 29-34 *)
Definition new_orderer (previous : option node) : orderer :=
  {| o_previous := previous; o_small := []; o_large := []; o_first := None; o_middle := None; o_last := None |}.

(** [push], 36-41. *)
Definition push (e : edge) (o : orderer) : orderer :=
  match o_last o with
  | Some _ => {| o_previous := o_previous o; o_small := o_small o; o_large := o_large o ++ [e]; o_first := o_first o; o_middle := o_middle o; o_last := o_last o |}
  | None => {| o_previous := o_previous o; o_small := o_small o ++ [e]; o_large := o_large o; o_first := o_first o; o_middle := o_middle o; o_last := o_last o |}
  end.

(** [check_for_gap], 43-62. *)
Definition check_for_gap (previous current : node) (o : orderer) : orderer * bool :=
  if negb (n_segment current =? n_segment previous + 1) then
    ({| o_previous := o_previous o; o_small := o_small o;
        o_large := match o_previous o with Some pt => o_large o ++ [(pt, current)] | None => o_large o end;
        o_first := o_first o;
        o_middle := Some (match o_small o with e :: _ => fst e | [] => previous end);
        o_last := Some previous |}, true)
  else (o, false).

(** [add_node], 69-83. *)
Definition add_node (previous : option node) (current : node) (o : orderer) : orderer :=
  if opt_node_eqb (o_previous o) previous && (match o_small o with [] => true | _ => false end) && (match o_first o with None => true | _ => false end) then
    {| o_previous := o_previous o; o_small := o_small o; o_large := o_large o; o_first := Some current; o_middle := o_middle o; o_last := o_last o |}
  else match previous with
       | Some pv => let '(o, gap) := check_for_gap pv current o in if gap then o else push (pv, current) o
       | None => o
       end.

(** [into_vec], 85-118. *)
Definition into_vec (o : orderer) : res (list edge) :=
  match o_middle o with
  | Some middle =>
      let! last := unwrap (nth_error (o_large o) (length (o_large o) - 1)) in
      let o := push (snd last, middle) o in
      Ok (o_large o ++ o_small o)
  | None =>
      match o_previous o with
      | Some pt => let! first := unwrap (o_first o) in Ok ((pt, first) :: o_small o)
      | None => Ok (o_small o)
      end
  end.

(** [get_nodes_by_point_id], index.rs:52-64: the nodes of a point in the order in which they were added ([store]: all nodes in this order). *)
Definition nodes_by_point (store : list node) (id : nat) : option (list node) :=
  match filter (fun x => n_from x =? id) store with [] => None | l => Some l end.

(** [next_foreign_node], node_estimation/mod.rs:30: (point id, segment) -> node at another host. *)
Definition foreign_nodes := list ((nat * nat) * (nat * node)).
(** Equality of the keys of [next_foreign_node], node_estimation/mod.rs:31. *)
Definition key_eqb (a b : nat * nat) : bool := (fst a =? fst b) && (snd a =? snd b).

(** The orderer's part of the loop body, edge_estimation/mod.rs:37-45: new edges and previous node. *)
Definition connect_point (previous : option node) (nodes : list node) : res (list edge * option node) :=
  let '(o, last) := fold_left (fun '(o, pv) x => (add_node pv x o, Some x)) nodes (new_orderer previous, previous) in
  let! edges := into_vec o in
  Ok (edges, match o_last o with Some x => Some x | None => last end).

(** The loop body of [connect_nodes], edge_estimation/mod.rs:35-59; state: edges, previous node, foreign nodes. *)
Definition connect_step (store : list node) (s : list edge * option node * foreign_nodes) (id : nat) : res (list edge * option node * foreign_nodes) :=
  let '(edges, previous, foreign) := s in
  match nodes_by_point store id with
  | None => Ok s
  | Some nodes =>
      let! (new, previous) := connect_point previous nodes in
      match previous with
      | Some current =>
          match lookup key_eqb (id, n_segment current) foreign with
          | Some (_, next) => Ok (edges ++ new ++ [(current, next)], None, remove_key key_eqb (id, n_segment current) foreign)
          | None => Ok (edges ++ new, Some current, foreign)
          end
      | None => Ok (edges ++ new, None, foreign)
      end
  end.
(** [connect_nodes], edge_estimation/mod.rs:25-61; [n]: length of the series. *)
Definition connect_nodes (n : nat) (store : list node) (foreign : foreign_nodes) : res (list edge) :=
  let! (edges, _, _) := foldM (connect_step store) (seq 0 n) ([], None, foreign) in Ok edges.

(** [sort_edges], data_store/mod.rs:191-194: [slice::sort_by] is stable; insertion of each edge behind those with the same or a smaller id. *)
Fixpoint insert_edge (e : edge) (l : list edge) : list edge :=
  match l with [] => [e] | x :: r => if to_id e <? to_id x then e :: x :: r else x :: insert_edge e r end.
(** [sort_edges], data_store/mod.rs:191-194. *)
Definition sort_edges (l : list edge) : list edge := fold_left (fun acc e => insert_edge e acc) l [].

(** [estimate_edges], edge_estimation/mod.rs:20-23, 63-66: the edge list of the data store. *)
Definition estimate_edges (n : nat) (store : list node) (foreign : foreign_nodes) : res (list edge) :=
  let! edges := connect_nodes n store foreign in Ok (sort_edges edges).
