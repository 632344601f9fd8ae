(** Nodes of a host and the questions between hosts: src/training/node_estimation/mod.rs, data_store/{mod,index}.rs.
    The clustering of the crossings of one segment is a parameter (modelled in theories/Kde); coordinates are abstract. *)
From Coq Require Import List Arith Bool.
From Verif.Base Require Import Res Params Assoc.
From Verif.Segmentation Require Import Model.
From Verif.Edges Require Import Model.
Import ListNotations.

(** ** Node creation *)
Section Create.
Context {C : Type}.
(** An intersection, data_store/intersection.rs:7-11: point id, segment, coordinates. *)
(** [Intersection], data_store/intersection.rs:7-11: point id of the transition, segment, distances. *)
Record crossing := { c_id : nat; c_segment : nat; c_coordinates : C }.

(** [Index::add_intersection] and [get_intersections], index.rs: the crossings of a segment in the order in which they were added. *)
(** [get_intersections_from_segment], data_store/index.rs:36-48: the crossings of a segment in the order in which they were added. *)
Definition crossings_of (store : list crossing) (s : nat) : option (list crossing) :=
  match filter (fun c => c_segment c =? s) store with [] => None | l => Some l end.

(** The clustering of at least two rows: a label for each row. *)
Variable cluster : list C -> res (list nat).

(** [estimate_nodes], mod.rs:52-87: the labels of the response. *)
Definition labels_of (rows : option (list crossing)) : res (list nat) :=
  match rows with
  | Some [] => Panic Explicit
  | Some [_] => Ok [0]
  | Some l => cluster (map c_coordinates l)
  | None => Ok []
  end.
(** [Node::new] and [to_independent], mod.rs:236-239, node/mod.rs:16-28. *)
Definition to_node (c : crossing) (label : nat) : node := {| n_segment := c_segment c; n_cluster := label; n_from := c_id c |}.
(** Handler<ClusteringResponse>, mod.rs:230-268, without the messages of the explainability branch: the nodes added for one segment. *)
Definition segment_nodes (store : list crossing) (s : nat) : res (list node) :=
  let! labels := labels_of (crossings_of store s) in
  Ok (match labels, crossings_of store s with
      | _ :: _, Some l => map (fun '(c, k) => to_node c k) (combine l labels)
      | _, _ => []
      end).
(** The loop over the segments: from the first segment of the host (training/mod.rs:215-219) up to the last one of all, mod.rs:261-267. *)
Definition create_nodes (p : params) (own : nat) (store : list crossing) : res (list node) :=
  let! w := udiv (rate p) (n_cluster_nodes p) in
  let! l := mapM (segment_nodes store) (seq (w * own) (Nat.max (rate p) (w * own + 1) - w * own)) in
  Ok (concat l).
End Create.
Arguments crossing : clear implicits.

(** ** Questions and answers *)
(** (id of the previous point, previous segment, point id, node), mod.rs:37. *)
Definition answer := (nat * nat * nat * node)%type.

(** One question of [search_for_asked_nodes], mod.rs:128-156. *)
Definition search (store : list node) (q : question) : res answer :=
  match nodes_by_point store (q_id q) with
  | None => Panic Explicit
  | Some nodes =>
      match find (fun x => n_segment x =? q_segment q) nodes with
      | Some x => Ok (q_prev_id q, q_prev_segment q, q_id q, x)
      | None => Panic Explicit
      end
  end.
(** [search_for_asked_nodes], mod.rs:123-167; [others]: the other hosts in iteration order. *)
Definition search_for_asked_nodes (others : list nat) (store : list node) (qs : list (nat * list question)) (answers : list (nat * list answer)) : res (list (nat * list answer)) :=
  foldM (fun answers asking =>
    let! new := match lookup Nat.eqb asking qs with Some l => mapM (search store) l | None => Ok [] end in
    Ok (insert Nat.eqb asking (match lookup Nat.eqb asking answers with Some old => old ++ new | None => new end) answers)) others answers.
(** [ask_next], mod.rs:110-117: the message for host [id]. *)
Definition ask_message (qs : questions) (id : nat) : questions :=
  match lookup Nat.eqb id qs with Some m => [(id, m)] | None => [] end.
(** Handler<AskForForeignNodes>, mod.rs:279-282 (the counting of messages is the direct protocol, C29). *)
Definition handle_ask (own : nat) (others : list nat) (store : list node) (msg : questions) (answers : list (nat * list answer)) : res (list (nat * list answer)) :=
  match lookup Nat.eqb own msg with Some qs => search_for_asked_nodes others store qs answers | None => Ok answers end.
(** [answer_next], mod.rs:185-196: the message for host [id]. *)
Definition answer_message (answers : list (nat * list answer)) (id : nat) : list (nat * list answer) :=
  match lookup Nat.eqb id answers with Some l => [(id, l)] | None => [] end.
(** [take_in_answers], mod.rs:210-216. *)
Definition take_in_answers (l : list answer) (foreign : foreign_nodes) : foreign_nodes :=
  fold_left (fun foreign '(prev_id, prev_segment, id, x) => insert key_eqb (prev_id, prev_segment) (id, x) foreign) l foreign.
(** Handler<ForeignNodesAnswer>, mod.rs:302-305. *)
Definition handle_answer (own : nat) (msg : list (nat * list answer)) (foreign : foreign_nodes) : foreign_nodes :=
  match lookup Nat.eqb own msg with Some l => take_in_answers l foreign | None => foreign end.

(** All questions that reach host [b], in the order [order] of the asking hosts, and its answers. *)
(** What host [id] has taken in when all messages have arrived, node_estimation/mod.rs:271-311. *)
Definition answers_at (others : list nat) (b : nat) (store : list node) (asked : nat -> questions) (order : list nat) : res (list (nat * list answer)) :=
  foldM (fun answers k => handle_ask b others store (ask_message (asked k) b) answers) order [].
(** All answers that reach host [a], in the order [order] of the answering hosts. *)
(** [next_foreign_node] at the end, node_estimation/mod.rs:210-216, 290-311. *)
Definition foreign_at (a : nat) (answers : nat -> list (nat * list answer)) (order : list nat) : foreign_nodes :=
  fold_left (fun foreign b => handle_answer a (answer_message (answers b) a) foreign) order [].
