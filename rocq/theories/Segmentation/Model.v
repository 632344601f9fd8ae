(** Segmentation: transitions of the point sequence, their distribution to the hosts, and the questions asked about nodes owned by other hosts.
    src/training/segmentation/mod.rs and src/data_store/node_questions/mod.rs.  Points are reduced to id and segment (coordinates are only passed on). *)
From Coq Require Import List Arith ZArith Bool.
From Verif.Base Require Import Res Params Assoc.
From Verif.Topology Require Import Model.
From Verif.Transition Require Import Model.
Import ListNotations.

(** Id and segment of a [Point], data_store/point.rs:10-16; the coordinates are in Geometry/Model.v. *)
Record pt := { pid : nat; pseg : nat }.
(** [Transition], data_store/transition/mod.rs: from and to point. *)
(** [Transition], data_store/transition/mod.rs:10-13. *)
Definition transition := (pt * pt)%type.
(** [get_from_id], transition/mod.rs:58-60. *)
Definition from_id (t : transition) : nat := pid (fst t).
(** [get_from_segment], transition/mod.rs:62-64. *)
Definition from_segment (t : transition) : nat := pseg (fst t).
(** [get_to_segment], transition/mod.rs:66-68. *)
Definition to_segment (t : transition) : nat := pseg (snd t).

(** The test in build_segments, segmentation/mod.rs:124-128, and in the first-point handler, 395-397. *)
Definition is_usable (p : params) (t : transition) : bool :=
  crosses_segments (from_segment t) (to_segment t) && has_valid_direction (rate p) (from_segment t) (to_segment t).

(** [NodeInQuestion], node_in_question.rs. *)
(** [NodeInQuestion], data_store/node_questions/node_in_question.rs:3-9. *)
Record question := { q_prev_id : nat; q_prev_segment : nat; q_id : nat; q_segment : nat }.
(** Derived equality, node_in_question.rs:3-9. *)
Definition question_eqb (a b : question) : bool :=
  (q_prev_id a =? q_prev_id b) && (q_prev_segment a =? q_prev_segment b) && (q_id a =? q_id b) && (q_segment a =? q_segment b).

(** [Vec::dedup]: drops elements equal to their predecessor. *)
(** [dedup], node_questions/mod.rs:21-39: drops repetitions in a row. *)
Fixpoint dedup_from (a : question) (l : list question) : list question :=
  match l with [] => [] | b :: r => if question_eqb b a then dedup_from a r else b :: dedup_from b r end.
(** [dedup], node_questions/mod.rs:21-39. *)
Definition dedup (l : list question) : list question := match l with [] => [] | a :: r => a :: dedup_from a r end.

(** [NodeQuestions]: answering host -> asking host -> questions, node_questions/mod.rs:15-18. *)
Definition questions := list (nat * list (nat * list question)).

(** [add_niq], node_questions/mod.rs:21-39. *)
Definition add_niq (answering asking : nat) (q : question) (qs : questions) : questions :=
  if asking =? answering then qs
  else match lookup Nat.eqb answering qs with
       | Some m =>
           match lookup Nat.eqb asking m with
           | Some l => insert Nat.eqb answering (insert Nat.eqb asking (dedup (l ++ [q])) m) qs
           | None => insert Nat.eqb answering (insert Nat.eqb asking [q] m) qs
           end
       | None => insert Nat.eqb answering [(asking, [q])] qs
       end.

(** [get_wanted_segment], node_questions/mod.rs:72-84. *)
Definition get_wanted_segment (p : params) (t : transition) (i : nat) : res (nat * nat) :=
  let! wanted := first_segment_of_i_next_cluster_node p (from_segment t) (i + 1) in
  if rate p =? 0 then Panic DivByZero
  else Ok (wanted, Z.to_nat ((Z.of_nat wanted - 1) mod Z.of_nat (rate p))).

(** The questions of [ask], node_questions/mod.rs:94-147. *)
Definition nodes_in_question (p : params) (t : transition) (prev : option transition) (within : bool) (span : nat) : res (list question) :=
  match prev with
  | Some pv =>
      if within then
        mapM (fun i =>
          let! (wanted, before) := get_wanted_segment p t i in
          let '(prev_id, prev_segment) :=
            if (wanted =? first_intersection_segment (rate p) (from_segment t)) && (i =? 0)
            then (from_id pv, to_segment pv) else (from_id t, before) in
          Ok {| q_prev_id := prev_id; q_prev_segment := prev_segment; q_id := from_id t; q_segment := wanted mod rate p |}) (seq 0 span)
      else Ok [{| q_prev_id := from_id pv; q_prev_segment := to_segment pv; q_id := from_id t; q_segment := first_intersection_segment (rate p) (from_segment t) |}]
  | None =>
      if within then
        mapM (fun i =>
          let! (wanted, before) := get_wanted_segment p t i in
          Ok {| q_prev_id := from_id t; q_prev_segment := before; q_id := from_id t; q_segment := wanted mod rate p |}) (seq 0 span)
      else Panic Explicit
  end.

(** [ask], node_questions/mod.rs:86-157. *)
Definition ask (p : params) (t : transition) (prev : option transition) (within : bool) (span : nat) (qs : questions) : res questions :=
  let! l := nodes_in_question p t prev within span in
  foldM (fun qs q =>
    let! asking := segment_id_to_assignment p (q_prev_segment q) in
    let! answering := segment_id_to_assignment p (q_segment q) in
    Ok (add_niq answering asking q qs)) l qs.

(** [search_split_between_transitions], segmentation/mod.rs:207-224. *)
Definition split_between (p : params) (prev : option transition) (t : transition) (from_node last_to_node : nat) (qs : questions) : res questions :=
  if from_node =? last_to_node then Ok qs else ask p t prev false 1 qs.
(** [search_split_within_transition], segmentation/mod.rs:226-243. *)
Definition split_within (p : params) (prev : option transition) (t : transition) (from_node to_node : nat) (qs : questions) : res questions :=
  if from_node =? to_node then Ok qs
  else let! d := cluster_node_diff p from_node to_node in ask p t prev true d qs.
(** [find_splits], segmentation/mod.rs:187-205. *)
Definition find_splits (p : params) (prev : option transition) (last_to_node : option nat) (t : transition) (from_node to_node : nat) (qs : questions) : res questions :=
  let! qs := match last_to_node with Some n => split_between p prev t from_node n qs | None => Ok qs end in
  split_within p prev t from_node to_node qs.

(** [TransitionsForNodes]: owner of the start segment -> transitions, segmentation/mod.rs:21. *)
Definition for_nodes := list (nat * list transition).
(** The [match get_mut … push / insert] of segmentation/mod.rs:146-151 and 418-429. *)
Definition push_for (k : nat) (t : transition) (m : for_nodes) : for_nodes :=
  match lookup Nat.eqb k m with
  | Some l => insert Nat.eqb k (l ++ [t]) m
  | None => insert Nat.eqb k [t] m
  end.

(** [Segmentation] with the transitions of the data store, segmentation/mod.rs:24-38. *)
Record segmentation := {
  transitions : list transition;  (** data_store.transitions *)
  asked : questions;
  send_point : option pt;
  send_transition : option transition;
  last_point : option pt;
  last_transition : option transition;
  invalid_directions : nat
}.
(** [Segmentation::default()], segmentation/mod.rs:24-38. *)
Definition new_segmentation : segmentation :=
  {| transitions := []; asked := []; send_point := None; send_transition := None; last_point := None; last_transition := None; invalid_directions := 0 |}.

(** Loop state of build_segments: the local variables of segmentation/mod.rs:115-118 and the fields it changes. *)
Record scan := {
  s_transitions : list transition; s_asked : questions; s_send_point : option pt; s_send_transition : option transition; s_invalid : nat;
  s_foreign : for_nodes; s_last_point : option pt; s_last_to_node : option nat; s_last_transition : option transition
}.

(** Body of the loop, segmentation/mod.rs:119-173. *)
Definition scan_point (p : params) (own : nat) (s : scan) (point : pt) : res scan :=
  match s_last_point s with
  | Some last =>
      let t := (last, point) in
      if is_usable p t then
        let! from_node := segment_id_to_assignment p (pseg last) in
        let! to_node := segment_id_to_assignment p (pseg point) in
        let trs := if from_node =? own then s_transitions s ++ [t] else s_transitions s in
        let! qs := find_splits p (s_last_transition s) (s_last_to_node s) t from_node to_node (s_asked s) in
        Ok {| s_transitions := trs; s_asked := qs; s_send_point := s_send_point s;
              s_send_transition := match s_send_transition s with None => Some t | Some x => Some x end;
              s_invalid := s_invalid s; s_foreign := push_for from_node t (s_foreign s);
              s_last_point := Some point; s_last_to_node := Some to_node; s_last_transition := Some t |}
      else
        let count := self_correction p && crosses_segments (pseg last) (pseg point) && negb (has_valid_direction (rate p) (pseg last) (pseg point)) in
        Ok {| s_transitions := s_transitions s; s_asked := s_asked s; s_send_point := s_send_point s; s_send_transition := s_send_transition s;
              s_invalid := if count then S (s_invalid s) else s_invalid s; s_foreign := s_foreign s;
              s_last_point := Some point; s_last_to_node := s_last_to_node s; s_last_transition := s_last_transition s |}
  | None =>
      Ok {| s_transitions := s_transitions s; s_asked := s_asked s; s_send_point := if own =? 0 then s_send_point s else Some point;
            s_send_transition := s_send_transition s; s_invalid := s_invalid s; s_foreign := s_foreign s;
            s_last_point := Some point; s_last_to_node := s_last_to_node s; s_last_transition := s_last_transition s |}
  end.

(** [build_segments], segmentation/mod.rs:112-185; [own]: the host's index ([get_own_idx], see Topology). *)
Definition build_segments (p : params) (own : nat) (points : list pt) (g : segmentation) : res (segmentation * for_nodes) :=
  let! s := foldM (scan_point p own) points
    {| s_transitions := transitions g; s_asked := asked g; s_send_point := send_point g; s_send_transition := send_transition g; s_invalid := invalid_directions g;
       s_foreign := []; s_last_point := None; s_last_to_node := None; s_last_transition := None |} in
  Ok ({| transitions := s_transitions s; asked := s_asked s; send_point := s_send_point s; send_transition := s_send_transition s;
         last_point := s_last_point s; last_transition := s_last_transition s; invalid_directions := s_invalid s |}, s_foreign s).

(** [Handler<SendFirstPointMessage>], segmentation/mod.rs:385-443, up to the start of the distribution. *)
Definition first_point (p : params) (own : nat) (point : pt) (first_transition : transition) (g : segmentation) (foreign : for_nodes) : res (segmentation * for_nodes) :=
  let! last := unwrap (last_point g) in
  let spanning := (last, point) in
  let! last_tr := unwrap (last_transition g) in
  if is_usable p spanning then
    let! from_node := segment_id_to_assignment p (from_segment spanning) in
    let! to_node := segment_id_to_assignment p (to_segment spanning) in
    let! last_to := segment_id_to_assignment p (to_segment last_tr) in
    let! qs := find_splits p (Some last_tr) (Some last_to) spanning from_node to_node (asked g) in
    Ok ({| transitions := if from_node =? own then transitions g ++ [spanning] else transitions g; asked := qs; send_point := send_point g;
           send_transition := send_transition g; last_point := None; last_transition := last_transition g; invalid_directions := invalid_directions g |},
        push_for from_node spanning foreign)
  else
    let! from_node := segment_id_to_assignment p (from_segment first_transition) in
    let! last_to := segment_id_to_assignment p (to_segment last_tr) in
    let! qs := split_between p (Some last_tr) first_transition from_node last_to (asked g) in
    Ok ({| transitions := transitions g; asked := qs; send_point := send_point g; send_transition := send_transition g;
           last_point := None; last_transition := last_transition g; invalid_directions := invalid_directions g |}, foreign).

(** The bucket for host [k], segmentation/mod.rs:279-287. *)
Definition bucket_for (k : nat) (m : for_nodes) : list transition := match lookup Nat.eqb k m with Some l => l | None => [] end.

(** Self-correction: number of transitions reported to the ring, segmentation/mod.rs:303-307, and on a single machine, 317. *)
Definition reported_count (alone : bool) (g : segmentation) (foreign : for_nodes) : nat :=
  if alone then length (transitions g) else length (transitions g) + list_sum (map (fun e => length (snd e)) foreign).
(** [try_self_correction], segmentation/mod.rs:329-332: mirror the points? *)
Definition mirrors (count invalid : nat) : bool := count <? invalid.
