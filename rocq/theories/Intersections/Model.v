(** The crossings of the transitions with the borders of the segments and their distribution: src/training/intersection_calculation/{mod,helper}.rs.
    The geometry of one crossing is a parameter (modelled in theories/Geometry). *)
From Coq Require Import List Arith Bool.
From Verif.Base Require Import Res Params Assoc.
From Verif.Topology Require Import Model.
From Verif.Transition Require Import Model.
From Verif.Segmentation Require Import Model.
From Verif.Protocol Require Import Exchange.
From Verif.Nodes Require Import Model.
Import ListNotations.

Section Intersections.
Context {C : Type}.
(** [IntersectionCalculationHelper::work], helper.rs:17-35, on the points of mod.rs:64-118, 149-159: the distances at the crossing of a transition with the border of a segment, or the abort
    of helper.rs:33.  It depends on all transitions of the host through the extent of the planes, mod.rs:64-81. *)
Variable cross : list transition -> transition -> nat -> res C.
Variable p : params.

(** The pairs of transition and segment, mod.rs:111-164. *)
Definition tasks_of (ts : list transition) : list (transition * nat) :=
  flat_map (fun t => map (fun s => (t, s)) (crossed_segments (rate p) (from_segment t) (to_segment t))) ts.
(** [Intersection::new], data_store/intersection.rs:13-24, and [work]: one result. *)
Definition cross_task (ts : list transition) (task : transition * nat) : res (crossing C) :=
  let! c := cross ts (fst task) (snd task) in
  Ok {| c_id := from_id (fst task); c_segment := snd task; c_coordinates := c |}.
(** [parallel_intersection_tasks], mod.rs:186-218, and the helper, helper.rs:41-50: one chunk with all pairs, popped from the end, answered in this order.
    An abort of the helper means that the host never gets the answer. *)
Definition results (ts : list transition) : res (list (crossing C)) := mapM (cross_task ts) (rev (tasks_of ts)).

(** Crossings by segment: [foreign_intersections], mod.rs:41. *)
Definition by_segment := list (nat * list (crossing C)).
(** [get_mut] and [push]/[extend], or [insert], mod.rs:262-273, 326-337. *)
Definition file_under (s : nat) (l : list (crossing C)) (m : by_segment) : by_segment :=
  insert Nat.eqb s (match lookup Nat.eqb s m with Some old => old ++ l | None => l end) m.
(** [assign_received_intersection], mod.rs:248-275: (crossings in the data store, foreign crossings). *)
Definition assign (own : nat) (s : list (crossing C) * by_segment) (c : crossing C) : res (list (crossing C) * by_segment) :=
  let! o := segment_id_to_assignment p (c_segment c) in
  Ok (if own =? o then (fst s ++ [c], snd s) else (fst s, file_under (c_segment c) [c] (snd s))).
(** [calculate_intersections] and Handler<IntersectionResultMessage>, mod.rs:58-62, 278-306, up to [start_distribution_protocol]. *)
Definition calculate (own : nat) (ts : list transition) : res (list (crossing C) * by_segment) :=
  let! rs := results ts in foldM (assign own) rs ([], []).

(** One addressee of [rotate_foreign_assignments], mod.rs:229-243: what is left of the foreign crossings, and the message. *)
Definition message_for (id : nat) (m : by_segment) : res (by_segment * by_segment) :=
  foldM (fun s segment =>
    let! o := segment_id_to_assignment p segment in
    Ok (if id =? o then match lookup Nat.eqb segment (fst s) with
                        | Some l => (remove_key Nat.eqb segment (fst s), insert Nat.eqb segment l (snd s))
                        | None => s
                        end
        else s)) (seq 0 (rate p)) (m, []).
(** [rotate_foreign_assignments], mod.rs:220-246: the messages, for the other hosts in iteration order. *)
Definition rotate (others : list nat) (m : by_segment) : res (list (nat * by_segment)) :=
  let! r := foldM (fun s id => let! r := message_for id (fst s) in Ok (fst r, snd s ++ [(id, snd r)])) others (m, []) in Ok (snd r).

(** Handler<IntersectionRotationMessage>, mod.rs:320-338, for an accepted message in the order in which the map is iterated. *)
Definition take_in (own : nat) (s : list (crossing C) * by_segment) (msg : by_segment) : res (list (crossing C) * by_segment) :=
  foldM (fun s '(segment, l) =>
    let! o := segment_id_to_assignment p segment in
    Ok (if own =? o then (fst s ++ l, snd s) else (fst s, file_under segment l (snd s)))) msg s.

(** A host up to [start_distribution_protocol], mod.rs:58-246: the crossings it keeps, the messages it sends. *)
Definition start_stage (own : nat) (others : list nat) (ts : list transition) : res (list (crossing C) * list (nat * by_segment)) :=
  let! r := calculate own ts in
  let! sent := rotate others (snd r) in
  Ok (fst r, sent).
(** The data store of a host when it has taken in the accepted messages; [foreign_intersections] was cleared, mod.rs:228. *)
Definition end_stage (own : nat) (kept : list (crossing C)) (messages : list by_segment) : res (list (crossing C)) :=
  let! r := foldM (take_in own) messages (kept, []) in Ok (fst r).

(** The exchange, mod.rs:175-184, 220-246, 308-344: host [k] sends [j] its message for [j]. *)
Definition crossing_exchange (sent : nat -> list (nat * by_segment)) : exchange by_segment :=
  {| hosts := n_cluster_nodes p; to_self := false; bucket := fun k j => match lookup Nat.eqb j (sent k) with Some m => m | None => [] end |}.
End Intersections.
