(** The overlap exchange in time: Handler<ScoreInitDone>, weights.rs:224-241, and Handler<OverlapRotation>, overlap.rs:37-59.
    Every host handles [ScoreInitDone] once, at any moment; messages are delivered in any order. *)
From Coq Require Import List Arith Bool.
From Verif.Base Require Import Res.
From Verif.Edges Require Import Model.
From Verif.Protocol Require Import Model Exchange.
From Verif.Scoring Require Import Model.
Import ListNotations.

(** [OverlapRotation], overlap.rs:27-33. *)
Definition overlap_message := (list edge * list nat)%type.
(** [scored]: how often [score] was called. *)
(** The fields used: edges, index, whether initialisation is done, whether scoring has started, buffered overlap; scoring/mod.rs:36-54. *)
Record ohost := { o_data : list edge * list nat; o_proto : protocol overlap_message; o_ready : bool; o_scored : nat }.

(** [send_overlap_to_neighbor], overlap.rs:13-34: new state, message to the previous host; then [score]. *)
Definition send_overlap (q : nat) (h : ohost) : res (ohost * overlap_message) :=
  let! m := overlap_of q (o_data h) in
  Ok ({| o_data := o_data h; o_proto := sent (o_proto h); o_ready := o_ready h; o_scored := S (o_scored h) |}, m).
(** [get_prev_as]: cyclic, see Topology. *)
(** [get_previous_idx], utils/mod.rs:74-76. *)
Definition prev (N p : nat) : nat := if p =? 0 then N - 1 else p - 1.

(** [Handler<ScoreInitDone>]: new state and messages. *)
(** [Handler<ScoreInitDone>], weights.rs:224-241. *)
Definition init_done (N q p : nat) (h : ohost) : res (ohost * list (nat * overlap_message)) :=
  let h := {| o_data := o_data h; o_proto := o_proto h; o_ready := true; o_scored := o_scored h |} in
  if p =? N - 1 then
    let! (h, m) := send_overlap q h in Ok (h, [(prev N p, m)])
  else
    let '(pr, again) := resolve_buffer (start 1 (o_proto h)) in
    Ok ({| o_data := o_data h; o_proto := pr; o_ready := true; o_scored := o_scored h |}, map (fun m => (p, m)) again).
(** [Handler<OverlapRotation>]. *)
(** [Handler<OverlapRotation>], overlap.rs:37-59. *)
Definition take_overlap (N q p : nat) (m : overlap_message) (h : ohost) : res (ohost * list (nat * overlap_message)) :=
  let '(pr, accepted) := received m (o_proto h) in
  if negb accepted then Ok ({| o_data := o_data h; o_proto := pr; o_ready := o_ready h; o_scored := o_scored h |}, [])
  else
    let! data := add_overlap (o_data h) m in
    let! (h, out) := send_overlap q {| o_data := data; o_proto := pr; o_ready := o_ready h; o_scored := o_scored h |} in
    if is_running (o_proto h) then Panic Explicit else Ok (h, [(prev N p, out)]).

(** All hosts and the messages under way (telepathy; no code). *)
Record oworld := { ohosts : nat -> ohost; onet : list (nat * overlap_message) }.
(** Delivery (no code): a host ends its initialisation (weights.rs:224-241) or an overlap arrives (overlap.rs:37-59). *)
Inductive ostep (N q : nat) : oworld -> oworld -> Prop :=
| becomes_ready : forall w p h out, p < N -> o_ready (ohosts w p) = false -> init_done N q p (ohosts w p) = Ok (h, out) ->
    ostep N q w {| ohosts := set (ohosts w) p h; onet := onet w ++ out |}
| takes : forall w p m l r h out, onet w = l ++ (p, m) :: r -> take_overlap N q p m (ohosts w p) = Ok (h, out) ->
    ostep N q w {| ohosts := set (ohosts w) p h; onet := l ++ r ++ out |}.
(** Before: weights.rs:155-158 has not been reached anywhere. *)
Definition ofresh (data : nat -> list edge * list nat) : oworld :=
  {| ohosts := fun p => {| o_data := data p; o_proto := new_protocol; o_ready := false; o_scored := 0 |}; onet := [] |}.
(** All executions (specification; weights.rs:224-241, overlap.rs:37-59). *)
Inductive oreachable (N q : nat) (data : nat -> list edge * list nat) : oworld -> Prop :=
| o_start : oreachable N q data (ofresh data)
| o_after : forall w w', oreachable N q data w -> ostep N q w w' -> oreachable N q data w'.
