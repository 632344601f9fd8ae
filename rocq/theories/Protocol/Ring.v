(** Ring exchanges.  The same pattern four times:
      transition counts  training/segmentation/mod.rs:290-346, 362-383
      node degrees       training/scoring/weights.rs:118-137, 161-191
      edge weights       training/scoring/weights.rs:139-153, 193-222
      partial scores     training/scoring/mod.rs:158-188, 313-335
    A host begins once: it starts the protocol for all other hosts, re-queues what it buffered and sends its own contribution to its successor.  A contribution is
    taken in and, while the protocol is still running, forwarded to the successor; otherwise the host is finished.
    Links are FIFO ([transit]: on the way from the predecessor); every actor has a FIFO mailbox; re-queued messages go to its end. *)
From Coq Require Import List Arith Bool.
From Verif.Protocol Require Import Model Exchange.
Import ListNotations.

(** The protocol object, utils/rotation_protocol.rs:4-10, the contents taken in and whether the round is over. *)
Record node (T : Type) := { begun : bool; rproto : protocol (message T); taken : list (message T); finished : nat; mailbox : list (message T) }.
Arguments begun {T}. Arguments rproto {T}. Arguments taken {T}. Arguments finished {T}. Arguments mailbox {T}. Arguments Build_node {T}.
(** [RotationProtocol::default()], utils/rotation_protocol.rs:4-10. *)
Definition new_node {T} : node T := {| begun := false; rproto := new_protocol; taken := []; finished := 0; mailbox := [] |}.

(** All hosts and the channels between neighbours (telepathy, in order; no code). *)
Record rworld (T : Type) := { node_of : nat -> node T; transit : nat -> list (message T) }.
Arguments node_of {T}. Arguments transit {T}. Arguments Build_rworld {T}.
(** Before the round: [RotationProtocol::default()] everywhere, utils/rotation_protocol.rs:4-10. *)
Definition rinitial {T} : rworld T := {| node_of := fun _ => new_node; transit := fun _ => [] |}.

(** [get_next_idx], see Topology. *)
(** [get_next_idx], utils/mod.rs:70-72, on a complete table. *)
Definition next (n p : nat) : nat := (p + 1) mod n.

Section Ring.
Context {T : Type} (n : nat) (contribution : nat -> T).

(** [start], [resolve_buffer], first send, weights.rs:118-137, segmentation/mod.rs:295-315, scoring/mod.rs:163-182. *)
Definition begin_ring (p : nat) (d : node T) : node T * list (message T) :=
  let pr := start (n - 1) (rproto d) in
  let '(pr, requeued) := resolve_buffer pr in
  ({| begun := true; rproto := sent pr; taken := taken d; finished := finished d; mailbox := mailbox d ++ requeued |}, [(p, contribution p)]).

(** The handler, weights.rs:161-191, 193-222, segmentation/mod.rs:362-383, scoring/mod.rs:313-335. *)
Definition take_in (m : message T) (d : node T) : node T * list (message T) :=
  let '(pr, accepted) := received m (rproto d) in
  if accepted then
    if is_running pr
    then ({| begun := begun d; rproto := sent pr; taken := taken d ++ [m]; finished := finished d; mailbox := mailbox d |}, [m])
    else ({| begun := begun d; rproto := pr; taken := taken d ++ [m]; finished := S (finished d); mailbox := mailbox d |}, [])
  else ({| begun := begun d; rproto := pr; taken := taken d; finished := finished d; mailbox := mailbox d |}, []).

(** Delivery from a channel (no code). *)
Definition pop (d : node T) (r : list (message T)) : node T :=
  {| begun := begun d; rproto := rproto d; taken := taken d; finished := finished d; mailbox := r |}.

(** New state of [p] and messages to its successor. *)
(** [do_send] into the channel to the next host, e.g. weights.rs:184-187. *)
Definition put (w : rworld T) (p : nat) (e : node T * list (message T)) : rworld T :=
  {| node_of := set (node_of w) p (fst e); transit := set (transit w) (next n p) (transit w (next n p) ++ snd e) |}.

(** [allowed]: when a host may begin. *)
(** Any host begins or takes the next message (no code; handlers as in [take_in], weights.rs:161-222). *)
Inductive rstep (allowed : node T -> Prop) : rworld T -> rworld T -> Prop :=
| begins : forall w p, p < n -> begun (node_of w p) = false -> allowed (node_of w p) -> rstep allowed w (put w p (begin_ring p (node_of w p)))
| arrives : forall w p m r, p < n -> transit w p = m :: r ->
    rstep allowed w {| node_of := set (node_of w) p (pop (node_of w p) (mailbox (node_of w p) ++ [m])); transit := set (transit w) p r |}
| takes_in : forall w p m r, p < n -> mailbox (node_of w p) = m :: r -> rstep allowed w (put w p (take_in m (pop (node_of w p) r))).

(** All executions (specification; handlers of weights.rs:161-222). *)
Inductive rreachable (allowed : node T -> Prop) : rworld T -> Prop :=
| r_start : rreachable allowed rinitial
| r_after : forall w w', rreachable allowed w -> rstep allowed w w' -> rreachable allowed w'.

(** Deliveries without restriction (specification; weights.rs:161-222). *)
Definition anytime : node T -> Prop := fun _ => True.
(** Nothing was buffered before the host begins. *)
(** Executions in which nothing arrives before a host began its round (specification; excludes the buffering of rotation_protocol.rs:17-25). *)
Definition nothing_early : node T -> Prop := fun d => buffer (rproto d) = [].
(** Weaker: what was buffered is not overtaken by what waits in the mailbox. *)
(** Executions in which no message overtakes buffered ones (specification; rotation_protocol.rs:35-42). *)
Definition not_overtaken : node T -> Prop := fun d => buffer (rproto d) = [] \/ mailbox d = [].
(** Nothing can happen any more (hosts that have not begun would begin). *)
(** No step is possible (specification; handlers of weights.rs:161-222). *)
Definition rstuck (w : rworld T) : Prop := forall w', ~ rstep anytime w w'.
End Ring.
