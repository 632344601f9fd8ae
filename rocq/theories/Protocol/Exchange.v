(** All-to-all exchanges.  The same pattern five times:
      transitions    training/segmentation/mod.rs:92-110, 271-288, 445-471
      intersections  training/intersection_calculation/mod.rs:175-184, 220-246, 308-344
      questions      training/node_estimation/mod.rs:89-121, 271-288     (a host also sends to itself)
      answers        training/node_estimation/mod.rs:169-208, 290-311    (a host also sends to itself)
      edges          training/transposition/mod.rs:29-119
    A host enters the phase once, starts the protocol, re-queues what it buffered and sends one bucket to every addressee; a received bucket is processed or
    buffered; when the protocol is no longer running the host leaves the phase.
    [T] is the content of a bucket.  Messages are delivered in any order (weaker than what the network guarantees). *)
From Coq Require Import List Arith Bool.
From Verif.Protocol Require Import Model.
Import ListNotations.

(** The parts in which the uses (lines above) differ: who is addressed, what is sent, how often [sent] is called; segmentation/mod.rs:271-288 and the others. *)
Record exchange (T : Type) := { hosts : nat; to_self : bool; bucket : nat -> nat -> T }.
Arguments hosts {T}. Arguments to_self {T}. Arguments bucket {T}.

(** A message carries its sender (observer only) and the bucket. *)
(** A message with its sender, e.g. SegmentMessage, segmentation/mod.rs:283-284. *)
Definition message (T : Type) := (nat * T)%type.

(** The protocol object, utils/direct_protocol.rs:4-10, the contents taken in and whether the stage is done. *)
Record host (T : Type) := { entered : bool; proto : protocol (message T); processed : list (message T); left : nat }.
Arguments entered {T}. Arguments proto {T}. Arguments processed {T}. Arguments left {T}. Arguments Build_host {T}.
(** [DirectProtocol::default()], utils/direct_protocol.rs:4-10. *)
Definition new_host {T} : host T := {| entered := false; proto := new_protocol; processed := []; left := 0 |}.

(** Addressees of host [p]: all others, or all. *)
(** The peers, segmentation/mod.rs:279, or all hosts, node_estimation/mod.rs:104-121. *)
Definition addressees {T} (x : exchange T) (p : nat) : list nat :=
  filter (fun q => to_self x || negb (q =? p)) (seq 0 (hosts x)).

(** [for ... { do_send; sent() }]. *)
(** How often [sent] is called: segmentation/mod.rs:286, intersection_calculation/mod.rs:244, node_estimation/mod.rs:119, 206, transposition/mod.rs:78-93. *)
Fixpoint times_sent {T} (n : nat) (p : protocol T) : protocol T := match n with O => p | S k => times_sent k (sent p) end.

(** Entering the phase: new state, messages sent (receiver, message), the re-queued ones first. *)
(** [start], [resolve_buffer] and the sends, segmentation/mod.rs:92-110, 271-288, intersection_calculation/mod.rs:175-184, 220-246. *)
Definition enter {T} (x : exchange T) (p : nat) (h : host T) : host T * list (nat * message T) :=
  let pr := start (length (addressees x p)) (proto h) in
  let '(pr, requeued) := resolve_buffer pr in
  let pr := times_sent (length (addressees x p)) pr in
  ({| entered := true; proto := pr; processed := processed h; left := left h |},
   map (fun m => (p, m)) requeued ++ map (fun q => (q, (p, bucket x p q))) (addressees x p)).

(** The handler of the bucket message. *)
(** The handler, segmentation/mod.rs:457-471, intersection_calculation/mod.rs:308-344, node_estimation/mod.rs:271-311. *)
Definition handle {T} (m : message T) (h : host T) : host T :=
  let '(pr, accepted) := received m (proto h) in
  if accepted then
    {| entered := entered h; proto := pr; processed := processed h ++ [m]; left := if is_running pr then left h else S (left h) |}
  else {| entered := entered h; proto := pr; processed := processed h; left := left h |}.

(** All hosts and the messages under way (actix, telepathy; no code). *)
Record world (T : Type) := { state : nat -> host T; net : list (nat * message T) }.
Arguments state {T}. Arguments net {T}. Arguments Build_world {T}.
(** Change of one host (no code). *)
Definition set {A} (f : nat -> A) (i : nat) (a : A) : nat -> A := fun j => if j =? i then a else f j.

(** Delivery (no code): any host enters the stage, or any message under way arrives. *)
Inductive step {T} (x : exchange T) : world T -> world T -> Prop :=
| enters : forall w p, p < hosts x -> entered (state w p) = false ->
    step x w {| state := set (state w) p (fst (enter x p (state w p))); net := net w ++ snd (enter x p (state w p)) |}
| delivers : forall w p m l r, net w = l ++ (p, m) :: r ->
    step x w {| state := set (state w) p (handle m (state w p)); net := l ++ r |}.

(** Before the stage: [DirectProtocol::default()] everywhere, utils/direct_protocol.rs:4-10. *)
Definition initial {T} : world T := {| state := fun _ => new_host; net := [] |}.
(** All executions of the handlers, segmentation/mod.rs:457-471 and the others (specification). *)
Inductive reachable {T} (x : exchange T) : world T -> Prop :=
| at_start : reachable x initial
| after : forall w w', reachable x w -> step x w w' -> reachable x w'.
(** No step is possible (specification; the handlers are those of segmentation/mod.rs:457-471 and the others). *)
Definition stuck {T} (x : exchange T) (w : world T) : Prop := forall w', ~ step x w w'.
