(** The end of an analysis on a cluster: the ring of partial scores (scoring/mod.rs:158-188, 313-335), [Handler<ScoringDone>] (training/mod.rs:259-279), which stops the
    process as soon as the host has its own result, and [ClusterLog::MemberLeft] (cluster_listener.rs:123-128), which stops the process of a sub host.
    Host 0 is the main host (C04). *)
From Coq Require Import List Arith Bool.
From Verif.Protocol Require Import Model Exchange Ring.
Import ListNotations.

(** The ring and the processes that have ended (actix [System::current().stop()], training/mod.rs:276-277, cluster_listener.rs:78-80). *)
Record sworld (T : Type) := { ring : rworld T; gone : nat -> bool }.
Arguments ring {T}. Arguments gone {T}. Arguments Build_sworld {T}.
(** Before the ring of partial scores begins (scoring/mod.rs:158); all processes run. *)
Definition sinitial {T} : sworld T := {| ring := rinitial; gone := fun _ => false |}.

Section Shutdown.
(** [allowed]: when a host may begin the ring; [notified]: in which states a sub host handles the notice that another host left; [crashes]: hosts that may be lost. *)
Context {T : Type} (n : nat) (contribution : nat -> T) (allowed notified : node T -> Prop) (crashes : nat -> Prop).

(** A process that has ended takes no step (actix, no code).  [s_done]: training/mod.rs:259-279 after scoring/mod.rs:238-240; [s_left]: cluster_listener.rs:123-128 with 78-80,
    only sub hosts react. *)
Inductive sstep : sworld T -> sworld T -> Prop :=
| s_begins : forall w p, p < n -> gone w p = false -> begun (node_of (ring w) p) = false -> allowed (node_of (ring w) p) ->
    sstep w {| ring := put n (ring w) p (begin_ring n contribution p (node_of (ring w) p)); gone := gone w |}
| s_arrives : forall w p m r, p < n -> gone w p = false -> transit (ring w) p = m :: r ->
    sstep w {| ring := {| node_of := set (node_of (ring w)) p (pop (node_of (ring w) p) (mailbox (node_of (ring w) p) ++ [m])); transit := set (transit (ring w)) p r |}; gone := gone w |}
| s_takes_in : forall w p m r, p < n -> gone w p = false -> mailbox (node_of (ring w) p) = m :: r ->
    sstep w {| ring := put n (ring w) p (take_in m (pop (node_of (ring w) p) r)); gone := gone w |}
| s_done : forall w p, p < n -> gone w p = false -> 1 <= finished (node_of (ring w) p) -> sstep w {| ring := ring w; gone := set (gone w) p true |}
| s_left : forall w p q, p < n -> q < n -> p <> 0 -> gone w p = false -> gone w q = true -> notified (node_of (ring w) p) -> sstep w {| ring := ring w; gone := set (gone w) p true |}
| s_crash : forall w p, p < n -> gone w p = false -> crashes p -> sstep w {| ring := ring w; gone := set (gone w) p true |}.

(** All executions (specification; the handlers are those of scoring/mod.rs:313-335, training/mod.rs:259-279, cluster_listener.rs:123-128). *)
Inductive sreachable : sworld T -> Prop :=
| s_start : sreachable sinitial
| s_after : forall w w', sreachable w -> sstep w w' -> sreachable w'.
End Shutdown.
(** No step is possible, even if hosts may begin at any time (specification; handlers as above, training/mod.rs:259-279). *)
Definition sstuck {T} (n : nat) (contribution : nat -> T) (notified : node T -> Prop) (w : sworld T) : Prop :=
  forall w', ~ sstep n contribution anytime notified (fun _ => False) w w'.
(** The notice that another host left reaches a host only after it has its own result (specification, restricts cluster_listener.rs:123-128). *)
Definition after_result {T} : node T -> Prop := fun d => 1 <= finished d.
