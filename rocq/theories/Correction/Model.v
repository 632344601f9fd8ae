(** Self-correction on a cluster: the hosts segment their points, add up their counts in a ring, decide whether to mirror the points, and hand over first points:
    segmentation/mod.rs:83-110, 245-269, 290-382, 385-455.  Hosts are numbered 0..N-1, N >= 2; host [k] holds the points [part k], after mirroring [mirrored k]
    (what mirroring does to the points is in Geometry/Model.v; here both are arbitrary).  The ring is the one of Protocol/Ring.v. *)
From Coq Require Import List Arith Bool.
From Verif.Base Require Import Res Params.
From Verif.Segmentation Require Import Model.
From Verif.Segmentation Require Handover.
From Verif.Protocol Require Import Model Exchange Ring.
Import ListNotations.

(** Where a host is: before [segment], adding up counts, after [try_self_correction], crashed; segmentation/mod.rs:83-91, 290-350. *)
Inductive mode := Idle | Counting | Decided | Crashed (why : panic).

(** The part of [Segmentation] used here, segmentation/mod.rs:24-38: [c_seg] with the transitions of the store, [transitions_for_nodes];
    [c_sent] (observer): the distributions the host started, oldest first, 271-287.  The counts added up are those of the ring ([taken]). *)
Record chost := { c_mode : mode; c_seg : segmentation; c_pending : for_nodes; c_sent : list for_nodes }.
(** [Segmentation::default()], segmentation/mod.rs:24-38. *)
Definition new_host : chost := {| c_mode := Idle; c_seg := new_segmentation; c_pending := []; c_sent := [] |}.

(** All hosts, the ring of counts, first points under way (receiver, content); telepathy, no code. *)
Record cworld := { counts : rworld (nat * nat); host_of : nat -> chost; points_sent : list (nat * (pt * transition)) }.
(** Before [segment], segmentation/mod.rs:83. *)
Definition cinitial : cworld := {| counts := rinitial; host_of := fun _ => new_host; points_sent := [] |}.

(** [TransitionCountMessage] of a host, segmentation/mod.rs:303-311: count and clockwise count of what it built (a host that panics before sends nothing). *)
Definition report (p : params) (k : nat) (points : list pt) : nat * nat :=
  match build_segments p k points new_segmentation with
  | Ok (g, foreign) => (reported_count false g foreign, invalid_directions g)
  | Panic _ => (0, 0)
  end.

(** [global_transition_count] and [invalid_transition_directions] after the messages [l], segmentation/mod.rs:313, 370-371. *)
Definition add_up (own : nat * nat) (l : list (message (nat * nat))) : nat * nat :=
  fold_left (fun s m => (fst s + fst (snd m), snd s + snd (snd m))) l own.

(** [try_send_inter_node_points], segmentation/mod.rs:245-257: what is sent. *)
Definition first_of (p : params) (k : nat) (g : segmentation) : list (nat * (pt * transition)) :=
  match send_point g, send_transition g with Some a, Some t => [(Handover.previous (n_cluster_nodes p) k, (a, t))] | _, _ => [] end.
(** The two [take]s, segmentation/mod.rs:246-247. *)
Definition taken_out (g : segmentation) : segmentation :=
  {| transitions := transitions g; asked := asked g; send_point := None; send_transition := None; last_point := last_point g;
     last_transition := last_transition g; invalid_directions := invalid_directions g |}.
(** [distribute_or_wait_for_segments], segmentation/mod.rs:93-110 with 258-259: the last host distributes at once, the others wait. *)
Definition hand_on (p : params) (k : nat) (g : segmentation) (foreign : for_nodes) (h : chost) : chost :=
  if k =? n_cluster_nodes p - 1
  then {| c_mode := Decided; c_seg := taken_out g; c_pending := c_pending h; c_sent := c_sent h ++ [foreign] |}
  else {| c_mode := Decided; c_seg := taken_out g; c_pending := foreign; c_sent := c_sent h |}.

(** [clear_segmentation], segmentation/mod.rs:352-359, with the clockwise count kept. *)
Definition cleared (invalid : nat) : segmentation :=
  {| transitions := []; asked := []; send_point := None; send_transition := None; last_point := None; last_transition := None; invalid_directions := invalid |}.

(** [try_self_correction], segmentation/mod.rs:323-350, given the sums: new state and first point sent. *)
Definition decide (p : params) (k : nat) (mirrored : list pt) (sums : nat * nat) (h : chost) : chost * list (nat * (pt * transition)) :=
  if mirrors (fst sums) (snd sums) then
    match build_segments p k mirrored (cleared (snd sums)) with
    | Ok (g, foreign) => (hand_on p k g foreign h, first_of p k g)
    | Panic e => ({| c_mode := Crashed e; c_seg := c_seg h; c_pending := c_pending h; c_sent := c_sent h |}, [])
    end
  else (hand_on p k (c_seg h) (c_pending h) h, first_of p k (c_seg h)).

(** [segment], segmentation/mod.rs:83-91 with [self_correction], 290-314: the host's own part; the ring begins in the same step. *)
Definition segment (p : params) (k : nat) (points : list pt) (h : chost) : chost :=
  match build_segments p k points new_segmentation with
  | Ok (g, foreign) => {| c_mode := Counting; c_seg := g; c_pending := foreign; c_sent := c_sent h |}
  | Panic e => {| c_mode := Crashed e; c_seg := c_seg h; c_pending := c_pending h; c_sent := c_sent h |}
  end.

(** [Handler<SendFirstPointMessage>], segmentation/mod.rs:385-443: no check where the host is. *)
Definition gets_first_point (p : params) (k : nat) (a : pt) (t : transition) (h : chost) : chost :=
  match first_point p k a t (c_seg h) (c_pending h) with
  | Ok (g, foreign) => {| c_mode := c_mode h; c_seg := g; c_pending := []; c_sent := c_sent h ++ [foreign] |}
  | Panic e => {| c_mode := Crashed e; c_seg := c_seg h; c_pending := c_pending h; c_sent := c_sent h |}
  end.

(** No host but a crashed one is deaf (actix stops an actor that panics; no code). *)
Definition alive (h : chost) : Prop := match c_mode h with Crashed _ => False | _ => True end.

(** When a first point may be handled (no code):
    [Anyhow]: at any time;
    [In_order]: messages of one host to another arrive in order, and a host handles its messages in the order of arrival: what waits in the mailbox comes first, and
    with two hosts the counts of the sender, which take the same way (with more hosts they go to another host);
    [After_decision]: only when the receiver has decided. *)
Inductive delivery := Anyhow | In_order | After_decision.
(** See [delivery]; the order of telepathy's channels and of actix' mailboxes, no code. *)
Definition may_handle (p : params) (order : delivery) (w : cworld) (k : nat) : Prop :=
  match order with
  | Anyhow => True
  | In_order => mailbox (node_of (counts w) k) = [] /\ (n_cluster_nodes p = 2 -> transit (counts w) k = [])
  | After_decision => c_mode (host_of w k) = Decided
  end.

(** One step; handlers: segmentation/mod.rs:83-91, 364-382, 385-455. *)
Inductive cstep (p : params) (part mirrored : nat -> list pt) (order : delivery) : cworld -> cworld -> Prop :=
| c_segments : forall w k, k < n_cluster_nodes p -> c_mode (host_of w k) = Idle -> not_overtaken (node_of (counts w) k) ->
    cstep p part mirrored order w
      {| counts := match c_mode (segment p k (part k) (host_of w k)) with
                   | Counting => put (n_cluster_nodes p) (counts w) k (begin_ring (n_cluster_nodes p) (fun i => report p i (part i)) k (node_of (counts w) k))
                   | _ => counts w
                   end;
         host_of := set (host_of w) k (segment p k (part k) (host_of w k)); points_sent := points_sent w |}
| c_arrives : forall w k m r, k < n_cluster_nodes p -> transit (counts w) k = m :: r ->
    cstep p part mirrored order w
      {| counts := {| node_of := set (node_of (counts w)) k (pop (node_of (counts w) k) (mailbox (node_of (counts w) k) ++ [m])); transit := set (transit (counts w)) k r |};
         host_of := host_of w; points_sent := points_sent w |}
| c_counts : forall w k m r, k < n_cluster_nodes p -> alive (host_of w k) -> mailbox (node_of (counts w) k) = m :: r ->
    let e := take_in m (pop (node_of (counts w) k) r) in
    let d := if finished (node_of (counts w) k) <? finished (fst e)
             then decide p k (mirrored k) (add_up (report p k (part k)) (taken (fst e))) (host_of w k) else (host_of w k, []) in
    cstep p part mirrored order w
      {| counts := put (n_cluster_nodes p) (counts w) k e; host_of := set (host_of w) k (fst d); points_sent := points_sent w ++ snd d |}
| c_first_point : forall w k a t l r, points_sent w = l ++ (k, (a, t)) :: r -> alive (host_of w k) -> may_handle p order w k ->
    cstep p part mirrored order w
      {| counts := counts w; host_of := set (host_of w) k (gets_first_point p k a t (host_of w k)); points_sent := l ++ r |}.

(** All executions (specification; segmentation/mod.rs:83-91, 364-382, 385-455). *)
Inductive creachable (p : params) (part mirrored : nat -> list pt) (order : delivery) : cworld -> Prop :=
| c_start : creachable p part mirrored order cinitial
| c_after : forall w w', creachable p part mirrored order w -> cstep p part mirrored order w w' -> creachable p part mirrored order w'.
(** No step is possible (specification; segmentation/mod.rs:83-91, 364-382, 385-455). *)
Definition cstuck (p : params) (part mirrored : nat -> list pt) (order : delivery) (w : cworld) : Prop := forall w', ~ cstep p part mirrored order w w'.
