(** The distributed PCA as a message-passing system: src/training/rotation/pca/mod.rs (between the hosts of the cluster),
    src/training/rotation/pca/helper.rs (between the helper threads of one host) and the restart for the next channel in
    src/training/rotation/mod.rs:42-66, 248-261.

    Triangular factors are kept symbolic: [Own i] is the factor node [i] computed from its own rows, [Combine a b] the
    factor of [a] stacked on [b].  Column means are represented by the node they come from.  The numbers behind both
    are the subject of Gram.v. *)
From Coq Require Import List Arith Bool.
Import ListNotations.

(** How a factor was combined, pca/mod.rs:191-203: the numbers stay abstract, a factor is the tree of the merges that produced it. *)
Inductive rtree := Own (id : nat) | Combine (l r : rtree).

(** The nodes whose factor went into [t], left to right. *)
(** The nodes whose rows went into a factor, pca/mod.rs:191-203 (specification). *)
Fixpoint leaves (t : rtree) : list nat :=
  match t with Own i => [i] | Combine l r => leaves l ++ leaves r end.

(** Messages of the protocol.  [Start]: the stage message that makes a host call [rotate] (training/mod.rs:174-181).
    [Setup]: the local factor is ready; between hosts this is [PCAHelperMessage::Response] (mod.rs:320-343), between the helper
    threads [PCAHelperMessage::Setup] (helper.rs:160-165).  [Means i]: [PCAMeansMessage] of node i.  [R t c]:
    [PCADecompositionMessage].  [Components]: [PCAComponents].  [Done]: [PCADoneMessage]. *)
Inductive pmsg :=
| Start | Setup | Means (i : nat) | R (t : rtree) (count : nat) | Components (means : list nat) (t : rtree) | Done.

(** State of a node, mod.rs:21-37 and helper.rs:13-25: [started]: [rotate] was called; [local]: [local_r]; [r_count];
    [means]: the rows of [column_means] (and of [n]) in order; [buffer] and [means_buffer]; [n_reduced]; [rotated]: how often the
    node got to [broadcast_rotation_matrix]; [mail]: the FIFO mailbox of the actor. *)
Record node := {
  started : bool; local : option rtree; r_count : nat; means : option (list nat);
  buffer : list pmsg; means_buffer : list pmsg; n_reduced : nat; rotated : nat; mail : list pmsg
}.

(** [n_nodes]: [cluster_nodes.len_incl_own()], for the helper threads [neighbors.len()].
    [multi]: [n_threads > 1].  [channels]: number of channels of the series ([phase_space.shape()[2]]).
    [helpers]: the system of helper threads of one host (true) or of the hosts of the cluster (false).
    [fifo]: messages of one host to another arrive in the order in which they were sent.
    [n_setup]: how many nodes are given rows at the beginning. *)
(** Number of nodes and of threads: [cluster_nodes.len_incl_own()], [n_threads], pca/mod.rs:92-145, 163-189. *)
Record config := {
  n_nodes : nat; multi : bool; channels : nat; helpers : bool; fifo : bool; n_setup : nat
}.

(** What the main node used when it finalized: the means and the factor. *)
(** What becomes of a node: it runs or it has aborted, pca/mod.rs:179 (no such peer), 205-223 (means or factor missing). *)
Definition outcome := (list nat * rtree)%type.

(** What a handler does: new state, messages sent in order (to a node), finalizations, abort. *)
(** What a handler sends: to other nodes, to itself, to its threads, pca/mod.rs:147-189, 251-267. *)
Record effect := { e_node : node; e_sends : list (nat * pmsg); e_finals : list outcome; e_panic : bool }.

(** [next_2_power], mod.rs:158-161, helper.rs:77-80.  Simplification: the power is computed exactly (the code goes through
    [f32::log2], which is exact on powers of two). *)
Definition next_2_power (n : nat) : nat := 2 ^ Nat.log2_up n.
(** [threshold], mod.rs:165. *)
Definition threshold (n c : nat) : nat := next_2_power n / 2 ^ (c + 1).

(** What [send_to_neighbor_or_finalize] decides. *)
(** The three outcomes of [send_to_neighbor_or_finalize], pca/mod.rs:163-189. *)
Inductive action := ASend (dst count : nat) | AFinalize | AWait.

(** [send_to_neighbor_or_finalize], mod.rs:163-189, helper.rs:82-105, for [r_count = c]: the new [r_count] and the decision.  The recursive call
    happens with [r_count = 1], where the second branch is closed, so it is unfolded here. *)
Definition decide (n id c : nat) : nat * action :=
  let base c :=
    if (threshold n c <=? id) && (0 <? id) then ASend (id - threshold n c) (c + 1)
    else if (id =? 0) && (threshold n c =? 0) then AFinalize
    else AWait in
  if (threshold n c <=? id) && (0 <? id) then (c, base c)
  else if (c =? 0) && (n <=? id + threshold n c) then (1, base 1)
  else (c, base c).

(** Fields of a node replaced. *)
(** Assignment of [local_r] and [r_count], pca/mod.rs:191-203. *)
Definition with_factor (nd : node) (l : option rtree) (c : nat) : node :=
  {| started := started nd; local := l; r_count := c; means := means nd; buffer := buffer nd; means_buffer := means_buffer nd;
     n_reduced := n_reduced nd; rotated := rotated nd; mail := mail nd |}.
(** Assignment of [column_means]/[means], pca/mod.rs:270-289. *)
Definition with_means (nd : node) (m : option (list nat)) : node :=
  {| started := started nd; local := local nd; r_count := r_count nd; means := m; buffer := buffer nd; means_buffer := means_buffer nd;
     n_reduced := n_reduced nd; rotated := rotated nd; mail := mail nd |}.
(** Assignment of the two buffers, pca/mod.rs:78-90. *)
Definition with_buffers (nd : node) (b mb : list pmsg) : node :=
  {| started := started nd; local := local nd; r_count := r_count nd; means := means nd; buffer := b; means_buffer := mb;
     n_reduced := n_reduced nd; rotated := rotated nd; mail := mail nd |}.
(** The own mailbox (actix) after [do_send] to oneself, pca/mod.rs:78-90. *)
Definition with_mail (nd : node) (m : list pmsg) : node :=
  {| started := started nd; local := local nd; r_count := r_count nd; means := means nd; buffer := buffer nd; means_buffer := means_buffer nd;
     n_reduced := n_reduced nd; rotated := rotated nd; mail := m |}.

(** A handler that sends nothing, pca/mod.rs:305-318. *)
Definition no_effect (nd : node) : effect := {| e_node := nd; e_sends := []; e_finals := []; e_panic := false |}.

(** [share_principal_components], mod.rs:251-267: to the peers, then to itself.  The helper threads instead answer their host
    (helper.rs:141-148), which is outside of their system. *)
Definition share (cf : config) (m : list nat) (t : rtree) : list (nat * pmsg) :=
  if helpers cf then []
  else map (fun j => (j, Components m t)) (seq 1 (n_nodes cf - 1)) ++ [(0, Components m t)].

(** [send_to_neighbor_or_finalize] carried out for a node with local factor [t].  A peer that is not in the table aborts (mod.rs:179): the
    table of a host contains every node but itself.  [finalize] (mod.rs:205-233) needs the means. *)
Definition send_or_finalize (cf : config) (id : nat) (nd : node) (t : rtree) : effect :=
  let (c, a) := decide (n_nodes cf) id (r_count nd) in
  let nd' := with_factor nd (Some t) c in
  match a with
  | AWait => no_effect nd'
  | ASend dst k =>
      if (dst <? n_nodes cf) && negb (dst =? id)
      then {| e_node := nd'; e_sends := [(dst, R t k)]; e_finals := []; e_panic := false |}
      else {| e_node := nd'; e_sends := []; e_finals := []; e_panic := true |}
  | AFinalize =>
      match means nd with
      | Some m => {| e_node := nd'; e_sends := share cf m t; e_finals := [(m, t)]; e_panic := false |}
      | None => {| e_node := nd'; e_sends := []; e_finals := []; e_panic := true |}
      end
  end.

(** [resolve_buffer] (mod.rs:78-90, helper.rs:57-67): the buffered messages are sent to the own mailbox, last one first. *)
Definition resolve (id : nat) (b : list pmsg) : list (nat * pmsg) := map (pair id) (rev b).

(** The local factor is there: mod.rs:92-114 (one thread, no buffer is looked at), mod.rs:320-343 (several threads), helper.rs:36-55.
    [send_to_main] (mod.rs:147-156, helper.rs:69-75): every node but the main one sends its means. *)
Definition on_setup (cf : config) (id : nat) (nd : node) : effect :=
  let nd1 := with_means nd (Some [id]) in
  let e := send_or_finalize cf id nd1 (Own id) in
  let to_main := if id =? 0 then [] else [(0, Means id)] in
  if helpers cf || multi cf then
    {| e_node := with_buffers (e_node e) [] [];
       e_sends := to_main ++ e_sends e ++ resolve id (buffer nd) ++ resolve id (means_buffer nd);
       e_finals := e_finals e; e_panic := e_panic e |}
  else
    {| e_node := e_node e; e_sends := to_main ++ e_sends e; e_finals := e_finals e; e_panic := e_panic e |}.

(** [run_pca], rotation/mod.rs:55-66: everything is forgotten ([clear]), then the local factor is computed: at once with one thread, by
    the helper threads otherwise ([Setup] comes later). *)
Definition run_pca (cf : config) (id : nat) (nd : node) : effect :=
  let nd1 := {| started := true; local := None; r_count := 0; means := None; buffer := []; means_buffer := [];
                n_reduced := n_reduced nd + 1; rotated := rotated nd; mail := mail nd |} in
  if multi cf then no_effect nd1 else on_setup cf id nd1.

(** The message handlers. *)
(** The handlers, pca/mod.rs:270-343, pca/helper.rs:156-214, rotation/mod.rs:42-66, 248-261. *)
Definition handle (cf : config) (id : nat) (nd : node) (m : pmsg) : effect :=
  match m with
  | Start => (* training/mod.rs:174-181, rotation/mod.rs:42-53 *) run_pca cf id nd
  | Setup => on_setup cf id nd
  | Means i => (* mod.rs:270-289, helper.rs:167-168, 185-201 *)
      if helpers cf && match local nd with None => true | Some _ => false end
      then no_effect (with_buffers nd (buffer nd ++ [m]) (means_buffer nd))
      else match means nd with
           | Some ms => no_effect (with_means nd (Some (ms ++ [i])))
           | None => no_effect (with_buffers nd (buffer nd) (means_buffer nd ++ [m]))
           end
  | R t c => (* mod.rs:291-303, helper.rs:175-184; combine_remote_r 191-203 *)
      match local nd with
      | Some l =>
          if c =? r_count nd + 1 then
            let e := send_or_finalize cf id (with_factor nd (Some l) c) (Combine l t) in
            {| e_node := with_buffers (e_node e) [] (means_buffer (e_node e));
               e_sends := e_sends e ++ resolve id (buffer nd); e_finals := e_finals e; e_panic := e_panic e |}
          else no_effect (with_buffers nd (buffer nd ++ [m]) (means_buffer nd))
      | None => no_effect (with_buffers nd (buffer nd ++ [m]) (means_buffer nd))
      end
  | Components _ _ => (* mod.rs:305-318 *)
      {| e_node := nd; e_sends := [(id, Done)]; e_finals := []; e_panic := false |}
  | Done => (* rotation/mod.rs:248-261 *)
      if n_reduced nd <? channels cf then run_pca cf id nd
      else no_effect {| started := started nd; local := local nd; r_count := r_count nd; means := means nd; buffer := buffer nd;
                        means_buffer := means_buffer nd; n_reduced := n_reduced nd; rotated := rotated nd + 1; mail := mail nd |}
  end.

(** Global state.  [net]: messages on their way (from, to, message), in sending order. *)
(** State of all nodes and of the network (actix, telepathy; no code). *)
Record pstate := { nodes : nat -> node; net : list (nat * nat * pmsg); finals : list outcome; panicked : bool }.

(** Change of the state of one node (no code; one actor runs at a time). *)
Definition upd (f : nat -> node) (p : nat) (v : node) : nat -> node := fun q => if q =? p then v else f q.

(** Sending: to itself into the own mailbox; between helper threads directly into the mailbox of the receiver; between hosts
    over the network. *)
(** [do_send] of the messages of an effect, pca/mod.rs:147-189, 251-267. *)
Definition post (cf : config) (src : nat) (s : pstate) (dm : nat * pmsg) : pstate :=
  let (d, m) := dm in
  if helpers cf || (d =? src)
  then {| nodes := upd (nodes s) d (with_mail (nodes s d) (mail (nodes s d) ++ [m])); net := net s; finals := finals s; panicked := panicked s |}
  else {| nodes := nodes s; net := net s ++ [(src, d, m)]; finals := finals s; panicked := panicked s |}.

(** After [run_pca] with several threads the helper threads work; their answer will reach the own mailbox at some time. *)
(** The answer of the threads of a host, pca/helper.rs:141-148, mod.rs:320-343. *)
Definition helper_answer (cf : config) (id : nat) (nd : node) (m : pmsg) : list (nat * nat * pmsg) :=
  match m with
  | Start => if multi cf then [(id, id, Setup)] else []
  | Done => if multi cf && (n_reduced nd <? channels cf) then [(id, id, Setup)] else []
  | _ => []
  end.

(** A node handles the first message [m] of its mailbox; [rest] is what remains of it. *)
(** One handler call with its effects, pca/mod.rs:270-343. *)
Definition process (cf : config) (p : nat) (s : pstate) (m : pmsg) (rest : list pmsg) : pstate :=
  let nd := with_mail (nodes s p) rest in
  let e := handle cf p nd m in
  fold_left (post cf p) (e_sends e)
    {| nodes := upd (nodes s) p (e_node e); net := net s ++ helper_answer cf p nd m; finals := finals s ++ e_finals e;
       panicked := panicked s || e_panic e |}.

(** Delivery (actix, telepathy; no code): any message under way reaches its mailbox, any node serves the first message of its mailbox. *)
Inductive step (cf : config) : pstate -> pstate -> Prop :=
| s_arrive : forall s before src d m after,
    net s = before ++ (src, d, m) :: after ->
    (fifo cf = true -> forall m', ~ In (src, d, m') before) ->
    step cf s {| nodes := upd (nodes s) d (with_mail (nodes s d) (mail (nodes s d) ++ [m]));
                 net := before ++ after; finals := finals s; panicked := panicked s |}
| s_process : forall s p m rest, p < n_nodes cf -> mail (nodes s p) = m :: rest -> step cf s (process cf p s m rest).

(** [PCA::default()] before [rotate], pca/mod.rs:21-37. *)
Definition idle_node : node :=
  {| started := false; local := None; r_count := 0; means := None; buffer := []; means_buffer := []; n_reduced := 0; rotated := 0; mail := [] |}.

(** Before the PCA.  Hosts: the stage message has still to arrive.  Helper threads: [Setup] was put into the (empty) mailboxes of the first [n_setup] of them
    by the host (mod.rs:116-145). *)
Definition initial (cf : config) : pstate :=
  if helpers cf then
    {| nodes := fun p => {| started := true; local := None; r_count := 0; means := None; buffer := []; means_buffer := [];
                            n_reduced := 1; rotated := 0; mail := if p <? n_setup cf then [Setup] else [] |};
       net := []; finals := []; panicked := false |}
  else
    {| nodes := fun _ => idle_node; net := map (fun p => (p, p, Start)) (seq 0 (n_setup cf)); finals := []; panicked := false |}.

(** States reachable by runs that stay inside [ok]. *)
(** All executions of the handlers of pca/mod.rs:270-343 (specification). *)
Inductive reachable (cf : config) (ok : pstate -> Prop) : pstate -> Prop :=
| reach_init : reachable cf ok (initial cf)
| reach_step : forall s s', reachable cf ok s -> step cf s s' -> ok s' -> reachable cf ok s'.

(** Rows of one host over its helper threads, mod.rs:135-144: chunk size and the chunks ([axis_chunks_iter]); with no rows the chunk
    size is zero, which aborts.  The number of [Setup] messages is the length of the shorter of chunks and helpers ([zip]). *)
Definition chunk_size (rows threads : nat) : nat := (rows + threads - 1) / threads.
(** [axis_chunks_iter], pca/mod.rs:135-144. *)
Definition chunks (rows threads : nat) : list (nat * nat) :=
  let c := chunk_size rows threads in
  map (fun i => (i * c, Nat.min rows ((i + 1) * c))) (seq 0 ((rows + c - 1) / c)).
(** The row ranges handed to the threads, pca/mod.rs:135-144. *)
Definition assigned (rows threads : nat) : list (nat * nat) := firstn threads (chunks rows threads).
