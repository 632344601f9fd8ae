(** Cluster membership: src/cluster_listener.rs.
    Simplifications: a [Node] is identified with its socket address (its optional name is not modelled); [main_node] is
    written but never read in the code and is left out; logging is left out. *)
From Coq Require Import List Arith Bool Permutation.
From Verif.Base Require Import Res Params Assoc.
From Verif.Topology Require Import Model.
Import ListNotations.

Section Listener.
Context {addr : Type} (eqb : addr -> addr -> bool).

(** src/parameters.rs:8-17, [Role] (data path not modelled). *)
Inductive role := Main | Sub (mainhost : addr).

(** [connected_nodes] (HashSet in iteration order), [sorted_nodes], [sorted_addr_buffer]: src/cluster_listener.rs:18-25;
    [stopped] records [ctx.stop()]. *)
Record state := mkState {
  connected : list addr;
  sorted_nodes : list (nat * addr);
  addr_buffer : list addr;
  stopped : bool
}.

(** src/cluster_listener.rs:28-37 *)
Definition init : state := {| connected := []; sorted_nodes := []; addr_buffer := []; stopped := false |}.

(** What reaches the listener: ClusterLog (cluster_listener.rs:83-131) and SortedMembersMessage (133-145). *)
Inductive event :=
| NewMember (a : addr)          (** ClusterLog::NewMember *)
| MemberLeft (a : addr)         (** ClusterLog::MemberLeft *)
| SortedMembers (l : list addr). (** SortedMembersMessage *)

(** What it sends: SortedMembersMessage (105-109) and StartTrainingMessage (59-67); [Stopped]: [ctx.stop()] (126) (cluster_listener.rs:59-126). *)
Inductive output :=
| SendSorted (to : addr) (l : list addr)        (** remote_listener.do_send(SortedMembersMessage) *)
| StartTraining (nodes : cluster_nodes addr)    (** training.do_send(StartTrainingMessage) *)
| StopSystem.                                   (** ctx.stop(), whose [stopped] hook stops the system *)

(** [find_map] on the set, cluster_listener.rs:42-48. *)
Definition member (a : addr) (l : list addr) : bool := existsb (eqb a) l.

(** [HashSet::remove] *)
(** [connected_nodes.remove], cluster_listener.rs:51. *)
Definition remove_addr (a : addr) (l : list addr) : list addr := filter (fun x => negb (eqb a x)) l.

(** [HashSet::insert], up to iteration order (see [step]). *)
(** [connected_nodes.insert], cluster_listener.rs:95: a set. *)
Definition add_addr (a : addr) (l : list addr) : list addr := if member a l then l else a :: l.

(** src/cluster_listener.rs:39-57, the loop of [sort_members]: [i] is the enumeration index. *)
Fixpoint sort_loop (i : nat) (addrs conn : list addr) (sorted : list (nat * addr)) : list (nat * addr) :=
  match addrs with
  | [] => sorted
  | a :: t =>
      if member a conn then sort_loop (S i) t (remove_addr a conn) (insert Nat.eqb i a sorted)
      else sort_loop (S i) t conn sorted
  end.

(** [sort_members], cluster_listener.rs:39-57. *)
Definition sort_members (s : state) (addrs : list addr) : state :=
  {| connected := connected s; sorted_nodes := sort_loop 0 addrs (connected s) (sorted_nodes s);
     addr_buffer := addr_buffer s; stopped := stopped s |}.

(** src/cluster_listener.rs:59-67 *)
Definition start_training (s : state) : output := StartTraining (sorted_nodes s).

(** [self.connected_nodes.len() == self.parameters.n_cluster_nodes - 1], 97 and 137; underflow for 0 nodes. *)
(** The test of cluster_listener.rs:97 and 137; [usize] subtraction. *)
Definition complete (p : params) (s : state) : res bool :=
  let! m := usub (n_cluster_nodes p) 1 in Ok (length (connected s) =? m).

(** src/cluster_listener.rs:88-122 after the insertion of the new member; [self] is [parameters.local_host]. *)
Definition after_join (p : params) (r : role) (self : addr) (s : state) : res (state * list output) :=
  let! c := complete p s in
  if c then
    match r with
    | Main =>
        let sorted_members := self :: connected s in
        let s' := sort_members s sorted_members in
        Ok (s', map (fun a => SendSorted a sorted_members) (connected s) ++ [start_training s'])
    | Sub _ =>
        match addr_buffer s with
        | [] => Ok (s, [])
        | _ :: _ => let s' := sort_members s (addr_buffer s) in Ok (s', [start_training s'])
        end
    end
  else Ok (s, []).

(** src/cluster_listener.rs:133-145 *)
Definition on_sorted (p : params) (l : list addr) (s : state) : res (state * list output) :=
  let! c := complete p s in
  if c then let s' := sort_members s l in Ok (s', [start_training s'])
  else Ok ({| connected := connected s; sorted_nodes := sorted_nodes s; addr_buffer := l; stopped := stopped s |}, []).

(** src/cluster_listener.rs:123-128 *)
Definition on_left (r : role) (s : state) : state * list output :=
  match r with
  | Main => (s, [])
  | Sub _ => ({| connected := connected s; sorted_nodes := sorted_nodes s; addr_buffer := addr_buffer s;
                 stopped := true |}, [StopSystem])
  end.

(** One handled event.  [conn'] is the iteration order of the hash set after the insertion: any order is possible.
    A stopped actor handles nothing. *)
(** One event, cluster_listener.rs:83-145. *)
Inductive step (p : params) (r : role) (self : addr) : state -> event -> res (state * list output) -> Prop :=
| step_join : forall s a conn', stopped s = false ->
    Permutation conn' (add_addr a (connected s)) ->
    step p r self s (NewMember a)
      (after_join p r self {| connected := conn'; sorted_nodes := sorted_nodes s; addr_buffer := addr_buffer s;
                              stopped := stopped s |})
| step_left : forall s a, stopped s = false -> step p r self s (MemberLeft a) (Ok (on_left r s))
| step_sorted : forall s l, stopped s = false -> step p r self s (SortedMembers l) (on_sorted p l s)
| step_stopped : forall s e, stopped s = true -> step p r self s e (Ok (s, [])).

(** Handling a list of events; the outputs are listed per event. *)
(** A history of events in the order of the mailbox, cluster_listener.rs:83-145. *)
Inductive run (p : params) (r : role) (self : addr) : state -> list event -> state -> list (list output) -> Prop :=
| run_nil : forall s, run p r self s [] s []
| run_cons : forall s e es s' out s'' outs,
    step p r self s e (Ok (s', out)) -> run p r self s' es s'' outs -> run p r self s (e :: es) s'' (out :: outs).

(** A StartTrainingMessage (cluster_listener.rs:62); used by the specification. *)
Definition is_start (o : output) : bool := match o with StartTraining _ => true | _ => false end.
(** Number of times training is started. *)
(** The StartTrainingMessages of a history (cluster_listener.rs:62); used by the specification. *)
Definition starts (outs : list (list output)) : nat := length (filter is_start (concat outs)).
End Listener.
Arguments role : clear implicits.
Arguments event : clear implicits.
Arguments output : clear implicits.
Arguments state : clear implicits.
