(** What the theorems about the distributed PCA say. *)
From Coq Require Import List Arith Bool.
From Verif.Pca Require Import Model.
Import ListNotations.

(** Nothing is left to do: no message under way, no message waiting in a mailbox. *)
Definition quiescent (cf : config) (s : pstate) : Prop :=
  net s = [] /\ forall p, p < n_nodes cf -> mail (nodes s p) = [].

(** No factor was received by a host that has not yet begun its own PCA. *)
Definition nobody_early (cf : config) (s : pstate) : Prop :=
  forall p, p < n_nodes cf -> started (nodes s p) = false -> buffer (nodes s p) = [].

(** No assumption on the run. *)
Definition any_run (s : pstate) : Prop := True.

(** The hosts of a cluster of [n], analysing one channel; the helper threads of one host, all of which got rows. *)
Definition hosts (n : nat) (several_threads ordered : bool) (channels : nat) : config :=
  {| n_nodes := n; multi := several_threads; channels := channels; helpers := false; fifo := ordered; n_setup := n |}.
Definition helper_threads (n given : nat) : config :=
  {| n_nodes := n; multi := false; channels := 1; helpers := true; fifo := false; n_setup := given |}.

(** Neither a factor nor means were received by a host that has not yet begun its own PCA. *)
Definition nothing_early (cf : config) (s : pstate) : Prop :=
  forall p, p < n_nodes cf -> started (nodes s p) = false -> buffer (nodes s p) = [] /\ means_buffer (nodes s p) = [].

(** No factor is faster than the means that belong to it: when a factor has reached the main host, the means of no host whose
    factor went into it are still under way. *)
Definition means_ahead (s : pstate) : Prop :=
  forall t c q from, In (R t c) (mail (nodes s 0)) -> In q (leaves t) -> ~ In (from, 0, Means q) (net s).

(** The states that can follow a state. *)
Inductive continues (cf : config) (s : pstate) : pstate -> Prop :=
| cont_here : continues cf s s
| cont_step : forall s' s'', continues cf s s' -> step cf s' s'' -> continues cf s s''.

(** No host handles a factor or means of a channel whose PCA it has not begun: if another host has begun more channels, what this host
    handles next is neither. *)
Definition rounds_apart (cf : config) (s : pstate) : Prop :=
  forall p q, p < n_nodes cf -> q < n_nodes cf -> n_reduced (nodes s p) < n_reduced (nodes s q) ->
    match mail (nodes s p) with R _ _ :: _ | Means _ :: _ => False | _ => True end.

(** Neither a factor nor means were received by a host whose own factor of the current channel is not there yet. *)
Definition nothing_before (cf : config) (s : pstate) : Prop :=
  forall p, p < n_nodes cf -> local (nodes s p) = None -> buffer (nodes s p) = [] /\ means_buffer (nodes s p) = [].

(** [o] - whose means and which factors - is what the main host finalizes for one of the channels of a run that reduces several: on one host, or on hosts in step. *)
Inductive of_several_channels (n : nat) (several_threads : bool) (o : list nat * rtree) : Prop :=
| alone : forall k ordered s, n = 1 -> 1 <= k -> reachable (hosts n several_threads ordered k) any_run s -> In o (finals s) -> of_several_channels n several_threads o
| in_step : forall k ordered s, several_threads = false -> 1 <= k ->
    let cf := hosts n several_threads ordered k in reachable cf (fun s => rounds_apart cf s /\ means_ahead s) s -> In o (finals s) -> of_several_channels n several_threads o
| threads_in_step : forall k ordered s, several_threads = true -> 1 <= k ->
    let cf := hosts n several_threads ordered k in reachable cf (fun s => rounds_apart cf s /\ means_ahead s /\ nothing_before cf s) s -> In o (finals s) -> of_several_channels n several_threads o.
