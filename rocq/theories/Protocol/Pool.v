(** Requester of a helper pool: IntersectionCalculation (training/intersection_calculation/mod.rs:166-218, 278-306) and the kernel density estimation
    (multi_kde/actors/gaussian_kde.rs:58-96, 148-173).  All tasks are sent in one handler; the pool answers every task once, in any order. *)
From Coq Require Import List Arith Bool.
From Verif.Base Require Import Res.
From Verif.Protocol Require Import Model.
Import ListNotations.

(** [answers]: processed answers in order, [proceeds]: how often the requester went on to the next stage. *)
(** The requester's protocol object, what it collected and whether it finished, gaussian_kde.rs:13-21, intersection_calculation/mod.rs:34-43. *)
Record requester (A : Type) := { pool : helper; answers : list A; proceeds : nat }.
Arguments pool {A}. Arguments answers {A}. Arguments proceeds {A}. Arguments Build_requester {A}.

(** [h.n_total = n; for … {do_send; h.sent()}] on a fresh protocol object ([reset], gaussian_kde.rs:37-42). *)
Definition dispatch {A} (n : nat) : requester A :=
  {| pool := Nat.iter n h_sent_one {| h_total := n; h_sent := h_sent new_helper; h_received := h_received new_helper |}; answers := []; proceeds := 0 |}.

(** The response handlers. *)
(** The handler of an answer, gaussian_kde.rs:148-173, intersection_calculation/mod.rs:278-306. *)
Definition answered {A} (r : requester A) (a : A) : res (requester A) :=
  let! h := h_received_one (pool r) in
  Ok {| pool := h; answers := answers r ++ [a]; proceeds := if h_running h then proceeds r else S (proceeds r) |}.

(** The answers in the order of arrival (actix), gaussian_kde.rs:148-173. *)
Definition run_pool {A} (n : nat) (arrivals : list A) : res (requester A) := foldM answered arrivals (dispatch n).

(** ** Kernel density estimation: task [t] is the [t]-th chunk of the rows; the answers are added up, gaussian_kde.rs:81-96, 151-158. *)
(** [send_tasks], gaussian_kde.rs:81-96: the range of task [t]; [None]: division by zero threads. *)
Definition kde_range (n threads t : nat) : res (nat * nat) :=
  let! chunk := udiv n threads in
  Ok (t * chunk, if t + 1 <? threads then (t + 1) * chunk else n).

(** ** Both rings of the weight initialisation run at the same time, training/scoring/weights.rs:118-222 *)
Inductive ring_message := Degrees | Weights.
(** The two ring objects and [init_done], scoring/mod.rs:36-54. *)
Record init_state := { degrees_protocol : protocol unit; weights_protocol : protocol unit; init_done_sent : nat }.
(** [start_node_degrees_rotation], [start_edge_weight_rotation], weights.rs:118-153, called one after the other from init_scoring (scoring/mod.rs:73-75);
    re-queued messages appear in the message sequence handled afterwards. *)
Definition init_rings (n : nat) : init_state :=
  {| degrees_protocol := sent (start (n - 1) new_protocol); weights_protocol := sent (start (n - 1) new_protocol); init_done_sent := 0 |}.
(** [init_done], weights.rs:155-158. *)
Definition init_done (s : init_state) : bool := negb (is_running (degrees_protocol s) || is_running (weights_protocol s)).
(** [Handler<NodeDegrees>], [Handler<EdgeWeights>], weights.rs:161-222. *)
Definition ring_handle (s : init_state) (m : ring_message) : init_state :=
  match m with
  | Degrees =>
      let '(p, ok) := received tt (degrees_protocol s) in
      let s1 := {| degrees_protocol := p; weights_protocol := weights_protocol s; init_done_sent := init_done_sent s |} in
      if negb ok then s1
      else if is_running p then {| degrees_protocol := sent p; weights_protocol := weights_protocol s; init_done_sent := init_done_sent s |}
      else if init_done s1 then {| degrees_protocol := p; weights_protocol := weights_protocol s; init_done_sent := S (init_done_sent s) |} else s1
  | Weights =>
      let '(p, ok) := received tt (weights_protocol s) in
      let s1 := {| degrees_protocol := degrees_protocol s; weights_protocol := p; init_done_sent := init_done_sent s |} in
      if negb ok then s1
      else if is_running p then {| degrees_protocol := degrees_protocol s; weights_protocol := sent p; init_done_sent := init_done_sent s |}
      else if init_done s1 then {| degrees_protocol := degrees_protocol s; weights_protocol := p; init_done_sent := S (init_done_sent s) |} else s1
  end.
(** Which of the two messages arrives, weights.rs:161, 193. *)
Definition is_degrees (m : ring_message) : bool := match m with Degrees => true | Weights => false end.
