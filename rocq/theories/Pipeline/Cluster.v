(** The stages of a cluster chained as the handlers of the training actor chain them, src/training/mod.rs:183-279, from the rotated points of the hosts to the scores at every host.
    [every]: for every complete execution of a stage, whatever the order of messages and the moments at which hosts enter; [each_host]: no host aborts, and the analysis goes on with what the hosts computed.
    Simplifications: a stage starts from the states in which the hosts leave the stage before (a host that is ahead enters early, and what it sends waits, as in the model of every stage);
    the ring exchanges run without overtaking (C31); no self correction (C82); the geometry of a crossing and the clustering are parameters, as in Pipeline/Model.v. *)
From Coq Require Import List Arith Bool Permutation.
From Verif.Base Require Import Res Params Float32.
From Verif.Segmentation Require Import Model Handover.
From Verif.Protocol Require Import Model Exchange Ring.
From Verif.Intersections Require Import Model.
From Verif.Nodes Require Import Model Spec.
From Verif.Edges Require Import Model.
From Verif.Transposition Require Import Model.
From Verif.Scoring Require Import Model Overlap.
From Verif.Normalize Require Import Model.
From Verif.Properties Require Import Segmentation Intersections.
Import ListNotations.

(** All complete executions of a stage (specification; the handlers of training/mod.rs:183-279 are entered once the stage before is done). *)
Definition every {W} (reached over : W -> Prop) (k : W -> Prop) : Prop := forall w, reached w -> over w -> k w.
(** All hosts compute without a panic (specification; training/mod.rs:183-279). *)
Definition each_gives {A} (N : nat) (gives : nat -> A -> Prop) (k : (nat -> A) -> Prop) : Prop :=
  (forall h, h < N -> exists a, gives h a) /\ forall r, (forall h, h < N -> gives h (r h)) -> k r.
(** ... a function that can abort; the same lines. *)
Definition each_host {A} (N : nat) (f : nat -> res A) : ((nat -> A) -> Prop) -> Prop := each_gives N (fun h a => f h = Ok a).

Section Cluster.
Context {C : Type}.
(** [work], intersection_calculation/helper.rs:17-35, with the transitions of the host. *)
Variable cross : list transition -> transition -> nat -> res C.
(** The clustering of the crossings of a segment, node_estimation/multi_kde. *)
Variable cluster : list C -> res (list nat).
Variable p : params.
(** The length of the series ([dataset_stats.n]), rotation/mod.rs:232-238, transposition/mod.rs:30. *)
Variable n : nat.
(** The points of every host, numbered from its offset on, rotation/mod.rs:231-244. *)
Variable part : nat -> list pt.
Local Notation N := (n_cluster_nodes p).

(** Handler<RotationDoneMessage> to Handler<SegmentedMessage>, training/mod.rs:183-203: segmentation with hand-over and the exchange of transitions: every host comes to distribute its transitions;
    questions and transitions of every host. *)
Definition segmentation_stage (k : (nat -> questions) -> (nat -> list transition) -> Prop) : Prop :=
  every (hreachable p part false) (hstuck p part false) (fun hw =>
  (forall h, h < N -> exists g m, phase_of hw h = Distributing g m) /\
  every (reachable (transition_exchange p hw)) (stuck (transition_exchange p hw)) (fun x =>
  k (fun h => asked (segmentation_of (phase_of hw h))) (stored hw x))).

(** Handler<SegmentedMessage> to Handler<IntersectionCalculationDone>, training/mod.rs:195-213: the crossings in the store of every host. *)
Definition crossing_stage (ts : nat -> list transition) (k : (nat -> list (crossing C)) -> Prop) : Prop :=
  forall others, (forall h, h < N -> other_hosts p h (others h)) ->
  each_host N (fun h => start_stage cross p h (others h) (ts h)) (fun r =>
  every (reachable (crossing_exchange p (fun h => snd (r h)))) (stuck (crossing_exchange p (fun h => snd (r h)))) (fun w =>
  forall messages, (forall h, h < N -> received_as w h (messages h)) ->
  each_host N (fun h => end_stage p h (fst (r h)) (messages h)) k)).

(** Handler<IntersectionCalculationDone> to Handler<NodeEstimationDone>, training/mod.rs:205-231: nodes, questions and answers in any order: the nodes of every host and the ones it was told. *)
Definition node_stage (crossings : nat -> list (crossing C)) (qs : nat -> questions) (k : (nat -> list node) -> (nat -> foreign_nodes) -> Prop) : Prop :=
  each_host N (fun h => create_nodes cluster p h (crossings h)) (fun stores =>
  forall others ask_order answer_order, (forall h, h < N -> other_hosts p h (others h)) ->
  (forall h, h < N -> Permutation (ask_order h) (seq 0 N)) -> (forall h, h < N -> Permutation (answer_order h) (seq 0 N)) ->
  each_host N (fun h => answers_at (others h) h (stores h) qs (ask_order h)) (fun answers =>
  k stores (fun h => foreign_at h answers (answer_order h)))).

(** Handler<NodeEstimationDone> to Handler<EdgeEstimationDone>, training/mod.rs:223-247: the edges of every host. *)
Definition edge_stage (stores : nat -> list node) (foreign : nat -> foreign_nodes) (k : (nat -> list edge) -> Prop) : Prop :=
  each_host N (fun h => estimate_edges n (stores h) (foreign h)) k.

(** Handler<EdgeEstimationDone> to Handler<TranspositionDone>, training/mod.rs:233-257: start of its part and the edges of every host. *)
Definition transposition_stage (edges : nat -> list edge) (k : (nat -> nat) -> (nat -> list edge) -> Prop) : Prop :=
  each_host N (fun h => transpose n N h (edges h)) (fun r =>
  every (reachable (edge_exchange N (fun h => snd (r h)))) (stuck (edge_exchange N (fun h => snd (r h)))) (fun w =>
  k (fun h => fst (r h)) (fun h => transposed h (snd (r h)) (state w h)))).

(** [init_scoring], scoring/mod.rs:68-79, with the rings of degrees (of the edges before transposition, training/mod.rs:240) and weights, weights.rs:118-222, and the overlaps, overlap.rs:
    what the helpers of every host are given, scoring/mod.rs:86-106.  The maps travel in any iteration order. *)
Definition weight_stage (edges : nat -> list edge) (start : nat -> nat) (E : nat -> list edge) (k : (nat -> graph) -> Prop) : Prop :=
  each_host N (fun h => count_edges_in_time (start h) (E h) (length (part h)) (h =? N - 1)) (fun index =>
  forall degrees weights, (forall h, h < N -> Permutation (degrees h) (node_degrees (edges h))) -> (forall h, h < N -> Permutation (weights h) (edge_weight (E h))) ->
  every (rreachable N degrees not_overtaken) (rstuck N degrees) (fun dw =>
  every (rreachable N weights not_overtaken) (rstuck N weights) (fun ww =>
  every (oreachable N (query_length p) (fun h => (E h, index h))) (fun w => forall w', ~ ostep N (query_length p) w w') (fun ow =>
  k (fun h => {| g_edges := fst (o_data (ohosts ow h)); g_index := snd (o_data (ohosts ow h));
                 g_weight := ring_map edge_key_eqb (edge_weight (E h)) (taken (node_of ww h));
                 g_degree := ring_map key_eqb (node_degrees (edges h)) (taken (node_of dw h)); g_query := query_length p |}))))).

(** [score] to [finalize_scoring], scoring/mod.rs:81-228, 258-335: the helper threads of all hosts, the ring of the partial scores, assembly and normalization: the result at every host. *)
Definition scoring_stage (g : nat -> graph) (k : (nat -> res (list f32)) -> Prop) : Prop :=
  each_host N (fun h => start_scoring f_zero score_value (g h) (n_threads p)) (fun w0 =>
  forall w, (forall h, h < N -> scoring_run (fun x => f_eq x f_zero) (w0 h) (w h) /\ flying (w h) = []) ->
  each_gives N (fun h v => c_delivered (collecting (w h)) = [v]) (fun parts =>
  every (rreachable N parts not_overtaken) (rstuck N parts) (fun rw =>
  k (fun h => let! l := in_order N (subscores h (parts h) (taken (node_of rw h))) in let! v := assemble (fun x => f_eq x f_zero) l in normalize_score v)))).

(** The whole analysis from the rotated points on, training/mod.rs:183-279: [k] holds of the results, whatever the schedule, and nothing aborts before. *)
Definition cluster_analysis (k : (nat -> res (list f32)) -> Prop) : Prop :=
  segmentation_stage (fun qs ts =>
  crossing_stage ts (fun crossings =>
  node_stage crossings qs (fun stores foreign =>
  edge_stage stores foreign (fun edges =>
  transposition_stage edges (fun start E =>
  weight_stage edges start E (fun g =>
  scoring_stage g k)))))).
End Cluster.
