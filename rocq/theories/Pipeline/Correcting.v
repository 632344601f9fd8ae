(** The analysis on a cluster with self correction: the hosts decide whether to mirror their points (Correction/Model.v), then the stages of Pipeline/Cluster.v follow; src/training/mod.rs:183-279,
    segmentation/mod.rs:83-110, 290-382.  The simplifications are those of Pipeline/Cluster.v and Correction/Model.v. *)
From Coq Require Import List Arith Bool.
From Verif.Base Require Import Res Params Float32.
From Verif.Segmentation Require Import Model.
From Verif.Protocol Require Import Model Exchange Ring.
From Verif.Correction Require Import Model.
From Verif.Pipeline Require Import Cluster.
From Verif.Properties Require Import Correction.
Import ListNotations.

(** What host [h] decided, segmentation/mod.rs:323-332, from the counts it added up, 313, 370-371. *)
Definition mirrored_at (p : params) (part : nat -> list pt) (w : cworld) (h : nat) : bool :=
  let sums := add_up (report p h (part h)) (taken (node_of (counts w) h)) in mirrors (fst sums) (snd sums).

Section Correcting.
Context {C : Type}.
(** [work], intersection_calculation/helper.rs:17-35, with the points as they are ([false]) and mirrored ([true]). *)
Variable cross : bool -> list transition -> transition -> nat -> res C.
(** The clustering of the crossings of a segment, node_estimation/multi_kde. *)
Variable cluster : list C -> res (list nat).
Variable p : params.
(** The length of the series, rotation/mod.rs:232-238. *)
Variable n : nat.
(** The points of every host, rotation/mod.rs:231-244, and their mirror images, data_store/mod.rs:74-78. *)
Variables part mirrored : nat -> list pt.
(** How first points are delivered (no code). *)
Variable order : delivery.
Local Notation N := (n_cluster_nodes p).

(** Handler<RotationDoneMessage> to Handler<SegmentedMessage>, training/mod.rs:183-203, with self correction: every host decides and distributes its transitions once, and all decide alike;
    the decision, the questions and the transitions of every host. *)
Definition correction_stage (k : bool -> (nat -> questions) -> (nat -> list transition) -> Prop) : Prop :=
  every (creachable p part mirrored order) (cstuck p part mirrored order) (fun w =>
  (forall h, h < N -> c_mode (host_of w h) = Decided /\ exists distributed, c_sent (host_of w h) = [distributed]) /\
  exists turn, (forall h, h < N -> mirrored_at p part w h = turn) /\
  every (reachable (correction_exchange p w)) (stuck (correction_exchange p w)) (fun x =>
  k turn (fun h => asked (c_seg (host_of w h))) (transitions_at w x))).

(** The whole analysis from the rotated points on, training/mod.rs:183-279. *)
Definition correcting_analysis (k : (nat -> res (list f32)) -> Prop) : Prop :=
  correction_stage (fun turn qs ts =>
  crossing_stage (cross turn) p ts (fun crossings =>
  node_stage cluster p crossings qs (fun stores foreign =>
  edge_stage p n stores foreign (fun edges =>
  transposition_stage p n edges (fun start E =>
  weight_stage p part edges start E (fun g =>
  scoring_stage p g k)))))).
End Correcting.
