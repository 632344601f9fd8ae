(** The whole analysis over the real numbers, from the rows of the series to the scores: the chain of rotation (Front/Model.v), crossings (Intersections/Real.v), clustering (Kde/Real.v) and the
    stages of the training actor (Pipeline/Model.v, Pipeline/Cluster.v); src/training/mod.rs:130-279.
    Simplifications: f32 is the real numbers up to the labels of the clusters; the scores are in single precision.  The principal components are an input (Front/Spec.v says what they are). *)
From Coq Require Import List Arith Bool Reals.
From Verif.Base Require Import Res Params Float32.
From Verif.Segmentation Require Import Model.
From Verif.Geometry Require Import Model.
From Verif.Front Require Import Model.
From Verif.Intersections Require Import Real.
From Verif.Kde Require Import Real.
From Verif.Scoring Require Import Model.
From Verif.Pipeline Require Import Model Cluster.
Import ListNotations.

(** [calculate_segment_id], data_store/point.rs:33-35; points with fewer than two coordinates have aborted before (Geometry/Model.v, [add_points]). *)
Definition r_sector (rate : nat) (c : list R) : nat := match c with x :: y :: _ => get_segment_id (atan2 y x) rate | _ => 0 end.
(** The coordinates after [mirror], data_store/point.rs:53-58. *)
Definition r_flip (c : list R) : list R := match c with x :: l => (x * -1)%R :: l | [] => [] end.
(** A point as the stages after the rotation see it, data_store/point.rs:11-16. *)
Definition as_pt (q : point) : pt := {| pid := p_id q; pseg := p_segment q |}.

(** One machine: rotation/mod.rs:191-245, training/mod.rs:183-257. *)
Definition machine_analysis (inv : (nat -> nat -> R) -> option (nat -> nat -> R)) (p : params) (dim : nat) (mins maxs : list R) (pcs : list components_of) (rows : list (list R)) : res (scoring_world f32) :=
  let! ms := alignment p mins maxs pcs in
  let! points := host_points p dim (length rows) 1 0 ms pcs rows in
  local_scoring (r_sector (rate p)) r_flip (real_cross inv (rate p)) (r_cluster (n_threads p)) p (length rows) (map p_coordinates points).

(** A cluster: the same lines (rotation/mod.rs:191-245, training/mod.rs:183-279); [part h]: the rows of host [h], [n]: the published number of rows.  The alignment comes from the main host (C62).
    Transitions carry the coordinates of their points; here they are looked up by number among the points of all hosts. *)
Definition cluster_from_rows (inv : (nat -> nat -> R) -> option (nat -> nat -> R)) (p : params) (dim n : nat) (mins maxs : list R) (pcs : list components_of) (part : nat -> list (list R))
    (k : (nat -> res (list f32)) -> Prop) : Prop :=
  let N := n_cluster_nodes p in
  match alignment p mins maxs pcs with
  | Panic _ => False
  | Ok ms => each_host N (fun h => host_points p dim n N h ms pcs (part h)) (fun points =>
      cluster_analysis (real_cross inv (rate p) (map p_coordinates (concat (map points (seq 0 N))))) (r_cluster (n_threads p)) p n (fun h => map as_pt (points h)) k)
  end.
