(** The stages of the training actor chained as its handlers chain them, src/training/mod.rs:183-279, from the rotated points to the scores.
    The coordinates of a point, its sector, its mirror image, the computation of one crossing and the clustering of one segment are parameters
    (modelled in theories/Geometry and theories/Kde). *)
From Coq Require Import List Arith Bool.
From Verif.Base Require Import Res Params Float32.
From Verif.Segmentation Require Import Model.
From Verif.Intersections Require Import Model.
From Verif.Nodes Require Import Model.
From Verif.Edges Require Import Model.
From Verif.Scoring Require Import Model.
From Verif.Normalize Require Import Model.
Import ListNotations.

Section Pipeline.
Context {K C : Type}.
(** [calculate_segment_id], data_store/point.rs:33-35. *)
Variable sector : K -> nat.
(** The coordinates after [mirror], data_store/point.rs:53-58. *)
Variable flip : K -> K.
(** [work], intersection_calculation/helper.rs:17-35, for the transitions with the given coordinates by point number. *)
Variable cross : list K -> list transition -> transition -> nat -> res C.
(** The clustering of the crossings of a segment, node_estimation/multi_kde. *)
Variable cluster : list C -> res (list nat).

(** [add_points_with_offset], data_store/mod.rs:55-67, from the first number [next_id] on. *)
Definition store_points (next_id : nat) (coords : list K) : list pt :=
  map (fun '(i, k) => {| pid := i; pseg := sector k |}) (combine (seq next_id (length coords)) coords).

(** [segment], segmentation/mod.rs:83-92, with [self_correction], 290-349, on one machine: the coordinates (mirrored or not) and the transitions. *)
Definition local_segmentation (p : params) (coords : list K) : res (list K * list transition) :=
  let! (g, foreign) := build_segments p 0 (store_points 0 coords) new_segmentation in
  if self_correction p && mirrors (reported_count true g foreign) (invalid_directions g) then
    let coords := map flip coords in
    let! (g, _) := build_segments p 0 (store_points 0 coords)
      {| transitions := []; asked := []; send_point := None; send_transition := None; last_point := None; last_transition := None; invalid_directions := invalid_directions g |} in
    Ok (coords, transitions g)
  else Ok (coords, transitions g).

(** Handler<SegmentedMessage> up to Handler<EdgeEstimationDone>, training/mod.rs:195-247, on one machine: the edges; [n]: the length of the series. *)
Definition local_edges (p : params) (n : nat) (coords : list K) : res (list edge) :=
  let! (coords, ts) := local_segmentation p coords in
  let! (store, _) := start_stage (cross coords) p 0 [] ts in
  let! nodes := create_nodes cluster p 0 store in
  estimate_edges n nodes [].

(** Handler<TranspositionDone>, training/mod.rs:249-257, scoring/mod.rs:68-108: the helper threads have been given their windows; [num_rotated] is the number of points, rotation/mod.rs:231. *)
Definition local_scoring (p : params) (n : nat) (coords : list K) : res (scoring_world f32) :=
  let! edges := local_edges p n coords in
  let! g := single_graph edges (length coords) (query_length p) in
  start_scoring f_zero score_value g (n_threads p).

(** What the sink or the file gets, scoring/mod.rs:158-241, training/mod.rs:259-279, for a complete run: one result or none. *)
Definition local_results (w : scoring_world f32) : list (res (list f32)) := map (fun '(raw, _) => normalize_score raw) (c_delivered (collecting w)).
End Pipeline.
