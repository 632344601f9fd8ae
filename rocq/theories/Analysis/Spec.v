(** What is asked of a series for the analysis of its points. *)
From Coq Require Import List Arith Bool Reals.
From Verif.Base Require Import Params.
From Verif.Segmentation Require Import Model Spec.
From Verif.Geometry Require Import Model.
From Verif.Intersections Require Import RealSpec.
From Verif.Kde Require Import RealSpec.
From Verif.Pipeline Require Import Spec.
From Verif.Analysis Require Import Model.
Import ListNotations.

(** The transitions that are followed (no self correction) and the crossings, as pairs of the number of the point before and the segment that is entered. *)
Definition steps_of (rate : nat) (points : list point) : list transition := usable_pairs rate (map as_pt points).
Definition crossings_of (rate : nat) (points : list point) : list (nat * nat) := path rate (steps_of rate points).
(** The coordinates of point [i]. *)
Definition coords_at (points : list point) (i : nat) : nat -> R := coords_fun (nth i (map p_coordinates points) []).
(** Where a crossing is: between point [fst c] and the next one, on the border of segment [snd c]. *)
Definition position_of (dim rate : nat) (points : list point) (c : nat * nat) : list R := crossing_distances dim rate (snd c) (coords_at points (fst c)) (coords_at points (S (fst c))).
(** No step is parallel to a border it crosses. *)
Definition properly_crossed (rate : nat) (points : list point) : Prop :=
  forall c, In c (crossings_of rate points) -> offset rate (snd c) (coords_at points (fst c)) <> offset rate (snd c) (coords_at points (S (fst c))).
(** The crossings of a segment that is crossed at least twice are not all at the same distance, in any channel. *)
Definition segments_spread (dim rate : nat) (points : list point) : Prop :=
  forall s, s < rate -> 2 <= length (in_segment s (crossings_of rate points)) -> spread_rows dim (map (position_of dim rate points) (in_segment s (crossings_of rate points))).
(** The same settings for one machine with [threads] threads. *)
Definition alone (threads : nat) (p : params) : params :=
  {| rate := rate p; n_threads := threads; n_cluster_nodes := 1; pattern_length := pattern_length p; latent := latent p; query_length := query_length p;
     column_start := column_start p; column_end := column_end p; self_correction := false |}.
(** The same settings, including self correction, for one machine with [threads] threads. *)
Definition alone_too (threads : nat) (p : params) : params :=
  {| rate := rate p; n_threads := threads; n_cluster_nodes := 1; pattern_length := pattern_length p; latent := latent p; query_length := query_length p;
     column_start := column_start p; column_end := column_end p; self_correction := self_correction p |}.
