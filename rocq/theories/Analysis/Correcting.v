(** The whole analysis over the real numbers with self correction, as in Analysis/Model.v: rotation/mod.rs:191-245, training/mod.rs:183-279 with segmentation/mod.rs:290-382. *)
From Coq Require Import List Arith Bool Reals.
From Verif.Base Require Import Res Params Float32.
From Verif.Segmentation Require Import Model.
From Verif.Geometry Require Import Model.
From Verif.Front Require Import Model.
From Verif.Intersections Require Import Real.
From Verif.Kde Require Import Real.
From Verif.Correction Require Import Model.
From Verif.Pipeline Require Import Cluster Correcting.
From Verif.Analysis Require Import Model.
Import ListNotations.

(** [mirror_points], data_store/mod.rs:74-78. *)
Definition mirror_points (rate : nat) (points : list point) : res (list point) := mapM (fun q => unwrap (mirror q rate)) points.

(** A cluster with self correction.  The mirror images are computed in any case here (the code does so after the decision, segmentation/mod.rs:340; it never fails for points of the store). *)
Definition correcting_from_rows (inv : (nat -> nat -> R) -> option (nat -> nat -> R)) (p : params) (dim n : nat) (mins maxs : list R) (pcs : list components_of) (part : nat -> list (list R)) (order : delivery)
    (k : (nat -> res (list f32)) -> Prop) : Prop :=
  let N := n_cluster_nodes p in
  match alignment p mins maxs pcs with
  | Panic _ => False
  | Ok ms => each_host N (fun h => host_points p dim n N h ms pcs (part h)) (fun points =>
      each_host N (fun h => mirror_points (rate p) (points h)) (fun turned =>
      correcting_analysis (fun turn => real_cross inv (rate p) (map p_coordinates (concat (map (if turn then turned else points) (seq 0 N))))) (r_cluster (n_threads p)) p n
        (fun h => map as_pt (points h)) (fun h => map as_pt (turned h)) order k))
  end.
