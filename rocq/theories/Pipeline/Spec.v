(** Specification vocabulary for the analysis of one machine, from the rotated points to the graph. *)
From Coq Require Import List Arith Bool.
From Verif.Base Require Import Params.
From Verif.Segmentation Require Import Model Spec.
From Verif.Properties Require Import Segmentation.
Import ListNotations.

(** The points of the analysis, numbered from 0 on. *)
Definition points_at {K} (sector : K -> nat) (coords : list K) : list pt :=
  map (fun ik => {| pid := fst ik; pseg := sector (snd ik) |}) (combine (seq 0 (length coords)) coords).

(** The points that are followed: their mirror images, if self correction is asked for and more neighbours go backwards than can be used. *)
Definition followed {K} (p : params) (sector : K -> nat) (flip : K -> K) (coords : list K) : list K :=
  let points := points_at sector coords in
  if self_correction p && (length (usable_pairs (rate p) points) <? length (filter (backwards (rate p)) (pairs points))) then map flip coords else coords.

(** The transitions that are followed. *)
Definition transitions_of {K} (p : params) (sector : K -> nat) (flip : K -> K) (coords : list K) : list transition :=
  usable_pairs (rate p) (points_at sector (followed p sector flip coords)).

(** The crossings of one segment, the latest one first. *)
Definition in_segment (s : nat) (crossed : list (nat * nat)) : list (nat * nat) := filter (fun c => snd c =? s) (rev crossed).

(** The first followed transition crosses into the last segment and then into segment 0. *)
Definition first_across (rate : nat) (crossed : list (nat * nat)) : Prop :=
  exists i rest, crossed = (i, rate - 1) :: (i, 0) :: rest.
