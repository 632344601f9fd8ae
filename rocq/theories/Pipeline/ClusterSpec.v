(** Specification vocabulary for the analysis on a cluster. *)
From Coq Require Import List Arith Bool Permutation.
From Verif.Base Require Import Res Params.
From Verif.Segmentation Require Import Model Spec.
From Verif.Pipeline Require Import Spec.
Import ListNotations.

(** The points of all hosts in order. *)
Definition whole_series (N : nat) (part : nat -> list pt) : list pt := concat (map part (seq 0 N)).
(** A series of [n] rows on [N] hosts: the points are numbered from 0 on; every host but the last has [n / N] of them. *)
Definition cut (n N : nat) (part : nat -> list pt) : Prop :=
  map pid (whole_series N part) = seq 0 (length (whole_series N part)) /\ length (whole_series N part) <= n /\ (forall k, S k < N -> length (part k) = n / N).

(** The crossings can be computed from the transitions of the host that starts in the segment; [pos c]: where the series crosses into segment [snd c] after point [fst c]. *)
Definition crossings_computed_on {C} (cross : list transition -> transition -> nat -> res C) (p : params) (ts : list transition) (pos : nat * nat -> C) : Prop :=
  forall h held t c, h < n_cluster_nodes p -> Permutation held (filter (fun t => owner p (pseg (fst t)) =? h) ts) -> In t held -> In c (visits (rate p) t) -> cross held t (snd c) = Ok (pos c).
(** The clustering of the crossings of every segment with at least two of them gives one label per crossing, in whatever order they are given. *)
Definition clusterings_computed_on {C} (cluster : list C -> res (list nat)) (p : params) (crossed : list (nat * nat)) (pos : nat * nat -> C) : Prop :=
  forall s rows, s < rate p -> Permutation rows (in_segment s crossed) -> 2 <= length rows -> exists labels, cluster (map pos rows) = Ok labels /\ length labels = length rows.
(** [label] is what the clustering says of the crossings in some order; alone in its segment a crossing has label 0. *)
Definition labelled_in_some_order {C} (cluster : list C -> res (list nat)) (p : params) (crossed : list (nat * nat)) (pos : nat * nat -> C) (label : nat -> nat -> nat) : Prop :=
  forall s, s < rate p ->
    (2 <= length (in_segment s crossed) -> exists rows, Permutation rows (in_segment s crossed) /\ cluster (map pos rows) = Ok (map (fun c => label (fst c) s) rows)) /\
    (forall i, in_segment s crossed = [(i, s)] -> label i s = 0).
(** The clustering decides by the position alone: whatever the order of the crossings, crossing [(i, s)] gets [label i s]. *)
Definition labelled_in_every_order {C} (cluster : list C -> res (list nat)) (p : params) (crossed : list (nat * nat)) (pos : nat * nat -> C) (label : nat -> nat -> nat) : Prop :=
  forall s rows, s < rate p -> Permutation rows (in_segment s crossed) ->
    (2 <= length rows -> cluster (map pos rows) = Ok (map (fun c => label (fst c) s) rows)) /\ (forall i, rows = [(i, s)] -> label i s = 0).
(** The clustering puts crossings of a segment together exactly if [same] says so, whatever their order; the numbers of the clusters may differ. *)
Definition grouped_in_every_order {C} (cluster : list C -> res (list nat)) (p : params) (crossed : list (nat * nat)) (pos : nat * nat -> C) (same : nat * nat -> nat * nat -> Prop) : Prop :=
  forall s rows, s < rate p -> Permutation rows (in_segment s crossed) -> 2 <= length rows ->
    exists labels, cluster (map pos rows) = Ok labels /\ length labels = length rows /\
      forall a b c c' l l', nth_error rows a = Some c -> nth_error rows b = Some c' -> nth_error labels a = Some l -> nth_error labels b = Some l' -> (l = l' <-> same c c').
