(** Where the series crosses a border. *)
From Coq Require Import List Arith Reals.
Import ListNotations.
Local Open Scope R_scope.

(** How far a point is from the plane through the border at the beginning of segment [s] (of [rate] segments), to its right (positive) or left. *)
Definition offset (rate s : nat) (x : nat -> R) : R := sin (2 * PI * INR s / INR rate) * x 0%nat - cos (2 * PI * INR s / INR rate) * x 1%nat.
(** The coordinates of a point. *)
Definition coords_fun (c : list R) (j : nat) : R := nth j c 0.
(** The point of the straight line from [from] to [to] at which the distance is 0. *)
Definition crossing_point (rate s : nat) (from to : nat -> R) (j : nat) : R :=
  from j + offset rate s from / (offset rate s from - offset rate s to) * (to j - from j).
(** Its distance from the axis in each of the [dim] channels; channel [c] has the coordinates [c] and [dim + c]. *)
Definition crossing_distances (dim rate s : nat) (from to : nat -> R) : list R :=
  let x := crossing_point rate s from to in map (fun c => sqrt (x c * x c + x (dim + c)%nat * x (dim + c)%nat)) (seq 0 dim).
