(** The computation of one crossing from the coordinates of the points: src/training/intersection_calculation/mod.rs:58-118, 149-159 and helper.rs:17-35.
    Simplification: f32 is the real numbers; the matrix inverse is a parameter. *)
From Coq Require Import List Arith Bool Reals.
From Verif.Base Require Import Res.
From Verif.Segmentation Require Import Model.
From Verif.Geometry Require Import Model.
From Verif.Kde Require Import Real.
Import ListNotations.
Local Open Scope R_scope.

(** [clone_coordinates], data_store/point.rs:97-99: the coordinates of the point a transition refers to; [coords]: by point number. *)
Definition coordinates_of (coords : list (list R)) (x : pt) : res (list R) := unwrap (nth_error coords (pid x)).
(** [get_max_coordinate().max(get_min_coordinate().abs())], mod.rs:70-72, data_store/point.rs:87-95. *)
Definition extent (c : list R) : res R :=
  let! hi := r_max c in
  let! lo := r_min c in
  Ok (Rmax hi (Rabs lo)).
(** [max_value], mod.rs:64-81, over the transitions of the host. *)
Definition max_value (coords : list (list R)) (held : list transition) : res R :=
  let! values := mapM (fun t : transition =>
    let! from := coordinates_of coords (fst t) in
    let! e := extent from in
    let! to := coordinates_of coords (snd t) in
    let! e' := extent to in
    Ok (Rmax e (Rabs e'))) held in
  Ok (fold_left Rmax values 0).
(** [arr1(&[max_value, max_value]).norm()], mod.rs:82. *)
Definition plane_radius (m : R) : R := sqrt (m * m + m * m).
(** [work], helper.rs:17-35, with line and plane of mod.rs:84-118, 149-159.  All arrays have to have the dimension of the first point (84-90), which has to be even (helper.rs:21). *)
Definition real_cross (inv : (nat -> nat -> R) -> option (nat -> nat -> R)) (rate : nat) (coords : list (list R)) (held : list transition) (t : transition) (s : nat) : res (list R) :=
  let! m := max_value coords held in
  let radius := plane_radius m in
  let! first := unwrap (nth_error held 0) in
  let! c := coordinates_of coords (fst first) in
  let dims := length c in
  let! from := coordinates_of coords (fst t) in
  let! to := coordinates_of coords (snd t) in
  if negb (length from =? dims)%nat || negb (length to =? dims)%nat then Panic BadShape
  else match border_intersection dims rate s inv radius m (fun j => nth j from 0) (fun j => nth j to 0) with
       | None => Panic Explicit
       | Some q => if Nat.even dims then Ok (channel_distances dims q) else Panic UnwrapNone
       end.
