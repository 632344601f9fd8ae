(** From the rows of the series to the rotated points: src/data_manager/phase_spacer/mod.rs, src/training/rotation/mod.rs:42-245, src/data_store/mod.rs:55-67, chained as the handlers chain them.
    Simplification: f32 is the real numbers.  The principal components of each channel are an input (Pca/Model.v, Pca/Components.v). *)
From Coq Require Import List Arith Reals.
From Verif.Base Require Import Res Params.
From Verif.Stats Require Import Model.
From Verif.PhaseSpace Require Import Model.
From Verif.Pca Require Import Components.
From Verif.Geometry Require Import Model.
Import ListNotations.

(** [sum_axis(Axis(0))] of rows with [dim] entries, phase_spacer/mod.rs:41, 57. *)
Definition sum_axis (dim : nat) (block : list (list R)) : list R := map (fun d => fold_left Rplus (column d block) 0%R) (seq 0 dim).
(** [PhaseSpacer::build], phase_spacer/mod.rs:17-65, on real numbers: each window has one row per position and one column per channel. *)
Definition embed (p : params) (dim : nat) (data : list (list R)) : res (list (list (list R))) := phase_space (sum_axis dim) p data.

(** A row of the slice of rotation/mod.rs:56-63 as a function from column numbers, as in Pca/Components.v; entries beyond its end are not read (rows of one array have one length). *)
Definition entries (row : list R) (j : nat) : R := nth j row 0%R.
(** [phase_space.slice(s![.., .., c])], rotation/mod.rs:56-63: what the analysis of channel [c] gets. *)
Definition channel (c : nat) (windows : list (list (list R))) : list (nat -> R) := map (fun w => entries (column c w)) windows.

(** Global means and components of one channel, as [PCAComponents] delivers them, pca/mod.rs:300-312. *)
Definition components_of : Type := ((nat -> R) * list (list R))%type.
(** The array [reduced] has three entries per row and channel, rotation/mod.rs:43, 73-129; another number of components cannot be assigned. *)
Definition three (l : list R) : res vec3 := match l with [x; y; z] => Ok (x, y, z) | _ => Panic BadShape end.
(** [reduce], rotation/mod.rs:69-129, for one window: all channels.  The channels are reduced one after the other (Handler<PCADoneMessage>, 248-261). *)
Definition reduce_window (pcs : list components_of) (w : list (list R)) : res (list vec3) :=
  mapM (fun '(c, (means, comps)) => three (reduce_row means comps (entries (column c w)))) (combine (seq 0 (length pcs)) pcs).

(** One channel of the matrix, rotation/mod.rs:178-188: all entries have to exist. *)
Definition channel_matrix (refs : list vec3) (k : nat) : res (nat -> nat -> R) :=
  let! rows := mapM (fun r => mapM (fun c => unwrap (rotation_entry refs r c k)) (seq 0 3)) (seq 0 3) in
  Ok (fun r c => nth c (nth r rows []) 0%R).
(** [get_rotation_matrix], rotation/mod.rs:131-189, from the reduced first row of the reference data set. *)
Definition alignment (p : params) (mins maxs : list R) (pcs : list components_of) : res (list (nat -> nat -> R)) :=
  let! reference := reference_dataset p mins maxs in
  let! first := unwrap (nth_error reference 0) in
  let! refs := reduce_window pcs first in
  mapM (channel_matrix refs) (seq 0 (length refs)).

(** [apply_rotation_matrix], rotation/mod.rs:205-245, on host [k] of [hosts] with the rows [data]; [n]: the published number of rows, [ms]: the matrix received. *)
Definition host_points (p : params) (dim n hosts k : nat) (ms : list (nat -> nat -> R)) (pcs : list components_of) (data : list (list R)) : res (list point) :=
  let! windows := embed p dim data in
  let! reduced := mapM (reduce_window pcs) windows in
  let! points_per_node := udiv n hosts in
  unwrap (add_points (points_per_node * k) (map (point_coordinates ms) reduced) (rate p)).
