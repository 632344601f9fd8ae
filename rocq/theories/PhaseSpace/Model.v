(** Embedding of the series: src/data_manager/phase_spacer/mod.rs, and the numbering of its points:
    src/training/rotation/mod.rs:231-244, src/data_store/mod.rs:55-67; the reference data set:
    src/data_manager/reference_dataset_builder/mod.rs. *)
From Coq Require Import List Arith Bool Reals.
From Verif.Base Require Import Res Params ListX.
From Verif.Topology Require Import Model.
From Verif.Stats Require Import Model.
Import ListNotations.

Section PhaseSpace.
(** [V] is a row (one value per column).  [rowsum] is [sum_axis(Axis(0))] of a block of rows: any function of the block, so nothing is
    assumed about the floating point addition or the order of summation. *)
Context {V : Type} (rowsum : list V -> V).

(** [data.slice(s![a..b, ..])]: panics unless [a <= b <= n]. *)
(** [data.slice(s![a..b, ..])], phase_spacer/mod.rs:36-45: out of range aborts. *)
Definition slice_rows (a b : nat) (data : list V) : res (list V) :=
  if (a <=? b) && (b <=? length data) then Ok (slice a b data) else Panic OutOfBounds.

(** First window, 36-45: every entry is computed from the data. *)
Definition first_window (p : params) (width i : nat) (data : list V) : res (list V) :=
  mapM (fun j => let! s := slice_rows (i + j) (i + j + latent p) data in Ok (rowsum s)) (seq 0 width).

(** Later windows, 47-61: all but the last entry are taken from the previous window ([s![..-1]] and [s![-1]] panic for
    windows of width 0), the last one is computed. *)
Definition next_window (p : params) (width i : nat) (current : list V) (data : list V) : res (list V) :=
  if width =? 0 then Panic OutOfBounds
  else
    let! a := usub (i + pattern_length p) (latent p) in
    let! a := usub a 1 in
    let! b := usub (i + pattern_length p) 1 in
    let! s := slice_rows a b data in
    Ok (skipn 1 current ++ [rowsum s]).

(** The loop 33-62 over the windows [i .. i + count - 1]; [current] is [None] for the first one. *)
Fixpoint windows (p : params) (width i count : nat) (current : option (list V)) (data : list V) : res (list (list V)) :=
  match count with
  | 0 => Ok []
  | S count' =>
      let! w := match current with
                | None => first_window p width i data
                | Some c => next_window p width i c data
                end in
      let! rest := windows p width (S i) count' (Some w) data in
      Ok (w :: rest)
  end.

(** [PhaseSpacer::build], 17-65. *)
Definition phase_space (p : params) (data : list V) : res (list (list V)) :=
  let! overlap := usub (pattern_length p) 1 in
  let! count := usub (length data) overlap in
  let! width := usub (pattern_length p) (latent p) in
  windows p width 0 count None data.
End PhaseSpace.

(** Ids of the points of a node with [m] points: [add_points_with_offset] with offset [points_per_node * own_id].
    rotation/mod.rs:231-244, data_store/mod.rs:55-67.  [n] is the published number of rows (C11). *)
Definition point_ids {addr} (c : cluster_nodes addr) (n m : nat) : res (list nat) :=
  let! points_per_node := udiv n (len_incl_own c) in
  let! own_id := get_own_idx c in
  Ok (seq (points_per_node * own_id) m).

(** Reference data set, reference_dataset_builder/mod.rs:23-54, over the reals.  [Array::linspace(s, e, n)] (ndarray):
    [s + i * ((e - s) / (n - 1))]. *)
Definition linspace (s e : R) (n i : nat) : R := (s + INR i * ((e - s) / INR (n - 1)))%R.

(** [ReferenceDatasetBuilder::build], reference_dataset_builder/mod.rs:23-54. *)
Definition reference_dataset (p : params) (min_cols max_cols : list R) : res (list (list (list R))) :=
  let length_ := 100 in
  let! width := usub (pattern_length p) (latent p) in
  let dim := length min_cols in
  if negb (dim =? length max_cols) then Panic Explicit   (* the assert of [linspace], ndarray_extensions/mod.rs:64 *)
  else
    mapM (fun i =>
            let v := map2 (fun s e => linspace s e length_ i) min_cols max_cols in
            let t := repeat v (pattern_length p) in
            mapM (fun j =>
                    let! s := slice_rows j (j + latent p) t in
                    Ok (map (fun d => fold_left Rplus (column d s) 0%R) (seq 0 dim)))
                 (seq 0 width))
         (seq 0 length_).
