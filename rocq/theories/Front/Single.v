(** From the rows of the series to the segments of the points in single precision: src/data_manager/phase_spacer/mod.rs, src/training/rotation/mod.rs:42-245, src/data_store/point.rs:27-30.
    Front/Model.v has the same chain over the real numbers.  Components and rotation matrices are inputs: what QR and SVD give for these rows is not modelled. *)
From Coq Require Import List Arith Permutation.
From Flocq Require Import IEEE754.BinarySingleNaN.
From Verif.Base Require Import Res Params Float32.
From Verif.Stats Require Import Model.
From Verif.PhaseSpace Require Import Model.
From Verif.Pca Require Import Single.
From Verif.Geometry Require Import Single.
From Verif.Segmentation Require Import Model.
Import ListNotations.

(** [sum_axis(Axis(0))] of rows with [dim] entries, phase_spacer/mod.rs:41, 57.  Simplification: the rows are added one after the other (see [f_sum]). *)
Definition f_sum_axis (dim : nat) (block : list (list f32)) : list f32 := map (fun d => f_sum (column d block)) (seq 0 dim).
(** [PhaseSpacer::build], phase_spacer/mod.rs:17-65: each window has one row per position and one column per channel. *)
Definition f_embed (p : params) (dim : nat) (data : list (list f32)) : res (list (list (list f32))) := phase_space (f_sum_axis dim) p data.

(** Column [j] of [phase_space.slice(s![.., .., c])], rotation/mod.rs:56-63: what the windows of a host hold for channel [c] at position [j]. *)
Definition host_column (c j : nat) (windows : list (list (list f32))) : list f32 := column j (map (column c) windows).
(** [global_means] of channel [c], pca/mod.rs:205-211, 232: one mean for each of the [width] positions.  [windows h]: the windows of host [h]; in the analysis of channel [c] the threads of host [h] report in the
    order [orders c h] and the hosts in the order [order c] (the analysis is started afresh for every channel, rotation/mod.rs:53-67, 248-261). *)
Definition channel_means (width : nat) (windows : nat -> list (list (list f32))) (threads : nat -> nat) (orders : nat -> nat -> list nat) (order : nat -> list nat) (c : nat) : list f32 :=
  map (fun j => cluster_mean (fun h => host_column c j (windows h)) threads (orders c) (order c)) (seq 0 width).

(** The fused multiply-add that [dot] may use (rotation/mod.rs:99, 128, 209). *)
Definition f_fma : f32 -> f32 -> f32 -> f32 := Bfma (prec_gt_0_ := prec_pos) (prec_lt_emax_ := prec_max) mode_NE.
(** One entry of a product computed by [dot], rotation/mod.rs:99, 128, 209: the products of the pairs are added in some order and grouping, from zero or from a product, fused or not, and the sum may be scaled by
    1.  Which of these the library does depends on the processor.  Simplification: no pair is left out because one of its factors is zero. *)
Inductive dot_product : list (f32 * f32) -> f32 -> Prop :=
| dot_none : dot_product [] f_zero
| dot_one : forall a b, dot_product [(a, b)] (f_mul a b)
| dot_sum : forall l l1 l2 x y, Permutation l (l1 ++ l2) -> dot_product l1 x -> dot_product l2 y -> dot_product l (f_add x y)
| dot_fused : forall l a b l1 x, Permutation l ((a, b) :: l1) -> dot_product l1 x -> dot_product l (f_fma a b x)
| dot_scaled : forall l x, dot_product l x -> dot_product l (f_mul (f_of_nat 1) x).

(** [reduce], rotation/mod.rs:69-129, for one window and one channel: [w] its values, [means] and [comps] as [PCAComponents] delivers them. *)
Definition reduced_row (means : list f32) (comps : list (list f32)) (w v : list f32) : Prop :=
  Forall2 (fun comp x => dot_product (combine (map2 f_sub w means) comp) x) comps v.
(** [reduce], rotation/mod.rs:69-129, for one window and all channels; they are reduced one after the other, 248-261. *)
Definition reduced_window (means : nat -> list f32) (comps : list (list (list f32))) (w : list (list f32)) (vs : list (list f32)) : Prop :=
  Forall2 (fun c v => reduced_row (means (fst c)) (snd c) (column (fst c) w) v) (combine (seq 0 (length comps)) comps) vs.

(** [b.dot(&a.t())], rotation/mod.rs:206-210: coordinate [r] of the rotated vector. *)
Definition rotated_entry (r : nat) (m : list (list f32)) (v : list f32) (x : f32) : Prop := exists row, nth_error m r = Some row /\ dot_product (combine v row) x.
(** The coordinates of a point, rotation/mod.rs:205-229: the first two rotated coordinates of all channels, first all first ones, then all second ones. *)
Definition rotated_point (ms : list (list (list f32))) (vs : list (list f32)) (q : list f32) : Prop :=
  exists xs ys, Forall2 (fun mv x => rotated_entry 0 (fst mv) (snd mv) x) (combine ms vs) xs /\ Forall2 (fun mv y => rotated_entry 1 (fst mv) (snd mv) y) (combine ms vs) ys /\ q = xs ++ ys.
(** The coordinates of all points of a host, rotation/mod.rs:223-229. *)
Definition host_coordinates (means : nat -> list f32) (comps ms : list (list (list f32))) (windows : list (list (list f32))) (coords : list (list f32)) : Prop :=
  Forall2 (fun w q => exists vs, reduced_window means comps w vs /\ rotated_point ms vs q) windows coords.

(** [to_polar] and [get_segment_id], data_store/point.rs:27-30, ndarray_extensions/mod.rs:148-154: the direction of the first two coordinates; [atan2] is that of the platform. *)
Definition f_segment_of (atan2 : f32 -> f32 -> f32) (q : list f32) (n_segments : nat) : res nat :=
  match q with x :: y :: _ => f_segment_id (atan2 y x) n_segments | _ => Panic OutOfBounds end.
(** [mirror], data_store/point.rs:53-58: the first coordinate changes its sign. *)
Definition f_mirror (q : list f32) : list f32 := match q with x :: t => f_mul x (f_neg (f_of_nat 1)) :: t | [] => [] end.
(** [add_points_with_offset], data_store/mod.rs:55-67: points numbered from [first] on, with their segments. *)
Definition stored_points (atan2 : f32 -> f32 -> f32) (n_segments first : nat) (coords : list (list f32)) (points : list pt) : Prop :=
  map pid points = seq first (length coords) /\ Forall2 (fun q x => f_segment_of atan2 q n_segments = Ok (pseg x)) coords points.
