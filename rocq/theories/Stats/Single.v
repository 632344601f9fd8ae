(** Minimum and maximum in single precision, with values that are not numbers: src/data_manager/stats_collector/minmax.rs, src/utils/ndarray_extensions/mod.rs:92-131.
    Stats/Model.v has the same over the real numbers. *)
From Coq Require Import List Arith Bool ZArith.
From Flocq Require Import IEEE754.BinarySingleNaN.
From Verif.Base Require Import Res Float32.
From Verif.Stats Require Import Model.
Import ListNotations.

(** [A::max_value()], the largest finite f32, ndarray_extensions/mod.rs:99. *)
Definition f_largest : f32 := f_of 16777215 104.
(** [A::min_value()], ndarray_extensions/mod.rs:119. *)
Definition f_lowest : f32 := f_neg f_largest.
(** [min_axis(Axis(0))], ndarray_extensions/mod.rs:92-111: no comparison with NaN holds. *)
Definition f_min_axis (w : nat) (m : list (list f32)) : list f32 :=
  map (fun j => fold_left (fun smallest v => if f_gt smallest v then v else smallest) (column j m) f_largest) (seq 0 w).
(** [max_axis(Axis(0))], ndarray_extensions/mod.rs:113-131. *)
Definition f_max_axis (w : nat) (m : list (list f32)) : list f32 :=
  map (fun j => fold_left (fun largest v => if f_gt v largest then v else largest) (column j m) f_lowest) (seq 0 w).
(** [f32::min], minmax.rs:61: the other value if one is NaN (which of two zeros of different sign is returned is left open by the standard library: the second here). *)
Definition f_min2 (a b : f32) : f32 := if f_nan a then b else if f_nan b then a else if f_gt b a then a else b.
(** [f32::max], minmax.rs:67. *)
Definition f_max2 (a b : f32) : f32 := if f_nan a then b else if f_nan b then a else if f_gt a b then a else b.

Section Collect.
Context {source : Type}.
(** [MinMaxNodeMessage], stats_collector/messages.rs:29-35. *)
Record f_minmax_msg := { fm_min : list f32; fm_max : list f32; fm_source : source }.
(** [calculate_minmax], minmax.rs:28-45. *)
Definition f_calculate_minmax (w : nat) (data : list (list f32)) (src : source) : f_minmax_msg :=
  {| fm_min := f_min_axis w data; fm_max := f_max_axis w data; fm_source := src |}.
(** [MinMaxCalculation], minmax.rs:9-13; both extremes are set together (minmax.rs:22-26, 70-71). *)
Record f_minmax_calc := { fc_nodes : list source; fc_extremes : option (list f32 * list f32) }.
(** Initial value, src/data_manager/mod.rs:90-94. *)
Definition f_minmax_init : f_minmax_calc := {| fc_nodes := []; fc_extremes := None |}.
(** [Handler<MinMaxNodeMessage>], minmax.rs:48-104, as in Stats/Model.v. *)
Definition f_handle_minmax (n_nodes : nat) (st : f_minmax_calc) (msg : f_minmax_msg) : f_minmax_calc * list (source * (list f32 * list f32)) :=
  let nodes := fc_nodes st ++ [fm_source msg] in
  let e := match fc_extremes st with
           | Some (mn, mx) => (map2 f_min2 (fm_min msg) mn, map2 f_max2 (fm_max msg) mx)
           | None => (fm_min msg, fm_max msg)
           end in
  ({| fc_nodes := nodes; fc_extremes := Some e |}, if length nodes =? n_nodes then map (fun s => (s, e)) nodes else []).
(** The main host handles the messages in their order of arrival. *)
Fixpoint f_collect (n_nodes : nat) (st : f_minmax_calc) (msgs : list f_minmax_msg) : list (source * (list f32 * list f32)) :=
  match msgs with
  | [] => []
  | m :: t => let '(st', out) := f_handle_minmax n_nodes st m in out ++ f_collect n_nodes st' t
  end.
End Collect.
Arguments f_minmax_msg : clear implicits. Arguments f_minmax_calc : clear implicits.
