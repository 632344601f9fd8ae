(** The statistics of a host in a release build, src/data_manager/stats_collector/std.rs:29-64. *)
From Coq Require Import List Arith Bool Reals.
From Verif.Base Require Import Res Params ListX Release.
From Verif.Topology Require Import Model.
From Verif.Stats Require Import Model.
Import ListNotations.
Local Open Scope R_scope.

(** [slice(s![0..e, ..])] of [len] rows, std.rs:37: ndarray turns [e] into a signed number, and a negative one counts from the end; aborts if the end is not in the array. *)
Definition slice_end (word len e : nat) : res nat :=
  if (e <? word / 2)%nat then (if (e <=? len)%nat then Ok e else Panic OutOfBounds)
  else let back := (word - e)%nat in if (back <=? len)%nat then Ok (len - back)%nat else Panic OutOfBounds.
(** [calculate_std], std.rs:29-64. *)
Definition calculate_std_release {addr source : Type} (word : nat) (p : params) (c : cluster_nodes addr) (w : nat) (data : list (list R)) (src : source) : res (@std_msg source) :=
  let! own := get_own_idx c in
  let is_last_node := (own =? length c)%nat in
  let cutoff := if is_last_node then 0%nat else rsub word (pattern_length p) 1 in
  let! end_slice := slice_end word (length data) (rsub word (length data) cutoff) in
  let data := firstn end_slice data in
  let n := length data in
  let! mean := mean_axis w data in
  let delta := map (fun r => map2 Rminus r mean) data in
  let m2 := map (fun j => fold_left Rplus (map (fun d => d * (d / INR n) * INR n) (column j delta)) 0) (seq 0 w) in
  Ok {| sm_n := n; sm_mean := mean; sm_m2 := m2; sm_source := src |}.
