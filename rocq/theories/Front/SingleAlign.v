(** The alignment of the channels in single precision: src/utils/ndarray_extensions/mod.rs:12-82, src/data_manager/reference_dataset_builder/mod.rs,
    src/training/rotation/mod.rs:101-189.  Geometry/Model.v and Front/Model.v have the same functions over the real numbers; the extremes are those of Stats/Single.v. *)
From Coq Require Import List Arith ZArith.
From Flocq Require Import IEEE754.BinarySingleNaN.
From Verif.Base Require Import Res Params Float32.
From Verif.Stats Require Import Model.
From Verif.Pca Require Import Single.
From Verif.Front Require Import Single.
Import ListNotations.

(** [Array::linspace(s, e, 100)] of ndarray at index [i], ndarray_extensions/mod.rs:60-82: [s + (e - s) / 99 * i]. *)
Definition f_linspace (s e : f32) (i : nat) : f32 := f_add s (f_mul (f_div (f_sub e s) (f_of_nat 99)) (f_of_nat i)).
(** The first row of the reference data set for one channel, reference_dataset_builder/mod.rs:34-50: at each of the [pattern_length - latent] positions the sum of [latent] copies of the first value of [linspace].
    [t.fill(0.0); t = t + v], 39-40. *)
Definition f_reference (p : params) (minmax : f32 * f32) : list f32 :=
  repeat (f_sum (repeat (f_add f_zero (f_linspace (fst minmax) (snd minmax) 0)) (latent p))) (pattern_length p - latent p).

(** [sqrt] on f32, in [norm], ndarray_extensions/mod.rs:12-14. *)
Definition f_sqrt : f32 -> f32 := Bsqrt (prec_gt_0_ := prec_pos) (prec_lt_emax_ := prec_max) mode_NE.
(** [norm] of one column, ndarray_extensions/mod.rs:12-14 (ndarray-linalg: the root of the sum of the squares, one after the other). *)
Definition f_norm (v : list f32) : f32 := f_sqrt (f_sum (map (fun x => f_mul x x) v)).
(** The literal [1.0], rotation/mod.rs:139, 188. *)
Definition f_one : f32 := f_of_nat 1.
(** [cross1d(a, (0, 0, 1))], ndarray_extensions/mod.rs:43-49, rotation/mod.rs:147. *)
Definition f_cross_up (a : f32 * f32 * f32) : f32 * f32 * f32 :=
  let '(a0, a1, a2) := a in (f_sub (f_mul a1 f_one) (f_mul a2 f_zero), f_sub (f_mul a2 f_zero) (f_mul a0 f_one), f_sub (f_mul a0 f_zero) (f_mul a1 f_zero)).
(** One channel of the array [k], rotation/mod.rs:156-176: row [r], column [c]. *)
Definition f_skew (v : f32 * f32 * f32) (r c : nat) : f32 :=
  let '(v0, v1, v2) := v in let minus x := f_mul x (f_neg f_one) in
  match r, c with 0, 1 => minus v2 | 0, 2 => v1 | 1, 0 => v2 | 1, 2 => minus v0 | 2, 0 => minus v1 | 2, 1 => v0 | _, _ => f_zero end.
(** One channel of the identity, rotation/mod.rs:151-154. *)
Definition f_identity (r c : nat) : f32 := if r =? c then f_one else f_zero.
(** [get_rotation_matrix], rotation/mod.rs:131-189, for one channel: [v] is its first reduced reference row; [cosine] and [square] are products computed by [dot] (148, 178). *)
Definition f_alignment (v : list f32) (m : list (list f32)) : Prop :=
  exists v0 v1 v2, v = [v0; v1; v2] /\ let unit x := f_div x (f_norm v) in let a := (unit v0, unit v1, unit v2) in let w := f_cross_up a in let k := f_skew w in
  exists cosine square, dot_product (combine [f_zero; f_zero; f_one] [unit v0; unit v1; unit v2]) cosine /\
    (forall r c, r < 3 -> c < 3 -> dot_product (combine (map (k r) (seq 0 3)) (map (fun i => k i c) (seq 0 3))) (square r c)) /\
    let sine := f_norm [fst (fst w); snd (fst w); snd w] in
    m = map (fun r => map (fun c => f_add (f_add (f_identity r c) (k r c)) (f_mul (square r c) (f_div (f_sub f_one cosine) (f_mul sine sine)))) (seq 0 3)) (seq 0 3).
(** The matrix of channel [c], rotation/mod.rs:101-189: [reduce] of the reference row with the means and components of the channel, then the alignment. *)
Definition channel_alignment (p : params) (minmax : f32 * f32) (means : list f32) (comps m : list (list f32)) : Prop :=
  exists v, reduced_row means comps (f_reference p minmax) v /\ f_alignment v m.
