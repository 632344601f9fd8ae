From Coq Require Import ZArith Bool List Reals Lia Lra.
From Flocq Require Import IEEE754.BinarySingleNaN Core Plus_error.
From Verif.Base Require Import Res Float32.
Import ListNotations.
Open Scope R_scope.

Notation fexp := (SpecFloat.fexp 24 128).
#[global] Existing Instance prec_pos.
#[global] Existing Instance prec_max.
#[global] Instance fexp_valid : Valid_exp fexp := FLT_exp_valid (SpecFloat.emin 24 128) 24.
#[global] Instance fexp_mono : Monotone_exp fexp := FLT_exp_monotone (SpecFloat.emin 24 128) 24.
Definition rnd (x : R) : R := round radix2 fexp (round_mode mode_NE) x.
Definition max_real : R := bpow radix2 128.
Definition format (x : R) : Prop := generic_format radix2 fexp x.

Lemma f_real_format : forall x, format (f_real x).
Proof. intros x. apply generic_format_B2R. Qed.
Lemma f_real_lt : forall x, Rabs (f_real x) < max_real.
Proof. intros x. apply (@abs_B2R_lt_emax 24 128). Qed.
Lemma rnd_mono : forall x y, x <= y -> rnd x <= rnd y.
Proof. intros x y H. apply round_le; auto with typeclass_instances. Qed.
Lemma rnd_format : forall x, format x -> rnd x = x.
Proof. intros x H. apply round_generic; auto with typeclass_instances. Qed.
Lemma rnd_is_format : forall x, format (rnd x).
Proof. intros x. apply generic_format_round; auto with typeclass_instances. Qed.
Lemma rnd_0 : rnd 0 = 0.
Proof. apply round_0; auto with typeclass_instances. Qed.
Lemma format_bpow : forall e, (-149 <= e)%Z -> format (bpow radix2 e).
Proof. intros e H. apply generic_format_bpow. unfold SpecFloat.fexp, SpecFloat.emin. lia. Qed.
Lemma format_1 : format 1.
Proof. change 1 with (bpow radix2 0). apply format_bpow. lia. Qed.
Lemma rnd_1 : rnd 1 = 1.
Proof. apply rnd_format, format_1. Qed.
Lemma bpow_lt_max : forall e, (e < 128)%Z -> bpow radix2 e < max_real.
Proof. intros e H. now apply bpow_lt. Qed.
Lemma one_lt_max : 1 < max_real.
Proof. change 1 with (bpow radix2 0). apply bpow_lt_max. lia. Qed.

Lemma f_sub_ok : forall x y, f_finite x = true -> f_finite y = true -> Rabs (rnd (f_real x - f_real y)) < max_real ->
  f_finite (f_sub x y) = true /\ f_real (f_sub x y) = rnd (f_real x - f_real y).
Proof.
  intros x y Hx Hy H. pose proof (@Bminus_correct 24 128 prec_pos prec_max mode_NE x y Hx Hy) as B. rewrite Rlt_bool_true in B by exact H. destruct B as (B1 & B2 & _). auto.
Qed.
Lemma f_sub_finite : forall x y, f_finite x = true -> f_finite y = true -> f_finite (f_sub x y) = true ->
  Rabs (rnd (f_real x - f_real y)) < max_real /\ f_real (f_sub x y) = rnd (f_real x - f_real y).
Proof.
  intros x y Hx Hy H. pose proof (@Bminus_correct 24 128 prec_pos prec_max mode_NE x y Hx Hy) as B.
  destruct (Rlt_bool_spec (Rabs (rnd (f_real x - f_real y))) max_real) as [L|L].
  - rewrite Rlt_bool_true in B by exact L. split; [exact L|apply B].
  - rewrite Rlt_bool_false in B by exact L. destruct B as (B & _). exfalso. unfold f_finite, f_sub in H. revert H B. generalize (Bminus (prec_gt_0_ := prec_pos) (prec_lt_emax_ := prec_max) mode_NE x y). intros z Hz Hb. rewrite <- is_finite_SF_B2SF in Hz. rewrite Hb in Hz. destruct (Bsign x); discriminate.
Qed.
Lemma f_add_ok : forall x y, f_finite x = true -> f_finite y = true -> Rabs (rnd (f_real x + f_real y)) < max_real ->
  f_finite (f_add x y) = true /\ f_real (f_add x y) = rnd (f_real x + f_real y).
Proof.
  intros x y Hx Hy H. pose proof (@Bplus_correct 24 128 prec_pos prec_max mode_NE x y Hx Hy) as B. rewrite Rlt_bool_true in B by exact H. destruct B as (B1 & B2 & _). auto.
Qed.
Lemma f_div_ok : forall x y, f_finite x = true -> f_real y <> 0 -> Rabs (rnd (f_real x / f_real y)) < max_real ->
  f_finite (f_div x y) = true /\ f_real (f_div x y) = rnd (f_real x / f_real y).
Proof.
  intros x y Hx Hy H. pose proof (@Bdiv_correct 24 128 prec_pos prec_max mode_NE x y Hy) as B. rewrite Rlt_bool_true in B by exact H. destruct B as (B1 & B2 & _). split; [|exact B1]. unfold f_finite, f_div. now rewrite B2.
Qed.
Lemma f_cmp_ok : forall x y, f_finite x = true -> f_finite y = true -> f_cmp x y = Some (Rcompare (f_real x) (f_real y)).
Proof. intros x y Hx Hy. now apply Bcompare_correct. Qed.
Lemma f_of_ok : forall m e, Rabs (rnd (F2R (Float radix2 m e))) < max_real -> f_finite (f_of m e) = true /\ f_real (f_of m e) = rnd (F2R (Float radix2 m e)).
Proof.
  intros m e H. pose proof (@binary_normalize_correct 24 128 prec_pos prec_max mode_NE m e false) as B. cbv zeta in B. rewrite Rlt_bool_true in B by exact H. destruct B as (B1 & B2 & _). auto.
Qed.
(** Subtraction does not underflow to zero. *)
Lemma sub_neq_0 : forall x y, format x -> format y -> x <> y -> rnd (x - y) <> 0.
Proof.
  intros x y Hx Hy H. unfold rnd, Rminus. apply round_plus_neq_0; auto with typeclass_instances.
  - apply generic_format_opp, Hy.
  - lra.
Qed.
