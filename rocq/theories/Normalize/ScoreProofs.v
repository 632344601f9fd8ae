From Coq Require Import ZArith Bool List Reals Lia Lra.
From Flocq Require Import IEEE754.BinarySingleNaN Core.
From Verif.Base Require Import Res ListX Float32 Float32Proofs.
From Verif.Normalize Require Import Model Proofs.
Import ListNotations.
Open Scope R_scope.

Lemma format_int : forall k e, (Z.abs k <= 2 ^ 24)%Z -> (-149 <= e)%Z -> format (IZR k * bpow radix2 e).
Proof.
  intros k e Hk He. assert (Z.abs k < 2 ^ 24 \/ Z.abs k = 2 ^ 24)%Z as [H|H] by lia.
  - apply (generic_format_FLT radix2 (-149) 24). exists (Float radix2 k e); [reflexivity|exact H|exact He].
  - assert (G : format (bpow radix2 (24 + e))) by (apply format_bpow; lia). rewrite bpow_plus in G. change (bpow radix2 24) with (IZR (2 ^ 24)) in G.
    assert (k = 2 ^ 24 \/ k = - (2 ^ 24))%Z as [->| ->] by lia; [exact G|]. rewrite opp_IZR. replace (- IZR (2 ^ 24) * bpow radix2 e) with (- (IZR (2 ^ 24) * bpow radix2 e)) by ring. now apply generic_format_opp.
Qed.
Lemma format_Z : forall k, (Z.abs k <= 2 ^ 24)%Z -> format (IZR k).
Proof. intros k H. pose proof (format_int k 0 H ltac:(lia)) as G. cbn [bpow] in G. now rewrite Rmult_1_r in G. Qed.
Lemma IZR_lt_max : forall k, (Z.abs k <= 2 ^ 127)%Z -> Rabs (IZR k) < max_real.
Proof. intros k H. rewrite <- abs_IZR. unfold max_real. change (bpow radix2 128) with (IZR (2 ^ 128)). apply IZR_lt. apply Z.le_lt_trans with (1 := H). now apply Z.pow_lt_mono_r. Qed.

(** Small natural numbers are exact. *)
Lemma of_nat_exact : forall n, (Z.of_nat n <= 2 ^ 24)%Z -> f_finite (f_of_nat n) = true /\ f_real (f_of_nat n) = INR n.
Proof.
  intros n H. assert (E : F2R (Float radix2 (Z.of_nat n) 0) = INR n) by (unfold F2R; cbn [Fnum Fexp bpow]; rewrite Rmult_1_r; now rewrite <- INR_IZR_INZ).
  assert (Fm : format (INR n)) by (rewrite INR_IZR_INZ; apply format_Z; lia). unfold f_of_nat.
  destruct (f_of_ok (Z.of_nat n) 0) as (A & B); rewrite E, (rnd_format _ Fm) in *; auto. rewrite INR_IZR_INZ. apply IZR_lt_max. lia.
Qed.
(** All [usize] values are finite, not negative and bounded. *)
Lemma of_nat_bounds : forall n, (Z.of_nat n <= 2 ^ 64)%Z -> f_finite (f_of_nat n) = true /\ 0 <= f_real (f_of_nat n) <= bpow radix2 64.
Proof.
  intros n H. assert (E : F2R (Float radix2 (Z.of_nat n) 0) = INR n) by (unfold F2R; cbn [Fnum Fexp bpow]; rewrite Rmult_1_r; now rewrite <- INR_IZR_INZ).
  assert (B : 0 <= rnd (INR n) <= bpow radix2 64).
  { split; [rewrite <- rnd_0; apply rnd_mono, pos_INR|]. rewrite <- (rnd_format (bpow radix2 64)) by (apply format_bpow; lia). apply rnd_mono. rewrite INR_IZR_INZ. change (bpow radix2 64) with (IZR (2 ^ 64)). now apply IZR_le. }
  unfold f_of_nat. destruct (f_of_ok (Z.of_nat n) 0) as (A & C); rewrite E in *; auto.
  - rewrite Rabs_pos_eq by lra. pose proof (bpow_lt_max 64 ltac:(lia)). lra.
  - split; [exact A|]. rewrite C. exact B.
Qed.

Lemma tiny_bounds : f_finite (f_of 11258999 (-50)) = true /\ 0 < f_real (f_of 11258999 (-50)) <= bpow radix2 (-26).
Proof.
  split; [reflexivity|]. assert (E : f_real (f_of 11258999 (-50)) = IZR 11258999 * bpow radix2 (-50)) by reflexivity. rewrite E. split.
  - apply Rmult_lt_0_compat; [now apply IZR_lt|apply bpow_gt_0].
  - replace (bpow radix2 (-26)) with (IZR (2 ^ 24) * bpow radix2 (-50)) by (change (IZR (2 ^ 24)) with (bpow radix2 24); now rewrite <- bpow_plus). apply Rmult_le_compat_r; [apply bpow_ge_0|]. now apply IZR_le.
Qed.
(** The small constant is absorbed: dividing by [score_alpha n] is dividing by [n]. *)
Lemma alpha_exact : forall n, (1 <= Z.of_nat n <= 2 ^ 24)%Z -> f_finite (score_alpha n) = true /\ f_real (score_alpha n) = INR n.
Proof.
  intros n H. destruct (of_nat_exact n ltac:(lia)) as (Fn & En). destruct tiny_bounds as (Ft & Bt).
  assert (H1 : 1 <= INR n) by (change 1 with (INR 1); apply le_INR; lia).
  assert (Fm : format (INR n)) by (rewrite INR_IZR_INZ; apply format_Z; lia).
  assert (E : rnd (f_real (f_of 11258999 (-50)) + INR n) = INR n).
  { apply Rle_antisym.
    - apply round_N_le_midp; auto with typeclass_instances. rewrite succ_eq_pos by lra.
      assert (U : bpow radix2 (-23) <= ulp radix2 fexp (INR n)).
      { replace (bpow radix2 (-23)) with (ulp radix2 fexp 1). - apply ulp_le; auto with typeclass_instances. rewrite !Rabs_pos_eq by lra. exact H1. - change 1 with (bpow radix2 0). now rewrite ulp_bpow. }
      assert (bpow radix2 (-26) < bpow radix2 (-23) / 2). { replace (bpow radix2 (-23) / 2) with (bpow radix2 (-24)). - apply bpow_lt. lia. - change (bpow radix2 (-23)) with (bpow radix2 (-24 + 1)). rewrite bpow_plus. change (bpow radix2 1) with 2. field. }
      lra.
    - rewrite <- (rnd_format _ Fm) at 1. apply rnd_mono. lra. }
  unfold score_alpha. destruct (f_add_ok (f_of 11258999 (-50)) (f_of_nat n) Ft Fn) as (A & B).
  - rewrite En, E. rewrite INR_IZR_INZ. apply IZR_lt_max. lia.
  - rewrite En, E in B. auto.
Qed.

Definition total (xs : list nat) : nat := fold_left Nat.add xs 0%nat.
Lemma total_cons : forall x xs, total (x :: xs) = (x + total xs)%nat.
Proof.
  intros x xs. unfold total. cbn [fold_left Nat.add]. assert (G : forall ys a, fold_left Nat.add ys a = (a + fold_left Nat.add ys 0)%nat).
  { induction ys as [|y ys IH]; intros a; cbn [fold_left Nat.add]; [lia|]. rewrite (IH (a + y)%nat), (IH y). lia. }
  apply G.
Qed.
(** Sums up to [2^24] are exact. *)
Lemma sum_exact : forall xs, (Z.of_nat (total xs) <= 2 ^ 24)%Z -> f_finite (score_sum xs) = true /\ f_real (score_sum xs) = INR (total xs).
Proof.
  intros xs. unfold score_sum. assert (G : forall s k, f_finite s = true -> f_real s = INR k -> (Z.of_nat (k + total xs) <= 2 ^ 24)%Z ->
    f_finite (fold_left (fun s x => f_add s (f_of_nat x)) xs s) = true /\ f_real (fold_left (fun s x => f_add s (f_of_nat x)) xs s) = INR (k + total xs)).
  { induction xs as [|x xs IH]; intros s k Fs Es Hk; [cbn; rewrite Nat.add_0_r; auto|]. cbn [fold_left]. rewrite total_cons in *.
    destruct (of_nat_exact x ltac:(lia)) as (Fx & Ex).
    assert (Fm : format (INR (k + x))) by (rewrite INR_IZR_INZ; apply format_Z; lia).
    destruct (f_add_ok s (f_of_nat x) Fs Fx) as (A & B); rewrite Es, Ex, <- plus_INR, (rnd_format _ Fm) in *.
    - rewrite INR_IZR_INZ. apply IZR_lt_max. lia.
    - replace (k + (x + total xs))%nat with (k + x + total xs)%nat in * by lia. now apply IH. }
  intros H. now apply (G f_zero 0%nat).
Qed.
(** Sums of up to [2^24] values of type [usize] are finite. *)
Lemma sum_bounds : forall xs, (Z.of_nat (length xs) <= 2 ^ 24)%Z -> (forall x, In x xs -> (Z.of_nat x <= 2 ^ 64)%Z) ->
  f_finite (score_sum xs) = true /\ 0 <= f_real (score_sum xs) <= bpow radix2 88.
Proof.
  intros xs. unfold score_sum. assert (G : forall s k, f_finite s = true -> 0 <= f_real s <= INR k * bpow radix2 64 -> (Z.of_nat (k + length xs) <= 2 ^ 24)%Z -> (forall x, In x xs -> (Z.of_nat x <= 2 ^ 64)%Z) ->
    f_finite (fold_left (fun s x => f_add s (f_of_nat x)) xs s) = true /\ 0 <= f_real (fold_left (fun s x => f_add s (f_of_nat x)) xs s) <= INR (k + length xs) * bpow radix2 64).
  { induction xs as [|x xs IH]; intros s k Fs Es Hk Hx; [cbn [fold_left length]; rewrite Nat.add_0_r; auto|]. cbn [fold_left length] in *.
    destruct (of_nat_bounds x (Hx x (or_introl eq_refl))) as (Fx & Bx).
    assert (Fm : format (INR (k + 1) * bpow radix2 64)) by (rewrite INR_IZR_INZ; apply format_int; lia).
    assert (B : 0 <= rnd (f_real s + f_real (f_of_nat x)) <= INR (k + 1) * bpow radix2 64).
    { split; [rewrite <- rnd_0; apply rnd_mono; lra|]. rewrite <- (rnd_format _ Fm). apply rnd_mono. rewrite plus_INR. change (INR 1) with 1. lra. }
    assert (L : INR (k + 1) * bpow radix2 64 < max_real).
    { rewrite INR_IZR_INZ. apply Rle_lt_trans with (bpow radix2 24 * bpow radix2 64).
      - apply Rmult_le_compat_r; [apply bpow_ge_0|]. change (bpow radix2 24) with (IZR (2 ^ 24)). apply IZR_le. lia.
      - rewrite <- bpow_plus. now apply bpow_lt. }
    destruct (f_add_ok s (f_of_nat x) Fs Fx) as (A & C); [rewrite Rabs_pos_eq; lra|].
    replace (k + S (length xs))%nat with (k + 1 + length xs)%nat in * by lia. apply IH; auto; [rewrite C; exact B|]. intros y Hy. apply Hx. now right. }
  intros H1 H2. destruct (G f_zero 0%nat) as (A & B); auto; [cbn; lra|]. split; [exact A|]. cbn [Nat.add] in B. split; [lra|]. apply Rle_trans with (1 := proj2 B).
  change 88%Z with (24 + 64)%Z. rewrite bpow_plus. apply Rmult_le_compat_r; [apply bpow_ge_0|]. rewrite INR_IZR_INZ. change (bpow radix2 24) with (IZR (2 ^ 24)). apply IZR_le. lia.
Qed.
Lemma neg_ok : forall x, f_finite (f_neg x) = f_finite x /\ f_real (f_neg x) = - f_real x.
Proof. intros x. split; [apply is_finite_Bopp|apply B2R_Bopp]. Qed.
Lemma value_bounds : forall xs, (1 <= Z.of_nat (length xs) <= 2 ^ 24)%Z -> (forall x, In x xs -> (Z.of_nat x <= 2 ^ 64)%Z) ->
  f_finite (score_value xs) = true /\ f_real (score_value xs) <= 0.
Proof.
  intros xs H1 H2. destruct (sum_bounds xs ltac:(lia) H2) as (Fs & Bs). destruct (alpha_exact (length xs) H1) as (Fa & Ea). unfold score_value.
  assert (1 <= INR (length xs)) by (change 1 with (INR 1); apply le_INR; lia).
  assert (Q : 0 <= f_real (score_sum xs) / INR (length xs) <= bpow radix2 88).
  { split; [apply Rmult_le_pos; [lra|left; apply Rinv_0_lt_compat; lra]|]. apply Rle_trans with (f_real (score_sum xs)); [|lra]. rewrite <- (Rmult_1_r (f_real (score_sum xs))) at 2. apply Rmult_le_compat_l; [lra|].
    rewrite <- Rinv_1. apply Rinv_le; lra. }
  assert (Q' : 0 <= rnd (f_real (score_sum xs) / INR (length xs)) <= bpow radix2 88).
  { split; [rewrite <- rnd_0|rewrite <- (rnd_format (bpow radix2 88)) by (apply format_bpow; lia)]; apply rnd_mono; lra. }
  destruct (f_div_ok (score_sum xs) (score_alpha (length xs)) Fs) as (A & B).
  - rewrite Ea. lra.
  - rewrite Ea, Rabs_pos_eq by lra. pose proof (bpow_lt_max 88 ltac:(lia)). lra.
  - destruct (neg_ok (f_div (score_sum xs) (score_alpha (length xs)))) as (N1 & N2). rewrite N1, N2, B, Ea. split; [exact A|lra].
Qed.
Lemma value_exact : forall xs, (1 <= Z.of_nat (length xs) <= 2 ^ 24)%Z -> (Z.of_nat (total xs) <= 2 ^ 24)%Z ->
  f_finite (score_value xs) = true /\ f_real (score_value xs) = - rnd (INR (total xs) / INR (length xs)).
Proof.
  intros xs H1 H2. destruct (sum_exact xs H2) as (Fs & Es). destruct (alpha_exact (length xs) H1) as (Fa & Ea). unfold score_value.
  assert (1 <= INR (length xs)) by (change 1 with (INR 1); apply le_INR; lia). pose proof (pos_INR (total xs)).
  assert (Fm : format (INR (total xs))) by (rewrite INR_IZR_INZ; apply format_Z; lia).
  assert (Q : 0 <= INR (total xs) / INR (length xs) <= INR (total xs)).
  { split; [apply Rmult_le_pos; [lra|left; apply Rinv_0_lt_compat; lra]|]. rewrite <- (Rmult_1_r (INR (total xs))) at 2. apply Rmult_le_compat_l; [lra|]. rewrite <- Rinv_1. apply Rinv_le; lra. }
  assert (Q' : 0 <= rnd (INR (total xs) / INR (length xs)) <= INR (total xs)).
  { split; [rewrite <- rnd_0; apply rnd_mono; lra|]. apply Rle_trans with (rnd (INR (total xs))); [apply rnd_mono; lra|]. rewrite (rnd_format _ Fm). lra. }
  destruct (f_div_ok (score_sum xs) (score_alpha (length xs)) Fs) as (A & B).
  - rewrite Ea. lra.
  - rewrite Ea, Es, Rabs_pos_eq by lra. apply Rle_lt_trans with (1 := proj2 Q'). rewrite <- (Rabs_pos_eq (INR (total xs))) by lra. rewrite INR_IZR_INZ. apply IZR_lt_max. lia.
  - destruct (neg_ok (f_div (score_sum xs) (score_alpha (length xs)))) as (N1 & N2). rewrite N1, N2, B, Ea, Es. split; [exact A|reflexivity].
Qed.
