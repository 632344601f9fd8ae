(** The kernel density of two numbers has its maximum half way and falls to both sides. *)
From Coq Require Import List Arith Lia Reals Lra.
From Coquelicot Require Import Coquelicot.
From Verif.Base Require Import ListX.
From Verif.Stats Require Import Spec.
From Verif.Kde Require Import RealSpec RealProofs.
Import ListNotations.
Local Open Scope R_scope.

Lemma exp_ratio : forall w, 0 <= w -> (1 - w) * exp (2 * w) <= 1 + w.
Proof.
  intros w [Hw| <-]; [|rewrite Rmult_0_r, exp_0; lra].
  destruct (MVT_cor2 (fun w => (1 - w) * exp (2 * w) - (1 + w)) (fun w => (1 - 2 * w) * exp (2 * w) - 1) 0 w Hw) as (c & E & Hc).
  - intros c _. apply is_derive_Reals. auto_derive; [exact I|]. ring.
  - rewrite Rmult_0_r, exp_0 in E. assert (D : (1 - 2 * c) * exp (2 * c) <= 1); [|nra].
    pose proof (exp_ineq1_le (- (2 * c))) as X. pose proof (exp_pos (2 * c)) as P. assert (Y : exp (- (2 * c)) * exp (2 * c) = 1) by (rewrite <- exp_plus, <- exp_0; f_equal; lra).
    rewrite <- Y. apply Rmult_le_compat_r; lra.
Qed.

(** Two bells at distance [2 delta]. *)
Definition bells (delta h u : R) : R := exp (- ((u - delta) / h * ((u - delta) / h)) / 2) + exp (- ((u + delta) / h * ((u + delta) / h)) / 2).
Lemma bells_even : forall delta h u, h <> 0 -> bells delta h (- u) = bells delta h u.
Proof.
  intros delta h u Hh. unfold bells. replace ((- u - delta) / h * ((- u - delta) / h)) with ((u + delta) / h * ((u + delta) / h)) by (field; exact Hh).
  replace ((- u + delta) / h * ((- u + delta) / h)) with ((u - delta) / h * ((u - delta) / h)) by (field; exact Hh). ring.
Qed.
Lemma bells_falls : forall delta h u v, 0 < delta -> delta <= h -> 0 <= u -> u <= v -> bells delta h v <= bells delta h u.
Proof.
  intros delta h u v Hd Hh Hu [Huv| ->]; [|lra].
  destruct (MVT_cor2 (bells delta h) (fun c => (- (c - delta) * exp (- ((c - delta) / h * ((c - delta) / h)) / 2) - (c + delta) * exp (- ((c + delta) / h * ((c + delta) / h)) / 2)) / (h * h)) u v Huv) as (c & E & Hc).
  - intros c _. apply is_derive_Reals. unfold bells. auto_derive; [lra|]. unfold Rminus, Rdiv. set (e1 := exp _). set (e2 := exp _). field. lra.
  - assert (D : (delta - c) * exp (- ((c - delta) / h * ((c - delta) / h)) / 2) <= (delta + c) * exp (- ((c + delta) / h * ((c + delta) / h)) / 2)).
    { assert (Es : exp (- ((c - delta) / h * ((c - delta) / h)) / 2) = exp (2 * (c * delta / (h * h))) * exp (- ((c + delta) / h * ((c + delta) / h)) / 2)) by (rewrite <- exp_plus; f_equal; field; lra).
      rewrite Es. pose proof (exp_pos (- ((c + delta) / h * ((c + delta) / h)) / 2)) as P. rewrite <- Rmult_assoc. apply Rmult_le_compat_r; [lra|].
      destruct (Rle_lt_dec delta c) as [L|L]; [pose proof (exp_pos (2 * (c * delta / (h * h)))); nra|]. set (w := c / delta). assert (Hw : 0 <= w) by (apply Rlt_le, Rdiv_lt_0_compat; lra).
      assert (Hc' : c = w * delta) by (unfold w; field; lra). assert (Le : c * delta / (h * h) <= w).
      { unfold w. apply (Rmult_le_reg_r (h * h)); [nra|]. replace (c * delta / (h * h) * (h * h)) with (c * delta) by (field; lra). apply (Rmult_le_reg_r delta); [lra|]. replace (c / delta * (h * h) * delta) with (c * (h * h)) by (field; lra).
        rewrite !Rmult_assoc. apply Rmult_le_compat_l; [lra|]. nra. }
      apply Rle_trans with ((delta - c) * exp (2 * w)).
      - apply Rmult_le_compat_l; [lra|]. destruct Le as [Le| ->]; [|lra]. apply Rlt_le, exp_increasing. lra.
      - rewrite Hc'. pose proof (exp_ratio w Hw). nra. }
    assert (0 < h * h) by nra. assert (N : (- (c - delta) * exp (- ((c - delta) / h * ((c - delta) / h)) / 2) - (c + delta) * exp (- ((c + delta) / h * ((c + delta) / h)) / 2)) / (h * h) <= 0).
    { apply (Rmult_le_reg_r (h * h)); [lra|]. unfold Rdiv. rewrite Rmult_assoc, Rinv_l by lra. lra. }
    nra.
Qed.
Lemma bells_abs : forall delta h u v, 0 < delta -> delta <= h -> Rabs u <= Rabs v -> bells delta h v <= bells delta h u.
Proof.
  intros delta h u v Hd Hh Huv. assert (A : forall x, bells delta h x = bells delta h (Rabs x)) by (intros x; unfold Rabs; destruct (Rcase_abs x); [now rewrite bells_even by lra|reflexivity]).
  rewrite (A u), (A v). apply bells_falls; auto. apply Rabs_pos.
Qed.

Lemma std_two : forall x y, x < y -> sample_std [x; y] = sqrt 2 * ((y - x) / 2).
Proof.
  intros x y H. unfold sample_std, scatter, mean. cbn [map length INR]. unfold Rsum. cbn [fold_right].
  replace (((x - (x + (y + 0)) / (1 + 1)) * (x - (x + (y + 0)) / (1 + 1)) + ((y - (x + (y + 0)) / (1 + 1)) * (y - (x + (y + 0)) / (1 + 1)) + 0)) / (1 + 1 - 1)) with (2 * ((y - x) / 2 * ((y - x) / 2))) by field.
  rewrite sqrt_mult_alt by lra. rewrite sqrt_square by lra. reflexivity.
Qed.
Lemma bandwidth_two : forall x y, x < y -> (y - x) / 2 <= bandwidth [x; y].
Proof.
  intros x y H. unfold bandwidth. rewrite (std_two x y H). cbn [length INR]. replace (sqrt 2 * ((y - x) / 2) * Rpower (1 + 1) (-1 / 5)) with ((y - x) / 2 * (sqrt 2 * Rpower (1 + 1) (-1 / 5))) by ring.
  rewrite <- (Rmult_1_r ((y - x) / 2)) at 1. apply Rmult_le_compat_l; [lra|]. replace (sqrt 2) with (Rpower (1 + 1) (/ 2)) by (replace (1 + 1) with 2 by lra; apply Rpower_sqrt; lra).
  rewrite <- Rpower_plus. rewrite <- (Rpower_O (1 + 1)) at 1 by lra. apply Rle_Rpower; lra.
Qed.
Lemma density_two : forall x y u, x < y -> kernel_density [x; y] ((x + y) / 2 + u) = bells ((y - x) / 2) (bandwidth [x; y]) u / (2 * bandwidth [x; y] * sqrt (2 * PI)).
Proof.
  intros x y u H. unfold kernel_density, bells. set (h := bandwidth [x; y]). cbn [map length]. unfold Rsum. cbn [fold_right]. replace (INR 2) with 2 by (cbn; lra).
  replace ((x + y) / 2 + u - x) with (u + (y - x) / 2) by field. replace ((x + y) / 2 + u - y) with (u - (y - x) / 2) by field. f_equal. ring.
Qed.
(** No position is denser than both its neighbours: 250 positions, symmetrical. *)
Lemma no_peak_two : forall x y g, x < y -> ~ density_peak [x; y] g.
Proof.
  intros x y g H (lo & hi & j & Hlo & Hhi & Hj & -> & A & B).
  assert (Sm : smallest [x; y] x) by (split; [now left|intros z [<-|[<-|[]]]; lra]). assert (La : largest [x; y] y) by (split; [right; now left|intros z [<-|[<-|[]]]; lra]).
  rewrite (smallest_unique _ _ _ Hlo Sm), (largest_unique _ _ _ Hhi La) in *. set (step := (y - x) * (12 / 10) / 249) in *. assert (Hs : 0 < step) by (unfold step; lra).
  assert (E : forall k, position x y k = (x + y) / 2 + (INR k - 249 / 2) * step) by (intros k; unfold position, step; field). rewrite !E in *. rewrite !density_two in * by exact H.
  pose proof (bandwidth_two x y H) as Hb. assert (Hsp : spread [x; y]) by (exists x, y; cbn; ssplit; auto; lra). pose proof (bandwidth_pos _ Hsp) as Hp. pose proof PI_RGT_0. assert (0 < sqrt (2 * PI)) by (apply sqrt_lt_R0; lra).
  assert (Hc : 0 < / (2 * bandwidth [x; y] * sqrt (2 * PI))) by (apply Rinv_0_lt_compat; apply Rmult_lt_0_compat; [lra|assumption]). apply Rmult_lt_reg_r in A, B; auto. clear Hc.
  assert (M : forall u v, Rabs u <= Rabs v -> bells ((y - x) / 2) (bandwidth [x; y]) v <= bells ((y - x) / 2) (bandwidth [x; y]) u) by (intros; apply bells_abs; lra).
  rewrite !S_INR in *. set (T := (INR j + 1 - 249 / 2) * step) in *. assert (E1 : (INR j - 249 / 2) * step = T - step) by (unfold T; ring). assert (E2 : (INR j + 1 + 1 - 249 / 2) * step = T + step) by (unfold T; ring). rewrite E1 in A. rewrite E2 in B.
  destruct (Nat.le_gt_cases (S j) 124) as [L|L].
  - apply le_INR in L. rewrite S_INR in L. replace (INR 124) with 124 in L by (rewrite INR_IZR_INZ; reflexivity). assert (HT : T <= - (1 / 2) * step) by (unfold T; apply Rmult_le_compat_r; lra).
    apply (Rlt_not_le _ _ B). apply M. rewrite (Rabs_left1 T) by lra. apply Rabs_le. split; lra.
  - assert (L' : (124 <= j)%nat) by lia. apply le_INR in L'. replace (INR 124) with 124 in L' by (rewrite INR_IZR_INZ; reflexivity). assert (HT : 1 / 2 * step <= T) by (unfold T; apply Rmult_le_compat_r; lra).
    apply (Rlt_not_le _ _ A). apply M. rewrite (Rabs_pos_eq T) by lra. apply Rabs_le. split; lra.
Qed.
