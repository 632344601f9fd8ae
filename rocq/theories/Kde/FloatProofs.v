From Coq Require Import List Arith Lia Bool ZArith Reals Lra Permutation.
From Flocq Require Import IEEE754.BinarySingleNaN Core.
From Verif.Base Require Import Res ListX Float32 Float32Proofs.
From Verif.Normalize Require Import ScoreProofs.
From Verif.Kde Require Import Model Spec System Float PeakProofs SystemProofs.
Import ListNotations.
Local Open Scope R_scope.

Lemma f_add_comm : forall a b, f_add a b = f_add b a.
Proof.
  intros [sa|sa| |sa ma ea ha] [sb|sb| |sb mb eb hb]; try reflexivity.
  - destruct sa, sb; reflexivity.
  - destruct sa, sb; reflexivity.
  - unfold f_add, Bplus. rewrite (Z.min_comm eb ea). f_equal. unfold Fplus_naive. apply Z.add_comm.
Qed.
(** Infinities as the first numbers that are too large. *)
Definition f_ext (x : f32) : R := match x with B754_infinity s => if s then - max_real else max_real | _ => f_real x end.
Lemma f_ext_finite : forall x, f_finite x = true -> f_ext x = f_real x.
Proof. intros [s|s| |s m e h] H; try discriminate; reflexivity. Qed.
Lemma f_cmp_ext : forall x y, f_nan x = false -> f_nan y = false -> f_cmp x y = Some (Rcompare (f_ext x) (f_ext y)).
Proof.
  assert (M : 0 < max_real) by apply bpow_gt_0.
  assert (B : forall z, f_finite z = true -> - max_real < f_real z < max_real). { intros z _. apply Rabs_def2 || idtac. pose proof (f_real_lt z) as H. apply Rabs_lt_inv in H. lra. }
  intros x y Hx Hy. destruct (f_finite x) eqn:Fx, (f_finite y) eqn:Fy.
  - rewrite !f_ext_finite by assumption. now apply f_cmp_ok.
  - rewrite (f_ext_finite x Fx). specialize (B x Fx). destruct y as [sy|sy| |sy my ey hy]; try discriminate. cbn [f_ext].
    destruct sy; [rewrite Rcompare_Gt by lra|rewrite Rcompare_Lt by lra]; destruct x as [sx|sx| |[] mx ex hx]; try discriminate; reflexivity.
  - rewrite (f_ext_finite y Fy). specialize (B y Fy). destruct x as [sx|sx| |sx mx ex hx]; try discriminate. cbn [f_ext].
    destruct sx; [rewrite Rcompare_Lt by lra|rewrite Rcompare_Gt by lra]; destruct y as [sy|sy| |[] my ey hy]; try discriminate; reflexivity.
  - destruct x as [sx|sx| |sx mx ex hx]; try discriminate. destruct y as [sy|sy| |sy my ey hy]; try discriminate. cbn [f_ext].
    destruct sx, sy; first [rewrite Rcompare_Eq by lra|rewrite Rcompare_Lt by lra|rewrite Rcompare_Gt by lra]; reflexivity.
Qed.
Lemma f_gt_irrefl : forall x, f_gt x x = false.
Proof. intros x. unfold f_gt. destruct (f_nan x) eqn:E; [destruct x; try discriminate; reflexivity|]. rewrite f_cmp_ext by assumption. now rewrite Rcompare_Eq. Qed.
Lemma f_gt_ext : forall x y, f_nan x = false -> f_nan y = false -> f_gt x y = true <-> f_ext y < f_ext x.
Proof. intros x y Hx Hy. unfold f_gt. rewrite f_cmp_ext by assumption. destruct (Rcompare_spec (f_ext x) (f_ext y)); split; intros; try discriminate; try lra; reflexivity. Qed.
Lemma f_eq_ext : forall x y, f_nan x = false -> f_nan y = false -> f_eq x y = true <-> f_ext x = f_ext y.
Proof. intros x y Hx Hy. unfold f_eq. rewrite f_cmp_ext by assumption. destruct (Rcompare_spec (f_ext x) (f_ext y)); split; intros; try discriminate; try lra; reflexivity. Qed.
Lemma f_eq_nan : forall x y, f_eq x y = true -> f_nan x = false /\ f_nan y = false.
Proof. intros x y H. destruct x as [sx|sx| |sx mx ex hx], y as [sy|sy| |sy my ey hy]; auto; discriminate. Qed.
Lemma f_eq_refl : forall x, f_nan x = false -> f_eq x x = true.
Proof. intros x H. now apply f_eq_ext. Qed.
Lemma f_eq_sym : forall x y, f_eq x y = true -> f_eq y x = true.
Proof. intros x y H. destruct (f_eq_nan _ _ H) as (H1 & H2). apply f_eq_ext in H; auto. now apply f_eq_ext. Qed.
Lemma f_eq_trans : forall x y z, f_eq x y = true -> f_eq y z = true -> f_eq x z = true.
Proof. intros x y z H1 H2. destruct (f_eq_nan _ _ H1), (f_eq_nan _ _ H2). apply f_eq_ext in H1, H2; auto. apply f_eq_ext; auto. congruence. Qed.
Lemma f_hashable_nan : forall x, f_hashable x = true -> f_nan x = false.
Proof. intros x H. destruct x; auto. Qed.

(** ** Distances *)
Lemma f_dist_ok : forall p x, f_finite p = true -> f_finite x = true -> f_nan (f_dist p x) = false /\ f_ext (f_dist p x) = Rmin (rnd (Rabs (f_real p - f_real x))) max_real.
Proof.
  intros p x Hp Hx. unfold f_dist, f_abs. pose proof (@Bminus_correct 24 128 prec_pos prec_max mode_NE p x Hp Hx) as B.
  assert (EA : Rabs (rnd (f_real p - f_real x)) = rnd (Rabs (f_real p - f_real x))). { unfold rnd. symmetry. apply round_NE_abs; auto with typeclass_instances. }
  destruct (Rlt_bool_spec (Rabs (rnd (f_real p - f_real x))) max_real) as [L|L].
  - rewrite Rlt_bool_true in B by exact L. destruct B as (B1 & B2 & _). fold (f_sub p x) in *. split.
    + unfold f_nan, is_nan. destruct (f_sub p x); cbn in *; congruence.
    + rewrite f_ext_finite; [|unfold f_finite; now rewrite is_finite_Babs]. unfold f_real in *. rewrite B2R_Babs, B1. rewrite <- EA. symmetry. apply Rmin_left. apply Rlt_le, L.
  - rewrite Rlt_bool_false in B by exact L. destruct B as (B1 & _). fold (f_sub p x) in *. destruct (f_sub p x) as [s|s| |s m e h]; cbn in B1; try discriminate.
    split; [reflexivity|]. cbn. symmetry. apply Rmin_right. rewrite <- EA. exact L.
Qed.
Lemma f_dist_mono : forall p q x, f_finite p = true -> f_finite q = true -> f_finite x = true -> Rabs (f_real p - f_real x) <= Rabs (f_real q - f_real x) -> f_ext (f_dist p x) <= f_ext (f_dist q x).
Proof.
  intros p q x Hp Hq Hx H. destruct (f_dist_ok p x Hp Hx) as (_ & ->), (f_dist_ok q x Hq Hx) as (_ & ->). apply rnd_mono in H. unfold Rmin. repeat destruct Rle_dec; lra.
Qed.

(** ** Equal values *)
Lemma cov_two_equal : forall x, f_finite x = true -> f_finite (f_add x x) = true -> exists c, f_cov [x; x] = Ok c /\ f_eq c f_zero = true.
Proof.
  intros x Hx Hs. unfold f_cov. cbn [length Nat.ltb Nat.leb]. eexists. split; [reflexivity|].
  assert (Z0 : f_finite f_zero = true /\ f_real f_zero = 0) by (split; reflexivity). destruct Z0 as (Fz & Rz).
  pose proof (f_real_lt x) as Lx. pose proof (f_real_format x) as Gx.
  (* the sum *)
  destruct (f_add_ok f_zero x Fz Hx) as (F1 & R1). { rewrite Rz, Rplus_0_l, rnd_format; assumption. }
  rewrite Rz, Rplus_0_l, (rnd_format _ Gx) in R1.
  assert (G2 : format (f_real x + f_real x)).
  { change (generic_format radix2 (FLT_exp (-149) 24) (f_real x + f_real x)). change (generic_format radix2 (FLT_exp (-149) 24) (f_real x)) in Gx.
    apply FLT_format_generic in Gx; [|exact prec_pos]. destruct Gx as [[mx ex] E1 E2 E3]. apply generic_format_FLT. exists (Float radix2 mx (ex + 1)); cbn in *; auto; [|lia].
    rewrite E1. unfold F2R. cbn -[bpow]. rewrite bpow_plus. cbn. lra. }
  assert (L2 : Rabs (f_real x + f_real x) < max_real).
  { destruct (Rlt_le_dec (Rabs (f_real x + f_real x)) max_real) as [L|L]; [exact L|exfalso].
    pose proof (@Bplus_correct 24 128 prec_pos prec_max mode_NE x x Hx Hx) as B. rewrite Rlt_bool_false in B.
    - destruct B as (B & _). fold (f_add x x) in B. destruct (f_add x x); cbn in *; try discriminate.
    - change (max_real <= Rabs (rnd (f_real x + f_real x))). now rewrite rnd_format. }
  assert (S : f_sum [x; x] = f_add (f_add f_zero x) x) by reflexivity.
  destruct (f_add_ok (f_add f_zero x) x F1 Hx) as (F2 & R2). { rewrite R1, rnd_format; assumption. }
  rewrite R1, (rnd_format _ G2) in R2. rewrite S. set (s := f_add (f_add f_zero x) x) in *.
  (* the mean *)
  assert (Etwo : f_finite (f_of_nat 2) = true /\ f_real (f_of_nat 2) = 2). { split; [reflexivity|]. unfold f_of_nat. unfold f_real. cbn -[IZR]. unfold F2R. cbn. lra. }
  destruct Etwo as (Ft & Rt).
  destruct (f_div_ok s (f_of_nat 2) F2) as (F3 & R3). { rewrite Rt. lra. } { rewrite Rt, R2. replace ((f_real x + f_real x) / 2) with (f_real x) by lra. rewrite rnd_format; assumption. }
  rewrite Rt, R2 in R3. replace ((f_real x + f_real x) / 2) with (f_real x) in R3 by lra. rewrite (rnd_format _ Gx) in R3. set (m := f_div s (f_of_nat 2)) in *.
  (* the deviations *)
  assert (D0 : 0 < max_real) by apply bpow_gt_0.
  destruct (f_sub_ok x m Hx F3) as (F4 & R4). { rewrite R3, Rminus_diag_eq, rnd_0, Rabs_R0 by reflexivity. exact D0. }
  rewrite R3, Rminus_diag_eq, rnd_0 in R4 by reflexivity. cbn [map].
  assert (Zd : exists b, f_sub x m = B754_zero b).
  { destruct (f_sub x m) as [b|b| |b md ed h]; try discriminate; [eauto|]. exfalso. unfold f_real, B2R in R4. apply eq_0_F2R in R4. destruct b; discriminate. }
  destruct Zd as (b & ->). destruct b; reflexivity.
Qed.

Lemma zero_of_real : forall d, f_finite d = true -> f_real d = 0 -> exists b, d = B754_zero b.
Proof. intros d F R. destruct d as [b|b| |b md ed h]; try discriminate; [eauto|]. exfalso. unfold f_real, B2R in R. apply eq_0_F2R in R. destruct b; discriminate. Qed.
Lemma sum_zeros : forall n, f_sum (repeat f_zero n) = f_zero.
Proof. intros n. unfold f_sum. induction n as [|n IH]; [reflexivity|]. cbn [repeat fold_left]. exact IH. Qed.
(** A column of [n] equal values [k * 2^e] whose sums are exact. *)
Lemma cov_constant : forall x k e n, f_finite x = true -> f_real x = IZR k * bpow radix2 e -> (-149 <= e <= 103)%Z -> (2 <= n)%nat -> (Z.of_nat n * Z.max 1 (Z.abs k) <= 2 ^ 24)%Z ->
  exists c, f_cov (repeat x n) = Ok c /\ f_eq c f_zero = true.
Proof.
  intros x k e n Hx Rx He Hn Hk. assert (HnZ : (Z.of_nat n <= 2 ^ 24)%Z) by nia.
  assert (D0 : 0 < max_real) by apply bpow_gt_0.
  assert (Lm : forall j, (Z.abs j <= 2 ^ 24)%Z -> format (IZR j * bpow radix2 e) /\ Rabs (IZR j * bpow radix2 e) < max_real).
  { intros j Hj. split; [apply format_int; lia|]. rewrite Rabs_mult, <- abs_IZR, (Rabs_pos_eq (bpow radix2 e)) by apply bpow_ge_0.
    apply Rle_lt_trans with (IZR (2 ^ 24) * bpow radix2 e); [apply Rmult_le_compat_r; [apply bpow_ge_0|now apply IZR_le]|].
    change (IZR (2 ^ 24)) with (bpow radix2 24). rewrite <- bpow_plus. unfold max_real. apply bpow_lt. lia. }
  assert (S : forall m s j, f_finite s = true -> f_real s = IZR j * bpow radix2 e -> (Z.abs j + Z.of_nat m * Z.abs k <= 2 ^ 24)%Z ->
    f_finite (fold_left f_add (repeat x m) s) = true /\ f_real (fold_left f_add (repeat x m) s) = IZR (j + Z.of_nat m * k) * bpow radix2 e).
  { intros m; induction m as [|m IH]; intros s j Fs Rs Hj; cbn [repeat fold_left].
    - split; [assumption|]. rewrite Rs. do 2 f_equal. lia.
    - assert (E : f_real s + f_real x = IZR (j + k) * bpow radix2 e) by (rewrite Rs, Rx, plus_IZR; ring).
      destruct (Lm (j + k)%Z) as (G & L); [nia|]. destruct (f_add_ok s x Fs Hx) as (F1 & R1). { rewrite E, rnd_format; assumption. }
      rewrite E, rnd_format in R1 by assumption. destruct (IH (f_add s x) (j + k)%Z F1 R1) as (F2 & R2); [nia|]. split; [assumption|]. rewrite R2. do 2 f_equal. lia. }
  destruct (S n f_zero 0%Z) as (Fs & Rs); [reflexivity|cbn; lra|nia|]. fold (f_sum (repeat x n)) in Fs, Rs. rewrite Z.add_0_l in Rs.
  destruct (of_nat_exact n HnZ) as (Fn & Rn). assert (Hn1 : 2 <= INR n) by (change 2 with (INR 2); now apply le_INR).
  unfold f_cov. rewrite repeat_length. destruct (Nat.ltb_spec n 2); [lia|]. eexists. split; [reflexivity|].
  assert (Em : f_real (f_sum (repeat x n)) / f_real (f_of_nat n) = f_real x). { rewrite Rs, Rn, Rx, mult_IZR, <- INR_IZR_INZ. field. lra. }
  destruct (f_div_ok (f_sum (repeat x n)) (f_of_nat n) Fs) as (Fm & Rm). { rewrite Rn. lra. } { rewrite Em, rnd_format by apply f_real_format. apply f_real_lt. }
  rewrite Em, rnd_format in Rm by apply f_real_format. set (m := f_div (f_sum (repeat x n)) (f_of_nat n)) in *.
  destruct (f_sub_ok x m Hx Fm) as (Fd & Rd). { rewrite Rm, Rminus_diag_eq, rnd_0, Rabs_R0 by reflexivity. exact D0. }
  rewrite Rm, Rminus_diag_eq, rnd_0 in Rd by reflexivity. destruct (zero_of_real _ Fd Rd) as (b & Ed).
  assert (Es : map (fun x0 => f_mul x0 x0) (map (fun x0 => f_sub x0 m) (repeat x n)) = repeat f_zero n).
  { clearbody m. clear - Ed. induction n as [|n IH]; cbn [repeat map]; [reflexivity|]. rewrite IH, Ed. destruct b; reflexivity. }
  rewrite Es, sum_zeros. assert (En1 : f_real (f_of_nat n) - f_real (f_of 1 0) = IZR (Z.of_nat n - 1)). { rewrite Rn, minus_IZR, INR_IZR_INZ. f_equal. unfold f_real. cbn. unfold F2R. cbn. lra. }
  assert (Gn : format (IZR (Z.of_nat n - 1))) by (apply format_Z; lia).
  destruct (f_sub_ok (f_of_nat n) (f_of 1 0) Fn) as (F1 & R1); [reflexivity|rewrite En1, rnd_format by assumption; apply IZR_lt_max; lia|]. rewrite En1, rnd_format in R1 by assumption.
  assert (Nz : IZR (Z.of_nat n - 1) <> 0) by (apply not_0_IZR; lia). destruct (f_sub (f_of_nat n) (f_of 1 0)) as [s|s| |s md ed h]; try discriminate; cbn in R1; try congruence; now destruct s.
Qed.
