From Coq Require Import List Arith Bool Lia Permutation ZArith.
From Verif.Base Require Import ListX Float32.
From Verif.Pca Require Import Model Spec Tree Abs Proofs Help Chunks Canon Arrival Single SingleSpec.
From Coq Require Import Reals Lra.
From Flocq Require Import IEEE754.BinarySingleNaN Core Relative Plus_error.
From Verif.Base Require Import Float32Proofs.
From Verif.Normalize Require Import ScoreProofs.
From Verif.Contribution Require Import FileProofs.
Import ListNotations.
Open Scope R_scope.

Lemma In_firstn' : forall A (l : list A) k x, In x (firstn k l) -> In x l.
Proof. intros A l k x H. rewrite <- (firstn_skipn k l). apply in_app_iff. now left. Qed.

(** Roundings. *)
Lemma u_pos : 0 < u. Proof. unfold u. lra. Qed.
Lemma u_bpow : / 2 * bpow radix2 (- 24 + 1) = u.
Proof.
  replace (/ 2) with (bpow radix2 (-1)) by (cbn; lra). rewrite <- bpow_plus. change (-1 + (-24 + 1))%Z with (Z.opp 24). rewrite bpow_opp. unfold u. f_equal.
  rewrite <- (IZR_Zpower radix2 24) by lia. change (radix2 ^ 24)%Z with (2 ^ Z.of_nat 24)%Z. now rewrite <- pow_IZR.
Qed.
Lemma eta_pos : 0 < eta.
Proof. unfold eta. apply Rinv_0_lt_compat, pow_lt. lra. Qed.
Lemma eta_bpow : / 2 * bpow radix2 (-149) = eta.
Proof.
  replace (/ 2) with (bpow radix2 (-1)) by (cbn; lra). rewrite <- bpow_plus. change (-1 + -149)%Z with (Z.opp 150). rewrite bpow_opp. unfold eta. f_equal.
  rewrite <- (IZR_Zpower radix2 150) by lia. change (radix2 ^ 150)%Z with (2 ^ Z.of_nat 150)%Z. now rewrite <- pow_IZR.
Qed.
Lemma add_err : forall x y, format x -> format y -> Rabs (rnd (x + y) - (x + y)) <= u * Rabs (x + y).
Proof.
  intros x y Fx Fy. destruct (FLT_plus_error_N_ex radix2 (-149) 24 (fun z => negb (Z.even z)) x y Fx Fy) as (eps & He & E).
  change (rnd (x + y) = (x + y) * (1 + eps)) in E. rewrite E. replace ((x + y) * (1 + eps) - (x + y)) with (eps * (x + y)) by ring.
  rewrite Rabs_mult. apply Rmult_le_compat_r; [apply Rabs_pos|]. apply Rle_trans with (1 := He). change (u_ro radix2 24) with (/ 2 * bpow radix2 (-24 + 1)). rewrite u_bpow. pose proof u_pos.
  apply Rmult_le_reg_r with (1 + u); [lra|]. unfold Rdiv. rewrite Rmult_assoc, Rinv_l by lra. nra.
Qed.
Lemma rnd_err : forall x, Rabs (rnd x - x) <= u * Rabs x + eta.
Proof.
  intros x. destruct (error_N_FLT radix2 (-149) 24 eq_refl (fun z => negb (Z.even z)) x) as (eps & et & He & Ht & _ & E).
  change (rnd x = x * (1 + eps) + et) in E. rewrite E. replace (x * (1 + eps) + et - x) with (eps * x + et) by ring.
  apply Rle_trans with (1 := Rabs_triang _ _). rewrite Rabs_mult. change (Rabs eps <= / 2 * bpow radix2 (-24 + 1)) in He. rewrite u_bpow in He. rewrite eta_bpow in Ht.
  apply Rplus_le_compat; [|exact Ht]. apply Rmult_le_compat_r; [apply Rabs_pos|exact He].
Qed.
Lemma add_fin : forall x y, f_finite (f_add x y) = true -> f_finite x = true /\ f_finite y = true.
Proof. intros x y. destruct x as [sx|sx| |sx mx ex Hx], y as [sy|sy| |sy my ey Hy]; cbn; auto; try discriminate. destruct sx, sy; discriminate. Qed.
Lemma add_fin_real : forall x y, f_finite (f_add x y) = true -> f_real (f_add x y) = rnd (f_real x + f_real y).
Proof.
  intros x y H. destruct (add_fin x y H) as (Hx & Hy). pose proof (@Bplus_correct 24 128 prec_pos prec_max mode_NE x y Hx Hy) as B.
  destruct (Rlt_bool_spec (Rabs (rnd (f_real x + f_real y))) max_real) as [L|L].
  - rewrite Rlt_bool_true in B by exact L. apply B.
  - rewrite Rlt_bool_false in B by exact L. destruct B as (B & _). exfalso. unfold f_finite, f_add in H. revert H B. generalize (Bplus (prec_gt_0_ := prec_pos) (prec_lt_emax_ := prec_max) mode_NE x y).
    intros z Hz Hb. rewrite <- is_finite_SF_B2SF in Hz. rewrite Hb in Hz. destruct (Bsign x); discriminate.
Qed.

Definition abs_sum (l : list f32) : R := fold_right (fun x a => Rabs (f_real x) + a) 0 l.
Lemma abs_sum_nonneg : forall l, 0 <= abs_sum l.
Proof. induction l as [|x l IH]; cbn; [lra|]. pose proof (Rabs_pos (f_real x)). fold (abs_sum l). lra. Qed.

(** Adding one after the other. *)
Lemma fold_err : forall l a, f_finite (fold_left f_add l a) = true ->
  Rabs (f_real (fold_left f_add l a) - (f_real a + sum_of l)) <= ((1 + u) ^ length l - 1) * (Rabs (f_real a) + abs_sum l).
Proof.
  induction l as [|x l IH]; intros a H; cbn [fold_left length pow].
  - cbn. rewrite Rplus_0_r, Rminus_diag_eq, Rabs_R0 by reflexivity. lra.
  - cbn [fold_left] in H. specialize (IH (f_add a x) H).
    assert (Ha : f_finite (f_add a x) = true).
    { revert H. generalize (f_add a x). clear. induction l as [|y l IH]; intros b H; [exact H|]. cbn [fold_left] in H. apply IH in H. now apply add_fin in H. }
    pose proof (add_fin_real a x Ha) as Er. pose proof (add_err (f_real a) (f_real x) (f_real_format a) (f_real_format x)) as Ee. rewrite <- Er in Ee.
    cbn [sum_of abs_sum fold_right]. fold (sum_of l). fold (abs_sum l).
    set (r := f_real (fold_left f_add l (f_add a x))) in *. set (b := f_real (f_add a x)) in *. set (A := f_real a) in *. set (X := f_real x) in *.
    set (v := (1 + u) ^ length l) in *. assert (Hv : 1 <= v) by (apply pow_R1_Rle; pose proof u_pos; lra). pose proof u_pos as Hu. pose proof (abs_sum_nonneg l) as HS.
    assert (T : Rabs (A + X) <= Rabs A + Rabs X) by apply Rabs_triang.
    assert (Tb : Rabs b <= (1 + u) * (Rabs A + Rabs X)).
    { replace b with ((b - (A + X)) + (A + X)) by ring. apply Rle_trans with (1 := Rabs_triang _ _). nra. }
    replace (r - (A + (X + sum_of l))) with ((r - (b + sum_of l)) + (b - (A + X))) by ring. apply Rle_trans with (1 := Rabs_triang _ _).
    apply Rle_trans with ((v - 1) * (Rabs b + abs_sum l) + u * Rabs (A + X)); [lra|].
    assert (0 <= Rabs A + Rabs X) by (pose proof (Rabs_pos A); pose proof (Rabs_pos X); lra).
    apply Rle_trans with ((v - 1) * ((1 + u) * (Rabs A + Rabs X) + abs_sum l) + u * (Rabs A + Rabs X)).
    + apply Rplus_le_compat; [apply Rmult_le_compat_l; lra|apply Rmult_le_compat_l; lra].
    + ring_simplify. assert (0 <= v * u * abs_sum l) by (apply Rmult_le_pos; [apply Rmult_le_pos; lra|lra]). lra.
Qed.
Lemma sum_err : forall l, f_finite (f_sum l) = true -> Rabs (f_real (f_sum l) - sum_of l) <= ((1 + u) ^ length l - 1) * abs_sum l.
Proof. intros l H. pose proof (fold_err l f_zero H) as E. change (f_real f_zero) with 0 in E. rewrite Rabs_R0, !Rplus_0_l in E. exact E. Qed.

(** Numbers of rows are added exactly. *)
Definition total (l : list nat) : nat := fold_right Nat.add 0%nat l.
Lemma counts_exact : forall l a x, (Z.of_nat (a + total l) <= 2 ^ 24)%Z -> f_finite x = true -> f_real x = INR a ->
  let r := fold_left f_add (map f_of_nat l) x in f_finite r = true /\ f_real r = INR (a + total l).
Proof.
  induction l as [|n l IH]; intros a x H Fx Ex; cbn [map fold_left total fold_right].
  - cbn. rewrite Nat.add_0_r. auto.
  - cbn [total fold_right] in H. fold (total l) in *. destruct (of_nat_exact n ltac:(lia)) as (Fn & En).
    assert (Fm : rnd (INR (a + n)) = INR (a + n)) by (apply rnd_format; rewrite INR_IZR_INZ; apply format_Z; lia).
    destruct (f_add_ok x (f_of_nat n) Fx Fn) as (A & B); rewrite Ex, En, <- plus_INR, Fm in *; [rewrite INR_IZR_INZ; apply IZR_lt_max; lia|].
    rewrite Nat.add_assoc. apply IH; [lia|exact A|exact B].
Qed.
Lemma counts_sum : forall l, (Z.of_nat (total l) <= 2 ^ 24)%Z -> f_finite (f_sum (map f_of_nat l)) = true /\ f_real (f_sum (map f_of_nat l)) = INR (total l).
Proof. intros l H. apply (counts_exact l 0 f_zero); auto. Qed.

(** Values of absolute value at most [B]. *)
Section Bounded.
Variable e : Z.
Hypothesis He : (-149 <= e <= 100)%Z.
Notation B := (bpow radix2 e).

Lemma rnd_within : forall x n, (Z.of_nat n <= 2 ^ 24)%Z -> Rabs x <= INR n * B -> Rabs (rnd x) <= INR n * B /\ Rabs (rnd x) < max_real.
Proof.
  intros x n Hn H. assert (Fm : format (INR n * B)) by (rewrite INR_IZR_INZ; apply format_int; lia).
  assert (G : Rabs (rnd x) <= INR n * B).
  { apply Rabs_le. apply Rabs_le_inv in H. split.
    - rewrite <- (rnd_format (- (INR n * B))) by (now apply generic_format_opp). apply rnd_mono. lra.
    - rewrite <- (rnd_format (INR n * B)) by exact Fm. apply rnd_mono. lra. }
  split; [exact G|]. apply Rle_lt_trans with (1 := G). apply Rle_lt_trans with (bpow radix2 24 * B).
  - apply Rmult_le_compat_r; [apply bpow_ge_0|]. rewrite INR_IZR_INZ. change (bpow radix2 24) with (IZR (2 ^ 24)). now apply IZR_le.
  - rewrite <- bpow_plus. apply bpow_lt_max. lia.
Qed.

Lemma fold_within : forall l ws a wa, Forall2 (fun x w => f_finite x = true /\ Rabs (f_real x) <= INR w * B) l ws -> f_finite a = true -> Rabs (f_real a) <= INR wa * B ->
  (Z.of_nat (wa + total ws) <= 2 ^ 24)%Z -> f_finite (fold_left f_add l a) = true /\ Rabs (f_real (fold_left f_add l a)) <= INR (wa + total ws) * B.
Proof.
  intros l ws a wa H. revert a wa. induction H as [|x w l ws (Fx & Bx) _ IH]; intros a wa Fa Ba Hn; cbn [fold_left total fold_right].
  - rewrite Nat.add_0_r. auto.
  - cbn [total fold_right] in Hn. fold (total ws) in *.
    assert (S : Rabs (f_real a + f_real x) <= INR (wa + w) * B) by (apply Rle_trans with (1 := Rabs_triang _ _); rewrite plus_INR; lra).
    destruct (rnd_within _ (wa + w) ltac:(lia) S) as (R1 & R2). destruct (f_add_ok a x Fa Fx R2) as (F1 & E1).
    rewrite Nat.add_assoc. apply IH; [exact F1|rewrite E1; exact R1|lia].
Qed.

Lemma total_ones : forall l : list f32, total (map (fun _ => 1%nat) l) = length l.
Proof. induction l as [|x l IH]; cbn [map total fold_right length]; [reflexivity|]. fold (total (map (fun _ : f32 => 1%nat) l)). lia. Qed.
Lemma sum_within : forall l, within B l -> (Z.of_nat (length l) <= 2 ^ 24)%Z -> f_finite (f_sum l) = true /\ Rabs (f_real (f_sum l)) <= INR (length l) * B.
Proof.
  intros l H Hn. rewrite <- (total_ones l). apply (fold_within l (map (fun _ => 1%nat) l) f_zero 0); [|reflexivity|change (f_real f_zero) with 0; rewrite Rabs_R0; cbn; lra|now rewrite Nat.add_0_l, total_ones].
  induction H as [|x l (Fx & Bx) _ IH]; [constructor|]. constructor; [split; [exact Fx|cbn; lra]|]. apply IH. cbn [length] in Hn. lia.
Qed.

Lemma abs_sum_within : forall l, within B l -> abs_sum l <= INR (length l) * B.
Proof. intros l H. induction H as [|x l (_ & Hx) _ IH]; [cbn; lra|]. cbn [length abs_sum fold_right]. fold (abs_sum l). rewrite S_INR. lra. Qed.

Lemma mean_within : forall l, within B l -> (1 <= length l)%nat -> (Z.of_nat (length l) <= 2 ^ 24)%Z ->
  f_finite (f_mean l) = true /\ Rabs (f_real (f_mean l)) <= B /\ Rabs (f_real (f_mean l) - mean_of l) <= ((1 + u) ^ length l - 1 + u) * B + eta.
Proof.
  intros l H H1 Hn. destruct (sum_within l H Hn) as (Fs & Bs). destruct (of_nat_exact (length l) Hn) as (Fn & En).
  assert (Hl : 1 <= INR (length l)) by (apply (le_INR 1); exact H1). pose proof (bpow_gt_0 radix2 e) as HB.
  assert (Q : Rabs (f_real (f_sum l) / INR (length l)) <= INR 1 * B).
  { unfold Rdiv. rewrite Rabs_mult, (Rabs_pos_eq (/ INR (length l))) by (apply Rlt_le, Rinv_0_lt_compat; lra).
    apply Rmult_le_reg_r with (INR (length l)); [lra|]. rewrite Rmult_assoc, Rinv_l by lra. cbn [INR]. lra. }
  destruct (rnd_within _ 1 ltac:(lia) Q) as (R1 & R2). unfold f_mean.
  destruct (f_div_ok (f_sum l) (f_of_nat (length l)) Fs) as (A & C); rewrite En in *; [lra|exact R2|].
  split; [exact A|]. rewrite C. split; [cbn [INR] in R1; lra|]. unfold mean_of.
  pose proof (rnd_err (f_real (f_sum l) / INR (length l))) as E1. pose proof (sum_err l Fs) as E2. pose proof (abs_sum_within l H) as E3.
  set (n := INR (length l)) in *. set (S := f_real (f_sum l)) in *. set (v := (1 + u) ^ length l) in *. pose proof u_pos as Hu.
  assert (Hv : 1 <= v) by (apply pow_R1_Rle; lra).
  assert (E4 : Rabs (S - sum_of l) <= (v - 1) * (n * B)) by (apply Rle_trans with (1 := E2); apply Rmult_le_compat_l; lra).
  assert (E5 : Rabs (S / n - sum_of l / n) <= (v - 1) * B).
  { replace (S / n - sum_of l / n) with ((S - sum_of l) * / n) by (unfold Rdiv; ring). rewrite Rabs_mult, (Rabs_pos_eq (/ n)) by (apply Rlt_le, Rinv_0_lt_compat; lra).
    apply Rmult_le_reg_r with n; [lra|]. rewrite Rmult_assoc, Rinv_l by lra. lra. }
  replace (rnd (S / n) - sum_of l / n) with ((rnd (S / n) - S / n) + (S / n - sum_of l / n)) by ring.
  apply Rle_trans with (1 := Rabs_triang _ _). fold v. cbn [INR] in Q.
  assert (u * Rabs (S / n) <= u * B) by (apply Rmult_le_compat_l; lra). lra.
Qed.

(** The weighted mean of the means. *)
Definition weighted (rows : list (nat * f32)) : R := fold_right (fun r a => INR (fst r) * f_real (snd r) + a) 0 rows.
Definition row_ok (r : nat * f32) : Prop := (1 <= fst r)%nat /\ f_finite (snd r) = true /\ Rabs (f_real (snd r)) <= B.

Lemma product_ok : forall r, row_ok r -> (Z.of_nat (fst r) <= 2 ^ 24)%Z ->
  let p := f_mul (f_of_nat (fst r)) (snd r) in
  f_finite p = true /\ Rabs (f_real p) <= INR (fst r) * B /\ Rabs (f_real p - INR (fst r) * f_real (snd r)) <= u * (INR (fst r) * B) + eta.
Proof.
  intros [n x] (_ & Fx & Bx) Hn. cbn [fst snd] in *. cbn zeta. destruct (of_nat_exact n Hn) as (Fn & En).
  assert (Q : Rabs (INR n * f_real x) <= INR n * B).
  { rewrite Rabs_mult, Rabs_pos_eq by apply pos_INR. apply Rmult_le_compat_l; [apply pos_INR|exact Bx]. }
  destruct (rnd_within _ n Hn Q) as (R1 & R2). destruct (f_mul_ok (f_of_nat n) x Fn Fx) as (A & C); rewrite En in *; [exact R2|].
  split; [exact A|]. rewrite C. split; [exact R1|]. apply Rle_trans with (1 := rnd_err _). apply Rplus_le_compat_r. apply Rmult_le_compat_l; [pose proof u_pos; lra|exact Q].
Qed.

Lemma global_within : forall rows, Forall row_ok rows -> rows <> [] -> let T := total (map fst rows) in (Z.of_nat T <= 2 ^ 24)%Z ->
  f_finite (f_global_mean rows) = true /\ Rabs (f_real (f_global_mean rows)) <= B
  /\ Rabs (f_real (f_global_mean rows) - weighted rows / INR T) <= ((1 + u) ^ length rows - 1 + 2 * u) * B + 2 * eta.
Proof.
  intros rows HR Hne T HT. unfold f_global_mean. rewrite <- (map_map fst f_of_nat). set (ps := map (fun r => f_mul (f_of_nat (fst r)) (snd r)) rows).
  destruct (counts_sum (map fst rows) HT) as (Fc & Ec). fold T in Ec.
  assert (HP : forall rows', Forall row_ok rows' -> (Z.of_nat (total (map fst rows')) <= 2 ^ 24)%Z -> let qs := map (fun r => f_mul (f_of_nat (fst r)) (snd r)) rows' in
     Forall2 (fun x w => f_finite x = true /\ Rabs (f_real x) <= INR w * B) qs (map fst rows')
     /\ abs_sum qs <= INR (total (map fst rows')) * B
     /\ Rabs (sum_of qs - weighted rows') <= u * (INR (total (map fst rows')) * B) + INR (length rows') * eta
     /\ (length rows' <= total (map fst rows'))%nat).
  { intros rows' H. induction H as [|r rs Hr _ IH]; intros Hz; cbn zeta.
    - cbn. rewrite Rminus_diag_eq, Rabs_R0 by reflexivity. ssplit; try constructor; lra.
    - cbn [map total fold_right length] in *. fold (total (map fst rs)) in *. cbn zeta in IH. destruct IH as (A1 & A2 & A3 & A4); [lia|].
      destruct (product_ok r Hr ltac:(lia)) as (P1 & P2 & P3). destruct Hr as (Hr1 & _). split; [constructor; auto|].
      cbn [abs_sum sum_of weighted fold_right]. fold (abs_sum (map (fun r => f_mul (f_of_nat (fst r)) (snd r)) rs)) (sum_of (map (fun r => f_mul (f_of_nat (fst r)) (snd r)) rs)) (weighted rs).
      rewrite plus_INR, S_INR. split; [lra|]. split; [|lia].
      match goal with |- Rabs (?a + ?b - (?c + ?d)) <= _ => replace (a + b - (c + d)) with ((a - c) + (b - d)) by ring end.
      apply Rle_trans with (1 := Rabs_triang _ _). lra. }
  destruct (HP rows HR HT) as (A1 & A2 & A3 & A4). fold ps in A1, A2, A3. fold T in A2, A3, A4.
  destruct (fold_within ps (map fst rows) f_zero 0 A1 eq_refl) as (Fs & Bs); [change (f_real f_zero) with 0; rewrite Rabs_R0; cbn; lra|exact HT|].
  fold (f_sum ps) in Fs, Bs. rewrite Nat.add_0_l in Bs. fold T in Bs.
  assert (H1 : (1 <= T)%nat) by (destruct rows; [contradiction|cbn [length] in A4; lia]). assert (HT1 : 1 <= INR T) by (apply (le_INR 1); exact H1).
  pose proof (bpow_gt_0 radix2 e) as HB.
  assert (Q : Rabs (f_real (f_sum ps) / INR T) <= INR 1 * B).
  { unfold Rdiv. rewrite Rabs_mult, (Rabs_pos_eq (/ INR T)) by (apply Rlt_le, Rinv_0_lt_compat; lra).
    apply Rmult_le_reg_r with (INR T); [lra|]. rewrite Rmult_assoc, Rinv_l by lra. cbn [INR]. lra. }
  destruct (rnd_within _ 1 ltac:(lia) Q) as (R1 & R2).
  destruct (f_div_ok (f_sum ps) (f_sum (map f_of_nat (map fst rows))) Fs) as (A & C); rewrite Ec in *; [lra|exact R2|].
  split; [exact A|]. rewrite C. split; [cbn [INR] in R1; lra|].
  pose proof (rnd_err (f_real (f_sum ps) / INR T)) as E1. pose proof (sum_err ps Fs) as E2. assert (EL : length ps = length rows) by apply map_length. rewrite EL in E2.
  set (n := INR T) in *. set (S := f_real (f_sum ps)) in *. set (v := (1 + u) ^ length rows) in *. pose proof u_pos as Hu. pose proof eta_pos as Ht.
  assert (Hv : 1 <= v) by (apply pow_R1_Rle; lra). assert (Hk : INR (length rows) <= n) by (apply le_INR; exact A4).
  assert (E4 : Rabs (S - sum_of ps) <= (v - 1) * (n * B)) by (apply Rle_trans with (1 := E2); apply Rmult_le_compat_l; lra).
  assert (E6 : Rabs (S - weighted rows) <= ((v - 1 + u) * B + eta) * n).
  { replace (S - weighted rows) with ((S - sum_of ps) + (sum_of ps - weighted rows)) by ring. apply Rle_trans with (1 := Rabs_triang _ _).
    assert (INR (length rows) * eta <= n * eta) by (apply Rmult_le_compat_r; lra). lra. }
  assert (E5 : Rabs (S / n - weighted rows / n) <= (v - 1 + u) * B + eta).
  { replace (S / n - weighted rows / n) with ((S - weighted rows) * / n) by (unfold Rdiv; ring). rewrite Rabs_mult, (Rabs_pos_eq (/ n)) by (apply Rlt_le, Rinv_0_lt_compat; lra).
    apply Rmult_le_reg_r with n; [lra|]. rewrite Rmult_assoc, Rinv_l by lra. lra. }
  replace (rnd (S / n) - weighted rows / n) with ((rnd (S / n) - S / n) + (S / n - weighted rows / n)) by ring.
  apply Rle_trans with (1 := Rabs_triang _ _). cbn [INR] in Q. assert (u * Rabs (S / n) <= u * B) by (apply Rmult_le_compat_l; lra). lra.
Qed.
End Bounded.

Lemma total_app : forall a b, total (a ++ b) = (total a + total b)%nat.
Proof. induction a as [|x a IH]; intros b; cbn [app total fold_right]; [reflexivity|]. fold (total (a ++ b)) (total a). rewrite IH. lia. Qed.
Lemma total_perm : forall a b, Permutation a b -> total a = total b.
Proof. intros a b H. unfold total. induction H as [|x l l' _ IH|x y l|l l' l'' _ IH1 _ IH2]; cbn [fold_right]; [reflexivity|now rewrite IH|lia|congruence]. Qed.
Lemma weighted_perm : forall a b, Permutation a b -> weighted a = weighted b.
Proof. intros a b H. unfold weighted. induction H as [|x l l' _ IH|x y l|l l' l'' _ IH1 _ IH2]; cbn [fold_right]; [reflexivity|now rewrite IH|lra|congruence]. Qed.
Lemma sum_of_app : forall a b, sum_of (a ++ b) = sum_of a + sum_of b.
Proof. unfold sum_of. induction a as [|x a IH]; intros b; cbn [app fold_right]; [ring|]. rewrite IH. ring. Qed.

(** The chunks, one after the other, are the column. *)
Section Column.
Variables (col : list f32) (threads : nat).
Hypothesis Hrows : (1 <= length col)%nat.
Hypothesis Hthr : (1 <= threads)%nat.
Hypothesis Busy : length (assigned (length col) threads) = threads.
Notation c := (chunk_size (length col) threads).

Lemma rows_of_chunk : forall i, (i < threads)%nat -> rows_of col threads i = firstn c (skipn (i * c) col).
Proof.
  intros i Hi. unfold rows_of. destruct (nth_error (assigned (length col) threads) i) as [[lo hi]|] eqn:E.
  - destruct (assigned_nth (length col) threads Hrows Hthr i lo hi E) as (_ & -> & ->).
    assert (L : length (skipn (i * c) col) = (length col - i * c)%nat) by apply skipn_length.
    destruct (Nat.le_gt_cases ((i + 1) * c) (length col)) as [H|H].
    + rewrite Nat.min_r by exact H. f_equal. lia.
    + rewrite Nat.min_l by lia. rewrite !firstn_all2; [reflexivity|rewrite L; lia|rewrite L; lia].
  - apply nth_error_None in E. rewrite Busy in E. lia.
Qed.
Lemma rows_of_len : forall i, (i < threads)%nat -> (1 <= length (rows_of col threads i) <= c)%nat.
Proof.
  intros i Hi. split; [|rewrite rows_of_chunk by exact Hi; apply firstn_le_length].
  unfold rows_of. destruct (nth_error (assigned (length col) threads) i) as [[lo hi]|] eqn:E.
  - pose proof (assigned_nonempty (length col) threads Hrows Hthr i lo hi E). rewrite firstn_length, skipn_length. lia.
  - apply nth_error_None in E. rewrite Busy in E. lia.
Qed.
Lemma firstn_more : forall (k d : nat), firstn (k + d) col = firstn k col ++ firstn d (skipn k col).
Proof. intros k d. rewrite <- (firstn_skipn k (firstn (k + d) col)) at 1. rewrite firstn_firstn, Nat.min_l by lia. f_equal. rewrite skipn_firstn_comm. f_equal. lia. Qed.
Lemma chunks_concat : concat (map (rows_of col threads) (seq 0 threads)) = col.
Proof.
  assert (G : forall k, (k <= threads)%nat -> concat (map (rows_of col threads) (seq 0 k)) = firstn (k * c) col).
  { induction k as [|k IH]; intros Hk; [reflexivity|]. rewrite seq_S, map_app, concat_app, IH by lia. cbn [map concat]. rewrite app_nil_r, Nat.add_0_l, rows_of_chunk by lia.
    replace (S k * c)%nat with (k * c + c)%nat by lia. now rewrite firstn_more. }
  rewrite G by lia. apply firstn_all2. destruct (ceil_spec (length col) threads Hthr Hrows) as (H & _). unfold chunk_size. lia.
Qed.
Lemma rows_within : forall b i, within b col -> within b (rows_of col threads i).
Proof.
  intros b i H. unfold within in *. rewrite Forall_forall in *. intros x Hx. apply H. unfold rows_of in Hx. destruct (nth_error _ i) as [[lo hi]|]; [|destruct Hx].
  apply (In_firstn' _ _ _ _) in Hx. revert Hx. clear. revert lo. induction col as [|y l IH]; intros lo Hx; [rewrite skipn_nil in Hx; destruct Hx|]. destruct lo; [exact Hx|]. right. now apply (IH lo).
Qed.
End Column.
