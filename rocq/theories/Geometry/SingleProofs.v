From Coq Require Import ZArith Arith Bool List Reals Lia Lra Psatz.
From Coq Require Import Machin.
From Flocq Require Import IEEE754.BinarySingleNaN Core Relative.
From Verif.Base Require Import Res Float32 Float32Proofs.
From Verif.Normalize Require Import ScoreProofs.
From Verif.Geometry Require Import Spec Single.
Local Open Scope R_scope.

(** * Bounds for the number pi. *)
Lemma pi_bounds : 314159265 / 100000000 < PI < 314159266 / 100000000.
Proof.
  pose proof (PI_2_3_7_ineq 5) as (L & U). cbn [Nat.mul Nat.add] in L, U. unfold sum_f_R0, tg_alt, PI_2_3_7_tg, Ratan_seq in L, U. cbn [pow Nat.mul Nat.add INR] in L, U. split; lra.
Qed.

(** * Rounding. *)
Definition two_pi32 : R := 13176795 / 2097152.
Lemma two_pi_real : f_finite f_two_pi = true /\ f_real f_two_pi = two_pi32.
Proof.
  split; [vm_compute; reflexivity|]. unfold f_real. rewrite <- SF2R_B2SF.
  replace (B2SF f_two_pi) with (SpecFloat.S754_finite false 13176795 (-21)) by (vm_compute; reflexivity).
  unfold SF2R, F2R, two_pi32. cbn. lra.
Qed.
Lemma two_pi_bounds : 6283185 / 1000000 < two_pi32 < 6283186 / 1000000 /\ 0 < two_pi32 - 2 * PI < 2 / 10000000.
Proof. unfold two_pi32. pose proof pi_bounds. lra. Qed.
Definition unit_error : R := / 2 * bpow radix2 (- 24 + 1).
Lemma unit_error_value : unit_error = / 16777216.
Proof. unfold unit_error. cbn. lra. Qed.
Lemma rnd_relative : forall x, bpow radix2 (-126) <= Rabs x -> exists d, Rabs d <= / 16777216 /\ rnd x = x * (1 + d).
Proof.
  intros x Hx. destruct (relative_error_N_FLT_ex radix2 (-149) 24 prec_pos (fun z => negb (Z.even z)) x Hx) as (d & Hd & E).
  exists d. rewrite <- unit_error_value. split; [exact Hd|exact E].
Qed.
Lemma small_bpow : bpow radix2 (-126) <= / 1000000000.
Proof. apply Rle_trans with (bpow radix2 (-30)); [apply bpow_le; lia|]. cbn. lra. Qed.
Lemma Rabs_bounds : forall x e, Rabs x <= e -> - e <= x <= e.
Proof. intros x e H. unfold Rabs in H. destruct (Rcase_abs x); lra. Qed.

Lemma lt_div : forall a x y, 0 < y -> a * y < x -> a < x / y.
Proof. intros a x y Hy H. apply Rmult_lt_reg_r with y; [exact Hy|]. unfold Rdiv. rewrite Rmult_assoc, Rinv_l, Rmult_1_r by lra. exact H. Qed.
Lemma div_lt : forall a x y, 0 < y -> x < a * y -> x / y < a.
Proof. intros a x y Hy H. apply Rmult_lt_reg_r with y; [exact Hy|]. unfold Rdiv. rewrite Rmult_assoc, Rinv_l, Rmult_1_r by lra. exact H. Qed.
Lemma le_div : forall a x y, 0 < y -> a * y <= x -> a <= x / y.
Proof. intros a x y Hy H. apply Rmult_le_reg_r with y; [exact Hy|]. unfold Rdiv. rewrite Rmult_assoc, Rinv_l, Rmult_1_r by lra. exact H. Qed.
Lemma div_le : forall a x y, 0 < y -> x <= a * y -> x / y <= a.
Proof. intros a x y Hy H. apply Rmult_le_reg_r with y; [exact Hy|]. unfold Rdiv. rewrite Rmult_assoc, Rinv_l, Rmult_1_r by lra. exact H. Qed.

Lemma near : forall x d, 0 <= x -> - / 16777216 <= d <= / 16777216 -> x * (999 / 1000) <= x * (1 + d) <= x * (1001 / 1000).
Proof. intros x d Hx Hd. split; apply Rmult_le_compat_l; lra. Qed.

Definition quotient (n : nat) (a : f32) : f32 := f_div (f_add f_two_pi a) (f_div f_two_pi (f_of_nat n)).
Definition in_range (a : f32) : Prop := f_finite a = true /\ Rabs (f_real a) <= two_pi32 / 2.
Definition value (n : nat) (A : R) : R := rnd (rnd (two_pi32 + A) / rnd (two_pi32 / INR n)).

(** The three roundings together. *)
Lemma three_roundings : forall d1 d2 d3, Rabs d1 <= / 16777216 -> Rabs d2 <= / 16777216 -> Rabs d3 <= / 16777216 ->
  Rabs ((1 + d1) * (1 + d3) / (1 + d2) * (2 * PI / two_pi32) - 1) <= 23 / 100000000.
Proof.
  intros d1 d2 d3 H1 H2 H3. apply Rabs_bounds in H1, H2, H3. destruct two_pi_bounds as (HT & HP).
  set (u := / 16777216) in *. assert (Hu : 0 < u < 6 / 100000000) by (unfold u; lra).
  assert (X : (1 - u) * (1 - u) <= (1 + d1) * (1 + d3) <= (1 + u) * (1 + u)).
  { split; apply Rmult_le_compat; lra. }
  set (x := (1 + d1) * (1 + d3)) in *. assert (Xb : 1 - 12 / 100000000 <= x <= 1 + 1200001 / 10000000000000) by nra.
  set (t := 2 * PI / two_pi32). assert (Ht : 1 - 32 / 1000000000 <= t <= 1).
  { unfold t. split.
    - apply Rmult_le_reg_r with two_pi32; [lra|]. unfold Rdiv. rewrite Rmult_assoc, Rinv_l, Rmult_1_r by lra. lra.
    - apply Rmult_le_reg_r with two_pi32; [lra|]. unfold Rdiv. rewrite Rmult_assoc, Rinv_l, Rmult_1_r by lra. lra. }
  assert (Y : 1 - 61 / 1000000000 <= / (1 + d2) <= 1 + 61 / 1000000000).
  { split.
    - apply Rmult_le_reg_r with (1 + d2); [lra|]. rewrite Rinv_l by lra. nra.
    - apply Rmult_le_reg_r with (1 + d2); [lra|]. rewrite Rinv_l by lra. nra. }
  unfold Rdiv at 1. set (y := / (1 + d2)) in *.
  assert (Z : 1 - 182 / 1000000000 <= x * y <= 1 + 182 / 1000000000) by nra. set (z := x * y) in *.
  apply Rabs_le. nra.
Qed.

Lemma quotient_ok : forall n a, (1 <= n)%nat -> (Z.of_nat n <= 2 ^ 24)%Z -> in_range a ->
  f_finite (quotient n a) = true /\ f_real (quotient n a) = value n (f_real a)
  /\ 0 < value n (f_real a) < 2 * INR n /\ Rabs (value n (f_real a) * (2 * PI / INR n) - 2 * PI - f_real a) <= / 262144.
Proof.
  intros n a Hn Hn2 (Fa & Ra). set (A := f_real a) in *. apply Rabs_bounds in Ra. destruct two_pi_bounds as (HT & HP). destruct two_pi_real as (FT & ET).
  destruct (of_nat_exact n Hn2) as (Fn & En). assert (Nn : 1 <= INR n) by (apply (le_INR 1); exact Hn).
  assert (Nm : INR n <= 16777216). { rewrite INR_IZR_INZ. apply IZR_le in Hn2. exact Hn2. }
  pose proof small_bpow as SB.
  assert (Big : 1073741824 < max_real) by exact (bpow_lt_max 30 eq_refl).
  (* the sum *)
  destruct (rnd_relative (two_pi32 + A)) as (d1 & Hd1 & E1); [rewrite Rabs_pos_eq; lra|].
  pose proof (Rabs_bounds _ _ Hd1) as B1.
  assert (P1 : 31 / 10 < rnd (two_pi32 + A) < 95 / 10) by (rewrite E1; pose proof (near (two_pi32 + A) d1 ltac:(lra) B1); lra).
  destruct (f_add_ok f_two_pi a FT Fa) as (F1 & V1). { rewrite ET. fold A. rewrite Rabs_pos_eq by lra. lra. } rewrite ET in V1. fold A in V1.
  (* the size of a segment *)
  assert (Tn : 37 / 100000000 < two_pi32 / INR n < 63 / 10).
  { split; [apply lt_div|apply div_lt]; lra. }
  destruct (rnd_relative (two_pi32 / INR n)) as (d2 & Hd2 & E2); [rewrite Rabs_pos_eq; lra|].
  pose proof (Rabs_bounds _ _ Hd2) as B2.
  assert (P2 : 36 / 100000000 < rnd (two_pi32 / INR n) < 64 / 10) by (rewrite E2; pose proof (near (two_pi32 / INR n) d2 ltac:(lra) B2); lra).
  destruct (f_div_ok f_two_pi (f_of_nat n) FT) as (F2 & V2); [rewrite En; lra| |]. { rewrite ET, En. rewrite Rabs_pos_eq by lra. lra. } rewrite ET, En in V2.
  (* the quotient *)
  assert (Eq : rnd (two_pi32 + A) / rnd (two_pi32 / INR n) = (two_pi32 + A) * INR n / two_pi32 * ((1 + d1) / (1 + d2))).
  { rewrite E1, E2. field. repeat split; lra. }
  assert (Hq : 4 / 10 < rnd (two_pi32 + A) / rnd (two_pi32 / INR n) < 3 * 16777216).
  { rewrite Eq. assert (R1 : 49 / 100 <= (two_pi32 + A) / two_pi32 <= 151 / 100).
    { split; [apply le_div|apply div_le]; lra. }
    assert (R2 : 99 / 100 <= (1 + d1) / (1 + d2) <= 101 / 100).
    { split; [apply le_div|apply div_le]; lra. }
    replace ((two_pi32 + A) * INR n / two_pi32 * ((1 + d1) / (1 + d2))) with ((two_pi32 + A) / two_pi32 * ((1 + d1) / (1 + d2)) * INR n) by (field; lra).
    set (r1 := (two_pi32 + A) / two_pi32) in *. set (r2 := (1 + d1) / (1 + d2)) in *. assert (R12 : 4851 / 10000 <= r1 * r2 <= 153 / 100) by nra.
    set (r12 := r1 * r2) in *. split.
    - apply Rlt_le_trans with (4851 / 10000 * 1); [lra|]. apply Rmult_le_compat; lra.
    - apply Rle_lt_trans with (153 / 100 * 16777216); [|lra]. apply Rmult_le_compat; lra. }
  destruct (rnd_relative (rnd (two_pi32 + A) / rnd (two_pi32 / INR n))) as (d3 & Hd3 & E3); [rewrite Rabs_pos_eq; lra|].
  pose proof (Rabs_bounds _ _ Hd3) as B3. fold (value n A) in E3.
  assert (Vb : 0 < value n A < 4 * 16777216) by (rewrite E3; pose proof (near _ d3 ltac:(left; apply Rlt_trans with (2 := proj1 Hq); lra) B3); lra).
  destruct (f_div_ok (f_add f_two_pi a) (f_div f_two_pi (f_of_nat n)) F1) as (F3 & V3); [rewrite V2; lra| |].
  { rewrite V1, V2. fold (value n A). rewrite Rabs_pos_eq by lra. lra. }
  rewrite V1, V2 in V3. fold (value n A) in V3. fold (quotient n a) in F3, V3. split; [exact F3|]. split; [exact V3|].
  pose proof (three_roundings d1 d2 d3 Hd1 Hd2 Hd3) as R3. apply Rabs_bounds in R3. set (r := (1 + d1) * (1 + d3) / (1 + d2) * (2 * PI / two_pi32)) in *.
  assert (Ev : value n A * (2 * PI / INR n) = (two_pi32 + A) * r).
  { rewrite E3, Eq. unfold r. field. repeat split; lra. }
  assert (Clo : Rabs (value n A * (2 * PI / INR n) - 2 * PI - A) <= / 262144).
  { rewrite Ev. replace ((two_pi32 + A) * r - 2 * PI - A) with ((two_pi32 + A) * (r - 1) + (two_pi32 - 2 * PI)) by ring.
    assert (M : Rabs ((two_pi32 + A) * (r - 1)) <= 95 / 10 * (23 / 100000000)).
    { rewrite Rabs_mult. apply Rmult_le_compat; [apply Rabs_pos|apply Rabs_pos|rewrite Rabs_pos_eq; lra|apply Rabs_le; lra]. }
    apply Rabs_bounds in M. apply Rabs_le. lra. }
  split; [|exact Clo]. split; [lra|]. apply Rabs_bounds in Clo. pose proof pi_bounds.
  apply Rmult_lt_reg_r with (2 * PI / INR n).
  - apply Rdiv_lt_0_compat; lra.
  - replace (2 * INR n * (2 * PI / INR n)) with (4 * PI) by (field; lra). lra.
Qed.

(** * Rounding down. *)
Lemma floor_usize_ok : forall x, f_finite x = true -> 0 <= f_real x < 18446744073709551615 -> floor_usize x = Zfloor (f_real x).
Proof.
  intros x Fx (H1 & H2). assert (E : Btrunc x = Ztrunc (f_real x)).
  { apply eq_IZR. rewrite Btrunc_correct by exact prec_max. fold (f_real x). unfold round, F2R, scaled_mantissa, cexp, FIX_exp. cbn [Fnum Fexp bpow Z.opp]. now rewrite !Rmult_1_r. }
  rewrite Ztrunc_floor in E by exact H1. assert (B : (0 <= Zfloor (f_real x) < 2 ^ 64 - 1)%Z).
  { split; [apply Zfloor_lub; exact H1|]. apply lt_IZR. apply Rle_lt_trans with (1 := Zfloor_lb _). exact H2. }
  unfold floor_usize. destruct x as [s|[|]| |s m e He]; try discriminate Fx; rewrite E; lia.
Qed.
Lemma segment_value : forall n a, (1 <= n)%nat -> (Z.of_nat n <= 2 ^ 24)%Z -> in_range a ->
  f_segment_id a n = Ok (Z.to_nat (Zfloor (value n (f_real a)) mod Z.of_nat n)).
Proof.
  intros n a Hn Hn2 Ha. destruct (quotient_ok n a Hn Hn2 Ha) as (Fq & Vq & Bq & _).
  unfold f_segment_id. fold (quotient n a). destruct (Nat.eqb_spec n 0); [lia|]. rewrite floor_usize_ok; [now rewrite Vq|exact Fq|].
  rewrite Vq. assert (INR n <= 16777216) by (rewrite INR_IZR_INZ; apply IZR_le in Hn2; exact Hn2). lra.
Qed.
Lemma size_pos : forall n, (1 <= n)%nat -> (Z.of_nat n <= 2 ^ 24)%Z -> 0 < rnd (two_pi32 / INR n).
Proof.
  intros n Hn Hn2. destruct two_pi_bounds as (HT & _). assert (Nn : 1 <= INR n) by (apply (le_INR 1); exact Hn).
  assert (Nm : INR n <= 16777216) by (rewrite INR_IZR_INZ; apply IZR_le in Hn2; exact Hn2).
  apply Rlt_le_trans with (bpow radix2 (-126)); [apply bpow_gt_0|]. rewrite <- (rnd_format (bpow radix2 (-126))) by (apply format_bpow; lia).
  apply rnd_mono. apply Rle_trans with (1 := small_bpow). apply le_div; lra.
Qed.
Lemma value_mono : forall n A B, (1 <= n)%nat -> (Z.of_nat n <= 2 ^ 24)%Z -> A <= B -> value n A <= value n B.
Proof.
  intros n A B Hn Hn2 H. pose proof (size_pos n Hn Hn2) as Q. unfold value. apply rnd_mono. apply Rmult_le_compat_r; [left; now apply Rinv_0_lt_compat|].
  apply rnd_mono. lra.
Qed.

(** * Sectors. *)
Lemma sector_of_floor : forall n q, (1 <= n)%nat -> 0 <= q ->
  let s := Z.to_nat (Zfloor q mod Z.of_nat n) in (s < n)%nat /\ in_sector n s (cos (q * (2 * PI / INR n) - 2 * PI)) (sin (q * (2 * PI / INR n) - 2 * PI)).
Proof.
  intros n q Hn Hq s. set (k := Zfloor q). assert (Hk : (0 <= k)%Z) by (apply Zfloor_lub; exact Hq).
  assert (Nz : (0 < Z.of_nat n)%Z) by lia. pose proof (Z.mod_pos_bound k (Z.of_nat n) Nz) as Mb. pose proof (Z.div_mod k (Z.of_nat n) ltac:(lia)) as Dm.
  assert (Hs : Z.of_nat s = (k mod Z.of_nat n)%Z) by (unfold s, k in *; lia). split; [lia|].
  assert (Nn : 1 <= INR n) by (apply (le_INR 1); exact Hn). pose proof PI_RGT_0 as Pp.
  set (m := Z.to_nat (k / Z.of_nat n)). assert (Hm : Z.of_nat m = (k / Z.of_nat n)%Z) by (unfold m; apply Z2Nat.id, Z.div_pos; lia).
  assert (Ek : IZR k = INR n * INR m + INR s). { rewrite !INR_IZR_INZ, <- mult_IZR, <- plus_IZR. f_equal. lia. }
  pose proof (Zfloor_lb q) as Lb. pose proof (Zfloor_ub q) as Ub. fold k in Lb, Ub. rewrite Ek in Lb, Ub.
  assert (Un : 0 < 2 * PI / INR n) by (apply Rdiv_lt_0_compat; lra).
  assert (E1 : INR n * (2 * PI / INR n) = 2 * PI) by (field; lra).
  set (v := 2 * PI / INR n) in *.
  exists (q * v - 2 * PI * INR m). split.
  - replace (2 * PI * INR s / INR n) with (INR s * v) by (unfold v; field; lra). replace (2 * PI * INR (s + 1) / INR n) with ((INR s + 1) * v) by (rewrite plus_INR; unfold v; cbn [INR]; field; lra).
    replace (2 * PI * INR m) with (INR n * INR m * v) by (rewrite <- E1; ring). split.
    + assert (L : (INR n * INR m + INR s) * v <= q * v) by (apply Rmult_le_compat_r; lra). lra.
    + assert (L : q * v < (INR n * INR m + INR s + 1) * v) by (apply Rmult_lt_compat_r; lra). lra.
  - exists 1. split; [lra|]. rewrite !Rmult_1_l.
    assert (C : q * v - 2 * PI + 2 * INR 1 * PI = q * v - 2 * PI * INR m + 2 * INR m * PI) by (cbn [INR]; ring).
    split.
    + rewrite <- (cos_period (q * v - 2 * PI) 1), <- (cos_period (q * v - 2 * PI * INR m) m). now rewrite C.
    + rewrite <- (sin_period (q * v - 2 * PI) 1), <- (sin_period (q * v - 2 * PI * INR m) m). now rewrite C.
Qed.
