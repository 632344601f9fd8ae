(** Intersections of transitions with segment borders. *)
From Coq Require Import List Arith Reals ZArith Lia Lra.
From Verif.Base Require Import ListX.
From Verif.Stats Require Import Spec Proofs.
From Verif.Pca Require GramProofs.
From Verif.Geometry Require Import Model Spec Proofs.
Import ListNotations.
Local Open Scope R_scope.

Definition border_angle (rate segment : nat) : R := 2 * PI * INR segment / INR rate.

Lemma plane_0 : forall d rate s r mv j, plane_points d rate s r mv 0 j = 0.
Proof. reflexivity. Qed.
Lemma plane_x : forall d rate s r mv k, (1 <= k)%nat -> plane_points d rate s r mv k 0 = r * cos (border_angle rate s).
Proof.
  intros d rate s r mv k Hk. unfold plane_points. destruct (Nat.eqb_spec k 0); [lia|]. destruct (Nat.eqb k (d - 1)); reflexivity.
Qed.
Lemma plane_y : forall d rate s r mv k, (1 <= k)%nat -> plane_points d rate s r mv k 1 = r * sin (border_angle rate s).
Proof.
  intros d rate s r mv k Hk. unfold plane_points. destruct (Nat.eqb_spec k 0); [lia|]. destruct (Nat.eqb k (d - 1)); [reflexivity|].
  destruct (Nat.eqb_spec 1 (S k)); [lia|reflexivity].
Qed.

(** The returned point is on the line and its first two coordinates are a multiple of the border's direction. *)
Lemma on_border : forall d rate s inv r mv from to p, (2 <= d)%nat ->
  (forall m m', inv m = Some m' -> left_inverse d m' m) ->
  border_intersection d rate s inv r mv from to = Some p ->
  exists t c : R, (forall i, (i < d)%nat -> p i = from i + t * (to i - from i)) /\
    p 0%nat = c * cos (border_angle rate s) /\ p 1%nat = c * sin (border_angle rate s).
Proof.
  intros d rate s inv r mv from to p Hd Hinv Hp. unfold border_intersection in Hp.
  apply intersection_spec in Hp; [|lia|exact Hinv]. destruct Hp as (t & c & H). exists t.
  exists (Rsum (map (fun k => c k * r) (seq 1 (d - 1)))). ssplit.
  - intros i Hi. exact (proj1 (H i Hi)).
  - rewrite (proj2 (H 0%nat ltac:(lia))). rewrite plane_0, Rplus_0_l. rewrite Rmult_comm, <- GramProofs.Rsum_scal.
    apply f_equal, map_ext_in. intros k Hk. apply in_seq in Hk. rewrite plane_x by lia. ring.
  - rewrite (proj2 (H 1%nat ltac:(lia))). rewrite plane_0, Rplus_0_l. rewrite Rmult_comm, <- GramProofs.Rsum_scal.
    apply f_equal, map_ext_in. intros k Hk. apply in_seq in Hk. rewrite plane_y by lia. ring.
Qed.

Lemma crossing_core : forall a b alpha beta gamma t c, 0 < a -> 0 < b -> alpha < gamma -> gamma <= beta -> beta - alpha < PI ->
  a * cos alpha + t * (b * cos beta - a * cos alpha) = c * cos gamma ->
  a * sin alpha + t * (b * sin beta - a * sin alpha) = c * sin gamma ->
  0 < t <= 1 /\ 0 < c.
Proof.
  intros a b alpha beta gamma t c Ha Hb Hag Hgb Hba Ex Ey.
  assert (S1 : 0 < a * sin (gamma - alpha)) by (apply Rmult_lt_0_compat; [exact Ha|apply sin_gt_0; lra]).
  assert (S2 : 0 <= b * sin (beta - gamma)) by (apply Rmult_le_pos; [lra|apply sin_ge_0; lra]).
  set (s1 := a * sin (gamma - alpha)) in *. set (s2 := b * sin (beta - gamma)) in *.
  assert (E : (1 - t) * s1 = t * s2).
  { unfold s1, s2. rewrite !sin_minus.
    assert (Z : (a * cos alpha + t * (b * cos beta - a * cos alpha)) * sin gamma - (a * sin alpha + t * (b * sin beta - a * sin alpha)) * cos gamma = 0)
      by (rewrite Ex, Ey; ring).
    lra. }
  assert (Ht : t * (s1 + s2) = s1) by lra.
  assert (Hs : 0 < s1 + s2) by lra.
  assert (Ht1 : t = s1 / (s1 + s2)) by (apply Rmult_eq_reg_r with (s1 + s2); [|lra]; rewrite Ht; field; lra).
  assert (P : 0 < t) by (rewrite Ht1; now apply Rdiv_lt_0_compat).
  split; [split; [exact P|]|].
  - apply Rmult_le_reg_r with (s1 + s2); [exact Hs|]. lra.
  - assert (Ec : c = (1 - t) * (a * cos (gamma - alpha)) + t * (b * cos (beta - gamma))).
    { rewrite !cos_minus. pose proof (sin2_cos2 gamma) as T. unfold Rsqr in T.
      transitivity (c * cos gamma * cos gamma + c * sin gamma * sin gamma).
      - replace (c * cos gamma * cos gamma + c * sin gamma * sin gamma) with (c * (sin gamma * sin gamma + cos gamma * cos gamma)) by ring. rewrite T. ring.
      - rewrite <- Ex, <- Ey. ring. }
    assert (Es : c * (s1 + s2) = a * b * sin (beta - alpha)).
    { rewrite Ec. assert (H1 : (1 - t) * (s1 + s2) = s2) by lra.
      transitivity (s2 * (a * cos (gamma - alpha)) + s1 * (b * cos (beta - gamma))).
      - transitivity ((1 - t) * (s1 + s2) * (a * cos (gamma - alpha)) + t * (s1 + s2) * (b * cos (beta - gamma))); [ring|]. now rewrite H1, Ht.
      - unfold s1, s2. replace (beta - alpha) with ((beta - gamma) + (gamma - alpha)) by ring. rewrite sin_plus. ring. }
    assert (Hp : 0 < a * b * sin (beta - alpha)) by (apply Rmult_lt_0_compat; [now apply Rmult_lt_0_compat|apply sin_gt_0; lra]).
    rewrite <- Es in Hp. apply Rmult_lt_reg_r with (s1 + s2); lra.
Qed.

Lemma INR_mod : forall n m, (0 < n)%nat -> INR m = INR n * INR (m / n) + INR (m mod n).
Proof. intros. rewrite <- mult_INR, <- plus_INR. f_equal. apply Nat.div_mod. lia. Qed.

Lemma direction_shifts : forall q x y phi, direction x y phi -> direction x y (phi + 2 * PI * INR q).
Proof.
  induction q as [|q IH]; intros x y phi D; [cbn; now rewrite Rmult_0_r, Rplus_0_r|].
  rewrite S_INR. replace (phi + 2 * PI * (INR q + 1)) with ((phi + 2 * PI) + 2 * PI * INR q) by ring. apply IH. now apply direction_shift.
Qed.

(** Sector borders without reduction modulo a full turn. *)
Lemma unwrap_sector : forall rate g x y, (0 < rate)%nat -> in_sector rate (g mod rate) x y ->
  exists phi, 2 * PI * INR g / INR rate <= phi < 2 * PI * INR (g + 1) / INR rate /\ direction x y phi.
Proof.
  intros rate g x y Hr (phi & (H1 & H2) & D). assert (Hin : 0 < INR rate) by (apply lt_0_INR; lia).
  exists (phi + 2 * PI * INR (g / rate)). split; [|now apply direction_shifts].
  rewrite plus_INR in *. change (INR 1) with 1 in *. rewrite (INR_mod rate g) by exact Hr.
  replace (2 * PI * (INR rate * INR (g / rate) + INR (g mod rate)) / INR rate) with (2 * PI * INR (g mod rate) / INR rate + 2 * PI * INR (g / rate)) by (field; lra).
  replace (2 * PI * (INR rate * INR (g / rate) + INR (g mod rate) + 1) / INR rate) with (2 * PI * (INR (g mod rate) + 1) / INR rate + 2 * PI * INR (g / rate)) by (field; lra).
  lra.
Qed.

Lemma border_angle_mod : forall rate g, (0 < rate)%nat ->
  cos (border_angle rate (g mod rate)) = cos (2 * PI * INR g / INR rate) /\ sin (border_angle rate (g mod rate)) = sin (2 * PI * INR g / INR rate).
Proof.
  intros rate g Hr. assert (Hin : 0 < INR rate) by (apply lt_0_INR; lia). unfold border_angle.
  assert (E : 2 * PI * INR g / INR rate = 2 * PI * INR (g mod rate) / INR rate + 2 * INR (g / rate) * PI)
    by (rewrite (INR_mod rate g) at 1 by exact Hr; field; lra).
  rewrite E, cos_period, sin_period. auto.
Qed.

Lemma crossing : forall d rate f dist lag inv radius mv from to p, (2 <= d)%nat -> (1 <= lag <= dist)%nat -> (2 * (dist + 1) <= rate)%nat ->
  in_sector rate (f mod rate) (from 0%nat) (from 1%nat) -> in_sector rate ((f + dist) mod rate) (to 0%nat) (to 1%nat) ->
  (forall m m', inv m = Some m' -> left_inverse d m' m) ->
  border_intersection d rate ((f + lag) mod rate) inv radius mv from to = Some p ->
  exists t, 0 < t <= 1 /\ (forall i, (i < d)%nat -> p i = from i + t * (to i - from i)) /\
    direction (p 0%nat) (p 1%nat) (2 * PI * INR ((f + lag) mod rate) / INR rate).
Proof.
  intros d rate f dist lag inv radius mv from to p Hd Hl Hdist Hf Ht Hinv Hp.
  destruct (on_border _ _ _ _ _ _ _ _ _ Hd Hinv Hp) as (t & c & Hline & H0 & H1).
  assert (Hr : (0 < rate)%nat) by lia. assert (Hin : 0 < INR rate) by (apply lt_0_INR; lia). pose proof PI_RGT_0 as Hpi.
  apply unwrap_sector in Hf; [|exact Hr]. apply unwrap_sector in Ht; [|exact Hr].
  destruct Hf as (alpha & (A1 & A2) & (a & Ha & Ax & Ay)). destruct Ht as (beta & (B1 & B2) & (b & Hb & Bx & By)).
  destruct (border_angle_mod rate (f + lag) Hr) as (Ec & Es).
  set (gamma := 2 * PI * INR (f + lag) / INR rate) in *.
  assert (Mono : forall i j, (i <= j)%nat -> 2 * PI * INR i / INR rate <= 2 * PI * INR j / INR rate).
  { intros i j Hij. unfold Rdiv. apply Rmult_le_compat_r; [apply Rlt_le, Rinv_0_lt_compat, Hin|]. apply Rmult_le_compat_l; [lra|]. now apply le_INR. }
  assert (Hg1 : alpha < gamma) by (apply Rlt_le_trans with (1 := A2); apply Mono; lia).
  assert (Hg2 : gamma <= beta) by (apply Rle_trans with (2 := B1); apply Mono; lia).
  assert (Hg3 : beta - alpha < PI).
  { assert (E : 2 * PI * INR (f + dist + 1) / INR rate = 2 * PI * INR f / INR rate + 2 * PI * INR (dist + 1) / INR rate)
      by (rewrite <- Nat.add_assoc, plus_INR; field; lra).
    assert (L : 2 * PI * INR (dist + 1) / INR rate <= PI).
    { apply Rmult_le_reg_r with (INR rate); [exact Hin|]. unfold Rdiv. rewrite Rmult_assoc, Rinv_l, Rmult_1_r by lra.
      assert (2 * INR (dist + 1) <= INR rate) by (change 2 with (INR 2); rewrite <- mult_INR; now apply le_INR).
      replace (2 * PI * INR (dist + 1)) with (PI * (2 * INR (dist + 1))) by ring. apply Rmult_le_compat_l; lra. }
    lra. }
  assert (Hcore : 0 < t <= 1 /\ 0 < c).
  { eapply (crossing_core a b alpha beta gamma t c); auto.
    - rewrite <- Ec, <- H0, (Hline 0%nat) by lia. rewrite Ax, Bx. ring.
    - rewrite <- Es, <- H1, (Hline 1%nat) by lia. rewrite Ay, By. ring. }
  exists t. ssplit; [apply Hcore|apply Hcore|exact Hline|]. exists c. ssplit; [apply Hcore|exact H0|exact H1].
Qed.

(** ** The linear system is regular *)
Lemma Rsum_zero : forall A (f : A -> R) l, (forall x, In x l -> f x = 0) -> Rsum (map f l) = 0.
Proof. intros A f l H. induction l as [|a l IH]; [reflexivity|]. change (f a + Rsum (map f l) = 0). rewrite IH, H by (intros; try apply H; now (left + right)). ring. Qed.

Lemma regular : forall d rate s r mv from to (x : nat -> R), (2 <= d)%nat -> 0 < r -> 0 < mv ->
  (to 0%nat - from 0%nat) * sin (border_angle rate s) - (to 1%nat - from 1%nat) * cos (border_angle rate s) <> 0 ->
  (forall j, (j < d)%nat -> Rsum (map (fun k => x k * system from to (plane_points d rate s r mv) k j) (seq 0 d)) = 0) ->
  forall k, (k < d)%nat -> x k = 0.
Proof.
  intros d rate s r mv from to x Hd Hr Hmv Hc H.
  set (cg := cos (border_angle rate s)) in *. set (sg := sin (border_angle rate s)) in *.
  assert (Hrow : forall j, (j < d)%nat -> x 0%nat * ((to j - from j) * -1) + Rsum (map (fun k => x k * plane_points d rate s r mv k j) (seq 1 (d - 1))) = 0).
  { intros j Hj. transitivity (Rsum (map (fun k => x k * system from to (plane_points d rate s r mv) k j) (seq 0 d))); [|exact (H j Hj)]. clear H. destruct d as [|d]; [lia|]. cbn [seq map]. replace (S d - 1)%nat with d by lia.
    change (x 0%nat * ((to j - from j) * -1) + Rsum (map (fun k => x k * plane_points (S d) rate s r mv k j) (seq 1 d))
      = x 0%nat * ((to j - from j) * -1) + Rsum (map (fun k => x k * system from to (plane_points (S d) rate s r mv) k j) (seq 1 d))).
    apply f_equal. apply f_equal. apply map_ext_in. intros k Hk. apply in_seq in Hk.
    destruct k as [|k]; [lia|]. cbn [system]. rewrite plane_0. ring. }
  set (sx := Rsum (map x (seq 1 (d - 1)))).
  assert (E0 : x 0%nat * ((to 0%nat - from 0%nat) * -1) + sx * (r * cg) = 0).
  { rewrite <- (Hrow 0%nat) by lia. apply f_equal. unfold sx. rewrite Rmult_comm, <- GramProofs.Rsum_scal. apply f_equal, map_ext_in. intros k Hk. apply in_seq in Hk.
    rewrite plane_x by lia. unfold cg. ring. }
  assert (E1 : x 0%nat * ((to 1%nat - from 1%nat) * -1) + sx * (r * sg) = 0).
  { rewrite <- (Hrow 1%nat) by lia. apply f_equal. unfold sx. rewrite Rmult_comm, <- GramProofs.Rsum_scal. apply f_equal, map_ext_in. intros k Hk. apply in_seq in Hk.
    rewrite plane_y by lia. unfold sg. ring. }
  assert (X0 : x 0%nat = 0).
  { assert (Z : x 0%nat * ((to 0%nat - from 0%nat) * sg - (to 1%nat - from 1%nat) * cg) = 0).
    { replace (x 0%nat * ((to 0%nat - from 0%nat) * sg - (to 1%nat - from 1%nat) * cg))
        with ((x 0%nat * ((to 1%nat - from 1%nat) * -1) + sx * (r * sg)) * cg - (x 0%nat * ((to 0%nat - from 0%nat) * -1) + sx * (r * cg)) * sg) by ring.
      rewrite E0, E1. ring. }
    apply Rmult_integral in Z. destruct Z as [Z|Z]; [exact Z|contradiction]. }
  rewrite X0 in E0, E1. rewrite Rmult_0_l, Rplus_0_l in E0, E1.
  assert (Sx : sx = 0).
  { assert (T : sx * (r * (sg * sg + cg * cg)) = 0) by (replace (sx * (r * (sg * sg + cg * cg))) with (sx * (r * cg) * cg + sx * (r * sg) * sg) by ring; rewrite E0, E1; ring).
    pose proof (sin2_cos2 (border_angle rate s)) as U. unfold Rsqr in U. fold sg cg in U. rewrite U, Rmult_1_r in T.
    apply Rmult_integral in T. destruct T; [assumption|lra]. }
  assert (Xi : forall i, (1 <= i < d - 1)%nat -> x i = 0).
  { intros i Hi. pose proof (Hrow (S i) ltac:(lia)) as Hj. rewrite X0, Rmult_0_l, Rplus_0_l in Hj.
    assert (E : Rsum (map (fun k => x k * plane_points d rate s r mv k (S i)) (seq 1 (d - 1))) = mv * sx - mv * x i).
    { unfold sx. rewrite <- GramProofs.Rsum_scal.
      assert (Dl : mv * x i = Rsum (map (fun k => mv * x k * (if Nat.eqb k i then 1 else 0)) (seq 1 (d - 1)))).
      { rewrite (Rsum_delta (fun k => mv * x k) i 1 (d - 1)) by lia. reflexivity. }
      rewrite Dl. assert (Sub : forall f g l, Rsum (map f l) - Rsum (map g l) = Rsum (map (fun k : nat => f k - g k) l)).
      { intros f g l. induction l as [|y l IHl]; cbn; [ring|]. unfold Rsum in *. cbn. rewrite <- IHl. ring. }
      rewrite Sub. apply f_equal, map_ext_in. intros k Hk. apply in_seq in Hk. unfold plane_points.
      destruct (Nat.eqb_spec k 0); [lia|]. destruct i as [|i]; [lia|]. cbn [plane_end to_cartesian].
      destruct (Nat.eqb_spec k (d - 1)).
      - destruct (Nat.eqb_spec k (S i)); [lia|]. ring.
      - destruct (Nat.eqb_spec (S (S i)) (S k)); destruct (Nat.eqb_spec k (S i)); try lia; ring. }
    rewrite E, Sx in Hj. assert (Z : mv * x i = 0) by lra. apply Rmult_integral in Z. destruct Z; [lra|assumption]. }
  intros k Hk. destruct (Nat.eq_dec k 0) as [->|Hk0]; [exact X0|]. destruct (Nat.eq_dec k (d - 1)) as [->|Hk1]; [|apply Xi; lia].
  rewrite <- Sx. unfold sx. replace (seq 1 (d - 1)) with (seq 1 (d - 2) ++ [(d - 1)%nat]).
  - rewrite map_app, Rsum_app. rewrite (Rsum_zero _ x (seq 1 (d - 2))).
    + cbn. ring.
    + intros i Hi. apply in_seq in Hi. apply Xi. lia.
  - replace (d - 1)%nat with (d - 2 + 1)%nat at 2 by lia. rewrite seq_app. f_equal. cbn. f_equal. lia.
Qed.

(** Below half a turn the line is never parallel to a border it crosses. *)
Lemma not_parallel : forall rate f dist lag from to, (1 <= lag <= dist)%nat -> (2 * (dist + 1) <= rate)%nat ->
  in_sector rate (f mod rate) (from 0%nat) (from 1%nat) -> in_sector rate ((f + dist) mod rate) (to 0%nat) (to 1%nat) ->
  (to 0%nat - from 0%nat) * sin (border_angle rate ((f + lag) mod rate)) - (to 1%nat - from 1%nat) * cos (border_angle rate ((f + lag) mod rate)) <> 0.
Proof.
  intros rate f dist lag from to Hl Hdist Hf Ht.
  assert (Hr : (0 < rate)%nat) by lia. assert (Hin : 0 < INR rate) by (apply lt_0_INR; lia). pose proof PI_RGT_0 as Hpi.
  apply unwrap_sector in Hf; [|exact Hr]. apply unwrap_sector in Ht; [|exact Hr].
  destruct Hf as (alpha & (A1 & A2) & (a & Ha & Ax & Ay)). destruct Ht as (beta & (B1 & B2) & (b & Hb & Bx & By)).
  destruct (border_angle_mod rate (f + lag) Hr) as (Ec & Es). rewrite Ec, Es.
  set (gamma := 2 * PI * INR (f + lag) / INR rate) in *.
  assert (Mono : forall i j, (i <= j)%nat -> 2 * PI * INR i / INR rate <= 2 * PI * INR j / INR rate).
  { intros i j Hij. unfold Rdiv. apply Rmult_le_compat_r; [apply Rlt_le, Rinv_0_lt_compat, Hin|]. apply Rmult_le_compat_l; [lra|]. now apply le_INR. }
  assert (Hg1 : alpha < gamma) by (apply Rlt_le_trans with (1 := A2); apply Mono; lia).
  assert (Hg2 : gamma <= beta) by (apply Rle_trans with (2 := B1); apply Mono; lia).
  assert (Hg3 : beta - alpha < PI).
  { assert (E : 2 * PI * INR (f + dist + 1) / INR rate = 2 * PI * INR f / INR rate + 2 * PI * INR (dist + 1) / INR rate)
      by (rewrite <- Nat.add_assoc, plus_INR; field; lra).
    assert (L : 2 * PI * INR (dist + 1) / INR rate <= PI).
    { apply Rmult_le_reg_r with (INR rate); [exact Hin|]. unfold Rdiv. rewrite Rmult_assoc, Rinv_l, Rmult_1_r by lra.
      assert (2 * INR (dist + 1) <= INR rate) by (change 2 with (INR 2); rewrite <- mult_INR; now apply le_INR).
      replace (2 * PI * INR (dist + 1)) with (PI * (2 * INR (dist + 1))) by ring. apply Rmult_le_compat_l; lra. }
    lra. }
  assert (S1 : 0 < a * sin (gamma - alpha)) by (apply Rmult_lt_0_compat; [exact Ha|apply sin_gt_0; lra]).
  assert (S2 : 0 <= b * sin (beta - gamma)) by (apply Rmult_le_pos; [lra|apply sin_ge_0; lra]).
  rewrite sin_minus in S1, S2. rewrite Ax, Ay, Bx, By. lra.
Qed.

(** [inv] fails only for singular matrices. *)
Definition complete_inverse (d : nat) (inv : (nat -> nat -> R) -> option (nat -> nat -> R)) : Prop :=
  forall m, inv m = None -> exists x : nat -> R, (exists k, (k < d)%nat /\ x k <> 0) /\
    forall j, (j < d)%nat -> Rsum (map (fun k => x k * m k j) (seq 0 d)) = 0.

Lemma intersection_exists : forall d rate f dist lag inv radius mv from to, (2 <= d)%nat -> (1 <= lag <= dist)%nat -> (2 * (dist + 1) <= rate)%nat ->
  0 < radius -> 0 < mv ->
  in_sector rate (f mod rate) (from 0%nat) (from 1%nat) -> in_sector rate ((f + dist) mod rate) (to 0%nat) (to 1%nat) ->
  complete_inverse d inv -> exists p, border_intersection d rate ((f + lag) mod rate) inv radius mv from to = Some p.
Proof.
  intros d rate f dist lag inv radius mv from to Hd Hl Hdist Hr Hmv Hf Ht Hinv.
  unfold border_intersection, line_plane_intersection.
  destruct (inv (system from to (plane_points d rate ((f + lag) mod rate) radius mv))) as [m|] eqn:E; [cbn; eauto|].
  exfalso. apply Hinv in E. destruct E as (x & (k & Hk & Hx) & Hz). apply Hx.
  refine (regular d rate ((f + lag) mod rate) radius mv from to x Hd Hr Hmv _ Hz k Hk).
  exact (not_parallel rate f dist lag from to Hl Hdist Hf Ht).
Qed.

(** No inverse exists if the line is parallel to the border. *)
Lemma parallel_none : forall rate s inv r mv from to,
  (forall m m', inv m = Some m' -> left_inverse 2 m' m) ->
  (to 0%nat - from 0%nat) * sin (border_angle rate s) - (to 1%nat - from 1%nat) * cos (border_angle rate s) = 0 ->
  border_intersection 2 rate s inv r mv from to = None.
Proof.
  intros rate s inv r mv from to Hinv Hp. unfold border_intersection, line_plane_intersection.
  destruct (inv (system from to (plane_points 2 rate s r mv))) as [m|] eqn:E; [|reflexivity]. exfalso.
  apply Hinv in E. unfold left_inverse in E.
  pose proof (E 0%nat 0%nat ltac:(lia) ltac:(lia)) as E00. pose proof (E 0%nat 1%nat ltac:(lia) ltac:(lia)) as E01.
  pose proof (E 1%nat 0%nat ltac:(lia) ltac:(lia)) as E10. pose proof (E 1%nat 1%nat ltac:(lia) ltac:(lia)) as E11.
  cbn [seq map Rsum fold_right Nat.eqb system] in E00, E01, E10, E11.
  rewrite plane_0, (plane_x 2 rate s r mv 1) in E00, E10 by lia. rewrite plane_0, (plane_y 2 rate s r mv 1) in E01, E11 by lia.
  set (cg := cos (border_angle rate s)) in *. set (sg := sin (border_angle rate s)) in *.
  set (dx := to 0%nat - from 0%nat) in *. set (dy := to 1%nat - from 1%nat) in *.
  (* det (m * system) = 1 but det system = 0 *)
  assert (D : (m 0%nat 0%nat * m 1%nat 1%nat - m 0%nat 1%nat * m 1%nat 0%nat) * (- r * (dx * sg - dy * cg)) = 1).
  { assert (F00 : m 0%nat 0%nat * (dx * -1) + m 0%nat 1%nat * (r * cg) = 1) by (rewrite <- E00; ring).
    assert (F01 : m 0%nat 0%nat * (dy * -1) + m 0%nat 1%nat * (r * sg) = 0) by (rewrite <- E01; ring).
    assert (F10 : m 1%nat 0%nat * (dx * -1) + m 1%nat 1%nat * (r * cg) = 0) by (rewrite <- E10; ring).
    assert (F11 : m 1%nat 0%nat * (dy * -1) + m 1%nat 1%nat * (r * sg) = 1) by (rewrite <- E11; ring).
    transitivity ((m 0%nat 0%nat * (dx * -1) + m 0%nat 1%nat * (r * cg)) * (m 1%nat 0%nat * (dy * -1) + m 1%nat 1%nat * (r * sg))
      - (m 0%nat 0%nat * (dy * -1) + m 0%nat 1%nat * (r * sg)) * (m 1%nat 0%nat * (dx * -1) + m 1%nat 1%nat * (r * cg))); [ring|].
    rewrite F00, F01, F10, F11. ring. }
  rewrite Hp in D. rewrite Rmult_0_r, Rmult_0_r in D. lra.
Qed.

(** An exact 2x2 inverse, for the examples. *)
Definition inverse2 (m : nat -> nat -> R) : option (nat -> nat -> R) :=
  let det := m 0%nat 0%nat * m 1%nat 1%nat - m 0%nat 1%nat * m 1%nat 0%nat in
  if Req_EM_T det 0 then None
  else Some (fun i j => match i, j with
    | O, O => m 1%nat 1%nat / det | O, _ => - m 0%nat 1%nat / det
    | _, O => - m 1%nat 0%nat / det | _, _ => m 0%nat 0%nat / det end).
Lemma inverse2_ok : forall m m', inverse2 m = Some m' -> left_inverse 2 m' m.
Proof.
  intros m m'. unfold inverse2. destruct (Req_EM_T _ 0) as [E|E]; [discriminate|]. intros H. injection H as <-.
  intros i j Hi Hj. destruct i as [|[|i]]; [| |lia]; (destruct j as [|[|j]]; [| |lia]); cbn [seq map Rsum fold_right Nat.eqb]; field; exact E.
Qed.
Lemma inverse2_complete : complete_inverse 2 inverse2.
Proof.
  intros m. unfold inverse2. destruct (Req_EM_T _ 0) as [E|E]; [|discriminate]. intros _.
  destruct (Req_dec (m 0%nat 0%nat) 0) as [Z00|Z00]; [destruct (Req_dec (m 0%nat 1%nat) 0) as [Z01|Z01]|].
  - exists (fun k => match k with O => 1 | _ => 0 end). split; [exists 0%nat; split; [lia|lra]|]. intros j Hj.
    destruct j as [|[|j]]; [| |lia]; cbn [seq map Rsum fold_right]; rewrite ?Z00, ?Z01; ring.
  - exists (fun k => match k with O => m 1%nat 1%nat | _ => - m 0%nat 1%nat end). split; [exists 1%nat; split; [lia|lra]|]. intros j Hj.
    destruct j as [|[|j]]; [| |lia]; cbn [seq map Rsum fold_right]; lra.
  - exists (fun k => match k with O => m 1%nat 0%nat | _ => - m 0%nat 0%nat end). split; [exists 1%nat; split; [lia|lra]|]. intros j Hj.
    destruct j as [|[|j]]; [| |lia]; cbn [seq map Rsum fold_right]; lra.
Qed.

(** ** Exactly when a crossing is found, and when it is a proper one *)
(** No inverse exists for a line parallel to the border, in any dimension. *)
Lemma parallel_none_all : forall d rate s inv r mv from to, (2 <= d)%nat ->
  (forall m m', inv m = Some m' -> left_inverse d m' m) ->
  (to 0%nat - from 0%nat) * sin (border_angle rate s) - (to 1%nat - from 1%nat) * cos (border_angle rate s) = 0 ->
  border_intersection d rate s inv r mv from to = None.
Proof.
  intros d rate s inv r mv from to Hd Hinv Hp. unfold border_intersection, line_plane_intersection.
  destruct (inv (system from to (plane_points d rate s r mv))) as [m|] eqn:E; [|reflexivity]. exfalso.
  apply Hinv in E. unfold left_inverse in E. set (S := system from to (plane_points d rate s r mv)) in *.
  set (cg := cos (border_angle rate s)) in *. set (sg := sin (border_angle rate s)) in *.
  assert (K : forall k, S k 0%nat * sg - S k 1%nat * cg = 0).
  { intros [|k]; unfold S; cbn [system].
    - replace ((to 0%nat - from 0%nat) * -1 * sg - (to 1%nat - from 1%nat) * -1 * cg) with (- ((to 0%nat - from 0%nat) * sg - (to 1%nat - from 1%nat) * cg)) by ring.
      rewrite Hp. ring.
    - rewrite !plane_0, plane_x, plane_y by lia. unfold cg, sg. ring. }
  assert (Sub : forall (f g : nat -> R) l, Rsum (map f l) - Rsum (map g l) = Rsum (map (fun k : nat => f k - g k) l)).
  { intros f g l. induction l as [|y l IHl]; cbn; [ring|]. unfold Rsum in *. cbn. rewrite <- IHl. ring. }
  assert (Z : forall i, (i < d)%nat -> (if Nat.eqb i 0 then 1 else 0) * sg - (if Nat.eqb i 1 then 1 else 0) * cg = 0).
  { intros i Hi. rewrite <- (E i 0%nat Hi ltac:(lia)), <- (E i 1%nat Hi ltac:(lia)).
    rewrite (Rmult_comm _ sg), (Rmult_comm _ cg), <- !GramProofs.Rsum_scal, Sub. apply Rsum_zero. intros k _.
    replace (sg * (m i k * S k 0%nat) - cg * (m i k * S k 1%nat)) with (m i k * (S k 0%nat * sg - S k 1%nat * cg)) by ring. rewrite K. ring. }
  pose proof (Z 0%nat ltac:(lia)) as Z0. pose proof (Z 1%nat ltac:(lia)) as Z1. cbn [Nat.eqb] in Z0, Z1.
  pose proof (sin2_cos2 (border_angle rate s)) as U. unfold Rsqr in U. fold sg cg in U.
  assert (A : sg = 0) by lra. assert (B : cg = 0) by lra. rewrite A, B in U. lra.
Qed.

(** The angles of a transition that advances by at most half of the segments and of a border it passes. *)
Lemma half_turn_angles : forall rate f dist lag from to, (1 <= lag <= dist)%nat -> (2 * dist <= rate)%nat ->
  in_sector rate (f mod rate) (from 0%nat) (from 1%nat) -> in_sector rate ((f + dist) mod rate) (to 0%nat) (to 1%nat) ->
  exists alpha beta gamma a b,
    0 < a /\ 0 < b /\ alpha < gamma <= alpha + PI /\ gamma <= beta < gamma + PI /\ beta - alpha < 2 * PI
    /\ from 0%nat = a * cos alpha /\ from 1%nat = a * sin alpha /\ to 0%nat = b * cos beta /\ to 1%nat = b * sin beta
    /\ cos (border_angle rate ((f + lag) mod rate)) = cos gamma /\ sin (border_angle rate ((f + lag) mod rate)) = sin gamma.
Proof.
  intros rate f dist lag from to Hl Hdist Hf Ht.
  assert (Hr : (0 < rate)%nat) by lia. assert (Hin : 0 < INR rate) by (apply lt_0_INR; lia). pose proof PI_RGT_0 as Hpi.
  apply unwrap_sector in Hf; [|exact Hr]. apply unwrap_sector in Ht; [|exact Hr].
  destruct Hf as (alpha & (A1 & A2) & (a & Ha & Ax & Ay)). destruct Ht as (beta & (B1 & B2) & (b & Hb & Bx & By)).
  destruct (border_angle_mod rate (f + lag) Hr) as (Ec & Es).
  set (gamma := 2 * PI * INR (f + lag) / INR rate) in *.
  assert (Mono : forall i j, (i <= j)%nat -> 2 * PI * INR i / INR rate <= 2 * PI * INR j / INR rate).
  { intros i j Hij. unfold Rdiv. apply Rmult_le_compat_r; [apply Rlt_le, Rinv_0_lt_compat, Hin|]. apply Rmult_le_compat_l; [lra|]. now apply le_INR. }
  assert (Plus : forall i j, 2 * PI * INR (i + j) / INR rate = 2 * PI * INR i / INR rate + 2 * PI * INR j / INR rate)
    by (intros i j; rewrite plus_INR; field; lra).
  assert (Half : forall i, (2 * i <= rate)%nat -> 2 * PI * INR i / INR rate <= PI).
  { intros i Hi. apply Rmult_le_reg_r with (INR rate); [exact Hin|]. unfold Rdiv. rewrite Rmult_assoc, Rinv_l, Rmult_1_r by lra.
    assert (2 * INR i <= INR rate) by (change 2 with (INR 2); rewrite <- mult_INR; now apply le_INR).
    replace (2 * PI * INR i) with (PI * (2 * INR i)) by ring. apply Rmult_le_compat_l; lra. }
  exists alpha, beta, gamma, a, b. pose proof (Half lag ltac:(lia)) as L1. pose proof (Half dist ltac:(lia)) as L2. pose proof (Half 1%nat ltac:(lia)) as L3.
  pose proof (Half (dist + 1 - lag)%nat ltac:(lia)) as L4.
  assert (G : gamma = 2 * PI * INR f / INR rate + 2 * PI * INR lag / INR rate) by (unfold gamma; apply Plus).
  pose proof (Mono (f + 1)%nat (f + lag)%nat ltac:(lia)) as M1. pose proof (Mono (f + lag)%nat (f + dist)%nat ltac:(lia)) as M2. fold gamma in M1, M2.
  assert (T : 2 * PI * INR (f + dist + 1) / INR rate = gamma + 2 * PI * INR (dist + 1 - lag) / INR rate).
  { unfold gamma. rewrite <- Plus. do 3 f_equal. lia. }
  assert (T2 : 2 * PI * INR (f + dist + 1) / INR rate = 2 * PI * INR f / INR rate + 2 * PI * INR dist / INR rate + 2 * PI * INR 1 / INR rate) by (rewrite !Plus; reflexivity).
  ssplit; auto; lra.
Qed.

Section Angles.
  Variables a b alpha beta gamma : R.
  Hypothesis Ha : 0 < a.
  Hypothesis Hb : 0 < b.
  Hypothesis H1 : alpha < gamma <= alpha + PI.
  Hypothesis H2 : gamma <= beta < gamma + PI.
  Hypothesis H3 : beta - alpha < 2 * PI.
  Let s1 := a * sin (gamma - alpha).
  Let s2 := b * sin (beta - gamma).
  Let s1_pos : 0 <= s1.
  Proof. unfold s1. apply Rmult_le_pos; [lra|apply sin_ge_0; lra]. Qed.
  Let s2_pos : 0 <= s2.
  Proof. unfold s2. apply Rmult_le_pos; [lra|apply sin_ge_0; lra]. Qed.
  Lemma distance_sum : (b * cos beta - a * cos alpha) * sin gamma - (b * sin beta - a * sin alpha) * cos gamma = - (s1 + s2).
  Proof. unfold s1, s2. rewrite !sin_minus. ring. Qed.
  Lemma turn_area : a * cos alpha * (b * sin beta) - a * sin alpha * (b * cos beta) = a * b * sin (beta - alpha).
  Proof. rewrite sin_minus. ring. Qed.
  Section Point.
    Variables t c : R.
    Hypothesis Ex : a * cos alpha + t * (b * cos beta - a * cos alpha) = c * cos gamma.
    Hypothesis Ey : a * sin alpha + t * (b * sin beta - a * sin alpha) = c * sin gamma.
    Lemma point_t : t * (s1 + s2) = s1.
    Proof.
      assert (Z : (a * cos alpha + t * (b * cos beta - a * cos alpha)) * sin gamma - (a * sin alpha + t * (b * sin beta - a * sin alpha)) * cos gamma = 0)
        by (rewrite Ex, Ey; ring).
      unfold s1, s2. rewrite !sin_minus. lra.
    Qed.
    Lemma point_c : c * (s1 + s2) = a * b * sin (beta - alpha).
    Proof.
      pose proof point_t as Ht.
      assert (Ec : c = (1 - t) * (a * cos (gamma - alpha)) + t * (b * cos (beta - gamma))).
      { rewrite !cos_minus. pose proof (sin2_cos2 gamma) as T. unfold Rsqr in T.
        transitivity (c * cos gamma * cos gamma + c * sin gamma * sin gamma).
        - replace (c * cos gamma * cos gamma + c * sin gamma * sin gamma) with (c * (sin gamma * sin gamma + cos gamma * cos gamma)) by ring. rewrite T. ring.
        - rewrite <- Ex, <- Ey. ring. }
      rewrite Ec. assert (G1 : (1 - t) * (s1 + s2) = s2) by lra.
      transitivity (s2 * (a * cos (gamma - alpha)) + s1 * (b * cos (beta - gamma))).
      - transitivity ((1 - t) * (s1 + s2) * (a * cos (gamma - alpha)) + t * (s1 + s2) * (b * cos (beta - gamma))); [ring|]. now rewrite G1, Ht.
      - unfold s1, s2. replace (beta - alpha) with ((beta - gamma) + (gamma - alpha)) by ring. rewrite sin_plus. ring.
    Qed.
    Lemma proper_iff : s1 + s2 <> 0 -> 0 < t <= 1 /\ 0 < c <-> 0 < a * b * sin (beta - alpha).
    Proof.
      intros Hn. pose proof point_t as Ht. pose proof point_c as Hc. assert (P : 0 < s1 + s2) by lra. split.
      - intros (_ & C). rewrite <- Hc. now apply Rmult_lt_0_compat.
      - intros A. assert (C : 0 < c) by (apply Rmult_lt_reg_r with (s1 + s2); lra). ssplit; auto.
        + assert (S1 : 0 < s1).
          { destruct (Req_dec s1 0) as [Z|Z]; [exfalso|lra]. unfold s1 in Z. apply Rmult_integral in Z. destruct Z as [Z|Z]; [lra|].
            assert (E : gamma = alpha + PI).
            { destruct (Req_dec gamma (alpha + PI)) as [E|E]; [exact E|]. pose proof (sin_gt_0 (gamma - alpha) ltac:(lra) ltac:(lra)). lra. }
            pose proof (sin_le_0 (beta - alpha) ltac:(lra) ltac:(lra)) as L.
            assert (a * b * sin (beta - alpha) <= 0).
            { replace 0 with (a * b * 0) by ring. apply Rmult_le_compat_l; [|exact L]. apply Rmult_le_pos; lra. }
            lra. }
          apply Rmult_lt_reg_r with (s1 + s2); lra.
        + apply Rmult_le_reg_r with (s1 + s2); lra.
    Qed.
  End Point.
  Lemma parallel_iff : s1 + s2 = 0 <-> gamma = alpha + PI /\ beta = gamma.
  Proof.
    split.
    - intros Z. assert (Z1 : s1 = 0) by lra. assert (Z2 : s2 = 0) by lra. unfold s1 in Z1. unfold s2 in Z2.
      apply Rmult_integral in Z1. apply Rmult_integral in Z2. destruct Z1 as [Z1|Z1]; [lra|]. destruct Z2 as [Z2|Z2]; [lra|]. split.
      + destruct (Req_dec gamma (alpha + PI)) as [E|E]; [exact E|]. pose proof (sin_gt_0 (gamma - alpha) ltac:(lra) ltac:(lra)). lra.
      + destruct (Req_dec beta gamma) as [E|E]; [exact E|]. pose proof (sin_gt_0 (beta - gamma) ltac:(lra) ltac:(lra)). lra.
    - intros (E1 & E2). unfold s1, s2. rewrite E2, E1. replace (alpha + PI - alpha) with PI by ring. replace (alpha + PI - (alpha + PI)) with 0 by ring.
      rewrite sin_PI, sin_0. ring.
  Qed.
End Angles.

Lemma crossing_exactly : forall d rate f dist lag inv radius mv from to p, (2 <= d)%nat -> (1 <= lag <= dist)%nat -> (2 * dist <= rate)%nat ->
  in_sector rate (f mod rate) (from 0%nat) (from 1%nat) -> in_sector rate ((f + dist) mod rate) (to 0%nat) (to 1%nat) ->
  (forall m m', inv m = Some m' -> left_inverse d m' m) ->
  border_intersection d rate ((f + lag) mod rate) inv radius mv from to = Some p ->
  ((exists t, 0 < t <= 1 /\ (forall i, (i < d)%nat -> p i = from i + t * (to i - from i)) /\
      direction (p 0%nat) (p 1%nat) (2 * PI * INR ((f + lag) mod rate) / INR rate))
   <-> 0 < from 0%nat * to 1%nat - from 1%nat * to 0%nat).
Proof.
  intros d rate f dist lag inv radius mv from to p Hd Hl Hdist Hf Ht Hinv Hp.
  destruct (half_turn_angles rate f dist lag from to Hl Hdist Hf Ht) as (alpha & beta & gamma & a & b & Ha & Hb & G1 & G2 & G3 & Ax & Ay & Bx & By & Ec & Es).
  assert (N : a * sin (gamma - alpha) + b * sin (beta - gamma) <> 0).
  { intros Z. rewrite (parallel_none_all d rate _ inv radius mv from to Hd Hinv) in Hp; [discriminate|].
    rewrite Ec, Es, Ax, Ay, Bx, By, (distance_sum a b alpha beta gamma). rewrite Z. ring. }
  assert (Pt : forall t c, (forall i, (i < d)%nat -> p i = from i + t * (to i - from i)) ->
    p 0%nat = c * cos (border_angle rate ((f + lag) mod rate)) -> p 1%nat = c * sin (border_angle rate ((f + lag) mod rate)) ->
    (0 < t <= 1 /\ 0 < c <-> 0 < from 0%nat * to 1%nat - from 1%nat * to 0%nat)).
  { intros t c Hline P0 P1. rewrite Ax, Ay, Bx, By, turn_area. apply (proper_iff a b alpha beta gamma Ha Hb G1 G2 G3); [| |exact N].
    - rewrite <- Ec, <- P0, (Hline 0%nat) by lia. rewrite Ax, Bx. ring.
    - rewrite <- Es, <- P1, (Hline 1%nat) by lia. rewrite Ay, By. ring. }
  split.
  - intros (t & T & Hline & (c & Hc & P0 & P1)). apply (Pt t c Hline P0 P1). auto.
  - intros A. destruct (on_border _ _ _ _ _ _ _ _ _ Hd Hinv Hp) as (t & c & Hline & P0 & P1).
    apply (Pt t c Hline P0 P1) in A. exists t. ssplit; [apply A|apply A|exact Hline|]. exists c. ssplit; [apply A|exact P0|exact P1].
Qed.

Lemma direction_of : forall x y phi psi, direction x y phi -> cos phi = cos psi -> sin phi = sin psi -> direction x y psi.
Proof. intros x y phi psi (r & H & X & Y) C S. exists r. rewrite <- C, <- S. auto. Qed.

Lemma no_crossing_exactly : forall d rate f dist lag inv radius mv from to, (2 <= d)%nat -> (1 <= lag <= dist)%nat -> (2 * dist <= rate)%nat ->
  0 < radius -> 0 < mv ->
  in_sector rate (f mod rate) (from 0%nat) (from 1%nat) -> in_sector rate ((f + dist) mod rate) (to 0%nat) (to 1%nat) ->
  (forall m m', inv m = Some m' -> left_inverse d m' m) -> complete_inverse d inv ->
  (border_intersection d rate ((f + lag) mod rate) inv radius mv from to = None
   <-> direction (to 0%nat) (to 1%nat) (border_angle rate ((f + lag) mod rate)) /\ direction (from 0%nat) (from 1%nat) (border_angle rate ((f + lag) mod rate) + PI)).
Proof.
  intros d rate f dist lag inv radius mv from to Hd Hl Hdist Hr Hmv Hf Ht Hinv Hcomp.
  destruct (half_turn_angles rate f dist lag from to Hl Hdist Hf Ht) as (alpha & beta & gamma & a & b & Ha & Hb & G1 & G2 & G3 & Ax & Ay & Bx & By & Ec & Es).
  set (g := border_angle rate ((f + lag) mod rate)) in *. split.
  - intros Hn. assert (Z : a * sin (gamma - alpha) + b * sin (beta - gamma) = 0).
    { destruct (Req_dec (a * sin (gamma - alpha) + b * sin (beta - gamma)) 0) as [Z|Z]; [exact Z|exfalso].
      unfold border_intersection, line_plane_intersection in Hn.
      destruct (inv (system from to (plane_points d rate ((f + lag) mod rate) radius mv))) as [m|] eqn:E; [discriminate|].
      apply Hcomp in E. destruct E as (x & (k & Hk & Hx) & Hz). apply Hx.
      refine (regular d rate ((f + lag) mod rate) radius mv from to x Hd Hr Hmv _ Hz k Hk). fold g.
      rewrite Ec, Es, Ax, Ay, Bx, By, (distance_sum a b alpha beta gamma). lra. }
    apply (parallel_iff a b alpha beta gamma Ha Hb G1 G2) in Z. destruct Z as (Z1 & Z2). split.
    + exists b. rewrite Ec, Es, <- Z2. auto.
    + exists a. rewrite neg_cos, neg_sin, Ec, Es, Z1, neg_cos, neg_sin. ssplit; auto; rewrite ?Ax, ?Ay; ring.
  - intros ((b' & Hb' & Tx & Ty) & (a' & Ha' & Fx & Fy)). rewrite neg_cos in Fx. rewrite neg_sin in Fy.
    apply (parallel_none_all d rate _ inv radius mv from to Hd Hinv). fold g. rewrite Tx, Ty, Fx, Fy. ring.
Qed.
