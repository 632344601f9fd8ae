From Coq Require Import List Arith Reals ZArith Lia Lra.
From Verif.Base Require Import ListX.
From Verif.Stats Require Import Spec Proofs.
From Verif.Pca Require GramProofs.
From Verif.Geometry Require Import Model Spec.
Import ListNotations.
Local Open Scope R_scope.

(** ** Alignment matrix *)
Lemma nth_concat : forall A (ll : list (list A)) n i k l, Forall (fun x => length x = n) ll ->
  nth_error ll i = Some l -> (k < n)%nat -> nth_error (concat ll) (i * n + k) = nth_error l k.
Proof.
  intros A ll n. induction ll as [|x t IH]; intros i k l HF Hi Hk; [destruct i; discriminate|].
  inversion HF as [|? ? H1 H2]; subst. cbn [concat]. destruct i as [|i].
  - cbn in Hi. injection Hi as ->. rewrite nth_error_app1 by lia. f_equal.
  - cbn in Hi. rewrite nth_error_app2 by lia. rewrite <- (IH i k l H2 Hi Hk). f_equal. lia.
Qed.

Lemma nth_repeat : forall A (x : A) n k, (k < n)%nat -> nth_error (repeat x n) k = Some x.
Proof. intros A x n. induction n as [|n IH]; intros k Hk; [lia|]. destruct k; [reflexivity|]. cbn. apply IH. lia. Qed.

Lemma elem_identity : forall n r c k, (r < 3)%nat -> (c < 3)%nat -> (k < n)%nat ->
  elem n (repeat_each identity_flat n) r c k = Some (if Nat.eqb r c then 1 else 0).
Proof.
  intros n r c k Hr Hc Hk. unfold elem, repeat_each. rewrite flat_map_concat_map.
  rewrite (nth_concat _ _ n (r * 3 + c) k (repeat (if Nat.eqb r c then 1 else 0) n)).
  - now apply nth_repeat.
  - repeat constructor; apply repeat_length.
  - destruct r as [|[|[|r]]]; [| | |lia]; (destruct c as [|[|[|c]]]; [| | |lia]); reflexivity.
  - exact Hk.
Qed.

Definition kmat (v : vec3) (r c : nat) : R :=
  let '(x, y, z) := v in
  match r, c with
  | O, S O => z * -1 | O, S (S O) => y | S O, O => z | S O, S (S O) => x * -1 | S (S O), O => y * -1 | S (S O), S O => x | _, _ => 0
  end.

Lemma elem_k : forall vs v r c k, nth_error vs k = Some v -> (r < 3)%nat -> (c < 3)%nat ->
  elem (length vs) (k_flat vs) r c k = Some (kmat v r c).
Proof.
  intros vs v r c k Hv Hr Hc. assert (Hk : (k < length vs)%nat) by (apply nth_error_Some; congruence).
  unfold elem, k_flat. destruct v as [[x y] z].
  assert (HF : forall (a b c d e f g h i : vec3 -> R), Forall (fun l => length l = length vs)
    [map a vs; map b vs; map c vs; map d vs; map e vs; map f vs; map g vs; map h vs; map i vs]).
  { intros. repeat constructor; apply map_length. }
  destruct r as [|[|[|r]]]; [| | |lia]; (destruct c as [|[|[|c]]]; [| | |lia]);
    (eapply eq_trans; [eapply nth_concat; [apply HF|cbn; reflexivity|exact Hk]|rewrite nth_error_map, Hv; reflexivity]).
Qed.

Definition rmat (u : vec3) (r c : nat) : R :=
  let a := unit3 u in let v := cross3 a e3 in
  (if Nat.eqb r c then 1 else 0) + kmat v r c
  + (kmat v r 0 * kmat v 0 c + kmat v r 1 * kmat v 1 c + kmat v r 2 * kmat v 2 c) * ((1 - dot3 e3 a) / (norm3 v * norm3 v)).

Lemma rotation_entry_eq : forall refs u r c k, nth_error refs k = Some u -> (r < 3)%nat -> (c < 3)%nat ->
  rotation_entry refs r c k = Some (rmat u r c).
Proof.
  intros refs u r c k Hu Hr Hc. unfold rotation_entry.
  assert (Hk : (k < length refs)%nat) by (apply nth_error_Some; congruence).
  rewrite elem_identity by assumption. cbn [obind].
  set (vs := map (fun a => cross3 a e3) (map unit3 refs)).
  assert (Hv : nth_error vs k = Some (cross3 (unit3 u) e3)) by (unfold vs; rewrite !nth_error_map, Hu; reflexivity).
  assert (El : length refs = length vs) by (unfold vs; now rewrite !map_length).
  rewrite El. rewrite !(elem_k vs _ _ _ _ Hv) by lia. cbn [obind].
  rewrite !nth_error_map, Hu, Hv. cbn [option_map obind]. reflexivity.
Qed.

Lemma norm_sq : forall x y z, norm3 (x, y, z) * norm3 (x, y, z) = x * x + y * y + z * z.
Proof.
  intros. unfold norm3. apply sqrt_sqrt. pose proof (Rle_0_sqr x). pose proof (Rle_0_sqr y). pose proof (Rle_0_sqr z). unfold Rsqr in *. lra.
Qed.

(** For a unit vector. *)
Lemma rodrigues : forall x y z w, x * x + y * y + z * z = 1 -> w * (x * x + y * y) = 1 - z -> 
  let m r c := (if Nat.eqb r c then 1 else 0) + kmat (y, - x, 0) r c
     + (kmat (y, - x, 0) r 0 * kmat (y, - x, 0) 0 c + kmat (y, - x, 0) r 1 * kmat (y, - x, 0) 1 c + kmat (y, - x, 0) r 2 * kmat (y, - x, 0) 2 c) * w in
  orthogonal m /\ determinant m = 1 /\ image m (x, y, z) = (0, 0, 1).
Proof.
  intros x y z w H1 Hw m.
  assert (M : m 0%nat 0%nat = 1 - x * x * w /\ m 0%nat 1%nat = - (x * y) * w /\ m 0%nat 2%nat = - x
           /\ m 1%nat 0%nat = - (x * y) * w /\ m 1%nat 1%nat = 1 - y * y * w /\ m 1%nat 2%nat = - y
           /\ m 2%nat 0%nat = x /\ m 2%nat 1%nat = y /\ m 2%nat 2%nat = 1 - (x * x + y * y) * w).
  { unfold m. cbn. ssplit; ring. }
  destruct M as (M00 & M01 & M02 & M10 & M11 & M12 & M20 & M21 & M22).
  assert (E22 : m 2%nat 2%nat = z) by (rewrite M22; lra).
  (* s = x^2+y^2 = 1 - z^2 *)
  assert (Hs : x * x + y * y = 1 - z * z) by lra.
  assert (Hww : w * w * (x * x + y * y) = w * (1 - z)) by (rewrite <- Hw; ring).
  assert (Hq : w * w * (x * x + y * y) = 2 * w - 1 \/ True) by now right.
  (* 2 w - w^2 s = w (2 - (1 - z)) = w (1 + z); and w (1 + z) s = (1 - z)(1 + z) = s *)
  split; [|split].
  - intros i j Hi Hj.
    assert (Hone : forall e, e * (x * x + y * y) * (1 - w * (1 + z)) = 0).
    { intros e. replace (e * (x * x + y * y) * (1 - w * (1 + z))) with (e * ((x * x + y * y) - (w * (x * x + y * y)) * (1 + z))) by ring.
      rewrite Hw, Hs. ring. }
    assert (Hz : (x * x + y * y) <> 0 -> w * (1 + z) = 1).
    { intros Hn. specialize (Hone 1). apply Rmult_integral in Hone. destruct Hone as [Hone|Hone]; lra. }
    assert (Hxx : x * x * (1 - w * (1 + z)) = 0 /\ y * y * (1 - w * (1 + z)) = 0 /\ x * y * (1 - w * (1 + z)) = 0).
    { destruct (Req_dec (x * x + y * y) 0) as [E|E].
      - assert (x = 0 /\ y = 0) as (-> & ->). { pose proof (Rle_0_sqr x). pose proof (Rle_0_sqr y). unfold Rsqr in *. split; apply Rsqr_0_uniq; unfold Rsqr; lra. }
        ssplit; ring.
      - rewrite (Hz E). ssplit; ring. }
    destruct Hxx as (Hxx & Hyy & Hxy).
    destruct i as [|[|[|i]]]; [| | |lia]; (destruct j as [|[|[|j]]]; [| | |lia]); cbn [Nat.eqb];
      rewrite ?M00, ?M01, ?M02, ?M10, ?M11, ?M12, ?M20, ?M21, ?E22.
    + replace ((1 - x * x * w) * (1 - x * x * w) + - (x * y) * w * (- (x * y) * w) + - x * - x)
        with (1 + x * x + x * x * (w * w * (x * x + y * y) - 2 * w)) by ring. rewrite Hww. lra.
    + replace ((1 - x * x * w) * (- (x * y) * w) + - (x * y) * w * (1 - y * y * w) + - x * - y)
        with (x * y + x * y * (w * w * (x * x + y * y) - 2 * w)) by ring. rewrite Hww. lra.
    + replace ((1 - x * x * w) * x + - (x * y) * w * y + - x * z) with (x * (1 - w * (x * x + y * y) - z)) by ring. rewrite Hw. ring.
    + replace (- (x * y) * w * (1 - x * x * w) + (1 - y * y * w) * (- (x * y) * w) + - y * - x)
        with (x * y + x * y * (w * w * (x * x + y * y) - 2 * w)) by ring. rewrite Hww. lra.
    + replace (- (x * y) * w * (- (x * y) * w) + (1 - y * y * w) * (1 - y * y * w) + - y * - y)
        with (1 + y * y + y * y * (w * w * (x * x + y * y) - 2 * w)) by ring. rewrite Hww. lra.
    + replace (- (x * y) * w * x + (1 - y * y * w) * y + - y * z) with (y * (1 - w * (x * x + y * y) - z)) by ring. rewrite Hw. ring.
    + replace (x * (1 - x * x * w) + y * (- (x * y) * w) + z * - x) with (x * (1 - w * (x * x + y * y) - z)) by ring. rewrite Hw. ring.
    + replace (x * (- (x * y) * w) + y * (1 - y * y * w) + z * - y) with (y * (1 - w * (x * x + y * y) - z)) by ring. rewrite Hw. ring.
    + lra.
  - unfold determinant. rewrite M00, M01, M02, M10, M11, M12, M20, M21, E22.
    replace ((1 - x * x * w) * ((1 - y * y * w) * z - - y * y) - - (x * y) * w * (- (x * y) * w * z - - y * x) + - x * (- (x * y) * w * y - (1 - y * y * w) * x))
      with (z * (1 - w * (x * x + y * y)) + (x * x + y * y)) by ring. rewrite Hw, Hs. ring.
  - unfold image. rewrite M00, M01, M02, M10, M11, M12, M20, M21, E22. f_equal; [f_equal|].
    + replace ((1 - x * x * w) * x + - (x * y) * w * y + - x * z) with (x * (1 - w * (x * x + y * y) - z)) by ring. rewrite Hw. ring.
    + replace (- (x * y) * w * x + (1 - y * y * w) * y + - y * z) with (y * (1 - w * (x * x + y * y) - z)) by ring. rewrite Hw. ring.
    + lra.
Qed.

Lemma sq_pos : forall x y : R, (x <> 0 \/ y <> 0) -> 0 < x * x + y * y.
Proof.
  intros x y H. pose proof (Rle_0_sqr x) as X. pose proof (Rle_0_sqr y) as Y. unfold Rsqr in *.
  destruct H as [H|H]; [pose proof (Rsqr_pos_lt x H)|pose proof (Rsqr_pos_lt y H)]; unfold Rsqr in *; lra.
Qed.

Lemma rmat_spec : forall x y z, (x <> 0 \/ y <> 0) ->
  orthogonal (rmat (x, y, z)) /\ determinant (rmat (x, y, z)) = 1 /\ image (rmat (x, y, z)) (x, y, z) = (0, 0, norm3 (x, y, z)).
Proof.
  intros x y z H. pose proof (sq_pos x y H) as Hp.
  set (n := norm3 (x, y, z)). assert (Hnn : n * n = x * x + y * y + z * z) by apply norm_sq.
  pose proof (Rle_0_sqr z) as Hz. unfold Rsqr in Hz.
  assert (Hn : 0 < n).
  { assert (0 <= n) by (unfold n, norm3; apply sqrt_pos). destruct (Req_dec n 0) as [E|]; [rewrite E in Hnn; lra|lra]. }
  set (a := x / n). set (b := y / n). set (c := z / n).
  assert (Ha : a * a + b * b + c * c = 1).
  { unfold a, b, c. replace (x / n * (x / n) + y / n * (y / n) + z / n * (z / n)) with ((x * x + y * y + z * z) / (n * n)) by (field; lra). rewrite <- Hnn. field. lra. }
  assert (Hab : 0 < a * a + b * b).
  { unfold a, b. replace (x / n * (x / n) + y / n * (y / n)) with ((x * x + y * y) / (n * n)) by (field; lra).
    apply Rdiv_lt_0_compat; [exact Hp|]. now apply Rmult_lt_0_compat. }
  assert (Ev : cross3 (unit3 (x, y, z)) e3 = (b, - a, 0)).
  { unfold unit3. fold n. fold a b c. cbn. f_equal; [f_equal|]; ring. }
  assert (Ed : dot3 e3 (unit3 (x, y, z)) = c) by (unfold unit3; fold n; fold a b c; cbn; ring).
  assert (En : norm3 (b, - a, 0) * norm3 (b, - a, 0) = a * a + b * b) by (rewrite norm_sq; ring).
  destruct (rodrigues a b c ((1 - c) / (a * a + b * b)) Ha) as (R1 & R2 & R3).
  { field. lra. }
  match type of R3 with image ?m _ = _ => set (mm := m) in R1, R2, R3 end.
  assert (Em : forall i j, rmat (x, y, z) i j = mm i j).
  { intros i j. unfold rmat, mm. rewrite Ev, Ed, En. reflexivity. }
  clearbody mm. split; [|split].
  - intros i j Hi Hj. rewrite !Em. now apply R1.
  - unfold determinant. rewrite !Em. exact R2.
  - assert (L : forall p q s, p * x + q * y + s * z = n * (p * a + q * b + s * c)) by (intros; unfold a, b, c; field; lra).
    unfold image in *. rewrite !Em, !L. injection R3 as E0 E1 E2. rewrite E0, E1, E2. f_equal; [f_equal|]; ring.
Qed.

(** ** Angles and segments *)
Lemma direction_pos : forall x y phi r, 0 < r -> x = r * cos phi -> y = r * sin phi -> direction x y phi.
Proof. intros x y phi r H1 H2 H3. exists r. auto. Qed.

Lemma cos_atan_pos : forall t, 0 < cos (atan t).
Proof. intros t. destruct (atan_bound t). apply cos_gt_0; lra. Qed.

Lemma direction_atan : forall x y, 0 < x -> direction x y (atan (y / x)).
Proof.
  intros x y Hx. pose proof (cos_atan_pos (y / x)) as Hc. apply (direction_pos _ _ _ (x / cos (atan (y / x)))).
  - now apply Rdiv_lt_0_compat.
  - field. lra.
  - assert (E : sin (atan (y / x)) = y / x * cos (atan (y / x))).
    { rewrite <- (tan_atan (y / x)) at 2. unfold tan. field. lra. }
    rewrite E. field. split; lra.
Qed.

Lemma direction_opp : forall x y phi, direction x y phi -> direction (- x) (- y) (phi + PI).
Proof. intros x y phi (r & Hr & Hx & Hy). exists r. rewrite neg_cos, neg_sin. ssplit; [exact Hr|rewrite Hx; ring|rewrite Hy; ring]. Qed.
Lemma direction_opp' : forall x y phi, direction x y phi -> direction (- x) (- y) (phi - PI).
Proof.
  intros x y phi (r & Hr & Hx & Hy). exists r.
  assert (Ec : cos (phi - PI) = - cos phi) by (rewrite cos_minus, cos_PI, sin_PI; ring).
  assert (Es : sin (phi - PI) = - sin phi) by (rewrite sin_minus, cos_PI, sin_PI; ring).
  rewrite Ec, Es. ssplit; [exact Hr|rewrite Hx; ring|rewrite Hy; ring].
Qed.

Lemma atan2_direction : forall x y, x <> 0 \/ y <> 0 -> direction x y (atan2 y x).
Proof.
  intros x y H. unfold atan2. destruct (Rlt_dec 0 x) as [Hx|Hx]; [now apply direction_atan|].
  destruct (Rlt_dec x 0) as [Hx'|Hx'].
  - assert (E : y / x = (- y) / (- x)) by (field; lra). rewrite E.
    assert (D : direction (- x) (- y) (atan (- y / - x))) by (apply direction_atan; lra).
    replace (direction x y) with (direction (- - x) (- - y)) by (now rewrite !Ropp_involutive).
    destruct (Rle_dec 0 y); [now apply direction_opp|now apply direction_opp'].
  - assert (x = 0) by lra. subst x. destruct (Rlt_dec 0 y) as [Hy|Hy].
    + apply (direction_pos _ _ _ y); [exact Hy|rewrite cos_PI2; ring|rewrite sin_PI2; ring].
    + destruct (Rlt_dec y 0) as [Hy'|Hy'].
      * apply (direction_pos _ _ _ (- y)); [lra|rewrite cos_neg, cos_PI2; ring|rewrite sin_neg, sin_PI2; ring].
      * exfalso. destruct H; lra.
Qed.

Lemma atan2_range : forall x y, - PI < atan2 y x <= PI.
Proof.
  intros x y. pose proof PI_RGT_0. unfold atan2.
  destruct (Rlt_dec 0 x) as [Hx|Hx]; [destruct (atan_bound (y / x)); lra|].
  destruct (Rlt_dec x 0) as [Hx'|Hx'].
  - destruct (atan_bound (y / x)). destruct (Rle_dec 0 y) as [Hy|Hy].
    + assert (y / x <= 0).
      { unfold Rdiv. assert (/ x < 0) by now apply Rinv_lt_0_compat. replace (y * / x) with (- (y * - / x)) by ring.
        assert (0 <= y * - / x) by (apply Rmult_le_pos; lra). lra. }
      destruct (Req_dec (y / x) 0) as [E|E].
      * rewrite E, atan_0. lra.
      * assert (Hl : atan (y / x) < atan 0) by (apply atan_increasing; lra). rewrite atan_0 in Hl. lra.
    + assert (0 < y / x).
      { unfold Rdiv. assert (/ x < 0) by now apply Rinv_lt_0_compat. replace (y * / x) with ((- y) * - / x) by ring. apply Rmult_lt_0_compat; lra. }
      assert (Hl : atan 0 < atan (y / x)) by (apply atan_increasing; lra). rewrite atan_0 in Hl. lra.
  - destruct (Rlt_dec 0 y); [lra|]. destruct (Rlt_dec y 0); lra.
Qed.

Lemma same_direction : forall x y a b, direction x y a -> direction x y b -> 0 <= a < 2 * PI -> 0 <= b < 2 * PI -> a = b.
Proof.
  intros x y a b (r & Hr & Hx & Hy) (s & Hs & Hx' & Hy') Ha Hb.
  assert (Ers : r = s).
  { assert (E : r * r = s * s).
    { transitivity (x * x + y * y).
      - rewrite Hx, Hy. pose proof (sin2_cos2 a) as T. unfold Rsqr in T.
        replace (r * cos a * (r * cos a) + r * sin a * (r * sin a)) with (r * r * (sin a * sin a + cos a * cos a)) by ring. rewrite T. ring.
      - rewrite Hx', Hy'. pose proof (sin2_cos2 b) as T. unfold Rsqr in T.
        replace (s * cos b * (s * cos b) + s * sin b * (s * sin b)) with (s * s * (sin b * sin b + cos b * cos b)) by ring. rewrite T. ring. }
    apply Rsqr_inj; [lra|lra|exact E]. }
  subst s. assert (Ec : cos a = cos b) by (apply Rmult_eq_reg_l with r; lra). assert (Es : sin a = sin b) by (apply Rmult_eq_reg_l with r; lra).
  (* cos (a - b) = 1 *)
  assert (E1 : cos (a - b) = 1). { rewrite cos_minus, Ec, Es. pose proof (sin2_cos2 b) as T. unfold Rsqr in T. lra. }
  assert (E2 : sin ((a - b) / 2) = 0).
  { assert (E : cos (2 * ((a - b) / 2)) = 1) by (rewrite <- E1; f_equal; field).
    rewrite cos_2a_sin in E. assert (Z : sin ((a - b) / 2) * sin ((a - b) / 2) = 0) by lra.
    apply Rmult_integral in Z. destruct Z; assumption. }
  destruct (Rtotal_order a b) as [L|[L|L]]; [|exact L|].
  - exfalso. assert (P : 0 < sin ((b - a) / 2)) by (apply sin_gt_0; lra).
    replace ((b - a) / 2) with (- ((a - b) / 2)) in P by field. rewrite sin_neg in P. lra.
  - exfalso. assert (P : 0 < sin ((a - b) / 2)) by (apply sin_gt_0; lra). lra.
Qed.

Lemma direction_shift : forall x y phi, direction x y phi -> direction x y (phi + 2 * PI).
Proof. intros x y phi (r & Hr & Hx & Hy). exists r. rewrite cos_plus, sin_plus, cos_2PI, sin_2PI. ssplit; [exact Hr|rewrite Hx; ring|rewrite Hy; ring]. Qed.

Lemma sector_range : forall n k phi, (0 < n)%nat -> (k < n)%nat -> 2 * PI * INR k / INR n <= phi < 2 * PI * INR (k + 1) / INR n -> 0 <= phi < 2 * PI.
Proof.
  intros n k phi Hn Hk (H1 & H2). pose proof PI_RGT_0. assert (0 < INR n) by (apply lt_0_INR; lia).
  pose proof (pos_INR k) as Hk0. assert (HkS : INR (k + 1) <= INR n) by (apply le_INR; lia). split.
  - apply Rle_trans with (2 := H1). apply Rmult_le_pos; [apply Rmult_le_pos; lra|]. apply Rlt_le, Rinv_0_lt_compat. lra.
  - apply Rlt_le_trans with (1 := H2). apply Rmult_le_reg_r with (INR n); [lra|]. unfold Rdiv. rewrite Rmult_assoc, Rinv_l by lra. rewrite Rmult_1_r.
    apply Rmult_le_compat_l; lra.
Qed.

Lemma in_sector_unique : forall n k k' x y, (0 < n)%nat -> (k < n)%nat -> (k' < n)%nat -> in_sector n k x y -> in_sector n k' x y -> k = k'.
Proof.
  intros n k k' x y Hn Hk Hk' (a & Ha & Da) (b & Hb & Db).
  assert (a = b) by (eapply same_direction; eauto using sector_range). subst b.
  pose proof PI_RGT_0. assert (Hin : 0 < INR n) by (apply lt_0_INR; lia).
  assert (G : forall i j, 2 * PI * INR i / INR n < 2 * PI * INR (j + 1) / INR n -> (i < j + 1)%nat).
  { intros i j Hij. apply INR_lt. apply Rmult_lt_reg_l with (2 * PI); [lra|]. apply Rmult_lt_reg_r with (/ INR n); [now apply Rinv_0_lt_compat|]. exact Hij. }
  assert (k < k' + 1)%nat by (apply G; lra). assert (k' < k + 1)%nat by (apply G; lra). lia.
Qed.

Lemma segment_range : forall angle n, (0 < n)%nat -> (get_segment_id angle n < n)%nat.
Proof. intros angle n H. unfold get_segment_id. apply Nat.mod_upper_bound. lia. Qed.

Lemma segment_angle : forall angle n, (0 < n)%nat -> - PI < angle <= PI ->
  exists q, let phi := 2 * PI + angle - 2 * PI * INR q in
    2 * PI * INR (get_segment_id angle n) / INR n <= phi < 2 * PI * INR (get_segment_id angle n + 1) / INR n.
Proof.
  intros angle n Hn Ha. pose proof PI_RGT_0. assert (Hin : 0 < INR n) by (apply lt_0_INR; lia).
  unfold get_segment_id. set (t := (2 * PI + angle) / (2 * PI / INR n)).
  assert (Et : 2 * PI + angle = t * (2 * PI) / INR n) by (unfold t; field; split; lra).
  assert (Ht : 0 < t). { unfold t. apply Rdiv_lt_0_compat; [lra|]. apply Rdiv_lt_0_compat; lra. }
  destruct (base_Int_part t) as (B1 & B2).
  assert (Hz : (0 <= Int_part t)%Z). { apply Z.le_trans with (Z.succ (-1)); [lia|]. apply Zlt_le_succ. apply lt_IZR. lra. }
  set (i := Z.to_nat (Int_part t)). assert (Ei : INR i = IZR (Int_part t)) by (unfold i; rewrite INR_IZR_INZ, Z2Nat.id by exact Hz; reflexivity).
  exists (i / n)%nat. cbn zeta.
  assert (Ed : INR i = INR n * INR (i / n) + INR (i mod n)) by (rewrite <- mult_INR, <- plus_INR; f_equal; apply Nat.div_mod; lia).
  assert (Ephi : 2 * PI + angle - 2 * PI * INR (i / n) = 2 * PI * (t - INR n * INR (i / n)) / INR n) by (rewrite Et; field; lra).
  rewrite Ephi. rewrite plus_INR. change (INR 1) with 1.
  assert (Hinv : 0 < / INR n) by now apply Rinv_0_lt_compat.
  unfold Rdiv. split.
  - apply Rmult_le_compat_r; [lra|]. apply Rmult_le_compat_l; lra.
  - apply Rmult_lt_compat_r; [lra|]. apply Rmult_lt_compat_l; lra.
Qed.

Lemma direction_unshift : forall q x y phi, direction x y phi -> direction x y (phi - 2 * PI * INR q).
Proof.
  induction q as [|q IH]; intros x y phi D.
  - cbn. now replace (phi - 2 * PI * 0) with phi by ring.
  - rewrite S_INR. replace (phi - 2 * PI * (INR q + 1)) with ((phi - 2 * PI) - 2 * PI * INR q) by ring. apply IH.
    destruct D as (r & Hr & Hx & Hy). exists r. rewrite cos_minus, sin_minus, cos_2PI, sin_2PI. ssplit; [exact Hr|rewrite Hx; ring|rewrite Hy; ring].
Qed.

Lemma segment_sector : forall x y n, (0 < n)%nat -> x <> 0 \/ y <> 0 -> in_sector n (get_segment_id (atan2 y x) n) x y.
Proof.
  intros x y n Hn H. destruct (segment_angle (atan2 y x) n Hn (atan2_range x y)) as (q & Hq). cbn zeta in Hq.
  eexists. split; [exact Hq|]. apply direction_unshift. rewrite Rplus_comm. apply direction_shift. now apply atan2_direction.
Qed.

Lemma segment_iff : forall x y n k, (0 < n)%nat -> (k < n)%nat -> x <> 0 \/ y <> 0 ->
  (get_segment_id (atan2 y x) n = k <-> in_sector n k x y).
Proof.
  intros x y n k Hn Hk H. split.
  - intros <-. now apply segment_sector.
  - intros Hin. eapply in_sector_unique; eauto using segment_range, segment_sector.
Qed.

Lemma segment_origin : forall n, (0 < n)%nat -> get_segment_id (atan2 0 0) n = 0%nat.
Proof.
  intros n Hn. unfold atan2. destruct (Rlt_dec 0 0); [lra|]. destruct (Rlt_dec 0 0); [lra|].
  unfold get_segment_id. pose proof PI_RGT_0. assert (Hin : 0 < INR n) by (apply lt_0_INR; lia).
  replace ((2 * PI + 0) / (2 * PI / INR n)) with (IZR (Z.of_nat n)) by (rewrite <- INR_IZR_INZ; field; split; lra).
  assert (E : Int_part (IZR (Z.of_nat n)) = Z.of_nat n).
  { destruct (base_Int_part (IZR (Z.of_nat n))) as (B1 & B2). apply le_IZR in B1.
    assert (IZR (Z.of_nat n) < IZR (Int_part (IZR (Z.of_nat n)) + 1)) as B3 by (rewrite plus_IZR; lra). apply lt_IZR in B3. lia. }
  rewrite E, Nat2Z.id. apply Nat.mod_same. lia.
Qed.

(** ** Mirroring *)
Lemma direction_mirror : forall x y phi, direction x y phi -> direction (x * -1) y (PI - phi).
Proof.
  intros x y phi (r & Hr & Hx & Hy). exists r. rewrite cos_minus, sin_minus, cos_PI, sin_PI.
  ssplit; [exact Hr|rewrite Hx; ring|rewrite Hy; ring].
Qed.

Lemma mirror_sector : forall h s x y, (0 < h)%nat -> (s < 2 * h)%nat -> inside_sector (2 * h) s x y ->
  inside_sector (2 * h) ((3 * h - 1 - s) mod (2 * h)) (x * -1) y.
Proof.
  intros h s x y Hh Hs (phi & Hphi & D). pose proof PI_RGT_0. assert (Hin : 0 < INR h) by (apply lt_0_INR; lia).
  apply direction_mirror in D.
  assert (E2 : INR (2 * h) = 2 * INR h) by (rewrite mult_INR; cbn; ring).
  rewrite E2, plus_INR in Hphi. change (INR 1) with 1 in Hphi. destruct Hphi as (H1 & H2).
  replace (2 * PI * INR s / (2 * INR h)) with (PI * INR s / INR h) in H1 by (field; lra).
  replace (2 * PI * (INR s + 1) / (2 * INR h)) with (PI * (INR s + 1) / INR h) in H2 by (field; lra).
  assert (Hb : forall m, (m + 1 + s = h)%nat \/ (m + 1 + s = 3 * h)%nat ->
     exists q, 2 * PI * INR m / (2 * INR h) < PI - phi + 2 * PI * INR q < 2 * PI * (INR m + 1) / (2 * INR h) /\ (q <= 1)%nat).
  { intros m [Em|Em]; [exists 0%nat|exists 1%nat]; (split; [|lia]).
    - assert (Es : INR m = INR h - 1 - INR s) by (rewrite <- Em, !plus_INR; cbn; ring). rewrite Es.
      replace (2 * PI * (INR h - 1 - INR s) / (2 * INR h)) with (PI - PI * (INR s + 1) / INR h) by (field; lra).
      replace (2 * PI * (INR h - 1 - INR s + 1) / (2 * INR h)) with (PI - PI * INR s / INR h) by (field; lra). cbn. lra.
    - assert (E3 : INR (3 * h) = 3 * INR h) by (rewrite mult_INR; cbn; ring).
      assert (Es : INR m = 3 * INR h - 1 - INR s) by (rewrite <- E3, <- Em, !plus_INR; cbn; ring). rewrite Es.
      replace (2 * PI * (3 * INR h - 1 - INR s) / (2 * INR h)) with (3 * PI - PI * (INR s + 1) / INR h) by (field; lra).
      replace (2 * PI * (3 * INR h - 1 - INR s + 1) / (2 * INR h)) with (3 * PI - PI * INR s / INR h) by (field; lra). cbn. lra. }
  set (m := ((3 * h - 1 - s) mod (2 * h))%nat).
  assert (Hm : (m + 1 + s = h)%nat \/ (m + 1 + s = 3 * h)%nat).
  { destruct (le_lt_dec h s).
    - right. unfold m. rewrite Nat.mod_small by lia. lia.
    - left. unfold m. replace (3 * h - 1 - s)%nat with ((h - 1 - s) + 1 * (2 * h))%nat by lia.
      rewrite Nat.mod_add by lia. rewrite Nat.mod_small by lia. lia. }
  destruct (Hb m Hm) as (q & Hq & Hq1).
  exists (PI - phi + 2 * PI * INR q). split.
  - rewrite E2, plus_INR. exact Hq.
  - destruct q as [|[|q]]; [|(change (INR 1) with 1; rewrite Rmult_1_r; now apply direction_shift)|lia].
    cbn. now rewrite Rmult_0_r, Rplus_0_r.
Qed.

Lemma inside_in : forall n k x y, inside_sector n k x y -> in_sector n k x y.
Proof. intros n k x y (phi & H & D). exists phi. split; [lra|exact D]. Qed.

Lemma inside_nonzero : forall n k x y, inside_sector n k x y -> x <> 0 \/ y <> 0.
Proof.
  intros n k x y (phi & H & (r & Hr & Hx & Hy)). destruct (Req_dec x 0) as [E|]; [|now left]. right. intros E'.
  pose proof (sin2_cos2 phi) as T. unfold Rsqr in T. rewrite E in Hx. rewrite E' in Hy.
  assert (C : cos phi = 0) by (symmetry in Hx; apply Rmult_integral in Hx; destruct Hx; lra).
  assert (S : sin phi = 0) by (symmetry in Hy; apply Rmult_integral in Hy; destruct Hy; lra). rewrite C, S in T. lra.
Qed.

(** ** Intersection *)
Lemma Rsum_swap : forall A B (f : A -> B -> R) la lb,
  Rsum (map (fun a => Rsum (map (f a) lb)) la) = Rsum (map (fun b => Rsum (map (fun a => f a b) la)) lb).
Proof.
  intros A B f la lb. induction la as [|a la IH].
  - cbn. induction lb as [|b lb IHb]; [reflexivity|]. unfold Rsum in *. cbn. rewrite <- IHb. ring.
  - change (Rsum (map (f a) lb) + Rsum (map (fun a => Rsum (map (f a) lb)) la) = Rsum (map (fun b => f a b + Rsum (map (fun a => f a b) la)) lb)).
    rewrite IH. rewrite (GramProofs.Rsum_plus _ (f a) (fun b => Rsum (map (fun a => f a b) la))). reflexivity.
Qed.

Lemma Rsum_delta : forall (f : nat -> R) i a n, (a <= i < a + n)%nat -> Rsum (map (fun j => f j * (if Nat.eqb j i then 1 else 0)) (seq a n)) = f i.
Proof.
  intros f i a n. revert a. induction n as [|n IH]; intros a H; [lia|]. cbn [seq map].
  change (f a * (if Nat.eqb a i then 1 else 0) + Rsum (map (fun j => f j * (if Nat.eqb j i then 1 else 0)) (seq (S a) n)) = f i).
  destruct (Nat.eqb_spec a i) as [E|E].
  - subst i. assert (Z : forall l, (forall j, In j l -> j <> a) -> Rsum (map (fun j => f j * (if Nat.eqb j a then 1 else 0)) l) = 0).
    { induction l as [|b l IHl]; intros Hl; [reflexivity|]. cbn [map].
      change (f b * (if Nat.eqb b a then 1 else 0) + Rsum (map (fun j => f j * (if Nat.eqb j a then 1 else 0)) l) = 0).
      rewrite IHl by (intros; apply Hl; now right). destruct (Nat.eqb_spec b a); [exfalso; now apply (Hl b (or_introl eq_refl))|ring]. }
    rewrite Z; [ring|]. intros j Hj. apply in_seq in Hj. lia.
  - rewrite IH by lia. ring.
Qed.

Lemma intersection_spec : forall d inv l0 l1 plane p, (1 <= d)%nat ->
  (forall m m', inv m = Some m' -> left_inverse d m' m) ->
  line_plane_intersection d inv l0 l1 plane = Some p ->
  exists (t : R) (c : nat -> R), forall i, (i < d)%nat ->
    p i = l0 i + t * (l1 i - l0 i) /\
    p i = plane 0%nat i + Rsum (map (fun k => c k * (plane k i - plane 0%nat i)) (seq 1 (d - 1))).
Proof.
  intros d inv l0 l1 plane p Hd Hinv Hp. unfold line_plane_intersection in Hp.
  destruct (inv (system l0 l1 plane)) as [m|] eqn:Em; [|discriminate]. cbn [obind] in Hp. injection Hp as <-.
  set (v := fun j => l0 j - plane 0%nat j).
  set (c := fun k => Rsum (map (fun j => m j k * v j) (seq 0 d))).
  exists (c 0%nat), c. intros i Hi. split; [unfold c, v; ring|].
  assert (E : Rsum (map (fun k => c k * system l0 l1 plane k i) (seq 0 d)) = v i).
  { transitivity (Rsum (map (fun k => Rsum (map (fun j => v j * (m j k * system l0 l1 plane k i)) (seq 0 d))) (seq 0 d))).
    - apply f_equal, map_ext. intros k. unfold c. rewrite Rmult_comm, <- GramProofs.Rsum_scal. apply f_equal, map_ext. intros j. ring.
    - rewrite Rsum_swap. transitivity (Rsum (map (fun j => v j * (if Nat.eqb j i then 1 else 0)) (seq 0 d))); [|apply Rsum_delta; lia].
      apply f_equal, map_ext_in. intros j Hj. apply in_seq in Hj. rewrite GramProofs.Rsum_scal. f_equal. apply (Hinv _ _ Em); lia. }
  destruct d as [|d]; [lia|]. cbn [seq map] in E. replace (S d - 1)%nat with d by lia.
  change (c 0%nat * ((l1 i - l0 i) * -1) + Rsum (map (fun k => c k * system l0 l1 plane k i) (seq 1 d)) = v i) in E.
  rewrite (map_ext_in _ (fun k => c k * (plane k i - plane 0%nat i))) in E.
  - unfold v in E at 1. fold c. fold v. change (l0 i + (l1 i - l0 i) * c 0%nat = plane 0%nat i + Rsum (map (fun k => c k * (plane k i - plane 0%nat i)) (seq 1 d))). lra.
  - intros k Hk. apply in_seq in Hk. destruct k as [|k]; [lia|]. reflexivity.
Qed.
