From Coq Require Import List Arith Reals Lia Lra.
From Verif.Base Require Import Res.
From Verif.Stats Require Import Spec Proofs.
From Verif.Pca Require Import Gram GramSpec GramProofs Components ComponentsSpec.
From Verif.Geometry Require Import Proofs Crossing.
Import ListNotations.
Local Open Scope R_scope.

Lemma sum_ext : forall d (f g : nat -> R), (forall j, (j < d)%nat -> f j = g j) -> Rsum (map f (seq 0 d)) = Rsum (map g (seq 0 d)).
Proof. intros d f g H. apply Rsum_map_ext. intros x Hx. apply in_seq in Hx. apply H. lia. Qed.
Lemma inner_ext : forall d u u' w w', (forall j, (j < d)%nat -> u j = u' j) -> (forall j, (j < d)%nat -> w j = w' j) -> inner d u w = inner d u' w'.
Proof. intros. apply sum_ext. intros j Hj. now rewrite H, H0. Qed.
Lemma inner_sym : forall d u w, inner d u w = inner d w u.
Proof. intros. apply sum_ext. intros. ring. Qed.
Lemma inner_scal : forall d c u w, inner d (fun j => c * u j) w = c * inner d u w.
Proof. intros. unfold inner. rewrite <- Rsum_scal. apply sum_ext. intros. ring. Qed.
Lemma inner_scal_r : forall d c u w, inner d u (fun j => c * w j) = c * inner d u w.
Proof. intros. rewrite inner_sym, inner_scal, (inner_sym d w). reflexivity. Qed.
Lemma inner_sum : forall d (A : Type) (f : A -> nat -> R) l w, inner d (fun j => Rsum (map (fun i => f i j) l)) w = Rsum (map (fun i => inner d (f i) w) l).
Proof.
  intros d A f l w. unfold inner. transitivity (Rsum (map (fun j => Rsum (map (fun i => f i j * w j) l)) (seq 0 d))).
  - apply sum_ext. intros j _. rewrite Rmult_comm, <- Rsum_scal. apply Rsum_map_ext. intros. ring.
  - apply Rsum_swap.
Qed.
Lemma sum_delta : forall d (f : nat -> R) i, (i < d)%nat -> Rsum (map (fun j => f j * delta j i) (seq 0 d)) = f i.
Proof. intros. unfold delta. apply (Rsum_delta f i 0 d). lia. Qed.
Lemma delta_sym : forall a b, delta a b = delta b a. Proof. intros. unfold delta. now rewrite Nat.eqb_sym. Qed.
Lemma delta_same : forall a, delta a a = 1. Proof. intros. unfold delta. now rewrite Nat.eqb_refl. Qed.
Lemma delta_other : forall a b, a <> b -> delta a b = 0. Proof. intros. unfold delta. now apply Nat.eqb_neq in H as ->. Qed.

Section Basis.
Variable d : nat.
Variable G : nat -> nat -> R.
Variable v : nat -> nat -> R.
Variable s : nat -> R.
Hypothesis D : diagonalises d G v s.

(** A vector in the basis. *)
Lemma expand : forall w b, (b < d)%nat -> w b = Rsum (map (fun i => inner d (v i) w * v i b) (seq 0 d)).
Proof.
  intros w b Hb. destruct D as (_ & Hc & _). transitivity (Rsum (map (fun a => w a * delta a b) (seq 0 d))); [now rewrite sum_delta|].
  transitivity (Rsum (map (fun a => Rsum (map (fun i => v i a * w a * v i b) (seq 0 d))) (seq 0 d))).
  - apply sum_ext. intros a Ha. rewrite <- Hc by assumption. rewrite <- Rsum_scal. apply sum_ext. intros. ring.
  - rewrite Rsum_swap. apply sum_ext. intros i _. unfold inner. rewrite Rmult_comm, <- Rsum_scal. apply sum_ext. intros. ring.
Qed.
Lemma parseval : forall w, inner d w w = Rsum (map (fun i => inner d (v i) w * inner d (v i) w) (seq 0 d)).
Proof.
  intros w. transitivity (inner d (fun b => Rsum (map (fun i => inner d (v i) w * v i b) (seq 0 d))) w).
  - apply inner_ext; [|reflexivity]. intros. now apply expand.
  - rewrite inner_sum. apply sum_ext. intros i _. now rewrite inner_scal.
Qed.
(** The effect of [G]. *)
Lemma apply_G : forall w a, (a < d)%nat -> inner d (G a) w = Rsum (map (fun i => (s i * s i) * inner d (v i) w * v i a) (seq 0 d)).
Proof.
  intros w a Ha. destruct D as (_ & _ & _ & _ & HG). transitivity (inner d (fun b => Rsum (map (fun i => (s i * s i) * (v i a * v i b)) (seq 0 d))) w).
  - apply inner_ext; [|reflexivity]. intros. now apply HG.
  - rewrite inner_sum. apply sum_ext. intros i _. transitivity (inner d (fun b => (s i * s i * v i a) * v i b) w); [apply sum_ext; intros; ring|]. rewrite inner_scal. ring.
Qed.
Lemma eigen : forall k a, (k < d)%nat -> (a < d)%nat -> inner d (G a) (v k) = s k * s k * v k a.
Proof.
  intros k a Hk Ha. rewrite apply_G by assumption. destruct D as (Ho & _).
  transitivity (Rsum (map (fun i => (s i * s i * v i a) * delta i k) (seq 0 d))); [|now rewrite (sum_delta d (fun i => s i * s i * v i a))].
  apply sum_ext. intros i Hi. rewrite Ho by assumption. ring.
Qed.
Lemma quadratic_sum : forall w, quadratic d G w = Rsum (map (fun i => (s i * s i) * (inner d (v i) w * inner d (v i) w)) (seq 0 d)).
Proof.
  intros w. unfold quadratic. rewrite inner_sym. transitivity (inner d (fun a => Rsum (map (fun i => ((s i * s i) * inner d (v i) w) * v i a) (seq 0 d))) w).
  - apply inner_ext; [|reflexivity]. intros a Ha. now apply apply_G.
  - rewrite inner_sum. apply sum_ext. intros i _. rewrite inner_scal. ring.
Qed.
Lemma quadratic_axis : forall k, (k < d)%nat -> quadratic d G (v k) = s k * s k.
Proof.
  intros k Hk. unfold quadratic. transitivity (inner d (v k) (fun a => (s k * s k) * v k a)); [apply inner_ext; [reflexivity|]; intros; now apply eigen|].
  rewrite inner_scal_r. destruct D as (Ho & _). rewrite Ho, delta_same by assumption. ring.
Qed.
(** The k-th axis maximises the variance among the unit vectors orthogonal to the axes before. *)
Lemma axis_maximal : forall k w, (k < d)%nat -> inner d w w = 1 -> (forall i, (i < k)%nat -> inner d (v i) w = 0) -> quadratic d G w <= quadratic d G (v k).
Proof.
  intros k w Hk Hw Ho. rewrite quadratic_axis, quadratic_sum by assumption. replace (s k * s k) with (s k * s k * inner d w w) by (rewrite Hw; ring). rewrite parseval, <- Rsum_scal.
  assert (G0 : forall l : list nat, (forall i, In i l -> (i < d)%nat) -> Rsum (map (fun i => s i * s i * (inner d (v i) w * inner d (v i) w)) l) <= Rsum (map (fun i => s k * s k * (inner d (v i) w * inner d (v i) w)) l)).
  { induction l as [|i l IH]; intros Hl; cbn [map Rsum fold_right]; [lra|]. apply Rplus_le_compat; [|apply IH; intros; apply Hl; now right]. assert (Hi := Hl i (or_introl eq_refl)).
    destruct (le_lt_dec k i) as [Hki|Hki]; [|rewrite (Ho i Hki); lra]. apply Rmult_le_compat_r; [apply Rle_0_sqr|]. destruct D as (_ & _ & Hp & Hd & _).
    pose proof (Hp i Hi). pose proof (Hd k i Hki Hi). apply Rmult_le_compat; lra. }
  apply G0. intros i Hi. apply in_seq in Hi. lia.
Qed.
End Basis.

Lemma G_sym : forall d G v s, diagonalises d G v s -> forall a b, (a < d)%nat -> (b < d)%nat -> G a b = G b a.
Proof. intros d G v s (_ & _ & _ & _ & HG) a b Ha Hb. rewrite !HG by assumption. apply sum_ext. intros. ring. Qed.
Lemma find_nonzero : forall d (c : nat -> R), (forall m, (m < d)%nat -> c m = 0) \/ exists m, (m < d)%nat /\ c m <> 0.
Proof.
  induction d as [|d IH]; intros c; [left; lia|]. destruct (IH c) as [H|(m & Hm & H)]; [|right; exists m; split; [lia|exact H]].
  destruct (Req_EM_T (c d) 0) as [E|E]; [|right; exists d; split; [lia|exact E]]. left. intros m Hm. destruct (Nat.eq_dec m d) as [->|]; [exact E|]. apply H. lia.
Qed.
Lemma squares_equal : forall x y, 0 <= x -> 0 <= y -> x * x = y * y -> x = y.
Proof. intros x y Hx Hy E. apply Rsqr_inj; assumption. Qed.

(** Two bases that diagonalise the same matrix share the values and, up to the sign, the axes of the values that occur once. *)
Section Unique.
Variable d : nat.
Variable G : nat -> nat -> R.
Lemma exchange_values : forall v s v' s', diagonalises d G v s -> diagonalises d G v' s' -> forall i j, (i < d)%nat -> (j < d)%nat -> inner d (v i) (v' j) <> 0 -> s i = s' j.
Proof.
  intros v s v' s' D D' i j Hi Hj Hc.
  assert (E : s i * s i * inner d (v i) (v' j) = s' j * s' j * inner d (v i) (v' j)).
  { transitivity (inner d (fun a => inner d (G a) (v i)) (v' j)).
    - transitivity (inner d (fun a => s i * s i * v i a) (v' j)); [now rewrite inner_scal|]. apply inner_ext; [|reflexivity]. intros a Ha. symmetry. now apply (eigen d G v s D).
    - transitivity (inner d (v i) (fun a => s' j * s' j * v' j a)); [|apply inner_scal_r].
      transitivity (inner d (v i) (fun a => inner d (G a) (v' j))); [|apply inner_ext; [reflexivity|]; intros a Ha; now apply (eigen d G v' s' D')].
      unfold inner. transitivity (Rsum (map (fun a => Rsum (map (fun b => G a b * v i b * v' j a) (seq 0 d))) (seq 0 d))).
      { apply sum_ext. intros a _. rewrite Rmult_comm, <- Rsum_scal. apply sum_ext. intros. ring. }
      rewrite Rsum_swap. apply sum_ext. intros b Hb. rewrite <- Rsum_scal. apply sum_ext. intros a Ha. rewrite (G_sym _ _ _ _ D a b) by assumption. ring. }
  apply Rmult_eq_reg_r in E; [|exact Hc]. destruct D as (_ & _ & Hp & _), D' as (_ & _ & Hp' & _). apply squares_equal; auto.
Qed.
Lemma not_all_zero : forall v s, diagonalises d G v s -> forall w, inner d w w = 1 -> exists m, (m < d)%nat /\ inner d (v m) w <> 0.
Proof.
  intros v s D w Hw. destruct (find_nonzero d (fun m => inner d (v m) w)) as [H|H]; [|exact H]. exfalso. rewrite (parseval d G v s D) in Hw.
  rewrite (Rsum_zero _ (fun i => inner d (v i) w * inner d (v i) w)) in Hw; [lra|]. intros i Hi. apply in_seq in Hi. rewrite (H i) by lia. ring.
Qed.
Lemma axes_unique : forall v s v' s' k, diagonalises d G v s -> diagonalises d G v' s' -> (k <= d)%nat -> (forall i j, (i < k)%nat -> (i < j)%nat -> (j < d)%nat -> s j < s i) ->
  forall i, (i < k)%nat -> s' i = s i /\ exists e, (e = 1 \/ e = -1) /\ forall j, (j < d)%nat -> v' i j = e * v i j.
Proof.
  intros v s v' s' k D D' Hk Hsep i. induction i as [i IH] using lt_wf_ind. intros Hi. assert (Hid : (i < d)%nat) by lia.
  pose proof D as (Ho & _ & Hp & Hd & _). pose proof D' as (Ho' & _ & Hp' & Hd' & _).
  assert (C1 : forall m, (m < i)%nat -> inner d (v m) (v' i) = 0).
  { intros m Hm. destruct (IH m Hm ltac:(lia)) as (_ & e & He & E). assert (X : inner d (v' m) (v' i) = e * inner d (v m) (v' i)) by (rewrite <- inner_scal; apply inner_ext; auto).
    rewrite Ho', delta_other in X by lia. destruct He as [->| ->]; lra. }
  assert (C2 : forall m, (m < i)%nat -> inner d (v i) (v' m) = 0).
  { intros m Hm. destruct (IH m Hm ltac:(lia)) as (_ & e & He & E). rewrite (inner_ext d _ (v i) _ (fun j => e * v m j)) by (auto; intros; apply E; assumption). rewrite inner_scal_r, Ho, delta_other by lia. ring. }
  destruct (not_all_zero v s D (v' i)) as (m & Hm & Cm); [rewrite Ho', delta_same by assumption; reflexivity|].
  destruct (not_all_zero v' s' D' (v i)) as (m' & Hm' & Cm'); [rewrite Ho, delta_same by assumption; reflexivity|]. rewrite inner_sym in Cm'.
  assert (Him : (i <= m)%nat) by (destruct (le_lt_dec i m); [assumption|exfalso; auto]).
  assert (Him' : (i <= m')%nat) by (destruct (le_lt_dec i m'); [assumption|exfalso; auto]).
  pose proof (exchange_values _ _ _ _ D D' m i Hm Hid Cm) as E1. pose proof (exchange_values _ _ _ _ D D' i m' Hid Hm' Cm') as E2.
  assert (Es : s' i = s i). { apply Rle_antisym; [rewrite <- E1; auto|rewrite E2; auto]. }
  split; [exact Es|]. exists (inner d (v i) (v' i)).
  assert (Ev : forall j, (j < d)%nat -> v' i j = inner d (v i) (v' i) * v i j).
  { intros j Hj. rewrite (expand d G v s D (v' i) j Hj). transitivity (Rsum (map (fun a => (inner d (v a) (v' i) * v a j) * delta a i) (seq 0 d))); [|now rewrite (sum_delta d (fun a => inner d (v a) (v' i) * v a j))].
    apply sum_ext. intros a Ha. destruct (Nat.eq_dec a i) as [->|Hai]; [rewrite delta_same; ring|]. rewrite delta_other by exact Hai.
    assert (Z : inner d (v a) (v' i) = 0); [|rewrite Z; ring]. destruct (Nat.lt_ge_cases a i) as [Hlt|Hge]; [now apply C1|].
    destruct (Req_EM_T (inner d (v a) (v' i)) 0) as [Z|NZ]; [exact Z|exfalso]. pose proof (exchange_values _ _ _ _ D D' a i Ha Hid NZ). pose proof (Hsep i a Hi ltac:(lia) Ha). lra. }
  split; [|exact Ev].
  assert (X : inner d (v' i) (v' i) = inner d (v i) (v' i) * inner d (v i) (v' i)). { transitivity (inner d (fun j => inner d (v i) (v' i) * v i j) (v' i)); [apply inner_ext; auto|apply inner_scal]. }
  rewrite Ho', delta_same in X by assumption. destruct (Rmult_integral (inner d (v i) (v' i) - 1) (inner d (v i) (v' i) + 1)); [lra|left; lra|right; lra].
Qed.
End Unique.

(** Scaling. *)
Lemma diagonalises_scaled : forall d G v s a, 0 <= a -> diagonalises d G v s -> diagonalises d (fun i j => a * a * G i j) v (fun i => a * s i).
Proof.
  intros d G v s a Ha (H1 & H2 & H3 & H4 & H5). unfold diagonalises. split; [exact H1|]. split; [exact H2|]. split; [intros; apply Rmult_le_pos; auto|]. split; [intros; apply Rmult_le_compat_l; auto|].
  intros i j Hi Hj. rewrite H5 by assumption. rewrite <- Rsum_scal. apply sum_ext. intros. ring.
Qed.
Lemma diagonalises_ext : forall d G G' v s, (forall i j, (i < d)%nat -> (j < d)%nat -> G i j = G' i j) -> diagonalises d G v s -> diagonalises d G' v s.
Proof. intros d G G' v s E (H1 & H2 & H3 & H4 & H5). unfold diagonalises. repeat split; auto. intros. rewrite <- E by assumption. auto. Qed.

(** The sign convention. *)
Lemma normalize_signed : forall l l' e, (e = 1 \/ e = -1) -> (forall x t, l = x :: t -> x <> 0) -> l' = map (fun y => e * y) l -> normalize_row l' = normalize_row l.
Proof.
  intros l l' e He Hx ->. destruct l as [|x t]; [reflexivity|]. specialize (Hx x t eq_refl). cbn [map normalize_row].
  destruct He as [->| ->].
  - rewrite Rmult_1_l. assert (E : map (fun y => 1 * y) t = t) by (rewrite <- (map_id t) at 2; apply map_ext; intros; ring). rewrite E. reflexivity.
  - destruct (Rge_dec (-1 * x) 0), (Rge_dec x 0); try lra.
    + f_equal; [ring|]. apply map_ext. intros. ring.
    + rewrite map_map. f_equal; [ring|]. rewrite <- (map_id t) at 2. apply map_ext. intros. ring.
Qed.
Lemma components_equal : forall d svd svd' r r' G a s, (3 <= d)%nat -> 0 < a -> (forall i j, (i < d)%nat -> (j < d)%nat -> gram r i j = G i j) -> (forall i j, (i < d)%nat -> (j < d)%nat -> gram r' i j = a * a * G i j) ->
  diagonalises d (gram r) (svd r) s -> svd_correct d svd' r' -> separated d s -> (forall i, (i < 3)%nat -> svd r i 0%nat <> 0) ->
  components svd' d r' = components svd d r.
Proof.
  intros d svd svd' r r' G a s Hd Ha Er Er' D Hs' Sep H0. unfold components. replace (d <? 3)%nat with false by (symmetry; apply Nat.ltb_ge; lia). f_equal. apply map_ext_in. intros i Hi. apply in_seq in Hi.
  destruct Hs' as (s' & D'). apply (diagonalises_ext _ _ G) in D; [|assumption]. apply (diagonalises_ext _ _ (fun i j => a * a * G i j)) in D'; [|assumption]. apply (diagonalises_scaled _ _ _ _ a) in D; [|lra].
  destruct (axes_unique d _ _ _ _ _ 3 D D' ltac:(lia)) with (i := i) as (_ & e & He & E); [intros i' j Hi' Hij Hj; apply Rmult_lt_compat_l; [exact Ha|]; now apply Sep|lia|].
  apply (normalize_signed _ _ e); [exact He| |].
  - intros x t Ex. destruct d as [|d]; [lia|]. cbn in Ex. injection Ex as <- _. apply H0. lia.
  - rewrite map_map. apply map_ext_in. intros j Hj. apply in_seq in Hj. apply E. lia.
Qed.
