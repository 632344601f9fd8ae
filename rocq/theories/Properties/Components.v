From Verif.Pca Require Import Model Spec Exec.
From Coq Require Import List Arith Bool Lia Permutation Reals Lra.
From Verif.Base Require Import ListX Res.
From Verif.Stats Require Import Spec Proofs.
From Verif.Pca Require Import Gram GramSpec GramProofs Components ComponentsSpec ComponentsProofs.
From Verif.Geometry Require Crossing.
From Verif.Properties Require Import Pca.
Import ListNotations.
Local Open Scope R_scope.

Lemma pca_of_scatter : forall qr rows means r, preserves_gram qr -> pca_of qr rows means r ->
  (forall j, means j = column_mean rows j) /\ forall a b, gram r a b = scatter_matrix rows a b.
Proof.
  intros qr rows means r Hqr [data n ordered s o Hn Hne -> cf Hr Ho HP|data n t ordered s o inner Hn Ht Hne -> Hin cf Hr Ho HP|data n o Hn Hne -> Ho|data n t o inner Hn Ht Hne -> Hin Ho].
  - exact (C20_hosts_scatter qr data n false ordered s o Hqr Hn Hne Hr Ho HP).
  - exact (C20_hosts_with_threads_scatter qr data n t ordered s o inner Hqr Hn Ht Hne Hin Hr Ho HP).
  - exact (C20_channels_scatter qr data n o Hqr Hn Hne Ho).
  - exact (C20_channels_with_threads_scatter qr data n t o inner Hqr Hn Ht Hne Hin Ho).
Qed.

(** C84: whatever the numbers of hosts and threads, the cut of the rows, the order of messages, and whatever correct QR and singular value decompositions are used: the means are the same, and so are the components,
    if the principal values are separated and no component begins with zero. *)
Theorem C84_one_result : forall qr qr' svd svd' d rows means means' r r' s, preserves_gram qr -> preserves_gram qr' -> (3 <= d)%nat ->
  pca_of qr rows means r -> pca_of qr' rows means' r' ->
  diagonalises d (gram r) (svd r) s -> separated d s -> (forall i, (i < 3)%nat -> svd r i 0%nat <> 0) -> svd_correct d svd' r' ->
  (forall j, means' j = means j) /\ components svd' d r' = components svd d r /\ exists comps, components svd d r = Ok comps.
Proof.
  intros qr qr' svd svd' d rows means means' r r' s Hqr Hqr' Hd H H' Hs Sep H0 Hs'.
  destruct (pca_of_scatter qr rows means r Hqr H) as (M & Gr). destruct (pca_of_scatter qr' rows means' r' Hqr' H') as (M' & Gr'). split; [|split].
  - intros j. now rewrite M, M'.
  - apply (components_equal d svd svd' r r' (scatter_matrix rows) 1 s); auto; [lra|]. intros i j _ _. rewrite Gr'. ring.
  - unfold components. replace (d <? 3)%nat with false by (symmetry; apply Nat.ltb_ge; lia). eauto.
Qed.
Print Assumptions C84_one_result.

Lemma mean_units : forall a b rows j, rows <> [] -> column_mean (in_units a b rows) j = a * column_mean rows j + b j.
Proof.
  intros a b rows j Hne. unfold column_mean, in_units, mean. rewrite !map_map, !map_length. rewrite Rsum_plus, Rsum_scal, Rsum_const. field. apply Rgt_not_eq. now apply INR_length_pos.
Qed.
Lemma scatter_units : forall a b rows i j, rows <> [] -> scatter_matrix (in_units a b rows) i j = a * a * scatter_matrix rows i j.
Proof.
  intros a b rows i j Hne. unfold scatter_matrix. rewrite <- Rsum_scal. unfold in_units at 3. rewrite map_map. apply Rsum_map_ext. intros r _. rewrite !mean_units by assumption. ring.
Qed.
Theorem C84_units : forall qr qr' svd svd' d rows a b means means' r r' s, preserves_gram qr -> preserves_gram qr' -> (3 <= d)%nat -> 0 < a -> rows <> [] ->
  pca_of qr rows means r -> pca_of qr' (in_units a b rows) means' r' ->
  diagonalises d (gram r) (svd r) s -> separated d s -> (forall i, (i < 3)%nat -> svd r i 0%nat <> 0) -> svd_correct d svd' r' ->
  (forall j, means' j = a * means j + b j) /\ components svd' d r' = components svd d r.
Proof.
  intros qr qr' svd svd' d rows a b means means' r r' s Hqr Hqr' Hd Ha Hne H H' Hs Sep H0 Hs'.
  destruct (pca_of_scatter qr rows means r Hqr H) as (M & Gr). destruct (pca_of_scatter qr' _ means' r' Hqr' H') as (M' & Gr'). split.
  - intros j. now rewrite M, M', mean_units.
  - apply (components_equal d svd svd' r r' (scatter_matrix rows) a s); auto. intros i j _ _. rewrite Gr'. now apply scatter_units.
Qed.
Print Assumptions C84_units.

(** What the components are: three orthogonal directions of length 1, each of which has the largest variance that is left. *)
Definition direction_of (c : list R) (j : nat) : R := nth j c 0.
Lemma normalized_direction : forall d row, exists e, (e = 1 \/ e = -1) /\ forall j, (j < d)%nat -> direction_of (normalize_row (map row (seq 0 d))) j = e * row j.
Proof.
  intros d row. assert (N : forall j, (j < d)%nat -> nth j (map row (seq 0 d)) 0 = row j). { intros j Hj. rewrite (nth_indep _ 0 (row 0%nat)) by now rewrite map_length, seq_length. rewrite map_nth, seq_nth by assumption. reflexivity. }
  destruct (normalize_row_spec (map row (seq 0 d))) as ([->| ->] & _).
  - exists 1. split; [auto|]. intros j Hj. unfold direction_of. rewrite N by assumption. ring.
  - exists (-1). split; [auto|]. intros j Hj. unfold direction_of. rewrite (nth_indep _ 0 (- 0)) by now rewrite !map_length, seq_length. rewrite (map_nth Ropp _ 0), N by assumption. ring.
Qed.
Theorem C84_directions_of_largest_variance : forall qr svd d rows means r comps, preserves_gram qr -> pca_of qr rows means r -> svd_correct d svd r -> components svd d r = Ok comps ->
  length comps = 3%nat /\ forall i c, nth_error comps i = Some c -> length c = d /\ inner d (direction_of c) (direction_of c) = 1 /\
    (forall k c', (k < i)%nat -> nth_error comps k = Some c' -> inner d (direction_of c') (direction_of c) = 0) /\
    forall w, inner d w w = 1 -> (forall k c', (k < i)%nat -> nth_error comps k = Some c' -> inner d (direction_of c') w = 0) ->
      quadratic d (scatter_matrix rows) w <= quadratic d (scatter_matrix rows) (direction_of c).
Proof.
  intros qr svd d rows means r comps Hqr H (s & D) E. destruct (pca_of_scatter qr rows means r Hqr H) as (_ & Gr). unfold components in E. destruct (d <? 3)%nat eqn:Ed; [discriminate|]. apply Nat.ltb_ge in Ed.
  assert (E' : comps = map (fun i => normalize_row (map (svd r i) (seq 0 d))) (seq 0 3)) by congruence. clear E. subst comps. split; [reflexivity|].
  apply (diagonalises_ext _ _ (scatter_matrix rows)) in D; [|intros; apply Gr].
  assert (F : forall i c, nth_error (map (fun i => normalize_row (map (svd r i) (seq 0 d))) (seq 0 3)) i = Some c -> (i < 3)%nat /\ c = normalize_row (map (svd r i) (seq 0 d))).
  { intros i c Hc. assert (Hi : (i < 3)%nat) by (apply nth_error_Some_lt in Hc || (assert (X : nth_error (map (fun i => normalize_row (map (svd r i) (seq 0 d))) (seq 0 3)) i <> None) by congruence; apply nth_error_Some in X; rewrite map_length, seq_length in X; exact X); exact Hi).
    split; [exact Hi|]. rewrite nth_error_map_seq in Hc by exact Hi. congruence. }
  intros i c Hc. destruct (F i c Hc) as (Hi & ->). destruct (normalized_direction d (svd r i)) as (e & He & N). pose proof D as (Ho & _).
  assert (I : forall u, inner d (direction_of (normalize_row (map (svd r i) (seq 0 d)))) u = e * inner d (svd r i) u) by (intros u; rewrite <- inner_scal; apply inner_ext; auto).
  assert (P : forall k c', (k < i)%nat -> nth_error (map (fun i => normalize_row (map (svd r i) (seq 0 d))) (seq 0 3)) k = Some c' -> exists f, (f = 1 \/ f = -1) /\ forall u, inner d (direction_of c') u = f * inner d (svd r k) u).
  { intros k c' _ Hk. destruct (F k c' Hk) as (_ & ->). destruct (normalized_direction d (svd r k)) as (f & Hf & N'). exists f. split; [exact Hf|]. intros u. rewrite <- inner_scal. apply inner_ext; auto. }
  ssplit.
  - destruct (normalize_row_spec (map (svd r i) (seq 0 d))) as ([->| ->] & _); now rewrite ?map_length, seq_length.
  - rewrite I, inner_sym, I, Ho, delta_same by lia. destruct He as [->| ->]; ring.
  - intros k c' Hk Hc'. destruct (P k c' Hk Hc') as (f & _ & If). rewrite If, inner_sym, I, Ho, delta_other by lia. ring.
  - intros w Hw Hort. assert (Eq : quadratic d (scatter_matrix rows) (direction_of (normalize_row (map (svd r i) (seq 0 d)))) = quadratic d (scatter_matrix rows) (svd r i)).
    { unfold quadratic. rewrite I, <- inner_scal_r, <- inner_sym. transitivity (inner d (fun a => e * (e * inner d (scatter_matrix rows a) (svd r i))) (svd r i)).
      - apply inner_ext; [|reflexivity]. intros a _. f_equal. rewrite inner_sym, I, inner_sym. reflexivity.
      - rewrite inner_scal, inner_scal, inner_sym. destruct He as [->| ->]; ring. }
    rewrite Eq. apply (axis_maximal d _ _ s D); [lia|exact Hw|]. intros k Hk. destruct (P k (normalize_row (map (svd r k) (seq 0 d))) Hk) as (f & Hf & If); [apply nth_error_map_seq; lia|].
    pose proof (Hort k _ Hk (nth_error_map_seq _ (fun i => normalize_row (map (svd r i) (seq 0 d))) 3 k ltac:(lia))) as Z. rewrite If in Z. destruct Hf as [->| ->]; lra.
Qed.
Print Assumptions C84_directions_of_largest_variance.

Lemma reduce_inner : forall (g : nat -> R) c i, Rsum (map (fun jc => g (fst jc) * snd jc) (combine (seq i (length c)) c)) = Rsum (map (fun j => g (i + j)%nat * nth j c 0) (seq 0 (length c))).
Proof.
  intros g. induction c as [|x c IH]; intros i; [reflexivity|]. cbn [length seq combine map fst snd]. unfold Rsum in *. cbn [fold_right]. rewrite IH, Nat.add_0_r, <- seq_shift, map_map. apply f_equal. apply f_equal. apply map_ext. intros j. now rewrite Nat.add_succ_r.
Qed.
Lemma deviations_cancel : forall rows j, rows <> [] -> Rsum (map (fun x : nat -> R => x j - column_mean rows j) rows) = 0.
Proof.
  intros rows j Hne. unfold column_mean, mean. rewrite map_length. set (m := Rsum (map (fun r : nat -> R => r j) rows) / INR (length rows)).
  assert (E : forall l, Rsum (map (fun x : nat -> R => x j - m) l) = Rsum (map (fun x => x j) l) - INR (length l) * m) by (induction l as [|x l IH]; [cbn; ring|]; cbn [map length]; unfold Rsum in *; cbn [fold_right]; rewrite IH, S_INR; ring).
  rewrite E. unfold m. field. apply not_0_INR. now destruct rows.
Qed.
(** The three numbers to which the rows are reduced have the mean 0 and are uncorrelated; their squares add up to the squares of the three largest principal values. *)
Theorem C84_reduced_uncorrelated : forall qr svd d rows means r comps s, preserves_gram qr -> rows <> [] -> pca_of qr rows means r -> diagonalises d (gram r) (svd r) s -> components svd d r = Ok comps ->
  let reduced x i := nth i (reduce_row means comps x) 0 in
  (forall x, length (reduce_row means comps x) = 3%nat) /\
  (forall i, (i < 3)%nat -> Rsum (map (fun x => reduced x i) rows) = 0) /\
  forall i k, (i < 3)%nat -> (k < 3)%nat -> Rsum (map (fun x => reduced x i * reduced x k) rows) = if (i =? k)%nat then s i * s i else 0.
Proof.
  intros qr svd d rows means r comps s Hqr Hne H D E reduced. destruct (pca_of_scatter qr rows means r Hqr H) as (M & Gr). unfold components in E. destruct (d <? 3)%nat eqn:Ed; [discriminate|]. apply Nat.ltb_ge in Ed.
  assert (E' : comps = map (fun i => normalize_row (map (svd r i) (seq 0 d))) (seq 0 3)) by congruence. clear E. subst comps.
  apply (diagonalises_ext _ _ (scatter_matrix rows)) in D; [|intros; apply Gr].
  assert (S : forall i, (i < 3)%nat -> exists e, e * e = 1 /\ forall x, reduced x i = e * inner d (fun j => x j - column_mean rows j) (svd r i)).
  { intros i Hi. destruct (normalized_direction d (svd r i)) as (e & He & N). exists e. split; [destruct He as [->| ->]; ring|]. intros x. unfold reduced, reduce_row. rewrite map_map.
    set (F := fun i => Rsum (map (fun jc => (x (fst jc) - means (fst jc)) * snd jc) (combine (seq 0 (length (normalize_row (map (svd r i) (seq 0 d))))) (normalize_row (map (svd r i) (seq 0 d)))))).
    change (nth i (map F (seq 0 3)) 0 = e * inner d (fun j => x j - column_mean rows j) (svd r i)). rewrite (nth_indep _ 0 (F 0%nat)) by (rewrite map_length, seq_length; exact Hi). rewrite map_nth, seq_nth by exact Hi. cbn [Nat.add]. unfold F.
    assert (L : length (normalize_row (map (svd r i) (seq 0 d))) = d) by (destruct (normalize_row_spec (map (svd r i) (seq 0 d))) as ([->| ->] & _); now rewrite ?map_length, seq_length).
    rewrite (reduce_inner (fun j => x j - means j)), L. rewrite <- inner_scal_r. apply sum_ext. intros j Hj. cbn [Nat.add]. rewrite M. f_equal. exact (N j Hj). }
  ssplit.
  - intros x. unfold reduce_row. now rewrite !map_length, seq_length.
  - intros i Hi. destruct (S i Hi) as (e & _ & Ex). rewrite (Rsum_map_ext _ _ (fun x => e * inner d (fun j => x j - column_mean rows j) (svd r i))) by (intros; apply Ex). rewrite Rsum_scal.
    rewrite <- (inner_sum d _ (fun x j => x j - column_mean rows j) rows). unfold inner. rewrite (Rsum_map_ext _ _ (fun _ => 0)) by (intros j _; rewrite deviations_cancel by exact Hne; ring). rewrite (Geometry.Crossing.Rsum_zero _ (fun _ => 0)) by auto. ring.
  - assert (T : forall i k e f, (i < 3)%nat -> (k < 3)%nat -> (forall x, reduced x i = e * inner d (fun j => x j - column_mean rows j) (svd r i)) -> (forall x, reduced x k = f * inner d (fun j => x j - column_mean rows j) (svd r k)) ->
      Rsum (map (fun x => reduced x i * reduced x k) rows) = e * f * (s k * s k) * delta k i).
    { intros i k e f Hi Hk Ex Fx.
      rewrite (Rsum_map_ext _ _ (fun x => (e * f) * inner d (fun j => (x j - column_mean rows j) * inner d (fun b => x b - column_mean rows b) (svd r k)) (svd r i))).
      2:{ intros x _. rewrite Ex, Fx. rewrite (inner_ext d (fun j => (x j - column_mean rows j) * inner d (fun b => x b - column_mean rows b) (svd r k)) (fun j => inner d (fun b => x b - column_mean rows b) (svd r k) * (x j - column_mean rows j)) (svd r i) (svd r i)) by (intros; ring). rewrite inner_scal. ring. }
      rewrite Rsum_scal. rewrite <- (inner_sum d _ (fun x j => (x j - column_mean rows j) * inner d (fun b => x b - column_mean rows b) (svd r k)) rows).
      rewrite (inner_ext d _ (fun a => s k * s k * svd r k a) (svd r i) (svd r i)); [|intros a Ha|reflexivity].
      - rewrite inner_scal. destruct D as (Ho & _). rewrite Ho by lia. ring.
      - rewrite <- (eigen d (scatter_matrix rows) (svd r) s D k a) by lia. unfold scatter_matrix at 1. rewrite (inner_sum d _ (fun x b => (x a - column_mean rows a) * (x b - column_mean rows b)) rows). apply Rsum_map_ext. intros x _. now rewrite inner_scal. }
    intros i k Hi Hk. destruct (Nat.eqb_spec i k) as [<-|Nk].
    + destruct (S i Hi) as (e & He & Ex). rewrite (T i i e e) by assumption. rewrite He, delta_same. ring.
    + destruct (S i Hi) as (e & _ & Ex). destruct (S k Hk) as (f & _ & Fx). rewrite (T i k e f), delta_other by (assumption || lia). ring.
Qed.
Print Assumptions C84_reduced_uncorrelated.

(** Six rows on two hosts and on one, with separated principal values; the second axis is reported with the sign changed. *)
Definition row3 (x y z : R) (j : nat) : R := match j with 0%nat => x | 1%nat => y | _ => z end.
Definition c84_data (k : nat) : list (nat -> R) := match k with 0%nat => [row3 6 6 3; row3 (-4) 2 4; row3 1 (-2) 2] | _ => [row3 (-6) (-6) (-3); row3 4 (-2) (-4); row3 (-1) 2 (-2)] end.
Definition c84_rows : list (nat -> R) := c84_data 0 ++ c84_data 1.
Definition c84_axes (i : nat) : nat -> R := match i with 0%nat => row3 (2 / 3) (2 / 3) (1 / 3) | 1%nat => row3 (-2 / 3) (1 / 3) (2 / 3) | _ => row3 (1 / 3) (-2 / 3) (2 / 3) end.
Definition c84_values (i : nat) : R := sqrt 2 * match i with 0%nat => 9 | 1%nat => 6 | _ => 3 end.
Lemma c84_means : forall j, column_mean c84_rows j = 0.
Proof. intros j. unfold column_mean, mean. cbn [c84_rows c84_data app map length Rsum fold_right]. destruct j as [|[|j]]; cbn [row3]; lra. Qed.
Lemma c84_scatter : diagonalises 3 (scatter_matrix c84_rows) c84_axes c84_values.
Proof.
  assert (S2 : sqrt 2 * sqrt 2 = 2) by (apply sqrt_sqrt; lra). pose proof (sqrt_pos 2) as P2. unfold diagonalises. ssplit.
  - intros i k Hi Hk. destruct i as [|[|[|i]]]; try lia; destruct k as [|[|[|k]]]; try lia; unfold inner, delta, c84_values; cbn [seq map Rsum fold_right c84_axes row3 Nat.eqb]; lra.
  - intros i k Hi Hk. destruct i as [|[|[|i]]]; try lia; destruct k as [|[|[|k]]]; try lia; unfold inner, delta, c84_values; cbn [seq map Rsum fold_right c84_axes row3 Nat.eqb]; lra.
  - intros i Hi. destruct i as [|[|[|i]]]; try lia; unfold inner, delta, c84_values; cbn [seq map Rsum fold_right c84_axes row3 Nat.eqb]; lra.
  - intros i k Hi Hk. destruct i as [|[|[|i]]]; try lia; destruct k as [|[|[|k]]]; try lia; unfold inner, delta, c84_values; cbn [seq map Rsum fold_right c84_axes row3 Nat.eqb]; lra.
  - intros a b Ha Hb. unfold scatter_matrix. rewrite (Rsum_map_ext _ _ (fun r => r a * r b)) by (intros r _; rewrite !c84_means; ring).
    assert (Q : forall x, sqrt 2 * x * (sqrt 2 * x) = 2 * (x * x)) by (intros x; transitivity ((sqrt 2 * sqrt 2) * (x * x)); [ring|now rewrite S2]).
    destruct a as [|[|[|a]]]; try lia; destruct b as [|[|[|b]]]; try lia; unfold c84_values; rewrite !Q || (cbn [seq map Rsum fold_right]; rewrite !Q); cbn [c84_rows c84_data app map Rsum fold_right seq c84_axes row3]; lra.
Qed.
Example C84_case : exists means r means' r',
  pca_of (fun M => M) c84_rows means r /\ pca_of (fun M => M) c84_rows means' r' /\ length r <> length r' /\
  diagonalises 3 (gram r) c84_axes c84_values /\ separated 3 c84_values /\ (forall i, (i < 3)%nat -> c84_axes i 0%nat <> 0) /\ svd_correct 3 (fun _ => c84_axes) r' /\
  components (fun _ => c84_axes) 3 r = Ok [[2 / 3; 2 / 3; 1 / 3]; [2 / 3; - (1 / 3); - (2 / 3)]; [1 / 3; -2 / 3; 2 / 3]].
Proof.
  assert (P1 : pca_of (fun M => M) c84_rows (host_means (fun _ => c84_rows) ([0%nat], Own 0)) (host_r (fun M => M) (fun _ => c84_rows) ([0%nat], Own 0))).
  { apply (on_hosts _ _ (fun _ => c84_rows) 1 true (run (hosts 1 false true 1) (starts 1 ++ drain 1 4))); [lia|intros k _; discriminate|reflexivity|apply run_early; vm_compute; reflexivity|vm_compute; auto|reflexivity]. }
  assert (P2 : pca_of (fun M => M) c84_rows (host_means c84_data ([0%nat; 1%nat], Combine (Own 0) (Own 1))) (host_r (fun M => M) c84_data ([0%nat; 1%nat], Combine (Own 0) (Own 1)))).
  { apply (on_hosts _ _ c84_data 2 true (run (hosts 2 false true 1) (starts 2 ++ drain 2 8))); [lia|intros [|k] _; discriminate|reflexivity|apply run_early; vm_compute; reflexivity|vm_compute; auto|reflexivity]. }
  assert (Q : forall means r, pca_of (fun M => M) c84_rows means r -> diagonalises 3 (gram r) c84_axes c84_values).
  { intros means r H. apply (diagonalises_ext _ (scatter_matrix c84_rows)); [|exact c84_scatter]. intros i j _ _. symmetry. apply (pca_of_scatter (fun M => M) c84_rows means r); [intros M a b; reflexivity|exact H]. }
  exists (host_means (fun _ => c84_rows) ([0%nat], Own 0)), (host_r (fun M => M) (fun _ => c84_rows) ([0%nat], Own 0)), (host_means c84_data ([0%nat; 1%nat], Combine (Own 0) (Own 1))), (host_r (fun M => M) c84_data ([0%nat; 1%nat], Combine (Own 0) (Own 1))).
  ssplit; [exact P1|exact P2|cbn; lia|exact (Q _ _ P1)| | |exists c84_values; exact (Q _ _ P2)|].
  - intros i k Hi Hk Hd. assert (0 < sqrt 2) by (apply sqrt_lt_R0; lra). destruct i as [|[|[|i]]]; try lia; destruct k as [|[|[|k]]]; try lia; unfold c84_values; cbn [c84_axes row3]; lra.
  - intros i Hi. destruct i as [|[|[|i]]]; try lia; unfold c84_values; cbn [c84_axes row3]; lra.
  - unfold components. cbn [Nat.ltb Nat.leb seq map c84_axes row3]. unfold normalize_row. repeat (destruct (Rge_dec _ 0); try lra). cbn [map]. repeat (f_equal; try lra).
Qed.

(** Without the condition on the first entries the components depend on the library: two correct decompositions of the same factor, different components - a leading zero has no sign. *)
Theorem C84_leading_zero_refuted : exists r svd svd' s, diagonalises 3 (gram r) (svd r) s /\ diagonalises 3 (gram r) (svd' r) s /\ separated 3 s /\ components svd 3 r <> components svd' 3 r.
Proof.
  set (v := fun (_ : list (nat -> R)) i => match i with 0%nat => row3 1 0 0 | 1%nat => row3 0 1 0 | _ => row3 0 0 1 end).
  set (v' := fun (_ : list (nat -> R)) i => match i with 0%nat => row3 1 0 0 | 1%nat => row3 0 (-1) 0 | _ => row3 0 0 1 end).
  exists [row3 3 0 0; row3 0 2 0; row3 0 0 1], v, v', (row3 3 2 1).
  ssplit.
  - unfold diagonalises. ssplit; intros a b; try intros c e; destruct a as [|[|[|a]]]; try lia; try destruct b as [|[|[|b]]]; try lia; unfold inner, delta, gram; cbn [seq map Rsum fold_right v v' row3 Nat.eqb]; try lra.
  - unfold diagonalises. ssplit; intros a b; try intros c e; destruct a as [|[|[|a]]]; try lia; try destruct b as [|[|[|b]]]; try lia; unfold inner, delta, gram; cbn [seq map Rsum fold_right v v' row3 Nat.eqb]; try lra.
  - intros i k Hi Hk Hd. destruct i as [|[|[|i]]]; try lia; destruct k as [|[|[|k]]]; try lia; unfold c84_values; cbn [c84_axes row3]; lra.
  - unfold components. cbn [Nat.ltb Nat.leb seq map v v' row3 normalize_row]. destruct (Rge_dec 1 0); [|lra]. destruct (Rge_dec 0 0); [|lra]. intros E. injection E as E. lra.
Qed.
Print Assumptions C84_leading_zero_refuted.
