(** The clustering over the real numbers. *)
From Coq Require Import List Arith Bool Lia Permutation Sorted Reals Lra.
From Flocq Require Import Core.Raux.
From Verif.Base Require Import Res ListX.
From Verif.Stats Require Import Spec Proofs.
From Verif.Pca Require GramProofs.
From Verif.Kde Require Import Model Spec System PeakProofs SystemProofs Real RealSpec.
Import ListNotations.
Local Open Scope R_scope.

Lemma r_sum_Rsum : forall l, r_sum l = Rsum l.
Proof.
  intros l. unfold r_sum. assert (H : forall l a, fold_left Rplus l a = a + Rsum l).
  { clear. induction l as [|x l IH]; intros a; cbn [fold_left]; [cbn; lra|]. rewrite IH. unfold Rsum. cbn [fold_right]. lra. }
  rewrite H. lra.
Qed.
Lemma smallest_unique : forall xs m m', smallest xs m -> smallest xs m' -> m = m'.
Proof. intros xs m m' (A & B) (A' & B'). apply Rle_antisym; auto. Qed.
Lemma largest_unique : forall xs m m', largest xs m -> largest xs m' -> m = m'.
Proof. intros xs m m' (A & B) (A' & B'). apply Rle_antisym; auto. Qed.
Lemma r_min_ok : forall l, l <> [] -> exists m, r_min l = Ok m /\ smallest l m.
Proof.
  intros [|x l] H; [congruence|]. cbn [r_min]. eexists. split; [reflexivity|]. clear H. revert x. induction l as [|y l IH]; intros x; cbn [fold_left].
  - split; [now left|]. intros z [->|[]]. lra.
  - destruct (IH (Rmin x y)) as (A & B). split.
    + destruct A as [A|A]; [|right; right; exact A]. rewrite <- A. unfold Rmin. destruct (Rle_dec x y); [now left|right; now left].
    + intros z [<-|[<-|Hz]]; [| |apply B; now right]; (eapply Rle_trans; [apply B; now left|]); [apply Rmin_l|apply Rmin_r].
Qed.
Lemma r_max_ok : forall l, l <> [] -> exists m, r_max l = Ok m /\ largest l m.
Proof.
  intros [|x l] H; [congruence|]. cbn [r_max]. eexists. split; [reflexivity|]. clear H. revert x. induction l as [|y l IH]; intros x; cbn [fold_left].
  - split; [now left|]. intros z [->|[]]. lra.
  - destruct (IH (Rmax x y)) as (A & B). split.
    + destruct A as [A|A]; [|right; right; exact A]. rewrite <- A. unfold Rmax. destruct (Rle_dec x y); [right; now left|now left].
    + intros z [<-|[<-|Hz]]; [| |apply B; now right]; (eapply Rle_trans; [|apply B; now left]); [apply Rmax_l|apply Rmax_r].
Qed.
Lemma r_grid_ok : forall xs lo hi, smallest xs lo -> largest xs hi -> r_grid 250 xs = Ok (map (position lo hi) (seq 0 250)).
Proof.
  intros xs lo hi Hlo Hhi. assert (Hne : xs <> []) by (destruct Hlo as (A & _); intros ->; destruct A). unfold r_grid.
  destruct (r_min_ok xs Hne) as (m & -> & Hm). destruct (r_max_ok xs Hne) as (M & -> & HM). cbn [bind]. rewrite (smallest_unique _ _ _ Hm Hlo), (largest_unique _ _ _ HM Hhi).
  unfold r_linspace. apply f_equal, map_ext. intros j. replace (1 <? 250)%nat with true by reflexivity. unfold position. replace (INR (250 - 1)) with 249 by (cbn; lra). field.
Qed.

Definition spread (xs : list R) : Prop := exists x y, In x xs /\ In y xs /\ x <> y.
Lemma spread_length : forall xs, spread xs -> (2 <= length xs)%nat.
Proof. intros [|a [|b xs]] (x & y & Hx & Hy & H); cbn in *; [tauto| |lia]. destruct Hx as [<-|[]], Hy as [<-|[]]. congruence. Qed.
Lemma Rsum_nonneg : forall l, (forall x, In x l -> 0 <= x) -> 0 <= Rsum l.
Proof. intros l; induction l as [|x l IH]; intros H; unfold Rsum; cbn [fold_right]; [lra|]. assert (0 <= Rsum l) by (apply IH; intros; apply H; now right). unfold Rsum in *. pose proof (H x ltac:(now left)). lra. Qed.
Lemma Rsum_pos : forall l x, (forall y, In y l -> 0 <= y) -> In x l -> 0 < x -> 0 < Rsum l.
Proof.
  intros l; induction l as [|a l IH]; intros x H Hx Px; [destruct Hx|]. unfold Rsum. cbn [fold_right]. fold (Rsum l). assert (0 <= Rsum l) by (apply Rsum_nonneg; intros; apply H; now right).
  pose proof (H a ltac:(now left)). destruct Hx as [->|Hx]; [lra|]. assert (0 < Rsum l) by (apply (IH x); auto; intros; apply H; now right). lra.
Qed.
Lemma scatter_pos : forall xs, spread xs -> 0 < scatter xs.
Proof.
  intros xs (x & y & Hx & Hy & H). unfold scatter. set (m := mean xs). assert (E : exists z, In z xs /\ z <> m) by (destruct (Req_dec x m); [exists y; split; congruence|now exists x]). destruct E as (z & Hz & Nz).
  apply (Rsum_pos _ ((z - m) * (z - m))); [intros w Hw; apply in_map_iff in Hw; destruct Hw as (v & <- & _); apply Rle_0_sqr|apply in_map_iff; now exists z|]. apply Rsqr_pos_lt. lra.
Qed.
Lemma r_cov_ok : forall xs, spread xs -> r_cov xs = Ok (sample_std xs * sample_std xs) /\ 0 < sample_std xs.
Proof.
  intros xs H. pose proof (spread_length xs H) as L. pose proof (scatter_pos xs H) as P. assert (Hn : 0 < INR (length xs) - 1) by (apply lt_INR in L; cbn in L; lra).
  assert (Q : 0 < scatter xs / (INR (length xs) - 1)) by (now apply Rdiv_lt_0_compat). split; [|now apply sqrt_lt_R0].
  unfold r_cov. destruct (Nat.ltb_spec (length xs) 2); [lia|]. unfold sample_std. rewrite sqrt_sqrt by lra. rewrite map_map, !r_sum_Rsum. reflexivity.
Qed.
Lemma r_factor_ok : forall n, (1 <= n)%nat -> r_factor n = Rpower (INR n) (-1 / 5).
Proof.
  intros n Hn. assert (0 < INR n) by (apply lt_0_INR; lia). unfold r_factor, r_weight. f_equal; [|cbn; lra]. rewrite r_sum_Rsum.
  assert (E : forall c, Rsum (repeat c n) = INR n * c). { intros c. clear. induction n as [|n IH]; [cbn; lra|]. cbn [repeat]. unfold Rsum in *. cbn [fold_right]. rewrite IH, S_INR. lra. }
  rewrite E. field. lra.
Qed.
Lemma Rpower_pos : forall x y, 0 < Rpower x y.
Proof. intros. apply exp_pos. Qed.
Lemma bandwidth_pos : forall xs, spread xs -> 0 < bandwidth xs.
Proof. intros xs H. unfold bandwidth. apply Rmult_lt_0_compat; [apply (r_cov_ok xs H)|apply Rpower_pos]. Qed.
Lemma whitening_ok : forall xs, spread xs -> exists p, r_precision xs = Ok p /\ r_cholesky p = Ok (1 / bandwidth xs).
Proof.
  intros xs H. pose proof (bandwidth_pos xs H) as B. destruct (r_cov_ok xs H) as (Ec & Ps). pose proof (spread_length xs H) as L. unfold r_precision. rewrite Ec. cbn [bind]. unfold r_inv.
  destruct (Req_EM_T (sample_std xs * sample_std xs) 0) as [Z|_]; [apply Rmult_integral in Z; lra|]. cbn [bind]. rewrite r_factor_ok by lia. eexists. split; [reflexivity|].
  assert (E : 1 / (sample_std xs * sample_std xs) / (Rpower (INR (length xs)) (-1 / 5) * Rpower (INR (length xs)) (-1 / 5)) = (1 / bandwidth xs) * (1 / bandwidth xs)).
  { unfold bandwidth. pose proof (Rpower_pos (INR (length xs)) (-1 / 5)). field. lra. }
  rewrite E. assert (P : 0 < 1 / bandwidth xs) by (apply Rdiv_lt_0_compat; lra). unfold r_cholesky. destruct (Rlt_dec 0 _) as [_|N]; [|exfalso; apply N; now apply Rmult_lt_0_compat]. f_equal. apply sqrt_square. lra.
Qed.
Lemma two_pi_power : Rpower (2 * PI) (INR 1 * -1 / 2) = 1 / sqrt (2 * PI).
Proof. pose proof PI_RGT_0. replace (INR 1 * -1 / 2) with (- / 2) by (cbn; field). rewrite Rpower_Ropp, Rpower_sqrt by lra. field. apply Rgt_not_eq, sqrt_lt_R0. lra. Qed.
Lemma kernel_ok : forall xs g x, spread xs -> let k := r_kernel (length xs) (1 / bandwidth xs) [g] x in
  k = [exp (- ((g - x) / bandwidth xs * ((g - x) / bandwidth xs)) / 2) * (1 / (INR (length xs) * bandwidth xs * sqrt (2 * PI)))].
Proof.
  intros xs g x H. cbv zeta. pose proof (bandwidth_pos xs H). pose proof (spread_length xs H). assert (0 < INR (length xs)) by (apply lt_0_INR; lia). pose proof PI_RGT_0. assert (0 < sqrt (2 * PI)) by (apply sqrt_lt_R0; lra).
  unfold r_kernel. cbn [map]. rewrite two_pi_power. unfold r_weight. f_equal.
  replace (- (0 + (x * (1 / bandwidth xs) - g * (1 / bandwidth xs)) * (x * (1 / bandwidth xs) - g * (1 / bandwidth xs))) / 2) with (- ((g - x) / bandwidth xs * ((g - x) / bandwidth xs)) / 2) by (field; lra). field. lra.
Qed.
Lemma map_nth_seq : forall A B (f : nat -> A -> B) (l : list A) (d : B), map (fun i => match nth_error l i with Some x => f i x | None => d end) (seq 0 (length l)) = map (fun ix => f (fst ix) (snd ix)) (combine (seq 0 (length l)) l).
Proof.
  intros A B f l d. assert (H : forall l k f, map (fun i => match nth_error l (i - k) with Some x => f i x | None => d end) (seq k (length l)) = map (fun ix : nat * A => f (fst ix) (snd ix)) (combine (seq k (length l)) l)).
  { clear. induction l as [|x l IH]; intros k f; [reflexivity|]. cbn [length seq map combine fst snd]. rewrite Nat.sub_diag. cbn [nth_error]. f_equal. rewrite <- IH. apply map_ext_in. intros i Hi. apply in_seq in Hi. now replace (i - k)%nat with (S (i - S k)) by lia. }
  rewrite <- H. apply map_ext. intros i. now rewrite Nat.sub_0_r.
Qed.
Lemma map_snd_combine : forall A B (f : A -> B) (l : list A), map (fun ix : nat * A => f (snd ix)) (combine (seq 0 (length l)) l) = map f l.
Proof. intros A B f l. generalize 0%nat as k. induction l as [|x l IH]; intros k; [reflexivity|]. cbn [length seq combine map snd]. now rewrite IH. Qed.
Lemma density_ok : forall threads xs lo hi, (1 <= threads)%nat -> spread xs -> smallest xs lo -> largest xs hi ->
  sequential_density Rplus (r_parts 250 threads) xs = Ok (map (fun j => kernel_density xs (position lo hi j)) (seq 0 250)).
Proof.
  intros threads xs lo hi Ht H Hlo Hhi. unfold sequential_density, r_parts. rewrite (r_grid_ok xs lo hi Hlo Hhi). cbn [bind]. destruct (whitening_ok xs H) as (p & -> & Ew). cbn [bind]. rewrite Ew. cbn [bind].
  set (grid := map (position lo hi) (seq 0 250)). assert (Lg : length grid = 250%nat) by (unfold grid; now rewrite map_length, seq_length).
  destruct (kde_ranges_ok threads (length xs) Ht) as (rs & Er & _). rewrite Er. cbn [bind].
  set (kernel := fun i => match nth_error xs i with Some x => r_kernel (length xs) (1 / bandwidth xs) grid x | None => repeat 0 250 end).
  destruct (parts_sum 0 Rplus Rplus_comm Rplus_assoc Rplus_0_l kernel 250 threads (length xs) (map (part_estimate 0 Rplus kernel 250) rs) rs Ht) as (e & Ee & Le & He); auto.
  { intros i. unfold kernel. destruct (nth_error xs i); [unfold r_kernel; now rewrite map_length|apply repeat_length]. }
  rewrite Ee. cbn [bind unwrap]. f_equal. apply (nth_ext _ _ 0 0); [now rewrite map_length, seq_length|]. intros j Hj. rewrite Le in Hj. rewrite (He j Hj).
  rewrite (nth_indep _ 0 (kernel_density xs (position lo hi 0))) by (rewrite map_length, seq_length; exact Hj). rewrite (map_nth (fun j => kernel_density xs (position lo hi j))), seq_nth by exact Hj. rewrite Nat.add_0_l.
  unfold pointwise, total || idtac. fold (r_sum (map (fun i => nth j (kernel i) 0) (seq 0 (length xs)))). rewrite r_sum_Rsum.
  transitivity (Rsum (map (fun x => exp (- ((position lo hi j - x) / bandwidth xs * ((position lo hi j - x) / bandwidth xs)) / 2) * (1 / (INR (length xs) * bandwidth xs * sqrt (2 * PI)))) xs)).
  - f_equal. rewrite <- (map_snd_combine _ _ _ xs). rewrite <- (map_nth_seq R R (fun _ x => exp (- ((position lo hi j - x) / bandwidth xs * ((position lo hi j - x) / bandwidth xs)) / 2) * (1 / (INR (length xs) * bandwidth xs * sqrt (2 * PI)))) xs 0). apply map_ext_in. intros i Hi. apply in_seq in Hi. unfold kernel.
    destruct (nth_error xs i) as [x|] eqn:Ei; [|apply nth_error_None in Ei; lia]. pose proof (kernel_ok xs (position lo hi j) x H) as K. cbv zeta in K.
    unfold r_kernel in *. cbn [map] in K. injection K as K. unfold grid. rewrite map_map.
    rewrite (nth_indep _ 0 ((fun g => let residual := x * (1 / bandwidth xs) - g * (1 / bandwidth xs) in let arg := 0 + residual * residual in r_weight (length xs) * (exp (- arg / 2) * (Rpower (2 * PI) (INR 1 * -1 / 2) * (1 / bandwidth xs)))) (position lo hi 0))) by (rewrite map_length, seq_length; exact Hj).
    rewrite (map_nth (fun j => (fun g => _) (position lo hi j))), seq_nth by exact Hj. rewrite Nat.add_0_l. exact K.
  - unfold kernel_density. transitivity (Rsum (map (fun x => 1 / (INR (length xs) * bandwidth xs * sqrt (2 * PI)) * exp (- ((position lo hi j - x) / bandwidth xs * ((position lo hi j - x) / bandwidth xs)) / 2)) xs)); [f_equal; apply map_ext; intros; ring|]. rewrite GramProofs.Rsum_scal. unfold Rdiv. ring.
Qed.

(** ** Peaks and centres *)
Lemma r_gt_true : forall x y, r_gt x y = true <-> y < x.
Proof. intros x y. unfold r_gt. destruct (Rlt_dec y x); split; intros; auto; try discriminate; lra. Qed.
Lemma r_gt_irr : forall x, r_gt x x = false.
Proof. intros x. unfold r_gt. destruct (Rlt_dec x x); [lra|reflexivity]. Qed.
Lemma nth_error_map_seq : forall A (f : nat -> A) n j, (j < n)%nat -> nth_error (map f (seq 0 n)) j = Some (f j).
Proof. intros A f n j Hj. rewrite nth_error_map, nth_error_seq by exact Hj. reflexivity. Qed.
Lemma is_peak_iff : forall (f : nat -> R) n i, is_peak r_gt 1 (map f (seq 0 n)) i <-> exists j, i = S j /\ (j + 2 < n)%nat /\ f j < f (S j) /\ f (S (S j)) < f (S j).
Proof.
  intros f n i. unfold is_peak. rewrite map_length, seq_length. split.
  - intros (H0 & H1 & x & Ex & H). destruct i as [|j]; [lia|]. exists j. rewrite nth_error_map_seq in Ex by lia. injection Ex as <-. ssplit; [reflexivity|lia| |].
    + apply r_gt_true. apply (H j); [apply nth_error_map_seq; lia|lia|lia|lia].
    + apply r_gt_true. apply (H (S (S j))); [apply nth_error_map_seq; lia|lia|lia|lia].
  - intros (j & -> & Hj & A & B). ssplit; [lia|lia|]. exists (f (S j)). split; [apply nth_error_map_seq; lia|]. intros k y Ek N1 N2 N3. assert (k < n)%nat by (rewrite <- (seq_length n 0), <- (map_length f); apply nth_error_Some; congruence).
    rewrite nth_error_map_seq in Ek by assumption. injection Ek as <-. apply r_gt_true. assert (k = j \/ k = S (S j)) as [->| ->] by lia; assumption.
Qed.
Lemma peak_values_ok : forall xs lo hi, smallest xs lo -> largest xs hi ->
  exists is, find_peak_values r_gt 1 (map (fun j => kernel_density xs (position lo hi j)) (seq 0 250)) (map (position lo hi) (seq 0 250)) = Ok (map (position lo hi) is) /\
    StronglySorted lt is /\ forall g, In g (map (position lo hi) is) <-> density_peak xs g.
Proof.
  intros xs lo hi Hlo Hhi. destruct (peaks r_gt r_gt_irr 1 (map (fun j => kernel_density xs (position lo hi j)) (seq 0 250))) as (is & E & So & H); [rewrite map_length, seq_length; lia|].
  exists is. unfold find_peak_values. rewrite E. cbn [bind]. ssplit; auto.
  - apply mapM_ok. assert (B : forall i, In i is -> (i < 250)%nat) by (intros i Hi; apply H in Hi; destruct Hi as (_ & Hi & _); rewrite map_length, seq_length in Hi; lia).
    clear -B. induction is as [|i is IH]; cbn [map]; constructor; [|apply IH; intros; apply B; now right]. unfold at_index. now rewrite nth_error_map_seq by (apply B; now left).
  - intros g. rewrite in_map_iff. split.
    + intros (i & <- & Hi). apply H in Hi. apply is_peak_iff in Hi. destruct Hi as (j & -> & Hj & A & B). exists lo, hi, j. now ssplit.
    + intros (lo' & hi' & j & Hlo' & Hhi' & Hj & -> & A & B). rewrite (smallest_unique _ _ _ Hlo' Hlo), (largest_unique _ _ _ Hhi' Hhi) in *. exists (S j). split; [reflexivity|]. apply H, is_peak_iff. exists j. now ssplit.
Qed.
Lemma position_lt : forall lo hi i j, lo < hi -> (i < j)%nat -> position lo hi i < position lo hi j.
Proof. intros lo hi i j H Hij. unfold position. apply lt_INR in Hij. apply Rplus_lt_compat_l, Rmult_lt_compat_r; [lra|exact Hij]. Qed.
Lemma extremes_lt : forall xs lo hi, spread xs -> smallest xs lo -> largest xs hi -> lo < hi.
Proof.
  intros xs lo hi (x & y & Hx & Hy & H) (_ & A) (_ & B). pose proof (A x Hx). pose proof (A y Hy). pose proof (B x Hx). pose proof (B y Hy). destruct (Rdichotomy x y H); lra.
Qed.
Lemma centres_ok : forall threads xs lo hi, (1 <= threads)%nat -> spread xs -> smallest xs lo -> largest xs hi ->
  exists cs, (let! e := sequential_density Rplus (r_parts 250 threads) xs in column_centers r_gt r_cmp r_dist 0 (r_grid 250) 1 xs e) = Ok cs /\ Forall2 (centre xs) xs cs.
Proof.
  intros threads xs lo hi Ht H Hlo Hhi. rewrite (density_ok threads xs lo hi Ht H Hlo Hhi). cbn [bind]. unfold column_centers. rewrite (r_grid_ok xs lo hi Hlo Hhi). cbn [bind].
  destruct (peak_values_ok xs lo hi Hlo Hhi) as (is & -> & So & P). cbn [bind]. pose proof (extremes_lt xs lo hi H Hlo Hhi) as Hlt. set (ps := map (position lo hi) is) in *. destruct ps as [|p0 ps'] eqn:Eps.
  - exists (repeat 0 (length xs)). split; [reflexivity|]. assert (N : forall g, ~ density_peak xs g) by (intros g Hg; now apply P in Hg).
    assert (F : forall l, Forall2 (centre xs) l (repeat 0 (length l))); [|apply F]. induction l; constructor; auto. right. auto.
  - rewrite <- Eps in *. assert (Hne : ps <> []) by congruence. clear Eps p0 ps'. unfold assign_closest.
    destruct (mapM_total _ _ (closest_peak r_cmp r_dist ps) (centre xs) xs) as (cs & E & F); [|exists cs; auto].
    intros x _. destruct (closest_ok r_cmp r_dist (fun y => y) ps x Hne (fun p q _ _ => eq_refl)) as (c & j & E & Ej & A & B). exists c. split; [exact E|]. left. split; [apply P; eapply nth_error_In; exact Ej|].
    intros g Hg. apply P in Hg. pose proof (A g Hg) as L. unfold r_dist in *. destruct (Rle_lt_or_eq_dec _ _ L) as [L'|L']; [now left|]. right. split; [exact L'|]. apply In_nth_error in Hg. destruct Hg as (m & Em).
    destruct (Nat.lt_ge_cases m j) as [Hm|Hm]; [specialize (B m g Hm Em); lra|]. unfold ps in Ej, Em. rewrite nth_error_map in Ej, Em. destruct (nth_error is j) as [ij|] eqn:Eij; [|discriminate]. destruct (nth_error is m) as [im|] eqn:Eim; [|discriminate].
    injection Ej as <-. injection Em as <-. destruct (Nat.eq_dec j m) as [->|Nm]; [rewrite Eij in Eim; injection Eim as <-; lra|]. left. apply position_lt; [exact Hlt|].
    clear -So Eij Eim Hm Nm. assert (Hjm : (j < m)%nat) by lia. clear Hm Nm. revert j m Eij Eim Hjm. induction So as [|a l So IH F]; intros [|j] [|m] Ej Em H; try discriminate; try lia.
    + cbn in Ej, Em. injection Ej as <-. rewrite Forall_forall in F. apply F. eapply nth_error_In; exact Em.
    + cbn in Ej, Em. apply (IH j m); auto. lia.
Qed.
Lemma centre_unique : forall xs x c c', centre xs x c -> centre xs x c' -> c = c'.
Proof.
  intros xs x c c' [(P & H)|(N & ->)] [(P' & H')|(N' & ->)]; try reflexivity; [|now apply N' in P|now apply N in P'].
  destruct (H c' P') as [A|(A & A')], (H' c P) as [B|(B & B')]; lra.
Qed.

(** ** Labels *)
Lemma r_eq_true : forall x y, r_eq x y = true <-> x = y.
Proof. intros x y. unfold r_eq. destruct (Req_EM_T x y); split; intros; auto; discriminate. Qed.
Lemma r_center_eq : forall a b, center_eqb r_eq a b = true <-> a = b.
Proof.
  intros a; induction a as [|x a IH]; intros [|y b]; cbn [center_eqb]; split; intros H; auto; try discriminate.
  - apply andb_prop in H. destruct H as (A & B). apply r_eq_true in A. apply IH in B. now subst.
  - injection H as -> ->. apply andb_true_intro. split; [now apply r_eq_true|now apply IH].
Qed.
Lemma rows_of_columns : forall d rows, Forall (fun r => length r = d) rows -> rows_of d rows = map (fun k => column k rows) (seq 0 d).
Proof.
  intros d rows H. unfold rows_of. apply map_ext_in. intros k Hk. apply in_seq in Hk. unfold column. induction H as [|r rows Hr H IH]; [reflexivity|]. cbn [flat_map map].
  rewrite (nth_error_nth' r 0) by lia. cbn [app]. now f_equal.
Qed.
Lemma stack_ok : forall d rows, rows <> [] -> Forall (fun r => length r = d) rows -> stack_columns rows = Ok (map (fun k => column k rows) (seq 0 d)).
Proof.
  intros d rows Hne H. destruct rows as [|r rows]; [congruence|]. unfold stack_columns. assert (Hr : length r = d) by (now inversion H). rewrite Hr.
  replace (forallb _ (r :: rows)) with true; [now rewrite (rows_of_columns d) by exact H|]. symmetry. apply forallb_forall. intros x Hx. rewrite Forall_forall in H. rewrite (H x Hx). apply Nat.eqb_refl.
Qed.
Lemma Forall2_nth : forall A B (P : A -> B -> Prop) l l', Forall2 P l l' -> length l = length l' /\ forall i a b, nth_error l i = Some a -> nth_error l' i = Some b -> P a b.
Proof. intros A B P l l' H; induction H as [|a b l l' Hab H (L & IH)]; cbn; split; auto; intros [|i] x y Hx Hy; try discriminate; cbn in *; [congruence|eauto]. Qed.
Lemma column_spread : forall d rows k, spread_rows d rows -> (k < d)%nat -> spread (column k rows).
Proof. intros d rows k (_ & _ & _ & H) Hk. now apply H. Qed.

(** The matrix of centres: row [i], column [k]. *)
Lemma matrix_ok : forall threads d rows, (1 <= threads)%nat -> spread_rows d rows ->
  exists cs, mapM (fun c => let! e := sequential_density Rplus (r_parts 250 threads) c in column_centers r_gt r_cmp r_dist 0 (r_grid 250) 1 c e) (map (fun k => column k rows) (seq 0 d)) = Ok cs /\
    length cs = d /\ forall k c, nth_error cs k = Some c -> Forall2 (centre (column k rows)) (column k rows) c.
Proof.
  intros threads d rows Ht H. assert (G : forall m k, (k + m <= d)%nat -> exists cs, mapM (fun c => let! e := sequential_density Rplus (r_parts 250 threads) c in column_centers r_gt r_cmp r_dist 0 (r_grid 250) 1 c e) (map (fun k => column k rows) (seq k m)) = Ok cs /\
    length cs = m /\ forall j c, nth_error cs j = Some c -> Forall2 (centre (column (k + j) rows)) (column (k + j) rows) c).
  { induction m as [|m IH]; intros k Hk; cbn [seq map mapM]; [exists []; ssplit; auto; intros [|j] c Hc; discriminate|].
    pose proof (column_spread d rows k H ltac:(lia)) as Sk. assert (Hne : column k rows <> []) by (intros Z; pose proof (spread_length _ Sk) as L; rewrite Z in L; cbn in L; lia).
    destruct (r_min_ok _ Hne) as (lo & _ & Hlo). destruct (r_max_ok _ Hne) as (hi & _ & Hhi). destruct (centres_ok threads (column k rows) lo hi Ht Sk Hlo Hhi) as (c & E & F). destruct (IH (S k) ltac:(lia)) as (cs & E' & L & F').
    rewrite E. cbn [bind]. rewrite E'. cbn [bind]. exists (c :: cs). ssplit; [reflexivity|cbn; lia|]. intros [|j] c' Hc; cbn in Hc; [injection Hc as <-; now rewrite Nat.add_0_r|]. rewrite Nat.add_succ_r. now apply (F' j). }
  apply (G d 0%nat). lia.
Qed.
Lemma rows_of_length : forall n (cs : list (list R)), length (rows_of n cs) = n.
Proof. intros. unfold rows_of. now rewrite map_length, seq_length. Qed.
Lemma nth_column : forall k rows i r, nth_error rows i = Some r -> nth_error (column k rows) i = Some (nth k r 0).
Proof. intros k rows i r H. unfold column. now rewrite nth_error_map, H. Qed.
(** Row [i] of the centres has the centre of every entry of row [i]. *)
Lemma centre_rows : forall d rows cs, length cs = d -> (forall k c, nth_error cs k = Some c -> Forall2 (centre (column k rows)) (column k rows) c) ->
  forall i r, nth_error rows i = Some r -> exists c, nth_error (rows_of (length rows) cs) i = Some c /\ length c = d /\ forall k, (k < d)%nat -> centre (column k rows) (nth k r 0) (nth k c 0).
Proof.
  intros d rows cs L F i r Hr. assert (Hi : (i < length rows)%nat) by (apply nth_error_Some; congruence). unfold rows_of. rewrite nth_error_map_seq by exact Hi. eexists. split; [reflexivity|].
  assert (F' : Forall (fun c => length c = length rows) cs).
  { apply Forall_forall. intros c Hc. apply In_nth_error in Hc. destruct Hc as (k & Hk). destruct (Forall2_nth _ _ _ _ _ (F k c Hk)) as (Lc & _). rewrite <- Lc. unfold column. now rewrite map_length. }
  assert (E : flat_map (fun c : list R => match nth_error c i with Some x => [x] | None => [] end) cs = map (fun c => nth i c 0) cs).
  { clear -F' Hi. induction F' as [|c cs Hc F' IH]; [reflexivity|]. cbn [flat_map map]. rewrite (nth_error_nth' c 0) by lia. cbn [app]. now f_equal. }
  rewrite E. split; [now rewrite map_length|]. intros k Hk. destruct (nth_error cs k) as [c|] eqn:Ek; [|apply nth_error_None in Ek; lia].
  destruct (Forall2_nth _ _ _ _ _ (F k c Ek)) as (Lc & Hc). rewrite (nth_error_nth (map (fun c => nth i c 0) cs) k 0 (x := nth i c 0)) by (now rewrite nth_error_map, Ek). apply (Hc i); [now apply nth_column|].
  apply nth_error_nth'. rewrite <- Lc. unfold column. now rewrite map_length.
Qed.
Theorem cluster_ok : forall threads d rows, (1 <= threads)%nat -> spread_rows d rows ->
  exists labels, r_cluster threads rows = Ok labels /\ length labels = length rows /\ numbered_by_appearance labels /\
    forall i j r r' l l', nth_error rows i = Some r -> nth_error rows j = Some r' -> nth_error labels i = Some l -> nth_error labels j = Some l' -> (l = l' <-> same_centres d rows r r').
Proof.
  intros threads d rows Ht H. pose proof H as (Hd & H2 & Hl & _). assert (Hne : rows <> []) by (intros ->; cbn in H2; lia). unfold r_cluster. rewrite (stack_ok d rows Hne Hl). cbn [bind]. unfold r_sequential, sequential.
  destruct (matrix_ok threads d rows Ht H) as (cs & -> & L & F). cbn [bind]. assert (Lc : forall k c, nth_error cs k = Some c -> length c = length rows) by (intros k c Hk; destruct (Forall2_nth _ _ _ _ _ (F k c Hk)) as (E & _); rewrite <- E; unfold column; now rewrite map_length).
  assert (E : finish r_eq (fun _ => true) cs = extract_labels r_eq (fun _ => true) (rows_of (length rows) cs)).
  { unfold finish. destruct cs as [|c cs'] eqn:Ec; [cbn in L; lia|]. rewrite (Lc 0%nat c eq_refl). rewrite <- Ec in *. replace (forallb _ cs) with true; [reflexivity|]. symmetry. apply forallb_forall. intros x Hx. apply In_nth_error in Hx. destruct Hx as (k & Hk). rewrite (Lc k x Hk). apply Nat.eqb_refl. }
  rewrite E. destruct (labels_ok r_eq (fun _ => true) (fun _ => True) (fun x _ => proj2 (r_eq_true x x) eq_refl) ltac:(intros x y Hxy; apply r_eq_true in Hxy; subst; now apply r_eq_true) (rows_of (length rows) cs)) as (labels & reps & -> & LL & H1 & H2' & H3).
  - intros Z. pose proof (rows_of_length (length rows) cs) as Y. rewrite Z in Y. cbn in Y. lia.
  - apply Forall_forall. intros c _. apply Forall_forall. auto.
  - apply Forall_forall. intros c _. apply forallb_forall. auto.
  - cbn [bind]. exists labels. rewrite rows_of_length in LL. ssplit; auto.
    { intros i l m Hi Hm. destruct (nth_error (rows_of (length rows) cs) i) as [c|] eqn:Ec; [|apply nth_error_None in Ec; rewrite rows_of_length in Ec; assert (i < length labels)%nat by (apply nth_error_Some; congruence); lia].
      destruct (H1 _ _ _ Ec Hi) as (q & Eq & _). assert (Hl' : (m < length reps)%nat) by (assert (l < length reps)%nat by (apply nth_error_Some; congruence); lia). destruct (nth_error reps m) as [q'|] eqn:Eq'; [|apply nth_error_None in Eq'; lia].
      destruct (H2' _ _ Eq') as (j & _ & Ej & Hj). exists j. split; [|exact Ej]. destruct (Nat.lt_trichotomy j i) as [A|[->|A]]; [exact A| |]; [rewrite Hi in Ej; injection Ej as ->; lia|]. specialize (Hj i l A Hi). lia. }
    intros i j r r' l l' Hi Hj Hli Hlj.
    destruct (centre_rows d rows cs L F i r Hi) as (c & Ec & Lci & Cc). destruct (centre_rows d rows cs L F j r' Hj) as (c' & Ec' & Lcj & Cc').
    destruct (H1 _ _ _ Ec Hli) as (q & Eq & Hq). destruct (H1 _ _ _ Ec' Hlj) as (q' & Eq' & Hq'). apply r_center_eq in Hq, Hq'. subst q q'. split.
    + intros <-. rewrite Eq in Eq'. injection Eq' as <-. intros k Hk. exists (nth k c 0). auto.
    + intros Hs. apply (H3 _ _ _ _ Eq Eq'). apply r_center_eq. apply (nth_ext _ _ 0 0); [congruence|]. intros k Hk. rewrite Lci in Hk. destruct (Hs k Hk) as (z & Z1 & Z2).
      rewrite (centre_unique _ _ _ _ (Cc k Hk) Z1). exact (centre_unique _ _ _ _ Z2 (Cc' k Hk)).
Qed.

Lemma numbering_unique : forall labels labels', length labels = length labels' -> numbered_by_appearance labels -> numbered_by_appearance labels' ->
  (forall i j a b a' b', nth_error labels i = Some a -> nth_error labels j = Some b -> nth_error labels' i = Some a' -> nth_error labels' j = Some b' -> (a = b <-> a' = b')) -> labels = labels'.
Proof.
  intros labels labels' L N N' H. apply nth_error_ext. intros i. induction i as [i IH] using lt_wf_ind. destruct (Nat.lt_ge_cases i (length labels)) as [Hi|Hi]; [|rewrite !(proj2 (nth_error_None _ _)) by lia; reflexivity].
  destruct (nth_error labels i) as [a|] eqn:Ea; [|apply nth_error_None in Ea; lia]. destruct (nth_error labels' i) as [a'|] eqn:Ea'; [|apply nth_error_None in Ea'; lia].
  destruct (Nat.lt_trichotomy a a') as [A|[->|A]]; [|reflexivity|].
  - destruct (N' i a' a Ea' A) as (j & Hj & Ej). pose proof (IH j Hj) as E. rewrite Ej in E. pose proof (proj1 (H j i a a a a' E Ea Ej Ea') eq_refl). congruence.
  - destruct (N i a a' Ea A) as (j & Hj & Ej). pose proof (IH j Hj) as E. rewrite Ej in E. symmetry in E. pose proof (proj2 (H j i a' a a' a' Ej Ea E Ea') eq_refl). congruence.
Qed.

(** ** The order of the rows *)
Lemma extremes_perm : forall xs ys, Permutation xs ys -> (forall m, smallest xs m -> smallest ys m) /\ (forall m, largest xs m -> largest ys m).
Proof. intros xs ys P. split; intros m (A & B); (split; [now apply (Permutation_in _ P)|]); intros x Hx; apply B; now apply (Permutation_in _ (Permutation_sym P)). Qed.
Lemma bandwidth_perm : forall xs ys, Permutation xs ys -> bandwidth xs = bandwidth ys.
Proof.
  intros xs ys P. unfold bandwidth, sample_std, scatter. rewrite (Permutation_length P). assert (E : mean xs = mean ys) by (unfold mean; now rewrite (GramProofs.Rsum_perm _ _ P), (Permutation_length P)).
  rewrite E. now rewrite (GramProofs.Rsum_perm _ _ (Permutation_map (fun x => (x - mean ys) * (x - mean ys)) P)).
Qed.
Lemma density_perm : forall xs ys x, Permutation xs ys -> kernel_density xs x = kernel_density ys x.
Proof. intros xs ys x P. unfold kernel_density. rewrite (bandwidth_perm _ _ P), (Permutation_length P). now rewrite (GramProofs.Rsum_perm _ _ (Permutation_map (fun xi => exp (- ((x - xi) / bandwidth ys * ((x - xi) / bandwidth ys)) / 2)) P)). Qed.
Lemma peak_perm : forall xs ys g, Permutation xs ys -> density_peak xs g -> density_peak ys g.
Proof.
  intros xs ys g P (lo & hi & j & A & B & Hj & E & C & D). destruct (extremes_perm _ _ P) as (S & L). exists lo, hi, j. ssplit; auto; now rewrite <- !(density_perm xs ys _ P).
Qed.
Lemma centre_perm : forall xs ys x c, Permutation xs ys -> centre xs x c -> centre ys x c.
Proof.
  intros xs ys x c P [(A & B)|(A & B)]; [left|right].
  - split; [now apply (peak_perm xs)|]. intros g Hg. apply B. apply (peak_perm ys); [now symmetry|exact Hg].
  - split; [|exact B]. intros g Hg. apply (A g). apply (peak_perm ys); [now symmetry|exact Hg].
Qed.
Lemma same_centres_perm : forall d rows rows' r r', Permutation rows rows' -> same_centres d rows r r' -> same_centres d rows' r r'.
Proof. intros d rows rows' r r' P H k Hk. destruct (H k Hk) as (c & A & B). assert (Q : Permutation (column k rows) (column k rows')) by (now apply Permutation_map). exists c. split; now apply (centre_perm (column k rows)). Qed.
Lemma spread_perm : forall d rows rows', Permutation rows rows' -> spread_rows d rows -> spread_rows d rows'.
Proof.
  intros d rows rows' P (A & B & C & D). unfold spread_rows. ssplit; auto; [now rewrite <- (Permutation_length P)| |].
  - rewrite Forall_forall in *. intros r Hr. apply C. now apply (Permutation_in _ (Permutation_sym P)).
  - intros k Hk. destruct (D k Hk) as (x & y & Hx & Hy & N). assert (Q : Permutation (column k rows) (column k rows')) by (now apply Permutation_map). exists x, y. ssplit; auto; now apply (Permutation_in _ Q).
Qed.

(** ** The units *)
Section Units.
Context (a b : R) (Ha : 0 < a).
Let phi (x : R) : R := a * x + b.
Lemma Rsum_units : forall xs, xs <> [] -> mean (map phi xs) = phi (mean xs).
Proof.
  intros xs H. unfold mean. rewrite map_length. assert (E : Rsum (map phi xs) = a * Rsum xs + INR (length xs) * b).
  { unfold phi. rewrite (GramProofs.Rsum_plus _ (fun x => a * x) (fun _ => b)), GramProofs.Rsum_scal, GramProofs.Rsum_const, map_id. reflexivity. }
  rewrite E. unfold phi. field. apply not_0_INR. destruct xs; cbn; congruence || lia.
Qed.
Lemma std_units : forall xs, spread xs -> sample_std (map phi xs) = a * sample_std xs.
Proof.
  intros xs H. pose proof (spread_length xs H) as L. unfold sample_std, scatter. rewrite Rsum_units by (intros ->; cbn in L; lia). rewrite map_length, map_map.
  replace (map (fun x => (phi x - phi (mean xs)) * (phi x - phi (mean xs))) xs) with (map (fun x => a * a * ((x - mean xs) * (x - mean xs))) xs) by (apply map_ext; intros; unfold phi; ring).
  rewrite GramProofs.Rsum_scal. unfold Rdiv. rewrite Rmult_assoc, sqrt_mult_alt by (apply Rle_0_sqr). rewrite sqrt_square by lra. reflexivity.
Qed.
Lemma bandwidth_units : forall xs, spread xs -> bandwidth (map phi xs) = a * bandwidth xs.
Proof. intros xs H. unfold bandwidth. rewrite (std_units xs H), map_length. ring. Qed.
Lemma density_units : forall xs x, spread xs -> kernel_density (map phi xs) (phi x) = kernel_density xs x / a.
Proof.
  intros xs x H. unfold kernel_density. rewrite (bandwidth_units xs H), map_length, map_map. pose proof (bandwidth_pos xs H) as B. pose proof (spread_length xs H). assert (0 < INR (length xs)) by (apply lt_0_INR; lia).
  assert (0 < sqrt (2 * PI)) by (apply sqrt_lt_R0; pose proof PI_RGT_0; lra).
  replace (map (fun xi => exp (- ((phi x - phi xi) / (a * bandwidth xs) * ((phi x - phi xi) / (a * bandwidth xs))) / 2)) xs) with (map (fun xi => exp (- ((x - xi) / bandwidth xs * ((x - xi) / bandwidth xs)) / 2)) xs); [field; lra|].
  apply map_ext. intros xi. replace ((phi x - phi xi) / (a * bandwidth xs)) with ((x - xi) / bandwidth xs) by (unfold phi; field; lra). reflexivity.
Qed.
Lemma extremes_units : forall xs, (forall m, smallest xs m -> smallest (map phi xs) (phi m)) /\ (forall m, largest xs m -> largest (map phi xs) (phi m)).
Proof.
  intros xs. split; intros m (A & B); (split; [now apply in_map|]); intros y Hy; apply in_map_iff in Hy; destruct Hy as (x & <- & Hx); unfold phi; apply Rplus_le_compat_r, Rmult_le_compat_l; auto; lra.
Qed.
Lemma position_units : forall lo hi j, position (phi lo) (phi hi) j = phi (position lo hi j).
Proof. intros. unfold position, phi. field. Qed.
Lemma phi_inj : forall x y, phi x = phi y -> x = y.
Proof. intros x y H. unfold phi in H. apply (Rmult_eq_reg_l a); lra. Qed.
Lemma peak_units : forall xs g, spread xs -> density_peak xs g -> density_peak (map phi xs) (phi g).
Proof.
  intros xs g H (lo & hi & j & A & B & Hj & E & C & D). destruct (extremes_units xs) as (S & L). exists (phi lo), (phi hi), j. ssplit; auto; [now rewrite position_units, E| |]; rewrite position_units, !density_units by exact H; apply Rmult_lt_compat_r; auto; apply Rinv_0_lt_compat; exact Ha.
Qed.
Lemma peak_units_inv : forall xs y, spread xs -> density_peak (map phi xs) y -> exists g, y = phi g /\ density_peak xs g.
Proof.
  intros xs y H (lo' & hi' & j & A & B & Hj & E & C & D). destruct (extremes_units xs) as (Sm & La).
  assert (Hne : xs <> []) by (intros ->; destruct A as (A & _); destruct A). destruct (r_min_ok xs Hne) as (lo & _ & Hlo). destruct (r_max_ok xs Hne) as (hi & _ & Hhi).
  rewrite (smallest_unique _ _ _ A (Sm lo Hlo)), (largest_unique _ _ _ B (La hi Hhi)) in *. rewrite !position_units in *. exists (position lo hi (S j)). split; [exact E|]. rewrite E in C, D. rewrite !density_units in C, D by exact H.
  exists lo, hi, j. ssplit; auto; apply (Rmult_lt_reg_r (/ a)); auto; now apply Rinv_0_lt_compat.
Qed.
Lemma centre_units : forall xs x c, spread xs -> density_peak xs c -> centre xs x c -> centre (map phi xs) (phi x) (phi c).
Proof.
  intros xs x c H P [(_ & N)|(N & _)]; [|now apply N in P].
  left. split; [now apply peak_units|]. intros y Hy. apply peak_units_inv in Hy; [|exact H]. destruct Hy as (g & -> & Hg).
  assert (E : forall u v, Rabs (phi u - phi v) = a * Rabs (u - v)) by (intros; unfold phi; replace (a * u + b - (a * v + b)) with (a * (u - v)) by ring; rewrite Rabs_mult, (Rabs_pos_eq a) by lra; reflexivity).
  rewrite !E. destruct (N g Hg) as [L|(L & L')]; [left; now apply Rmult_lt_compat_l|right]. split; [now rewrite L|]. unfold phi. apply Rplus_le_compat_r, Rmult_le_compat_l; lra.
Qed.
Lemma no_centre_units : forall xs y, spread xs -> (forall g, ~ density_peak xs g) -> centre (map phi xs) y 0.
Proof. intros xs y H N. right. split; [|reflexivity]. intros z Hz. apply peak_units_inv in Hz; [|exact H]. destruct Hz as (g & _ & Hg). exact (N g Hg). Qed.
Lemma centre_exists : forall xs x, spread xs -> In x xs -> exists c, centre xs x c.
Proof.
  intros xs x H Hx. assert (Hne : xs <> []) by (intros ->; destruct Hx). destruct (r_min_ok xs Hne) as (lo & _ & Hlo). destruct (r_max_ok xs Hne) as (hi & _ & Hhi).
  destruct (centres_ok 1 xs lo hi (le_n 1) H Hlo Hhi) as (cs & _ & F). apply In_nth_error in Hx. destruct Hx as (i & Hi). destruct (Forall2_nth _ _ _ _ _ F) as (L & G). destruct (nth_error cs i) as [c|] eqn:Ec; [exists c; now apply (G i)|].
  apply nth_error_None in Ec. assert (i < length xs)%nat by (apply nth_error_Some; congruence). lia.
Qed.
Lemma same_centre_units : forall xs x y, spread xs -> In x xs -> In y xs -> (exists c, centre xs x c /\ centre xs y c) <-> (exists c, centre (map phi xs) (phi x) c /\ centre (map phi xs) (phi y) c).
Proof.
  intros xs x y H Hx Hy. destruct (centre_exists xs x H Hx) as (cx & Cx), (centre_exists xs y H Hy) as (cy & Cy).
  assert (D : (density_peak xs cx /\ density_peak xs cy) \/ forall g, ~ density_peak xs g).
  { destruct Cx as [(P & _)|(N & _)]; [|now right]. destruct Cy as [(P' & _)|(N & _)]; [now left|now right]. }
  destruct D as [(Px & Py)|N].
  - pose proof (centre_units xs x cx H Px Cx) as Ux. pose proof (centre_units xs y cy H Py Cy) as Uy. split.
    + intros (c & A & B). assert (E : cx = cy) by (rewrite <- (centre_unique _ _ _ _ A Cx); exact (centre_unique _ _ _ _ B Cy)). exists (phi cx). split; [exact Ux|now rewrite E].
    + intros (c & A & B). assert (E : cx = cy) by (apply phi_inj; rewrite <- (centre_unique _ _ _ _ A Ux); exact (centre_unique _ _ _ _ B Uy)). exists cx. split; [exact Cx|now rewrite E].
  - split; intros _; exists 0; split; try (now apply no_centre_units); right; auto.
Qed.
End Units.

Lemma converted_column : forall d a b rows rows' k, converted d a b rows rows' -> (k < d)%nat -> column k rows' = map (fun x => a k * x + b k) (column k rows).
Proof. intros d a b rows rows' k H Hk. unfold column. rewrite map_map. induction H as [|r r' rows rows' (L & E) H IH]; [reflexivity|]. cbn [map]. f_equal; auto. Qed.
Lemma converted_spread : forall d a b rows rows', (forall k, (k < d)%nat -> 0 < a k) -> converted d a b rows rows' -> spread_rows d rows -> spread_rows d rows'.
Proof.
  intros d a b rows rows' Ha H (A & B & C & D). assert (L : length rows = length rows') by (clear -H; induction H; cbn; lia). unfold spread_rows. ssplit; [exact A|lia| |].
  - clear -H. induction H as [|r r' rows rows' (L & _) H IH]; constructor; auto.
  - intros k Hk. destruct (D k Hk) as (x & y & Hx & Hy & N). rewrite (converted_column d a b rows rows' k H Hk). exists (a k * x + b k), (a k * y + b k). ssplit; [now apply (in_map (fun x => a k * x + b k))|now apply (in_map (fun x => a k * x + b k))|].
    intros E. apply N. apply (Rmult_eq_reg_l (a k)); [lra|]. pose proof (Ha k Hk). lra.
Qed.
Lemma column_in : forall k rows r, In r rows -> In (nth k r 0) (column k rows).
Proof. intros k rows r H. unfold column. apply in_map_iff. now exists r. Qed.
Lemma converted_centres : forall d a b rows rows' i j r s r' s', (forall k, (k < d)%nat -> 0 < a k) -> converted d a b rows rows' -> spread_rows d rows ->
  nth_error rows i = Some r -> nth_error rows j = Some s -> nth_error rows' i = Some r' -> nth_error rows' j = Some s' -> (same_centres d rows r s <-> same_centres d rows' r' s').
Proof.
  intros d a b rows rows' i j r s r' s' Ha H Sp Er Es Er' Es'. destruct (Forall2_nth _ _ _ _ _ H) as (_ & F). destruct (F i r r' Er Er') as (_ & Gr). destruct (F j s s' Es Es') as (_ & Gs).
  assert (K : forall k, (k < d)%nat -> (exists c, centre (column k rows) (nth k r 0) c /\ centre (column k rows) (nth k s 0) c) <-> (exists c, centre (column k rows') (nth k r' 0) c /\ centre (column k rows') (nth k s' 0) c)).
  { intros k Hk. rewrite (converted_column d a b rows rows' k H Hk), (Gr k Hk), (Gs k Hk). apply (same_centre_units (a k) (b k) (Ha k Hk)); [now apply (column_spread d)| |]; apply column_in; eapply nth_error_In; eassumption. }
  split; intros X k Hk; apply K; auto.
Qed.

(** A constant column has no covariance to invert. *)
Lemma constant_column : forall threads xs x, (2 <= length xs)%nat -> (forall y, In y xs -> y = x) -> sequential_density Rplus (r_parts 250 threads) xs = Panic UnwrapNone.
Proof.
  intros threads xs x L H. assert (Hne : xs <> []) by (intros ->; cbn in L; lia). unfold sequential_density, r_parts, r_grid. destruct (r_min_ok xs Hne) as (m & -> & _). destruct (r_max_ok xs Hne) as (M & -> & _). cbn [bind].
  unfold r_precision, r_cov. destruct (Nat.ltb_spec (length xs) 2); [lia|]. cbn [bind]. unfold r_inv. rewrite map_map, !r_sum_Rsum.
  assert (Hn : INR (length xs) <> 0) by (apply not_0_INR; lia). assert (Hn' : INR (length xs) - 1 <> 0) by (apply lt_INR in L || (assert (1 < length xs)%nat as L' by lia; apply lt_INR in L'; cbn in L'; lra); cbn in L; lra).
  assert (E : xs = map (fun _ => x) xs) by (clear -H; induction xs as [|y xs IH]; [reflexivity|]; cbn [map]; f_equal; [apply H; now left|apply IH; intros; apply H; now right]).
  assert (Em : Rsum xs / INR (length xs) = x) by (rewrite E at 1; rewrite GramProofs.Rsum_const; field; exact Hn).
  replace (Rsum (map (fun y => (y - Rsum xs / INR (length xs)) * (y - Rsum xs / INR (length xs))) xs)) with 0; [|rewrite Em, E, map_map; symmetry; transitivity (INR (length xs) * 0); [|ring]; rewrite <- GramProofs.Rsum_const; f_equal; apply map_ext; intros; ring].
  destruct (Req_EM_T _ 0) as [_|N]; [reflexivity|]. exfalso. apply N. field. exact Hn'.
Qed.
Lemma constant_or_spread : forall xs, xs <> [] -> spread xs \/ exists x, forall y, In y xs -> y = x.
Proof.
  intros [|x xs] H; [congruence|]. clear H. induction xs as [|y xs IH]; [right; exists x; intros y [<-|[]]; reflexivity|]. destruct IH as [(a & b & Ha & Hb & N)|(z & Hz)].
  - left. exists a, b. ssplit; auto; cbn in *; tauto.
  - destruct (Req_dec x y) as [<-|N]; [right; exists z; intros w Hw; apply Hz; cbn in *; tauto|left]. exists x, y. cbn. ssplit; auto.
Qed.
Lemma cluster_aborts : forall threads d rows k x, (1 <= threads)%nat -> (2 <= length rows)%nat -> Forall (fun r => length r = d) rows -> (k < d)%nat -> (forall y, In y (column k rows) -> y = x) -> r_cluster threads rows = Panic UnwrapNone.
Proof.
  intros threads d rows k x Ht L2 Hl Hk Hx. assert (Hne : rows <> []) by (intros ->; cbn in L2; lia). unfold r_cluster. rewrite (stack_ok d rows Hne Hl). cbn [bind]. unfold r_sequential, sequential.
  assert (G : forall m k0, (k0 <= k < k0 + m)%nat -> mapM (fun c => let! e := sequential_density Rplus (r_parts 250 threads) c in column_centers r_gt r_cmp r_dist 0 (r_grid 250) 1 c e) (map (fun k => column k rows) (seq k0 m)) = Panic UnwrapNone).
  { induction m as [|m IH]; intros k0 Hk0; [lia|]. cbn [seq map mapM]. assert (Lc : length (column k0 rows) = length rows) by (unfold column; apply map_length).
    destruct (constant_or_spread (column k0 rows)) as [S|(z & Hz)]; [intros Z; rewrite Z in Lc; cbn in Lc; lia| |rewrite (constant_column threads _ z) by (lia || exact Hz); reflexivity].
    assert (Hc : column k0 rows <> []) by (intros Z; rewrite Z in Lc; cbn in Lc; lia). destruct (r_min_ok _ Hc) as (lo & _ & Hlo). destruct (r_max_ok _ Hc) as (hi & _ & Hhi). destruct (centres_ok threads _ lo hi Ht S Hlo Hhi) as (c & E & _). rewrite E. cbn [bind].
    destruct (Nat.eq_dec k0 k) as [->|N]; [destruct S as (a & b & Ia & Ib & N); apply Hx in Ia, Ib; congruence|]. rewrite IH by lia. reflexivity. }
  rewrite (G d 0%nat) by lia. reflexivity.
Qed.
