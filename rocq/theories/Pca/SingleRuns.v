(** The means in single precision in complete runs of the helper threads. *)
From Coq Require Import List Arith Bool Lia Permutation ZArith.
From Verif.Base Require Import ListX Float32.
From Verif.Pca Require Import Model Spec Tree Abs Proofs Help Chunks Canon Arrival Single SingleSpec.
From Coq Require Import Reals Lra.
From Flocq Require Import IEEE754.BinarySingleNaN Core.
From Verif.Base Require Import Float32Proofs.
From Verif.Normalize Require Import ScoreProofs.
From Verif.Pca Require Import SingleProofs.
Import ListNotations.
Open Scope R_scope.

Lemma complete_busy : forall rows threads order t, (1 <= rows)%nat -> (1 <= threads)%nat -> complete_run rows threads order t ->
  length (assigned rows threads) = threads /\ exists s, reachable (helper_threads threads threads) any_run s /\ quiescent (helper_threads threads threads) s /\ finals s = [(order, t)].
Proof.
  intros rows threads order t H1 H2 (s & Hr & Hq & Hf). assert (E : length (assigned rows threads) = threads).
  { destruct (Nat.eq_dec (length (assigned rows threads)) threads) as [|Hne]; [assumption|]. exfalso.
    assert (Hu : (length (assigned rows threads) < threads)%nat) by (pose proof (n_le_t rows threads H1 H2); rewrite <- assigned_length in H by assumption; lia).
    set (cf := helper_threads threads (length (assigned rows threads))) in *. destruct (helpers_started cf s eq_refl Hr) as (_ & Hr').
    pose proof (never_reach cf H2 eq_refl (Nat.lt_le_incl _ _ Hu) s (length (assigned rows threads)) Hr' Hu (le_n _)) as E. rewrite E in Hf. discriminate. }
  split; [exact E|]. rewrite E in *. eauto.
Qed.

Lemma runs_exist : forall rows threads o, (1 <= rows)%nat -> (1 <= threads)%nat -> length (assigned rows threads) = threads -> Permutation o (seq 1 (threads - 1)) ->
  exists t, complete_run rows threads (0%nat :: o) t.
Proof.
  intros rows threads o H1 H2 E Ho. destruct (every_order threads H2 o Ho) as (s & t & A & B & C). exists t. unfold complete_run. rewrite E. eauto.
Qed.
Lemma runs_only : forall rows threads order t, (1 <= rows)%nat -> (1 <= threads)%nat -> complete_run rows threads order t ->
  exists o, order = 0%nat :: o /\ Permutation o (seq 1 (threads - 1)).
Proof.
  intros rows threads order t H1 H2 H. destruct (complete_busy rows threads order t H1 H2 H) as (_ & s & A & _ & C).
  apply (own_first threads H2 s order t A). rewrite C. now left.
Qed.
Lemma runs_tree : forall rows threads order t order' t', (1 <= rows)%nat -> (1 <= threads)%nat -> complete_run rows threads order t -> complete_run rows threads order' t' -> t = t'.
Proof.
  intros rows threads order t order' t' H1 H2 H H'. destruct (complete_busy _ _ _ _ H1 H2 H) as (_ & s & A & _ & C). destruct (complete_busy _ _ _ _ H1 H2 H') as (_ & s' & A' & _ & C').
  destruct (helpers_started (helper_threads threads threads) s eq_refl A) as (_ & B). destruct (helpers_started (helper_threads threads threads) s' eq_refl A') as (_ & B').
  rewrite (same_tree (helper_threads threads threads) H2 eq_refl (le_n _) s order t B) by (rewrite C; now left).
  now rewrite (same_tree (helper_threads threads threads) H2 eq_refl (le_n _) s' order' t' B') by (rewrite C'; now left).
Qed.

Lemma order_perm : forall threads o, (1 <= threads)%nat -> Permutation o (seq 1 (threads - 1)) -> Permutation (0%nat :: o) (seq 0 threads).
Proof. intros threads o H Ho. destruct threads as [|n]; [lia|]. cbn [seq]. replace (S n - 1)%nat with n in Ho by lia. now constructor. Qed.

(** Closeness to the exact mean. *)
Section Close.
Variable e : Z.
Hypothesis He : (-149 <= e <= 100)%Z.
Notation B := (bpow radix2 e).
Variables (col : list f32) (threads : nat).
Hypothesis Hin : within B col.
Hypothesis Hrows : (1 <= length col)%nat.
Hypothesis Hmax : (Z.of_nat (length col) <= 2 ^ 24)%Z.
Hypothesis Hthr : (1 <= threads)%nat.
Hypothesis Busy : length (assigned (length col) threads) = threads.

Lemma len_total : forall L : list (list f32), total (map (@length f32) L) = length (concat L).
Proof. unfold total. induction L as [|c L IH]; cbn [map fold_right concat]; [reflexivity|]. rewrite app_length, IH. reflexivity. Qed.

Lemma rows_total : total (map fst (map (row_of col threads) (seq 0 threads))) = length col.
Proof. rewrite map_map. cbn. change (fun x => length (rows_of col threads x)) with (fun x => length (rows_of col threads x)). rewrite <- (map_map (rows_of col threads) (@length f32)). now rewrite len_total, chunks_concat. Qed.

Lemma rows_le : forall i, (i < threads)%nat -> (length (rows_of col threads i) <= length col)%nat.
Proof. intros i Hi. rewrite rows_of_chunk by assumption. rewrite firstn_length, skipn_length. lia. Qed.

Lemma rows_ok : Forall (row_ok e) (map (row_of col threads) (seq 0 threads)).
Proof.
  apply Forall_forall. intros r Hr. apply in_map_iff in Hr. destruct Hr as (i & <- & Hi). apply in_seq in Hi.
  destruct (rows_of_len col threads Hrows Hthr Busy i ltac:(lia)) as (L1 & _). pose proof (rows_le i ltac:(lia)).
  destruct (mean_within e He (rows_of col threads i)) as (A & C & _); [now apply rows_within|exact L1|lia|]. unfold row_ok, row_of. cbn [fst snd]. auto.
Qed.

Definition err_one : R := ((1 + u) ^ chunk_size (length col) threads - 1 + u) * B + eta.

Lemma weighted_close : Rabs (weighted (map (row_of col threads) (seq 0 threads)) - sum_of col) <= INR (length col) * err_one.
Proof.
  rewrite <- (chunks_concat col threads Hrows Hthr Busy) at 2 3. rewrite <- (map_map (rows_of col threads) (fun c => (length c, f_mean c))).
  assert (G : forall L, Forall (fun c => (1 <= length c)%nat /\ Rabs (f_real (f_mean c) - mean_of c) <= err_one) L ->
     Rabs (weighted (map (fun c => (length c, f_mean c)) L) - sum_of (concat L)) <= INR (length (concat L)) * err_one).
  { intros L H. induction H as [|c L (H1 & H2) _ IH]; cbn [map concat].
    - cbn. rewrite Rminus_diag_eq, Rabs_R0 by reflexivity. lra.
    - rewrite sum_of_app, app_length, plus_INR. cbn [weighted fold_right fst snd]. fold (weighted (map (fun c => (length c, f_mean c)) L)).
      assert (Hn : 1 <= INR (length c)) by (apply (le_INR 1); exact H1).
      replace (sum_of c) with (INR (length c) * mean_of c) by (unfold mean_of; field; lra).
      match goal with |- Rabs (?a * ?x + ?y - (?a * ?m + ?z)) <= _ => replace (a * x + y - (a * m + z)) with (a * (x - m) + (y - z)) by ring end.
      apply Rle_trans with (1 := Rabs_triang _ _). rewrite Rabs_mult, (Rabs_pos_eq (INR (length c))) by lra.
      assert (INR (length c) * Rabs (f_real (f_mean c) - mean_of c) <= INR (length c) * err_one) by (apply Rmult_le_compat_l; lra). lra. }
  apply G. apply Forall_forall. intros c Hc. apply in_map_iff in Hc. destruct Hc as (i & <- & Hi). apply in_seq in Hi.
  destruct (rows_of_len col threads Hrows Hthr Busy i ltac:(lia)) as (L1 & L2). pose proof (rows_le i ltac:(lia)).
  destruct (mean_within e He (rows_of col threads i)) as (_ & _ & C); [now apply rows_within|exact L1|lia|]. split; [exact L1|]. apply Rle_trans with (1 := C). unfold err_one.
  apply Rplus_le_compat_r, Rmult_le_compat_r; [apply bpow_ge_0|]. do 2 apply Rplus_le_compat_r. apply Rle_pow; [pose proof u_pos; lra|exact L2].
Qed.

Lemma order_close : forall order, Permutation order (seq 0 threads) ->
  f_finite (threads_mean col threads order) = true /\ Rabs (f_real (threads_mean col threads order)) <= B
  /\ Rabs (f_real (threads_mean col threads order) - weighted (map (row_of col threads) (seq 0 threads)) / INR (length col)) <= ((1 + u) ^ threads - 1 + 2 * u) * B + 2 * eta.
Proof.
  intros order HP. unfold threads_mean. pose proof (Permutation_map (row_of col threads) HP) as PR.
  destruct (global_within e He (map (row_of col threads) order)) as (A & C & D).
  - eapply Permutation_Forall; [symmetry; exact PR|exact rows_ok].
  - intros E. apply map_eq_nil in E. subst. apply Permutation_nil in HP. destruct threads; [lia|discriminate].
  - rewrite (total_perm _ _ (Permutation_map fst PR)), rows_total. exact Hmax.
  - rewrite (total_perm _ _ (Permutation_map fst PR)), rows_total in D. rewrite (weighted_perm _ _ PR) in D.
    rewrite map_length, (Permutation_length HP), seq_length in D. auto.
Qed.

Lemma order_accurate : forall order, Permutation order (seq 0 threads) ->
  Rabs (f_real (threads_mean col threads order) - mean_of col)
  <= (((1 + u) ^ threads - 1) + ((1 + u) ^ chunk_size (length col) threads - 1) + 3 * u) * B + 3 * eta.
Proof.
  intros order HP. destruct (order_close order HP) as (_ & _ & D). pose proof weighted_close as W. unfold mean_of.
  assert (Hn : 1 <= INR (length col)) by (apply (le_INR 1); exact Hrows). set (n := INR (length col)) in *. set (w := weighted _) in *.
  assert (E5 : Rabs (w / n - sum_of col / n) <= err_one).
  { replace (w / n - sum_of col / n) with ((w - sum_of col) * / n) by (unfold Rdiv; ring). rewrite Rabs_mult, (Rabs_pos_eq (/ n)) by (apply Rlt_le, Rinv_0_lt_compat; lra).
    apply Rmult_le_reg_r with n; [lra|]. rewrite Rmult_assoc, Rinv_l by lra. lra. }
  match goal with |- Rabs (?a - ?b) <= _ => replace (a - b) with ((a - w / n) + (w / n - b)) by ring end.
  apply Rle_trans with (1 := Rabs_triang _ _). unfold err_one in E5. lra.
Qed.
End Close.

(** Values for which the order matters: 2^24, 1, -2^24 and zeros. *)
Definition val (i : nat) : f32 := match i with 0%nat => f_of (2 ^ 24) 0 | 1%nat => f_of 1 0 | 2%nat => f_of (- 2 ^ 24) 0 | _ => f_zero end.
Definition spread (n : nat) : list f32 := map val (seq 0 n).

Lemma f_same : forall x y : f32, B2SF x = B2SF y -> x = y.
Proof. intros x y. apply B2SF_inj. Qed.
Lemma chunk_one : forall n, (1 <= n)%nat -> chunk_size n n = 1%nat.
Proof.
  intros n H. unfold chunk_size. symmetry. apply Nat.div_unique with (r := (n - 1)%nat); lia.
Qed.
Lemma spread_busy : forall n, (1 <= n)%nat -> length (assigned n n) = n.
Proof. intros n H. apply (proj2 (all_used n n H H)). rewrite chunk_one by exact H. lia. Qed.
Lemma spread_len : forall n, length (spread n) = n.
Proof. intros. unfold spread. now rewrite map_length, seq_length. Qed.
Lemma spread_row : forall n i, (1 <= n)%nat -> (i < n)%nat -> row_of (spread n) n i = (1%nat, val i).
Proof.
  intros n i Hn Hi. unfold row_of. rewrite rows_of_chunk; rewrite ?spread_len; auto; [|now apply spread_busy]. rewrite chunk_one, Nat.mul_1_r by exact Hn.
  assert (E : firstn 1 (skipn i (spread n)) = [val i]).
  { unfold spread. replace n with (i + S (n - S i))%nat by lia. rewrite seq_app, map_app, skipn_app, skipn_all2 by (rewrite map_length, seq_length; lia).
    rewrite map_length, seq_length, Nat.sub_diag. reflexivity. }
  rewrite E. cbn [length]. f_equal. destruct i as [|[|[|i]]]; now apply f_same; vm_compute.
Qed.
Lemma spread_mean : forall n order, (1 <= n)%nat -> (forall i, In i order -> (i < n)%nat) ->
  threads_mean (spread n) n order = f_div (f_sum (map val order)) (f_sum (map (fun _ => f_of_nat 1) order)).
Proof.
  intros n order Hn Ho. unfold threads_mean, f_global_mean. rewrite !map_map. f_equal; f_equal; apply map_ext_in; intros i Hi; rewrite spread_row by auto; [|reflexivity].
  cbn [fst snd]. destruct i as [|[|[|i]]]; now apply f_same; vm_compute.
Qed.
Lemma zeros : forall l x, (forall i, In i l -> (3 <= i)%nat) -> f_add x f_zero = x -> fold_left f_add (map val l) x = x.
Proof.
  induction l as [|i l IH]; intros x Hl Hx; [reflexivity|]. cbn [map fold_left]. assert (E : val i = f_zero) by (specialize (Hl i (or_introl eq_refl)); destruct i as [|[|[|i]]]; try lia; reflexivity).
  rewrite E, Hx. apply IH; [intros j Hj; apply Hl; now right|exact Hx].
Qed.
Lemma ones_sum : forall l : list nat, (Z.of_nat (length l) <= 2 ^ 24)%Z -> f_finite (f_sum (map (fun _ => f_of_nat 1) l)) = true /\ f_real (f_sum (map (fun _ => f_of_nat 1) l)) = INR (length l).
Proof.
  intros l H. rewrite <- (map_map (fun _ => 1%nat) f_of_nat). assert (E : total (map (fun _ : nat => 1%nat) l) = length l) by (unfold total; clear; induction l as [|x l IH]; cbn [map fold_right length]; [reflexivity|now rewrite IH]).
  rewrite <- E. apply counts_sum. now rewrite E.
Qed.

Lemma spread_differs : forall n, (3 <= n)%nat -> (Z.of_nat n <= 2 ^ 24)%Z ->
  f_real (threads_mean (spread n) n (0 :: 1 :: 2 :: seq 3 (n - 3)))%nat = 0 /\ f_real (threads_mean (spread n) n (0 :: 2 :: 1 :: seq 3 (n - 3)))%nat = rnd (/ INR n).
Proof.
  intros n Hn Hz. assert (L : forall a b c : nat, length (a :: b :: c :: seq 3 (n - 3)) = n) by (intros; cbn [length]; rewrite seq_length; lia).
  assert (In3 : forall a b c i, (a < 3)%nat -> (b < 3)%nat -> (c < 3)%nat -> In i (a :: b :: c :: seq 3 (n - 3)) -> (i < n)%nat).
  { intros a b c i Ha Hb Hc [<-|[<-|[<-|Hi]]]; try lia. apply in_seq in Hi. lia. }
  assert (Z3 : forall i, In i (seq 3 (n - 3)) -> (3 <= i)%nat) by (intros i Hi; apply in_seq in Hi; lia).
  assert (HI : 1 <= INR n) by (apply (le_INR 1); lia).
  rewrite !spread_mean by (try lia; intros i; apply In3; lia).
  assert (S1 : f_sum (map val (0 :: 1 :: 2 :: seq 3 (n - 3)))%nat = f_zero).
  { unfold f_sum. cbn [map fold_left]. replace (f_add (f_add (f_add f_zero (val 0)) (val 1)) (val 2)) with f_zero by (now apply f_same; vm_compute). apply zeros; [exact Z3|now apply f_same; vm_compute]. }
  assert (S2 : f_sum (map val (0 :: 2 :: 1 :: seq 3 (n - 3)))%nat = f_of 1 0).
  { unfold f_sum. cbn [map fold_left]. replace (f_add (f_add (f_add f_zero (val 0)) (val 2)) (val 1)) with (f_of 1 0) by (now apply f_same; vm_compute). apply zeros; [exact Z3|now apply f_same; vm_compute]. }
  rewrite S1, S2. destruct (ones_sum (0 :: 1 :: 2 :: seq 3 (n - 3))%nat) as (F1 & E1); [now rewrite L|]. destruct (ones_sum (0 :: 2 :: 1 :: seq 3 (n - 3))%nat) as (F2 & E2); [now rewrite L|]. rewrite L in E1, E2.
  assert (One : f_real (f_of 1 0) = 1). { change (f_of 1 0) with (f_of_nat 1). rewrite (proj2 (of_nat_exact 1 ltac:(lia))). reflexivity. }
  split.
  - destruct (f_div_ok f_zero (f_sum (map (fun _ => f_of_nat 1) (0 :: 1 :: 2 :: seq 3 (n - 3))%nat)) eq_refl) as (_ & E); rewrite E1 in *; [lra| |].
    + change (f_real f_zero) with 0. unfold Rdiv. rewrite Rmult_0_l, rnd_0, Rabs_R0. apply bpow_gt_0.
    + rewrite E. change (f_real f_zero) with 0. unfold Rdiv. now rewrite Rmult_0_l, rnd_0.
  - destruct (f_div_ok (f_of 1 0) (f_sum (map (fun _ => f_of_nat 1) (0 :: 2 :: 1 :: seq 3 (n - 3))%nat)) eq_refl) as (_ & E); rewrite E2 in *; rewrite ?One in *; [lra| |].
    + unfold Rdiv. rewrite Rmult_1_l. assert (0 < / INR n <= 1) by (split; [apply Rinv_0_lt_compat; lra|rewrite <- Rinv_1; apply Rinv_le_contravar; lra]).
      assert (0 <= rnd (/ INR n) <= 1) by (split; [rewrite <- rnd_0; apply rnd_mono; lra|rewrite <- rnd_1; apply rnd_mono; lra]). rewrite Rabs_pos_eq by lra. pose proof one_lt_max. lra.
    + rewrite E. unfold Rdiv. now rewrite Rmult_1_l.
Qed.
Lemma rnd_inv_pos : forall n, (1 <= n)%nat -> (Z.of_nat n <= 2 ^ 24)%Z -> 0 < rnd (/ INR n).
Proof.
  intros n Hn Hz. apply Rlt_le_trans with (bpow radix2 (-24)); [apply bpow_gt_0|]. rewrite <- (rnd_format (bpow radix2 (-24))) by (apply format_bpow; lia). apply rnd_mono.
  change (bpow radix2 (-24)) with (/ IZR (2 ^ 24)). apply Rinv_le_contravar; [apply lt_0_INR; lia|]. rewrite INR_IZR_INZ. now apply IZR_le.
Qed.
