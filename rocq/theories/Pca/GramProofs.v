From Verif.Base Require Import ListX.
From Verif.Pca Require Import Model.
From Coq Require Import List Arith Reals Lia Lra Permutation.
From Verif.Stats Require Import Spec Proofs.
From Verif.Pca Require Import Gram GramSpec.
Import ListNotations.
Local Open Scope R_scope.

Lemma gram_app : forall A B a b, gram (A ++ B) a b = gram A a b + gram B a b.
Proof. intros. unfold gram. rewrite map_app. apply Rsum_app. Qed.
Lemma Rsum_perm : forall l l', Permutation l l' -> Rsum l = Rsum l'.
Proof. intros l l' H. unfold Rsum. induction H; cbn; lra. Qed.
Lemma Rsum_concat : forall A (f : A -> R) l, Rsum (map f (concat l)) = Rsum (map (fun x => Rsum (map f x)) l).
Proof.
  intros A f l. induction l as [|x t IH]; [reflexivity|]. cbn [concat map]. rewrite map_app, Rsum_app, IH. reflexivity.
Qed.
Lemma Rsum_plus : forall A (f g : A -> R) l, Rsum (map (fun x => f x + g x) l) = Rsum (map f l) + Rsum (map g l).
Proof. intros A f g l. unfold Rsum. induction l as [|x t IH]; cbn; [lra|]. rewrite IH. lra. Qed.
Lemma Rsum_scal : forall A (f : A -> R) c l, Rsum (map (fun x => c * f x) l) = c * Rsum (map f l).
Proof. intros A f c l. unfold Rsum. induction l as [|x t IH]; cbn; [lra|]. rewrite IH. lra. Qed.
Lemma Rsum_const : forall A c (l : list A), Rsum (map (fun _ => c) l) = INR (length l) * c.
Proof. intros A c l. unfold Rsum. induction l as [|x t IH]; [cbn; lra|]. cbn [map fold_right length]. rewrite IH, S_INR. lra. Qed.

Lemma sum_rows : forall (rows : matrix) j, rows <> [] -> Rsum (map (fun r => r j) rows) = INR (length rows) * col_means rows j.
Proof.
  intros rows j H. unfold col_means, mean. rewrite map_length.
  assert (0 < INR (length rows)) by (apply lt_0_INR; destruct rows; [congruence|cbn [length]; lia]).
  unfold Rdiv. rewrite (Rmult_comm (Rsum _)), <- Rmult_assoc, Rinv_r, Rmult_1_l by lra. reflexivity.
Qed.

(** Moments around an arbitrary point. *)
Lemma shift : forall (rows : matrix) a b ga gb, rows <> [] ->
  Rsum (map (fun r => (r a - ga) * (r b - gb)) rows)
  = gram (centred rows) a b + INR (length rows) * ((col_means rows a - ga) * (col_means rows b - gb)).
Proof.
  intros rows a b ga gb H. unfold gram, centred. rewrite map_map.
  rewrite (Rsum_map_ext _ (fun r => (r a - ga) * (r b - gb))
             (fun r => (r a - col_means rows a) * (r b - col_means rows b)
                       + ((col_means rows b - gb) * r a + ((col_means rows a - ga) * r b
                       + (ga * gb - col_means rows a * col_means rows b)))) rows) by (intros; ring).
  rewrite Rsum_plus. f_equal. rewrite Rsum_plus, Rsum_scal, Rsum_plus, Rsum_scal, Rsum_const, !sum_rows by exact H. ring.
Qed.

Lemma count_pos : forall (rows : matrix), rows <> [] -> 0 < count rows.
Proof. intros rows H. unfold count. apply lt_0_INR. destruct rows; [congruence|cbn; lia]. Qed.

Lemma concat_perm : forall A (f : nat -> list A) l l', Permutation l l' -> Permutation (concat (map f l)) (concat (map f l')).
Proof.
  intros A f l l' H. induction H; cbn; auto.
  - now apply Permutation_app_head.
  - rewrite !app_assoc. apply Permutation_app_tail. apply Permutation_app_comm.
  - etransitivity; eauto.
Qed.

Section G.
Variable qr : matrix -> matrix.
Hypothesis Hqr : preserves_gram qr.

Lemma eval_gram : forall loc t a b, gram (eval qr loc t) a b = Rsum (map (fun i => gram (loc i) a b) (leaves t)).
Proof.
  intros loc t a b. induction t as [i|l IHl r IHr]; cbn [eval leaves map].
  - unfold Rsum. cbn. lra.
  - rewrite Hqr, gram_app, IHl, IHr, map_app, Rsum_app. reflexivity.
Qed.

(** [rows i]: the rows behind node [i]'s factor. *)
Lemma final_gram : forall loc n mu (rows : nat -> matrix) N ms t,
  (1 <= N)%nat ->
  (forall i, (i < N)%nat -> rows i <> []) ->
  (forall i, (i < N)%nat -> n i = count (rows i)) ->
  (forall i j, (i < N)%nat -> mu i j = column_mean (rows i) j) ->
  (forall i a b, (i < N)%nat -> gram (loc i) a b = scatter_matrix (rows i) a b) ->
  Permutation ms (seq 0 N) -> Permutation (leaves t) (seq 0 N) ->
  (forall j, global_means n mu ms j = column_mean (all_rows rows N) j)
  /\ (forall a b, gram (final_r qr loc n mu ms t) a b = scatter_matrix (all_rows rows N) a b)
  /\ Rsum (map n ms) = count (all_rows rows N).
Proof.
  intros loc n mu rows N ms t HN Hne Hn Hmu Hloc Pm Pt.
  assert (Hin : forall i, In i ms -> (i < N)%nat) by (intros i Hi; apply (Permutation_in _ Pm) in Hi; apply in_seq in Hi; lia).
  assert (En : Rsum (map n ms) = count (all_rows rows N)).
  { rewrite (Rsum_perm _ (map n (seq 0 N))) by now apply Permutation_map.
    unfold count, all_rows. rewrite <- (Rmult_1_r (INR _)), <- (Rsum_const _ 1), Rsum_concat, map_map.
    apply Rsum_map_ext. intros i Hi. apply in_seq in Hi. rewrite Hn by lia. rewrite Rsum_const. unfold count. lra. }
  assert (Hall : all_rows rows N <> []).
  { unfold all_rows. destruct N as [|k]; [lia|]. cbn. pose proof (Hne 0%nat ltac:(lia)). destruct (rows 0%nat); [congruence|discriminate]. }
  assert (Eg : forall j, global_means n mu ms j = column_mean (all_rows rows N) j).
  { intros j. unfold global_means. rewrite En. unfold column_mean, mean. rewrite map_length. f_equal.
    unfold all_rows. rewrite Rsum_concat, map_map.
    rewrite (Rsum_perm _ (map (fun i => n i * mu i j) (seq 0 N))) by now apply Permutation_map.
    apply Rsum_map_ext. intros i Hi. apply in_seq in Hi. rewrite Hn, Hmu by lia. symmetry. apply sum_rows. apply Hne. lia. }
  ssplit; [exact Eg| |exact En].
  intros a b. unfold final_r. rewrite Hqr, gram_app, eval_gram.
  rewrite (Rsum_perm (map (fun i => gram (loc i) a b) (leaves t)) (map (fun i => gram (loc i) a b) (seq 0 N))) by now apply Permutation_map.
  unfold gram at 1. rewrite map_map.
  rewrite (Rsum_perm _ (map (fun i => sqrt (n i) * (mu i a - global_means n mu ms a) * (sqrt (n i) * (mu i b - global_means n mu ms b))) (seq 0 N))) by (now apply Permutation_map).
  rewrite <- Rsum_plus. unfold scatter_matrix. unfold all_rows at 3. rewrite Rsum_concat, map_map.
  apply Rsum_map_ext. intros i Hi. apply in_seq in Hi. rewrite !Eg, !Hmu, Hloc, Hn by lia.
  rewrite shift by (apply Hne; lia). unfold scatter_matrix, gram, centred. rewrite map_map.
  pose proof (count_pos (rows i) (Hne i ltac:(lia))) as Hc.
  replace (sqrt (count (rows i)) * (column_mean (rows i) a - column_mean (all_rows rows N) a) * (sqrt (count (rows i)) * (column_mean (rows i) b - column_mean (all_rows rows N) b)))
    with ((sqrt (count (rows i)) * sqrt (count (rows i))) * ((column_mean (rows i) a - column_mean (all_rows rows N) a) * (column_mean (rows i) b - column_mean (all_rows rows N) b))) by ring.
  rewrite sqrt_sqrt by lra. unfold column_mean, col_means, count. ring.
Qed.

Lemma host_gram : forall data N o, (1 <= N)%nat -> (forall i, (i < N)%nat -> data i <> []) ->
  Permutation (fst o) (seq 0 N) -> Permutation (leaves (snd o)) (seq 0 N) ->
  (forall j, host_means data o j = column_mean (all_rows data N) j)
  /\ (forall a b, gram (host_r qr data o) a b = scatter_matrix (all_rows data N) a b)
  /\ Rsum (map (fun i => count (data i)) (fst o)) = count (all_rows data N).
Proof.
  intros data N [ms t] HN Hne Pm Pt. cbn [fst snd] in *. unfold host_means, host_r. cbn [fst snd]. apply final_gram; auto.
  intros i a b Hi. unfold own_factor. rewrite Hqr. unfold gram, centred, scatter_matrix. rewrite map_map. reflexivity.
Qed.

Lemma threads_gram : forall data inner T N o, (1 <= N)%nat -> (forall i, (i < N)%nat -> (1 <= T i)%nat) ->
  (forall i k, (i < N)%nat -> (k < T i)%nat -> data i k <> []) ->
  (forall i, (i < N)%nat -> Permutation (fst (inner i)) (seq 0 (T i)) /\ Permutation (leaves (snd (inner i))) (seq 0 (T i))) ->
  Permutation (fst o) (seq 0 N) -> Permutation (leaves (snd o)) (seq 0 N) ->
  (forall j, threads_means data inner o j = column_mean (all_rows (fun i => all_rows (data i) (T i)) N) j)
  /\ (forall a b, gram (threads_r qr data inner o) a b = scatter_matrix (all_rows (fun i => all_rows (data i) (T i)) N) a b).
Proof.
  intros data inner T N [ms t] HN HT Hne Hin Pm Pt. cbn [fst snd] in *. unfold threads_means, threads_r. cbn [fst snd].
  assert (H : forall i, (i < N)%nat -> (forall j, host_means (data i) (inner i) j = column_mean (all_rows (data i) (T i)) j)
     /\ (forall a b, gram (host_r qr (data i) (inner i)) a b = scatter_matrix (all_rows (data i) (T i)) a b)
     /\ Rsum (map (fun k => count (data i k)) (fst (inner i))) = count (all_rows (data i) (T i))).
  { intros i Hi. destruct (Hin i Hi) as (P1 & P2). apply host_gram; auto. }
  destruct (final_gram (fun i => host_r qr (data i) (inner i)) (fun i => Rsum (map (fun k => count (data i k)) (fst (inner i))))
          (fun i => host_means (data i) (inner i)) (fun i => all_rows (data i) (T i)) N ms t) as (E1 & E2 & _); auto.
  - intros i Hi. specialize (HT i Hi). specialize (Hne i 0%nat Hi). unfold all_rows. destruct (T i) as [|k]; [lia|]. cbn.
    specialize (Hne ltac:(lia)). destruct (data i 0%nat); [congruence|discriminate].
  - intros i Hi. apply (H i Hi).
  - intros i j Hi. apply (H i Hi).
  - intros i a b Hi. apply (H i Hi).
Qed.
End G.

Lemma normalize_row_spec : forall v, 
  (normalize_row v = v \/ normalize_row v = map Ropp v) /\ match normalize_row v with [] => v = [] | x :: _ => 0 <= x end.
Proof.
  intros [|x t]; cbn [normalize_row]; [auto|]. destruct (Rge_dec x 0) as [H|H].
  - split; [auto|lra].
  - split; [right|cbn; lra]. apply map_ext. intros; ring.
Qed.
