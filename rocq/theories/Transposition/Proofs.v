From Coq Require Import List Arith Bool Lia Permutation Sorting.Sorted.
From Verif.Base Require Import Res ListX.
From Verif.Segmentation Require Import Proofs.
From Verif.Edges Require Import Model HostProofs.
From Verif.Protocol Require Import Model Exchange Spec.
From Verif.Transposition Require Import Model Spec.
Import ListNotations.

(** ** Sorting *)
Lemma insert_edge_perm : forall e l, Permutation (insert_edge e l) (e :: l).
Proof.
  intros e l. induction l as [|x l IH]; [reflexivity|]. cbn [insert_edge]. destruct (to_id e <? to_id x); [reflexivity|].
  rewrite IH. apply perm_swap.
Qed.
Lemma sort_acc_perm : forall l acc, Permutation (fold_left (fun acc e => insert_edge e acc) l acc) (acc ++ l).
Proof.
  induction l as [|e l IH]; intros acc; [now rewrite app_nil_r|]. cbn [fold_left]. rewrite IH, insert_edge_perm. cbn [app].
  change (e :: acc ++ l) with ((e :: acc) ++ l). apply Permutation_middle.
Qed.
Lemma sort_edges_perm : forall l, Permutation (sort_edges l) l.
Proof. intros l. apply (sort_acc_perm l []). Qed.
Lemma insert_edge_sorted : forall e l, ascending l -> ascending (insert_edge e l).
Proof.
  unfold ascending. intros e l H. induction l as [|x l IH]; [repeat constructor|]. cbn [map] in H. inversion H as [|? ? H' F]; subst. cbn [insert_edge].
  destruct (Nat.ltb_spec (to_id e) (to_id x)) as [L|L].
  - cbn [map]. constructor; [exact H|]. constructor; [lia|]. eapply Forall_impl; [|exact F]. cbn. intros; lia.
  - cbn [map]. constructor; [now apply IH|]. apply (Permutation_Forall (x := map to_id (e :: l))).
    + apply Permutation_map. symmetry. apply insert_edge_perm.
    + cbn [map]. now constructor.
Qed.
Lemma sort_edges_sorted : forall l, ascending (sort_edges l).
Proof.
  intros l. unfold sort_edges. assert (H : ascending []) by constructor. revert H. generalize (@nil edge). induction l as [|e l IH]; intros acc H; [exact H|].
  cbn [fold_left]. apply IH. now apply insert_edge_sorted.
Qed.

(** ** Addressees *)
Definition dest (N len t : nat) : nat := if N <=? t / len then N - 1 else t / len.
Lemma dest_lt : forall N len t, 1 <= N -> dest N len t < N.
Proof. intros N len t H. unfold dest. destruct (Nat.leb_spec N (t / len)); lia. Qed.
Lemma assign_spec : forall N len edges, 1 <= N -> len <> 0 -> assign_edges N len edges = Ok (map (fun e => (dest N len (to_id e), e)) edges).
Proof.
  intros N len edges H L. unfold assign_edges. rewrite (mapM_all _ _ _ (fun e => (dest N len (to_id e), e))); [reflexivity|].
  intros e _. unfold addressee, dest. rewrite udiv_ok by exact L. cbn [bind]. destruct (Nat.leb_spec N (to_id e / len)); [rewrite usub_ok by lia|]; reflexivity.
Qed.
Lemma dest_in_part : forall n N k t, k < N -> n / N <> 0 -> (dest N (n / N) t =? k) = in_part n N k t.
Proof.
  intros n N k t Hk L. unfold dest, in_part. set (len := n / N) in *. pose proof (Nat.div_mod t len L) as D. pose proof (Nat.mod_upper_bound t len L) as B.
  set (c := t / len) in *. set (m := t mod len) in *.
  destruct (Nat.leb_spec N c) as [H|H].
  - assert (k * len <= t) by nia. replace (k * len <=? t) with true by (symmetry; now apply Nat.leb_le). cbn [andb].
    destruct (Nat.eqb_spec (S k) N) as [E|E]; [rewrite orb_true_r; apply Nat.eqb_eq; lia|]. rewrite orb_false_r.
    replace (N - 1 =? k) with false by (symmetry; apply Nat.eqb_neq; lia). symmetry. apply Nat.ltb_ge. nia.
  - destruct (Nat.eqb_spec c k) as [E|E].
    + subst k. symmetry. apply andb_true_iff. split; [apply Nat.leb_le; nia|]. apply orb_true_iff. left. apply Nat.ltb_lt. nia.
    + symmetry. apply andb_false_iff. destruct (Nat.lt_ge_cases c k); [left; apply Nat.leb_gt; nia|]. right. apply orb_false_iff. split; [apply Nat.ltb_ge; nia|apply Nat.eqb_neq; lia].
Qed.
Lemma assigned_spec : forall N len edges i, assigned (map (fun e => (dest N len (to_id e), e)) edges) i = filter (fun e => dest N len (to_id e) =? i) edges.
Proof.
  intros N len edges i. unfold assigned. induction edges as [|e l IH]; [reflexivity|]. cbn [map filter fst]. destruct (_ =? i); cbn [map snd]; now rewrite IH.
Qed.

Lemma filter_concat : forall A (f : A -> bool) ls, filter f (concat ls) = concat (map (filter f) ls).
Proof. intros A f ls. induction ls as [|l ls IH]; [reflexivity|]. cbn [concat map]. now rewrite filter_app, IH. Qed.
Lemma concat_map_perm : forall A B (f : A -> list B) l l', Permutation l l' -> Permutation (concat (map f l)) (concat (map f l')).
Proof.
  intros A B f l l' H. induction H; cbn [map concat]; [constructor|now apply Permutation_app_head| |etransitivity; eassumption].
  rewrite !app_assoc. apply Permutation_app_tail. apply Permutation_app_comm.
Qed.
Lemma own_and_others : forall k N, k < N -> Permutation (k :: filter (fun q => negb (q =? k)) (seq 0 N)) (seq 0 N).
Proof.
  intros k N H. assert (E : seq 0 N = seq 0 k ++ k :: seq (S k) (N - S k)).
  { replace N with (k + S (N - S k)) at 1 by lia. rewrite seq_app. reflexivity. }
  rewrite E, filter_app. cbn [filter]. rewrite Nat.eqb_refl. cbn [negb].
  rewrite !filter_all_true.
  - apply Permutation_middle.
  - intros x Hx. apply in_seq in Hx. apply negb_true_iff, Nat.eqb_neq. lia.
  - intros x Hx. apply in_seq in Hx. apply negb_true_iff, Nat.eqb_neq. lia.
Qed.

Lemma transposed_perm : forall N a (h : host (list edge)) k, k < N -> Permutation (processed h) (buckets_for N false (fun from to => assigned (a from) to) k) ->
  Permutation (transposed k (a k) h) (concat (map (fun q => assigned (a q) k) (seq 0 N))).
Proof.
  intros N a h k Hk H. unfold transposed. rewrite sort_edges_perm. rewrite (concat_map_perm _ _ snd _ _ H). unfold buckets_for. rewrite map_map. cbn [snd orb].
  rewrite <- (concat_map_perm _ _ (fun q => assigned (a q) k) _ _ (own_and_others k N Hk)). reflexivity.
Qed.
