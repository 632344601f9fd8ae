(** List lemmas shared by the proofs (no model content). *)
From Coq Require Import List Arith Lia Bool Permutation.
Import ListNotations.

Lemma filter_split_length : forall A (f : A -> bool) l,
  length (filter f l) + length (filter (fun x => negb (f x)) l) = length l.
Proof. intros A f l; induction l as [|a t IH]; cbn; [reflexivity|]. destruct (f a); cbn; lia. Qed.

Lemma NoDup_map_filter : forall A B (f : A -> B) g l, NoDup (map f l) -> NoDup (map f (filter g l)).
Proof.
  intros A B f g l; induction l as [|a t IH]; cbn; intros ND; [constructor|].
  inversion ND as [|? ? Hni ND']; subst. destruct (g a); cbn; [|auto].
  constructor; [|auto]. intros H. apply Hni. apply in_map_iff in H. destruct H as (x & <- & Hx).
  apply filter_In in Hx. apply in_map. tauto.
Qed.

Lemma nth_error_NoDup_inj : forall A (l : list A) i j a, NoDup l ->
  nth_error l i = Some a -> nth_error l j = Some a -> i = j.
Proof.
  intros A l i j a ND Hi Hj. rewrite NoDup_nth_error in ND. apply ND; [|congruence].
  apply nth_error_Some. congruence.
Qed.

Lemma nth_error_ext : forall A (l l' : list A), (forall i, nth_error l i = nth_error l' i) -> l = l'.
Proof.
  intros A l; induction l as [|a t IH]; intros [|b t'] H; [reflexivity| | |].
  - specialize (H 0); discriminate.
  - specialize (H 0); discriminate.
  - f_equal; [specialize (H 0); cbn in H; congruence|]. apply IH. intros i. exact (H (S i)).
Qed.

Lemma nth_error_seq : forall len start i, i < len -> nth_error (seq start len) i = Some (start + i).
Proof. intros len start i H. rewrite (nth_error_nth' _ 0) by (now rewrite seq_length). now rewrite seq_nth. Qed.

Lemma nth_error_skipn : forall A (l : list A) k i, nth_error (skipn k l) i = nth_error l (k + i).
Proof. intros A l; induction l as [|a t IH]; intros [|k] i; cbn; [reflexivity| |reflexivity|apply IH]. now destruct i. Qed.

Lemma nth_error_firstn : forall A (l : list A) k i,
  nth_error (firstn k l) i = if i <? k then nth_error l i else None.
Proof.
  intros A l; induction l as [|a t IH]; intros [|k] [|i]; cbn [firstn nth_error]; try reflexivity.
  - now destruct (S i <? S k).
  - rewrite IH. reflexivity.
Qed.

Lemma skipn_skipn : forall A (l : list A) a b, skipn a (skipn b l) = skipn (a + b) l.
Proof. intros. apply nth_error_ext. intros i. rewrite !nth_error_skipn. f_equal. lia. Qed.

(** [slice a b l] is the sublist of [l] at positions [a <= i < b]. *)
Definition slice {A} (a b : nat) (l : list A) : list A := firstn (b - a) (skipn a l).

Lemma slice_length : forall A (l : list A) a b, length (slice a b l) = Nat.min (b - a) (length l - a).
Proof. intros. unfold slice. now rewrite firstn_length, skipn_length. Qed.

Lemma slice_full : forall A (l : list A) n, length l <= n -> slice 0 n l = l.
Proof. intros. unfold slice. cbn [skipn]. rewrite Nat.sub_0_r. now apply firstn_all2. Qed.

Lemma slice_app : forall A (l : list A) a b c, a <= b -> b <= c -> slice a b l ++ slice b c l = slice a c l.
Proof.
  intros A l a b c H1 H2. unfold slice.
  replace (c - a) with ((b - a) + (c - b)) by lia.
  rewrite <- (firstn_skipn (b - a) (firstn ((b - a) + (c - b)) (skipn a l))).
  rewrite firstn_firstn, Nat.min_l by lia. f_equal.
  rewrite skipn_firstn_comm. replace (b - a + (c - b) - (b - a)) with (c - b) by lia. f_equal.
  rewrite skipn_skipn. f_equal. lia.
Qed.

Lemma slice_snoc : forall A (l : list A) a m x, a <= m -> nth_error l m = Some x ->
  slice a (S m) l = slice a m l ++ [x].
Proof.
  intros A l a m x Ha Hx. rewrite <- (slice_app A l a m (S m)) by lia. f_equal.
  unfold slice. replace (S m - m) with 1 by lia.
  assert (E : skipn m l = x :: skipn (S m) l).
  { clear Ha a. revert m Hx. induction l as [|y t IH]; intros [|m] Hx; cbn in *; try discriminate; [congruence|auto]. }
  now rewrite E.
Qed.

Lemma slice_nil : forall A (l : list A) a, slice a a l = [].
Proof. intros. unfold slice. now rewrite Nat.sub_diag. Qed.

Lemma nth_error_slice : forall A (l : list A) a b i,
  nth_error (slice a b l) i = if i <? b - a then nth_error l (a + i) else None.
Proof. intros. unfold slice. rewrite nth_error_firstn, nth_error_skipn. reflexivity. Qed.

Lemma slice_slice : forall A (l : list A) a b c d, c <= d -> d <= b - a ->
  slice c d (slice a b l) = slice (a + c) (a + d) l.
Proof.
  intros A l a b c d H1 H2. apply nth_error_ext. intros i. rewrite !nth_error_slice.
  replace (a + d - (a + c)) with (d - c) by lia.
  destruct (Nat.ltb_spec i (d - c)); [|reflexivity].
  destruct (Nat.ltb_spec (c + i) (b - a)); [|lia]. f_equal. lia.
Qed.

(** Split conjunctions without unfolding definitions. *)
Ltac ssplit := repeat match goal with |- _ /\ _ => split end.

Lemma NoDup_app_intro : forall A (l l' : list A), NoDup l -> NoDup l' -> (forall x, In x l -> ~ In x l') -> NoDup (l ++ l').
Proof.
  intros A l l' H1 H2 H. induction H1 as [|a t Ha Ht IH]; cbn; [exact H2|].
  constructor.
  - rewrite in_app_iff. intros [?|?]; [auto|]. apply (H a); cbn; auto.
  - apply IH. intros x Hx. apply H. cbn. auto.
Qed.

Lemma filter_length_perm : forall A (f : A -> bool) (l l' : list A), Permutation l l' -> length (filter f l) = length (filter f l').
Proof. intros A f l l' H. induction H; cbn; [reflexivity| | |congruence]; repeat destruct (f _); cbn; lia. Qed.

Lemma filter_perm : forall A (f : A -> bool) (l l' : list A), Permutation l l' -> Permutation (filter f l) (filter f l').
Proof.
  intros A f l l' H. induction H; cbn.
  - constructor.
  - destruct (f x); [constructor|]; assumption.
  - destruct (f x), (f y); try reflexivity. apply perm_swap.
  - etransitivity; eassumption.
Qed.

Lemma filter_nil : forall A (f : A -> bool) l, (forall x, In x l -> f x = false) -> filter f l = [].
Proof.
  intros A f l H. induction l as [|a t IH]; cbn; [reflexivity|]. rewrite (H a) by (cbn; auto). apply IH. intros. apply H. cbn. auto.
Qed.

Lemma filter_all_true : forall A (f : A -> bool) l, (forall x, In x l -> f x = true) -> filter f l = l.
Proof. intros A f l H. induction l as [|x l IH]; [reflexivity|]. cbn [filter]. rewrite H by now left. f_equal. apply IH. intros y Hy. apply H. now right. Qed.

(** The classes of a list by a bounded key make up the list. *)
Lemma filter_lt_S_perm : forall A (f : A -> nat) l n,
  Permutation (filter (fun x => f x <? S n) l) (filter (fun x => f x <? n) l ++ filter (fun x => f x =? n) l).
Proof.
  intros A f l n. induction l as [|x l IH]; [constructor|]. cbn [filter]. destruct (Nat.ltb_spec (f x) (S n)) as [L|L].
  - destruct (Nat.ltb_spec (f x) n) as [L2|L2].
    + replace (f x =? n) with false by (symmetry; apply Nat.eqb_neq; lia). cbn [app]. now constructor.
    + replace (f x =? n) with true by (symmetry; apply Nat.eqb_eq; lia). apply Permutation_cons_app. exact IH.
  - replace (f x <? n) with false by (symmetry; apply Nat.ltb_ge; lia). replace (f x =? n) with false by (symmetry; apply Nat.eqb_neq; lia). exact IH.
Qed.
Lemma classes_perm : forall A (f : A -> nat) l n, (forall x, In x l -> f x < n) -> Permutation (concat (map (fun k => filter (fun x => f x =? k) l) (seq 0 n))) l.
Proof.
  intros A f l n B.
  assert (E : filter (fun x => f x <? n) l = l) by (apply filter_all_true; intros x Hx; apply Nat.ltb_lt; now apply B).
  apply Permutation_trans with (filter (fun x => f x <? n) l); [|rewrite E; apply Permutation_refl]. clear B E. induction n as [|n IH].
  - cbn [seq map concat]. rewrite filter_nil; [constructor|]. intros; reflexivity.
  - rewrite seq_S, map_app, concat_app. cbn [map concat Nat.add]. rewrite app_nil_r. rewrite filter_lt_S_perm. now apply Permutation_app_tail.
Qed.
Lemma flat_map_ext_in' : forall A B (f g : A -> list B) l, (forall x, In x l -> f x = g x) -> flat_map f l = flat_map g l.
Proof. induction l as [|x l IH]; intros H; [reflexivity|]. cbn. rewrite (H x (or_introl eq_refl)), IH; [reflexivity|]. intros; apply H; now right. Qed.
