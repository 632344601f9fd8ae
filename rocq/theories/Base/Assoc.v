(** Hash maps as association lists in iteration order (std::collections::HashMap with keys of type K).
    [NoDup (keys m)] is the well-formedness of such a list. *)
From Coq Require Import List Arith Lia Bool Permutation.
Import ListNotations.

Section Assoc.
Context {K V : Type} (eqb : K -> K -> bool).

Definition keys (m : list (K * V)) : list K := map fst m.

(** [HashMap::get]. *)
Fixpoint lookup (k : K) (m : list (K * V)) : option V :=
  match m with
  | [] => None
  | (k', v) :: t => if eqb k k' then Some v else lookup k t
  end.

(** [HashMap::insert]: replaces the value of an existing key in place, else adds the key.  The place of a new key in the
    iteration order is arbitrary in Rust; here it is the end - theorems about iteration are stated for every order. *)
Fixpoint insert (k : K) (v : V) (m : list (K * V)) : list (K * V) :=
  match m with
  | [] => [(k, v)]
  | (k', v') :: t => if eqb k k' then (k', v) :: t else (k', v') :: insert k v t
  end.

(** [HashMap::remove] (the map part). *)
Fixpoint remove_key (k : K) (m : list (K * V)) : list (K * V) :=
  match m with
  | [] => []
  | (k', v') :: t => if eqb k k' then t else (k', v') :: remove_key k t
  end.

Hypothesis eqb_spec : forall a b, reflect (a = b) (eqb a b).

Lemma lookup_insert_same : forall k v m, lookup k (insert k v m) = Some v.
Proof.
  intros k v m; induction m as [|[k' v'] t IH]; cbn.
  - destruct (eqb_spec k k); congruence.
  - destruct (eqb_spec k k'); cbn.
    + destruct (eqb_spec k k'); congruence.
    + destruct (eqb_spec k k'); [congruence|exact IH].
Qed.

Lemma lookup_insert_other : forall k k' v m, k <> k' -> lookup k (insert k' v m) = lookup k m.
Proof.
  intros k k' v m Hne; induction m as [|[k2 v2] t IH]; cbn.
  - destruct (eqb_spec k k'); congruence.
  - destruct (eqb_spec k' k2); cbn.
    + subst. destruct (eqb_spec k k2); [congruence|reflexivity].
    + destruct (eqb_spec k k2); [reflexivity|exact IH].
Qed.

Lemma lookup_In : forall k v m, lookup k m = Some v -> In (k, v) m.
Proof.
  intros k v m; induction m as [|[k' v'] t IH]; cbn; [discriminate|].
  destruct (eqb_spec k k'); intros H; [injection H as ->; subst; now left|right; auto].
Qed.

Lemma In_lookup : forall k v m, NoDup (keys m) -> In (k, v) m -> lookup k m = Some v.
Proof.
  intros k v m; induction m as [|[k' v'] t IH]; cbn; intros ND Hin; [easy|].
  inversion ND as [|? ? Hni ND']; subst.
  destruct Hin as [Heq|Hin].
  - injection Heq as -> ->. destruct (eqb_spec k k); congruence.
  - destruct (eqb_spec k k') as [->|Hne].
    + exfalso. apply Hni. change (In (fst (k', v)) (keys t)). apply in_map with (f := fst) in Hin. exact Hin.
    + auto.
Qed.

Lemma lookup_None : forall k m, lookup k m = None <-> ~ In k (keys m).
Proof.
  intros k m; induction m as [|[k' v'] t IH]; cbn; [tauto|].
  destruct (eqb_spec k k') as [->|Hne].
  - split; [discriminate|intros H; exfalso; apply H; now left].
  - rewrite IH. split; [intros H [->|H']; [congruence|auto]|intros H H'; apply H; now right].
Qed.

Lemma keys_insert : forall k v m, In k (keys m) -> keys (insert k v m) = keys m.
Proof.
  intros k v m; induction m as [|[k' v'] t IH]; cbn; intros H; [easy|].
  destruct (eqb_spec k k') as [->|Hne]; cbn; [reflexivity|].
  f_equal. apply IH. destruct H as [->|H]; [congruence|exact H].
Qed.

Lemma keys_insert_new : forall k v m, ~ In k (keys m) -> keys (insert k v m) = keys m ++ [k].
Proof.
  intros k v m; induction m as [|[k' v'] t IH]; cbn; intros H; [reflexivity|].
  destruct (eqb_spec k k') as [->|Hne]; cbn; [exfalso; apply H; now left|].
  f_equal. apply IH. intros Hin; apply H; now right.
Qed.

Lemma insert_new : forall k v m, ~ In k (keys m) -> insert k v m = m ++ [(k, v)].
Proof.
  intros k v m; induction m as [|[k' v'] t IH]; cbn; intros H; [reflexivity|].
  destruct (eqb_spec k k') as [->|Hne]; cbn; [exfalso; apply H; now left|].
  f_equal. apply IH. intros Hin; apply H; now right.
Qed.

Lemma NoDup_keys_insert : forall k v m, NoDup (keys m) -> NoDup (keys (insert k v m)).
Proof.
  intros k v m ND.
  destruct (in_dec (fun a b => match eqb_spec a b with ReflectT _ e => left e | ReflectF _ n => right n end) k (keys m)) as [Hi|Hn].
  - now rewrite keys_insert.
  - rewrite keys_insert_new by exact Hn.
    apply NoDup_rev in ND. rewrite <- (rev_involutive (keys m ++ [k])), rev_app_distr. apply NoDup_rev. cbn.
    constructor; [now rewrite <- in_rev|exact ND].
Qed.

Lemma lookup_remove_other : forall k k' m, k <> k' -> lookup k (remove_key k' m) = lookup k m.
Proof.
  intros k k' m Hne; induction m as [|[k2 v2] t IH]; cbn; [reflexivity|].
  destruct (eqb_spec k' k2) as [->|Hne2]; cbn.
  - destruct (eqb_spec k k2); [congruence|reflexivity].
  - destruct (eqb_spec k k2); [reflexivity|exact IH].
Qed.

Lemma lookup_remove_same : forall k m, NoDup (keys m) -> lookup k (remove_key k m) = None.
Proof.
  intros k m; induction m as [|[k2 v2] t IH]; cbn; intros ND; [reflexivity|].
  inversion ND as [|? ? Hni ND']; subst.
  destruct (eqb_spec k k2) as [->|Hne2]; cbn.
  - now apply lookup_None.
  - destruct (eqb_spec k k2); [congruence|auto].
Qed.

Lemma lookup_perm : forall m m' k, NoDup (keys m) -> Permutation m m' -> lookup k m = lookup k m'.
Proof.
  intros m m' k ND P.
  assert (ND' : NoDup (keys m')) by (eapply Permutation_NoDup; [apply Permutation_map; exact P|exact ND]).
  destruct (lookup k m) as [v|] eqn:E.
  - symmetry. apply In_lookup; [exact ND'|]. eapply Permutation_in; [exact P|]. now apply lookup_In.
  - symmetry. apply lookup_None. apply lookup_None in E. intros H; apply E.
    eapply Permutation_in; [apply Permutation_sym, Permutation_map; exact P|exact H].
Qed.
End Assoc.
