(** Other decompositions of the same matrix: two directions with the same value exchanged, one direction turned round. *)
From Coq Require Import List Arith Reals Lia Lra Permutation.
From Verif.Base Require Import Res ListX.
From Verif.Stats Require Import Spec Proofs.
From Verif.Pca Require Import Gram GramSpec GramProofs Components ComponentsSpec ComponentsProofs.
Import ListNotations.
Local Open Scope R_scope.

Definition exchanged (i k j : nat) : nat := if (j =? i)%nat then k else if (j =? k)%nat then i else j.
Lemma exchanged_twice : forall i k j, exchanged i k (exchanged i k j) = j.
Proof. intros i k j. unfold exchanged. destruct (Nat.eqb_spec j i), (Nat.eqb_spec j k); subst; rewrite ?Nat.eqb_refl; try reflexivity; try (destruct (Nat.eqb_spec k i); congruence); destruct (Nat.eqb_spec j i); try congruence; destruct (Nat.eqb_spec j k); congruence. Qed.
Lemma exchanged_lt : forall i k j d, (i < d)%nat -> (k < d)%nat -> (j < d)%nat -> (exchanged i k j < d)%nat.
Proof. intros. unfold exchanged. destruct (j =? i)%nat, (j =? k)%nat; assumption. Qed.
Lemma exchanged_perm : forall i k d, (i < d)%nat -> (k < d)%nat -> Permutation (map (exchanged i k) (seq 0 d)) (seq 0 d).
Proof.
  intros i k d Hi Hk. apply NoDup_Permutation.
  - apply FinFun.Injective_map_NoDup; [|apply seq_NoDup]. intros x y E. rewrite <- (exchanged_twice i k x), E. apply exchanged_twice.
  - apply seq_NoDup.
  - intros x. rewrite in_map_iff. split; [intros (y & <- & Hy)|intros Hx; exists (exchanged i k x); split; [apply exchanged_twice|]]; rewrite in_seq in *; pose proof (exchanged_lt i k) as B; (split; [lia|]); cbn [Nat.add]; apply B; lia.
Qed.
Lemma sum_exchanged : forall i k d f, (i < d)%nat -> (k < d)%nat -> Rsum (map (fun j => f (exchanged i k j)) (seq 0 d)) = Rsum (map f (seq 0 d)).
Proof. intros i k d f Hi Hk. rewrite <- (map_map (exchanged i k) f). apply Rsum_perm. apply Permutation_map. now apply exchanged_perm. Qed.
Lemma diagonalises_exchanged : forall d G v s i k, (i < d)%nat -> (k < d)%nat -> s i = s k -> diagonalises d G v s -> diagonalises d G (fun j => v (exchanged i k j)) s.
Proof.
  intros d G v s i k Hi Hk E (H1 & H2 & H3 & H4 & H5). assert (Es : forall j, s (exchanged i k j) = s j) by (intros j; unfold exchanged; destruct (Nat.eqb_spec j i); subst; auto; destruct (Nat.eqb_spec j k); subst; auto).
  unfold diagonalises. ssplit; auto.
  - intros a b Ha Hb. rewrite H1 by (now apply exchanged_lt). unfold delta. destruct (Nat.eqb_spec a b) as [->|N]; [now rewrite Nat.eqb_refl|]. destruct (Nat.eqb_spec (exchanged i k a) (exchanged i k b)) as [F|]; [|reflexivity]. exfalso. apply N. rewrite <- (exchanged_twice i k a), F. apply exchanged_twice.
  - intros a b Ha Hb. rewrite (sum_exchanged i k d (fun j => v j a * v j b)) by assumption. now apply H2.
  - intros a b Ha Hb. rewrite H5 by assumption. rewrite <- (sum_exchanged i k d (fun j => s j * s j * (v j a * v j b))) by assumption. apply sum_ext. intros j _. now rewrite Es.
Qed.
Definition turn (i j : nat) : R := if (j =? i)%nat then -1 else 1.
Definition turned (i : nat) (v : nat -> nat -> R) (j a : nat) : R := turn i j * v j a.
Lemma turn_square : forall i j, turn i j * turn i j = 1.
Proof. intros i j. unfold turn. destruct (j =? i)%nat; ring. Qed.
Lemma diagonalises_turned : forall d G v s i, diagonalises d G v s -> diagonalises d G (turned i v) s.
Proof.
  intros d G v s i (H1 & H2 & H3 & H4 & H5).
  assert (Sq : forall j a b, turned i v j a * turned i v j b = v j a * v j b) by (intros j a b; unfold turned; transitivity (turn i j * turn i j * (v j a * v j b)); [ring|rewrite turn_square; ring]).
  unfold diagonalises. ssplit; auto.
  - intros a b Ha Hb. unfold turned. rewrite inner_scal, inner_scal_r, H1 by assumption. destruct (Nat.eq_dec a b) as [->|N]; [rewrite delta_same, Rmult_1_r; apply turn_square|rewrite delta_other by assumption; ring].
  - intros a b Ha Hb. rewrite (sum_ext d _ (fun j => v j a * v j b)) by auto. now apply H2.
  - intros a b Ha Hb. rewrite H5 by assumption. apply sum_ext. intros j _. now rewrite Sq.
Qed.
