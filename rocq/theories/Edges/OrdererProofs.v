From Coq Require Import List Arith Bool Lia Permutation.
From Verif.Base Require Import Res Assoc ListX.
From Verif.Segmentation Require Import Spec.
From Verif.Edges Require Import Model.
Import ListNotations.

Lemma node_eqb_refl : forall a, node_eqb a a = true.
Proof. intros a. unfold node_eqb. now rewrite !Nat.eqb_refl. Qed.
Lemma opt_node_eqb_refl : forall a, opt_node_eqb a a = true.
Proof. intros [a|]; [apply node_eqb_refl|reflexivity]. Qed.

Inductive consecutive : list node -> Prop :=
| c_one : forall x, consecutive [x]
| c_more : forall x y l, n_segment y = n_segment x + 1 -> consecutive (y :: l) -> consecutive (x :: y :: l).

Definition add_all (nodes : list node) (s : orderer * option node) : orderer * option node := fold_left (fun '(o, pv) x => (add_node pv x o, Some x)) nodes s.
Definition with_small (o : orderer) (l : list edge) : orderer :=
  {| o_previous := o_previous o; o_small := o_small o ++ l; o_large := o_large o; o_first := o_first o; o_middle := o_middle o; o_last := o_last o |}.
Definition with_large (o : orderer) (l : list edge) : orderer :=
  {| o_previous := o_previous o; o_small := o_small o; o_large := o_large o ++ l; o_first := o_first o; o_middle := o_middle o; o_last := o_last o |}.

Lemma add_next : forall o z x, o_first o <> None -> n_segment x = n_segment z + 1 -> add_node (Some z) x o = push (z, x) o.
Proof.
  intros o z x Hf Hs. unfold add_node. destruct (o_first o) as [f|] eqn:E; [|congruence]. rewrite andb_false_r. unfold check_for_gap. rewrite Hs, Nat.eqb_refl. reflexivity.
Qed.
Lemma add_small : forall zs z o, consecutive (z :: zs) -> o_first o <> None -> o_last o = None ->
  add_all zs (o, Some z) = (with_small o (pairs (z :: zs)), Some (last zs z)).
Proof.
  induction zs as [|x zs IH]; intros z o Hc Hf Hl.
  - unfold add_all, with_small. cbn. rewrite app_nil_r. now destruct o.
  - inversion Hc; subst. unfold add_all. cbn [fold_left]. rewrite add_next by assumption. unfold push. rewrite Hl.
    fold (add_all zs). unfold add_all in IH. rewrite IH; [|assumption|assumption|reflexivity]. unfold with_small. cbn [o_previous o_small o_large o_first o_middle o_last].
    rewrite <- app_assoc, Hl. f_equal. f_equal. destruct zs as [|y zs]; [reflexivity|]. change (last (x :: y :: zs) z) with (last (y :: zs) z). clear. revert y. induction zs as [|u zs IH]; intros y; [reflexivity|]. apply (IH u).
Qed.
Lemma add_large : forall zs z o, consecutive (z :: zs) -> o_first o <> None -> o_last o <> None ->
  add_all zs (o, Some z) = (with_large o (pairs (z :: zs)), Some (last zs z)).
Proof.
  induction zs as [|x zs IH]; intros z o Hc Hf Hl.
  - unfold add_all, with_large. cbn. rewrite app_nil_r. now destruct o.
  - inversion Hc; subst. unfold add_all. cbn [fold_left]. rewrite add_next by assumption. unfold push. destruct (o_last o) as [ll|] eqn:El; [|congruence].
    fold (add_all zs). unfold add_all in IH. rewrite IH; [|assumption|assumption|discriminate]. unfold with_large. cbn [o_previous o_small o_large o_first o_middle o_last].
    rewrite <- app_assoc, El. f_equal. f_equal. destruct zs as [|y zs]; [reflexivity|]. change (last (x :: y :: zs) z) with (last (y :: zs) z). clear. revert y. induction zs as [|u zs IH]; intros y; [reflexivity|]. apply (IH u).
Qed.

Definition opt_list {A} (o : option A) : list A := match o with Some x => [x] | None => [] end.

Lemma add_first : forall previous x xs, add_all (x :: xs) (new_orderer previous, previous) =
  add_all xs ({| o_previous := previous; o_small := []; o_large := []; o_first := Some x; o_middle := None; o_last := None |}, Some x).
Proof. intros. unfold add_all. cbn [fold_left]. unfold add_node at 2. cbn [new_orderer o_previous o_small o_first o_large o_middle o_last]. now rewrite opt_node_eqb_refl. Qed.

Lemma connect_consecutive : forall previous x xs, consecutive (x :: xs) ->
  connect_point previous (x :: xs) = Ok (pairs (opt_list previous ++ x :: xs), Some (last xs x)).
Proof.
  intros previous x xs Hc. unfold connect_point. fold (add_all (x :: xs)). rewrite add_first, add_small; [|assumption|discriminate|reflexivity].
  unfold into_vec, with_small. cbn [o_previous o_small o_large o_first o_middle o_last app unwrap bind]. destruct previous as [pt|]; reflexivity.
Qed.

Lemma last_nth : forall A (l : list A) x, nth_error (l ++ [x]) (length (l ++ [x]) - 1) = Some x.
Proof. intros A l x. rewrite app_length. cbn [length]. rewrite nth_error_app2 by lia. replace (length l + 1 - 1 - length l) with 0 by lia. reflexivity. Qed.
Lemma pairs_last : forall A (x : A) l y, pairs (x :: l ++ [y]) = pairs (x :: l) ++ [(last l x, y)].
Proof.
  intros A x l. revert x. induction l as [|z l IH]; intros x y; [reflexivity|]. cbn [app]. change (pairs (x :: z :: l ++ [y])) with ((x, z) :: pairs (z :: l ++ [y])). rewrite IH.
  change (pairs (x :: z :: l)) with ((x, z) :: pairs (z :: l)). cbn [app]. f_equal. f_equal. f_equal. f_equal. destruct l as [|u l]; [reflexivity|]. change (last (z :: u :: l) x) with (last (u :: l) x).
  clear. revert u. induction l as [|v l IH]; intros u; [reflexivity|]. apply (IH v).
Qed.
Lemma pairs_app2 : forall A (x : A) l y m, pairs (x :: l ++ y :: m) = pairs (x :: l) ++ (last l x, y) :: pairs (y :: m).
Proof.
  intros A x l y m. revert x. induction l as [|z l IH]; intros x; [reflexivity|]. cbn [app]. change (pairs (x :: z :: l ++ y :: m)) with ((x, z) :: pairs (z :: l ++ y :: m)). rewrite IH.
  change (pairs (x :: z :: l)) with ((x, z) :: pairs (z :: l)). cbn [app]. f_equal. f_equal. f_equal. f_equal. destruct l as [|u l]; [reflexivity|]. change (last (z :: u :: l) x) with (last (u :: l) x).
  clear. revert u. induction l as [|v l IH]; intros u; [reflexivity|]. apply (IH v).
Qed.

(** The stored order [x :: xs ++ y :: ys] of a transition that visits [y :: ys ++ x :: xs]. *)
Lemma connect_wrapping : forall previous x xs y ys, consecutive (x :: xs) -> consecutive (y :: ys) -> n_segment y <> n_segment (last xs x) + 1 ->
  connect_point previous (x :: xs ++ y :: ys) =
    match previous, ys with
    | None, [] => Panic UnwrapNone
    | _, _ => Ok (pairs (opt_list previous ++ y :: ys ++ x :: xs), Some (last xs x))
    end.
Proof.
  intros previous x xs y ys Hx Hy Hgap. unfold connect_point. fold (add_all (x :: xs ++ y :: ys)). change (x :: xs ++ y :: ys) with ((x :: xs) ++ y :: ys).
  unfold add_all. rewrite fold_left_app. fold (add_all (x :: xs)). rewrite add_first, add_small; [|assumption|discriminate|reflexivity].
  unfold with_small at 1. cbn [o_previous o_small o_large o_first o_middle o_last app fold_left]. unfold add_node at 2.
  cbn [o_previous o_small o_large o_first o_middle o_last]. rewrite andb_false_r. unfold check_for_gap.
  destruct (Nat.eqb_spec (n_segment y) (n_segment (last xs x) + 1)) as [E|_]; [contradiction|]. cbn [negb o_previous o_small o_large o_first o_middle o_last].
  fold (add_all ys). rewrite add_large; [|assumption|discriminate|discriminate].
  assert (Em : match pairs (x :: xs) with e :: _ => fst e | [] => last xs x end = x) by (destruct xs; reflexivity). unfold edge in *. rewrite Em.
  unfold with_large, into_vec. cbn [o_previous o_small o_large o_first o_middle o_last].
  destruct previous as [pt|].
  - cbn [app]. 
    assert (El : (pt, y) :: pairs (y :: ys) = pairs (pt :: y :: ys)) by reflexivity. unfold edge in *. rewrite El. clear El.
    destruct (exists_last (l := y :: ys) ltac:(discriminate)) as (l' & z & Ez). rewrite Ez. rewrite pairs_last.
    rewrite last_nth. cbn [unwrap bind push o_previous o_small o_large o_first o_middle o_last snd opt_list]. f_equal. f_equal. cbn [app].
    change (pt :: y :: ys ++ x :: xs) with (pt :: (y :: ys) ++ x :: xs). rewrite Ez. cbn [app]. rewrite pairs_app2, last_last, pairs_last. rewrite <- !app_assoc. reflexivity.
  - destruct ys as [|u ys]; [reflexivity|]. cbn [app]. unfold edge in *.
    destruct (exists_last (l := u :: ys) ltac:(discriminate)) as (l' & z & Ez). rewrite Ez. rewrite pairs_last.
    rewrite last_nth. cbn [unwrap bind push o_previous o_small o_large o_first o_middle o_last snd opt_list]. f_equal. f_equal. cbn [app].
    change (y :: u :: ys ++ x :: xs) with (y :: (u :: ys) ++ x :: xs). rewrite Ez. cbn [app]. rewrite pairs_app2, last_last, pairs_last. rewrite <- !app_assoc. reflexivity.
Qed.
