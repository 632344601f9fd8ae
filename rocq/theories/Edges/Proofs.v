From Coq Require Import List Arith Bool Lia Permutation Sorting.Sorted.
From Verif.Base Require Import Res Params Assoc ListX.
From Verif.Topology Require Import Proofs.
From Verif.Transition Require Import Spec Proofs.
From Verif.Segmentation Require Import Model Spec Blocks Proofs PathProofs.
From Verif.Edges Require Import Model Spec OrdererProofs.
Import ListNotations.

(** ** Lists *)
Lemma key_eqb_spec : forall a b, reflect (a = b) (key_eqb a b).
Proof. intros [a1 a2] [b1 b2]. unfold key_eqb. cbn. destruct (Nat.eqb_spec a1 b1), (Nat.eqb_spec a2 b2); cbn; constructor; congruence. Qed.

Lemma concat_singles : forall A B (f : A -> list B) g l, (forall x, In x l -> f x = [g x]) -> concat (map f l) = map g l.
Proof. intros A B f g l H. induction l as [|x l IH]; [reflexivity|]. cbn [map concat]. rewrite (H x) by now left. rewrite IH; [reflexivity|]. intros y Hy. apply H. now right. Qed.
Lemma concat_nils : forall A B (f : A -> list B) l, (forall x, In x l -> f x = []) -> concat (map f l) = [].
Proof. intros A B f l H. induction l as [|x l IH]; [reflexivity|]. cbn [map concat]. rewrite (H x) by now left. rewrite IH; [reflexivity|]. intros y Hy. apply H. now right. Qed.
Lemma filter_concat_map : forall A B (f : A -> list B) g l, filter g (concat (map f l)) = concat (map (fun x => filter g (f x)) l).
Proof. intros A B f g l. induction l as [|x l IH]; [reflexivity|]. cbn [map concat]. now rewrite filter_app, IH. Qed.
Lemma filter_comm : forall A (f g : A -> bool) l, filter f (filter g l) = filter g (filter f l).
Proof. intros A f g l. induction l as [|x l IH]; [reflexivity|]. cbn [filter]. destruct (f x) eqn:F, (g x) eqn:G; cbn [filter]; rewrite ?F, ?G, IH; reflexivity. Qed.

(** A monotone function takes a value on an interval. *)
Lemma level_interval : forall (f : nat -> nat) k d, (forall i j, i <= j -> f i <= f j) ->
  exists a m c, a + m + c = d /\ (forall l, l < a -> f l < k) /\ (forall l, a <= l < a + m -> f l = k) /\ (forall l, a + m <= l < d -> k < f l).
Proof.
  intros f k d Hm. induction d as [|d (a & m & c & E & H1 & H2 & H3)].
  - exists 0, 0, 0. ssplit; intros; lia.
  - destruct (lt_eq_lt_dec (f d) k) as [[L|L]|L].
    + exists (S d), 0, 0. ssplit; try (intros; lia). intros l Hl. pose proof (Hm l d ltac:(lia)). lia.
    + destruct c as [|c].
      * exists a, (S m), 0. ssplit; try (intros; lia); [exact H1|]. intros l Hl. destruct (Nat.eq_dec l d) as [->|]; [exact L|]. apply H2. lia.
      * exfalso. pose proof (H3 (a + m) ltac:(lia)). pose proof (Hm (a + m) d ltac:(lia)). lia.
    + exists a, m, (S c). ssplit; [lia|exact H1|exact H2|]. intros l Hl. destruct (Nat.eq_dec l d) as [->|]; [exact L|]. apply H3. lia.
Qed.

(** A list sorted by a key is the concatenation of its key classes. *)
Lemma filter_lt_S : forall A (f : A -> nat) l n, StronglySorted le (map f l) ->
  filter (fun x => f x <? S n) l = filter (fun x => f x <? n) l ++ filter (fun x => f x =? n) l.
Proof.
  intros A f l n. induction l as [|x l IH]; intros S; [reflexivity|]. cbn [map] in S. inversion S as [|? ? S' F]; subst. cbn [filter].
  destruct (Nat.ltb_spec (f x) (Datatypes.S n)) as [L|L].
  - destruct (Nat.ltb_spec (f x) n) as [L2|L2].
    + replace (f x =? n) with false by (symmetry; apply Nat.eqb_neq; lia). cbn [app]. now rewrite IH.
    + assert (E : f x = n) by lia. rewrite E, Nat.eqb_refl. rewrite IH by assumption.
      assert (E0 : filter (fun x => f x <? n) l = []).
      { apply filter_nil. intros y Hy. apply Nat.ltb_ge. rewrite Forall_forall in F. specialize (F (f y) (in_map f l y Hy)). lia. }
      rewrite E0. reflexivity.
  - replace (f x <? n) with false by (symmetry; apply Nat.ltb_ge; lia). replace (f x =? n) with false by (symmetry; apply Nat.eqb_neq; lia). apply IH. assumption.
Qed.
Lemma by_key : forall A (f : A -> nat) l n, StronglySorted le (map f l) ->
  filter (fun x => f x <? n) l = concat (map (fun k => filter (fun x => f x =? k) l) (seq 0 n)).
Proof.
  intros A f l n S. induction n as [|n IH].
  - cbn. apply filter_nil. intros; reflexivity.
  - rewrite filter_lt_S by exact S. rewrite seq_S, map_app, concat_app. cbn [map concat Nat.add]. now rewrite app_nil_r, IH.
Qed.

Lemma pairs_mid : forall A (l : list A) x m, pairs (l ++ x :: m) = pairs (l ++ [x]) ++ pairs (x :: m).
Proof.
  intros A l x m. induction l as [|a l IH]; [reflexivity|]. destruct l as [|b l].
  - cbn [app]. change (pairs (a :: x :: m)) with ((a, x) :: pairs (x :: m)). reflexivity.
  - cbn [app] in *. change (pairs (a :: b :: l ++ x :: m)) with ((a, b) :: pairs (b :: l ++ x :: m)). change (pairs (a :: b :: l ++ [x])) with ((a, b) :: pairs (b :: l ++ [x])).
    rewrite IH. reflexivity.
Qed.
Lemma pairs_in : forall A (l : list A) x y, In (x, y) (pairs l) -> In x l /\ In y l.
Proof.
  intros A l x y. induction l as [|a l IH]; [easy|]. destruct l as [|b l]; [easy|]. change (pairs (a :: b :: l)) with ((a, b) :: pairs (b :: l)). intros [E|H].
  - injection E as -> ->. split; [now left|right; now left].
  - destruct (IH H). split; now right.
Qed.
Lemma pairs_next : forall A (l : list A) c m y, NoDup (l ++ c :: m) -> In (c, y) (pairs (l ++ c :: m)) -> hd_error m = Some y.
Proof.
  intros A l c m y ND H. rewrite pairs_mid in H. apply in_app_or in H. destruct H as [H|H].
  - exfalso. revert ND H. induction l as [|a l IH]; intros ND H; [easy|]. cbn [app] in *. inversion ND as [|? ? Hni ND']; subst. destruct l as [|b l]; cbn [app] in *.
    + destruct H as [E|[]]. injection E as <- _. apply Hni. now left.
    + change (pairs (a :: b :: l ++ [c])) with ((a, b) :: pairs (b :: l ++ [c])) in H. destruct H as [E|H]; [|now apply IH].
      injection E as -> _. apply Hni. right. apply in_or_app. right. now left.
  - destruct m as [|z m]; [easy|]. change (pairs (c :: z :: m)) with ((c, z) :: pairs (z :: m)) in H. destruct H as [E|H]; [injection E as ->; reflexivity|].
    exfalso. apply pairs_in in H. apply NoDup_remove_2 in ND. apply ND. apply in_or_app. right. apply H.
Qed.

Definition last_error {A} (l : list A) : option A := hd_error (rev l).
Lemma last_error_snoc : forall A (l : list A) x, last_error (l ++ [x]) = Some x.
Proof. intros. unfold last_error. now rewrite rev_app_distr. Qed.
Lemma last_error_some : forall A (l : list A) x, last_error l = Some x -> exists l', l = l' ++ [x].
Proof.
  intros A l x H. unfold last_error in H. destruct (rev l) as [|y t] eqn:E; [discriminate|]. injection H as ->. exists (rev t).
  rewrite <- (rev_involutive l), E. reflexivity.
Qed.

(** ** The bookkeeping of [connect_nodes] over a walk cut into blocks *)
Section Walk.
Variable own : node -> bool.
Definition leaving (l : list node) : list edge := filter (fun e => own (fst e)) (pairs l).

Lemma leaving_mid : forall l x m, leaving (l ++ x :: m) = leaving (l ++ [x]) ++ leaving (x :: m).
Proof. intros. unfold leaving. now rewrite pairs_mid, filter_app. Qed.
Lemma leaving_foreign : forall l y, (forall x, In x l -> own x = false) -> leaving (l ++ [y]) = [].
Proof.
  intros l y H. unfold leaving. apply filter_nil. intros [a b] Hi. cbn. revert Hi. induction l as [|x l IH]; [easy|]. destruct l as [|z l]; cbn [app].
  - intros [E|[]]. injection E as <- _. apply H. now left.
  - change (pairs (x :: z :: l ++ [y])) with ((x, z) :: pairs (z :: l ++ [y])). intros [E|Hi]; [injection E as <- _; apply H; now left|]. apply IH; [|exact Hi]. intros u Hu. apply H. now right.
Qed.
Lemma leaving_own : forall l, (forall x, In x l -> own x = true) -> leaving l = pairs l.
Proof. intros l H. unfold leaving. apply filter_all_true. intros [a b] Hi. cbn. apply H. apply pairs_in in Hi. apply Hi. Qed.

(** The previous node after the blocks [w1], with the rest [w2] to come. *)
Definition previous_of (w1 w2 : list node) : option node :=
  match last_error w1 with
  | Some x => if own x then match hd_error w2 with Some y => if own y then Some x else None | None => Some x end else None
  | None => None
  end.
(** The edges after the blocks [w1]. *)
Definition edges_of (w1 w2 : list node) : list edge :=
  leaving (w1 ++ match previous_of w1 w2 with Some _ => [] | None => opt_list (hd_error w2) end).

Lemma step_foreign : forall w1 v w2, (forall x, In x v -> own x = false) -> v <> [] -> 
  edges_of (w1 ++ v) w2 = edges_of w1 (v ++ w2) /\ previous_of (w1 ++ v) w2 = None /\ previous_of w1 (v ++ w2) = None.
Proof.
  intros w1 v w2 Hv Hn.
  assert (P1 : previous_of (w1 ++ v) w2 = None).
  { destruct (exists_last Hn) as (v' & z & ->). unfold previous_of. rewrite app_assoc, last_error_snoc. rewrite Hv; [reflexivity|]. apply in_or_app. right. now left. }
  assert (P2 : previous_of w1 (v ++ w2) = None).
  { unfold previous_of. destruct (last_error w1) as [x|]; [|reflexivity]. destruct (own x); [|reflexivity]. destruct v as [|z v]; [congruence|]. cbn. rewrite Hv by now left. reflexivity. }
  split; [|auto]. unfold edges_of. rewrite P1, P2. destruct v as [|z v]; [congruence|]. cbn [app hd_error opt_list]. rewrite <- app_assoc. cbn [app]. rewrite leaving_mid.
  enough (E : leaving (z :: v ++ opt_list (hd_error w2)) = []) by (rewrite E; apply app_nil_r).
  destruct (hd_error w2) as [y|]; cbn [opt_list].
  - apply (leaving_foreign (z :: v)). exact Hv.
  - rewrite app_nil_r. destruct (exists_last (l := z :: v) ltac:(discriminate)) as (v' & u & E). rewrite E. apply leaving_foreign. intros x Hx. apply Hv. rewrite E. apply in_or_app. now left.
Qed.

(** A block with nodes of this host. *)
Lemma step_own : forall w1 pre x xs post w2, (forall y, In y pre -> own y = false) -> (forall y, In y (x :: xs) -> own y = true) -> (forall y, In y post -> own y = false) ->
  let c := last xs x in let pv := previous_of w1 (pre ++ x :: xs ++ post ++ w2) in
  let leave := match hd_error (post ++ w2) with Some y => if own y then None else Some y | None => None end in
  edges_of (w1 ++ pre ++ x :: xs ++ post) w2 = edges_of w1 (pre ++ x :: xs ++ post ++ w2) ++ pairs (opt_list pv ++ x :: xs) ++ (match leave with Some y => [(c, y)] | None => [] end) /\
  previous_of (w1 ++ pre ++ x :: xs ++ post) w2 = (match leave with Some y => None | None => Some c end).
Proof.
  intros w1 pre x xs post w2 Hpre Hown Hpost c pv leave.
  assert (Ec : exists ps, x :: xs = ps ++ [c]).
  { exists (removelast (x :: xs)). unfold c. replace (last xs x) with (last (x :: xs) x). { apply app_removelast_last. discriminate. }
    destruct xs as [|z xs]; [reflexivity|]. change (last (x :: z :: xs) x) with (last (z :: xs) x). reflexivity. }
  destruct Ec as (ps & Ec).
  assert (Hc : own c = true) by (apply Hown; rewrite Ec; apply in_or_app; right; now left).
  assert (Pv : previous_of (w1 ++ pre ++ x :: xs ++ post) w2 = match leave with Some y => None | None => Some c end).
  { destruct post as [|z post].
    - rewrite app_nil_r. rewrite Ec. unfold previous_of. rewrite !app_assoc, last_error_snoc, Hc. unfold leave. cbn [app]. destruct (hd_error w2) as [y|]; [|reflexivity]. destruct (own y); reflexivity.
    - unfold leave. cbn [app hd_error]. rewrite (Hpost z) by now left. unfold previous_of.
      destruct (exists_last (l := z :: post) ltac:(discriminate)) as (l' & u & E). rewrite E.
      change (x :: xs ++ l' ++ [u]) with ((x :: xs) ++ l' ++ [u]). rewrite !app_assoc, last_error_snoc. rewrite (Hpost u); [reflexivity|]. rewrite E. apply in_or_app. right. now left. }
  split; [|exact Pv]. unfold edges_of at 1. rewrite Pv.
  set (rest := match (match leave with Some y => None | None => Some c end) with Some _ => [] | None => opt_list (hd_error w2) end).
  assert (Tail : leaving (c :: post ++ rest) = match leave with Some y => [(c, y)] | None => [] end).
  { unfold rest, leave. destruct post as [|z post]; cbn [app hd_error].
    - destruct (hd_error w2) as [y|]; [|reflexivity]. destruct (own y) eqn:Ey; [reflexivity|]. cbn [opt_list]. unfold leaving. cbn. rewrite Hc. reflexivity.
    - rewrite (Hpost z) by now left. change (c :: z :: post ++ opt_list (hd_error w2)) with ([c] ++ z :: (post ++ opt_list (hd_error w2))). rewrite leaving_mid.
      assert (E1 : leaving ([c] ++ [z]) = [(c, z)]) by (unfold leaving; cbn; rewrite Hc; reflexivity). rewrite E1.
      assert (E2 : leaving (z :: post ++ opt_list (hd_error w2)) = []).
      { destruct (hd_error w2) as [y|]; cbn [opt_list].
        - apply (leaving_foreign (z :: post)). exact Hpost.
        - rewrite app_nil_r. destruct (exists_last (l := z :: post) ltac:(discriminate)) as (v' & u & E). rewrite E. apply leaving_foreign. intros y Hy. apply Hpost. rewrite E. apply in_or_app. now left. }
      rewrite E2. reflexivity. }
  rewrite <- !app_assoc. cbn [app]. rewrite <- app_assoc. rewrite app_assoc, leaving_mid.
  assert (Mid : leaving (x :: xs ++ post ++ rest) = pairs (x :: xs) ++ match leave with Some y => [(c, y)] | None => [] end).
  { change (x :: xs ++ post ++ rest) with ((x :: xs) ++ post ++ rest). rewrite Ec. rewrite <- app_assoc. cbn [app]. rewrite leaving_mid, Tail. rewrite leaving_own; [now rewrite <- Ec|]. rewrite <- Ec. exact Hown. }
  rewrite Mid.
  assert (Hd : leaving ((w1 ++ pre) ++ [x]) ++ pairs (x :: xs) = edges_of w1 (pre ++ x :: xs ++ post ++ w2) ++ pairs (opt_list pv ++ x :: xs)).
  { unfold edges_of. fold pv. destruct pv as [q|] eqn:Epv; unfold pv in Epv.
    - cbn [opt_list app]. rewrite app_nil_r. unfold previous_of in Epv. destruct (last_error w1) as [q'|] eqn:El; [|discriminate]. destruct (own q') eqn:Eq'; [|discriminate].
      destruct pre as [|z pre].
      2:{ cbn [app hd_error] in Epv. rewrite (Hpre z) in Epv by now left. discriminate. }
      cbn [app hd_error] in Epv. rewrite (Hown x) in Epv by now left. injection Epv as ->. apply last_error_some in El. destruct El as (w0 & ->).
      rewrite app_nil_r, <- app_assoc. cbn [app]. rewrite leaving_mid. rewrite <- app_assoc. f_equal. unfold leaving. cbn. rewrite Eq'. reflexivity.
    - cbn [opt_list app]. f_equal. destruct pre as [|z pre]; cbn [app hd_error opt_list]; [now rewrite app_nil_r|]. rewrite <- app_assoc. cbn [app]. rewrite leaving_mid.
      pose proof (leaving_foreign (z :: pre) x Hpre) as F. cbn [app] in F. rewrite F. apply app_nil_r. }
  unfold edge in *. set (T := match leave with Some y => _ | None => _ end). etransitivity; [apply app_assoc|]. etransitivity; [exact (f_equal (fun l => l ++ T) Hd)|]. symmetry. apply app_assoc.
Qed.
End Walk.
