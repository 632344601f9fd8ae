(** Scores do not depend on the numbers of the clusters, only on which crossings share one. *)
From Coq Require Import List Arith Bool Lia Permutation.
From Verif.Base Require Import Params ListX.
From Verif.Segmentation Require Import Model Spec.
From Verif.Edges Require Import Model Spec.
From Verif.Scoring Require Import Spec.
Import ListNotations.

Lemma map_filter {A B} (f : A -> B) (g : B -> bool) : forall l, filter g (map f l) = map f (filter (fun a => g (f a)) l).
Proof. induction l as [|a l IH]; [reflexivity|]. cbn [map filter]. destruct (g (f a)); cbn [map]; now rewrite IH. Qed.

Section Rename.
Context {A : Type} (f g : A -> edge) (all : list A).
Hypothesis Hff : forall a b, In a all -> In b all -> same_node (fst (f a)) (fst (f b)) = same_node (fst (g a)) (fst (g b)).
Hypothesis Hfs : forall a b, In a all -> In b all -> same_node (fst (f a)) (snd (f b)) = same_node (fst (g a)) (snd (g b)).
Hypothesis Hss : forall a b, In a all -> In b all -> same_node (snd (f a)) (snd (f b)) = same_node (snd (g a)) (snd (g b)).
Hypothesis Hid : forall a, In a all -> to_id (f a) = to_id (g a).

Lemma rename_edge : forall a b, In a all -> In b all -> same_edge (f a) (f b) = same_edge (g a) (g b).
Proof. intros a b Ha Hb. unfold same_edge. now rewrite Hff, Hss. Qed.
Lemma rename_count : forall (u v : edge -> bool) l, (forall a, In a l -> u (f a) = v (g a)) -> count u (map f l) = count v (map g l).
Proof. intros u v l H. unfold count. rewrite !map_filter, !map_length. f_equal. apply filter_ext_in. exact H. Qed.
Lemma rename_multiplicity : forall a, In a all -> multiplicity (map f all) (f a) = multiplicity (map g all) (g a).
Proof. intros a Ha. apply rename_count. intros b Hb. now apply rename_edge. Qed.
Lemma rename_distinct : forall l, incl l all -> exists r, incl r all /\ distinct (map f l) = map f r /\ distinct (map g l) = map g r.
Proof.
  induction l as [|a l IH]; intros Hl; [exists []; repeat split; intros ? []|]. destruct IH as (r & Hr & E1 & E2); [intros x Hx; apply Hl; now right|].
  assert (Ha : In a all) by (apply Hl; now left).
  exists (a :: filter (fun b => negb (same_edge (f a) (f b))) r). cbn [map distinct]. rewrite E1, E2, !map_filter. repeat split.
  - intros x [<-|Hx]; [exact Ha|]. apply filter_In in Hx. now apply Hr.
  - f_equal. f_equal. apply filter_ext_in. intros b Hb. f_equal. symmetry. apply rename_edge; auto.
Qed.
Lemma rename_degree : forall a, In a all -> degree (map f all) (fst (f a)) = degree (map g all) (fst (g a)).
Proof.
  intros a Ha. destruct (rename_distinct all (incl_refl _)) as (r & Hr & E1 & E2). unfold degree. rewrite E1, E2. f_equal; apply rename_count; intros b Hb; auto.
Qed.
Lemma rename_term : forall a, In a all -> edge_term (map f all) (f a) = edge_term (map g all) (g a).
Proof. intros a Ha. unfold edge_term. now rewrite rename_multiplicity, rename_degree. Qed.
Lemma rename_window : forall q i, map (edge_term (map f all)) (window_edges (map f all) q i) = map (edge_term (map g all)) (window_edges (map g all) q i).
Proof.
  intros q i. unfold window_edges. rewrite !map_filter, !firstn_map, <- !map_app, !map_map.
  assert (E1 : filter (fun a => (i <? to_id (f a)) && (to_id (f a) <=? i + q - 1)) all = filter (fun a => (i <? to_id (g a)) && (to_id (g a) <=? i + q - 1)) all) by (apply filter_ext_in; intros a Ha; now rewrite Hid).
  assert (E2 : filter (fun a => i + q - 1 <? to_id (f a)) all = filter (fun a => i + q - 1 <? to_id (g a)) all) by (apply filter_ext_in; intros a Ha; now rewrite Hid).
  rewrite E1, E2. apply map_ext_in. intros a Ha. apply rename_term. apply in_app_or in Ha. destruct Ha as [Ha|Ha]; [now apply filter_In in Ha|].
  apply (filter_In (fun a => i + q - 1 <? to_id (g a))). rewrite <- (firstn_skipn 1). apply in_or_app. now left.
Qed.
End Rename.

(** Two labellings that put the same crossings of a segment together. *)
Definition same_partition (crossed : list (nat * nat)) (label label' : nat -> nat -> nat) : Prop :=
  forall i j s, In (i, s) crossed -> In (j, s) crossed -> (label i s = label j s <-> label' i s = label' j s).

Lemma pairs_map {A B} (f : A -> B) : forall l, pairs (map f l) = map (fun ab => (f (fst ab), f (snd ab))) (pairs l).
Proof.
  induction l as [|a l IH]; [reflexivity|]. destruct l as [|b l]; [reflexivity|]. cbn [map pairs fst snd] in *. now rewrite IH.
Qed.
Lemma pairs_in {A} : forall (l : list A) a b, In (a, b) (pairs l) -> In a l /\ In b l.
Proof.
  induction l as [|x l IH]; [intros a b []|]. destruct l as [|y l]; [intros a b []|]. intros a b [E|H]; [injection E as <- <-; split; [now left|right; now left]|].
  apply IH in H. destruct H. split; now right.
Qed.
Lemma labelled_same : forall label label' crossed c c', same_partition crossed label label' -> In c crossed -> In c' crossed ->
  same_node (labelled label c) (labelled label c') = same_node (labelled label' c) (labelled label' c').
Proof.
  intros label label' crossed (i & s) (j & t) H Hc Hc'. unfold same_node, labelled. cbn [n_segment n_cluster fst snd]. destruct (Nat.eqb_spec s t) as [<-|N]; [|reflexivity]. cbn [andb].
  specialize (H i j s Hc Hc'). destruct (Nat.eqb_spec (label i s) (label j s)), (Nat.eqb_spec (label' i s) (label' j s)); try reflexivity; tauto.
Qed.
(** The scores of the steps of a walk, in whatever order they come. *)
Lemma renamed_windows : forall label label' crossed steps q, same_partition crossed label label' -> (forall st, In st steps -> In (fst st) crossed /\ In (snd st) crossed) ->
  let step (l : nat -> nat -> nat) (st : (nat * nat) * (nat * nat)) : edge := (labelled l (fst st), labelled l (snd st)) in
  forall i, map (edge_term (map (step label) steps)) (window_edges (map (step label) steps) q i) = map (edge_term (map (step label') steps)) (window_edges (map (step label') steps) q i).
Proof.
  intros label label' crossed steps q H Hin step i. apply rename_window; intros a; try intros b; unfold step; cbn [fst snd]; try reflexivity; intros Ha Hb; apply (labelled_same _ _ crossed); auto; now apply Hin.
Qed.
