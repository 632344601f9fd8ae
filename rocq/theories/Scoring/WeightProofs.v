From Coq Require Import List Arith Bool Lia Permutation.
From Verif.Base Require Import Res Assoc ListX.
From Verif.Edges Require Import Model Proofs HostProofs.
From Verif.Scoring Require Import Model Spec.
Import ListNotations.

Lemma edge_key_eqb_spec : forall a b, reflect (a = b) (edge_key_eqb a b).
Proof. intros [a1 a2] [b1 b2]. unfold edge_key_eqb. cbn [fst snd]. destruct (key_eqb_spec a1 b1), (key_eqb_spec a2 b2); cbn; constructor; congruence. Qed.
Lemma same_node_key : forall a b, same_node a b = key_eqb (node_key a) (node_key b).
Proof. reflexivity. Qed.
Lemma same_edge_key : forall a b, same_edge a b = edge_key_eqb (edge_key a) (edge_key b).
Proof. reflexivity. Qed.
Lemma same_edge_iff : forall a b, same_edge a b = true <-> edge_key a = edge_key b.
Proof. intros a b. rewrite same_edge_key. destruct (edge_key_eqb_spec (edge_key a) (edge_key b)); split; congruence. Qed.

(** ** Adding up *)
Definition oplus (a b : option nat) : option nat :=
  match a, b with None, x => x | x, None => x | Some x, Some y => Some (x + y) end.
Lemma oplus_None : forall a, oplus a None = a. Proof. now intros [a|]. Qed.
Lemma oplus_comm : forall a b, oplus a b = oplus b a. Proof. intros [a|] [b|]; cbn; f_equal. lia. Qed.
Lemma oplus_assoc : forall a b c, oplus a (oplus b c) = oplus (oplus a b) c. Proof. intros [a|] [b|] [c|]; cbn; f_equal. lia. Qed.
Definition positive (n : nat) : option nat := if n =? 0 then None else Some n.
Lemma oplus_positive : forall a b, oplus (positive a) (positive b) = positive (a + b).
Proof. intros [|a] [|b]; cbn; f_equal; f_equal; lia. Qed.

Section Tally.
Context {K : Type} (eqb : K -> K -> bool) (eqb_spec : forall a b, reflect (a = b) (eqb a b)).
Fixpoint tally (k : K) (l : list (K * nat)) : option nat :=
  match l with [] => None | (k', d) :: r => oplus (if eqb k k' then Some d else None) (tally k r) end.
Lemma tally_app : forall k l m, tally k (l ++ m) = oplus (tally k l) (tally k m).
Proof. intros k l m. induction l as [|[k' d] l IH]; [reflexivity|]. cbn [app tally]. now rewrite IH, oplus_assoc. Qed.
Lemma tally_perm : forall k l m, Permutation l m -> tally k l = tally k m.
Proof.
  intros k l m H. induction H as [|[k' d] l m H IH|[a x] [b y] l|l m n H1 IH1 H2 IH2]; cbn [tally]; [reflexivity|now rewrite IH| |congruence].
  rewrite !oplus_assoc. f_equal. apply oplus_comm.
Qed.
Lemma tally_absent : forall k l, ~ In k (keys l) -> tally k l = None.
Proof.
  intros k l H. induction l as [|[k' d] l IH]; [reflexivity|]. cbn [tally]. cbn in H. destruct (eqb_spec k k'); [subst; tauto|]. rewrite IH by tauto. reflexivity.
Qed.
Lemma tally_map : forall k m, NoDup (keys m) -> tally k m = lookup eqb k m.
Proof.
  intros k m H. induction m as [|[k' d] m IH]; [reflexivity|]. cbn [keys map] in H. inversion H as [|? ? Hn H']; subst. cbn [tally lookup]. destruct (eqb_spec k k').
  - subst. rewrite tally_absent by exact Hn. reflexivity.
  - rewrite IH by exact H'. reflexivity.
Qed.
Lemma lookup_bump : forall k k' d m, lookup eqb k (bump eqb k' d m) = oplus (lookup eqb k m) (if eqb k k' then Some d else None).
Proof.
  intros k k' d m. unfold bump. destruct (eqb_spec k k') as [->|Hne].
  - destruct (lookup eqb k' m); now rewrite lookup_insert_same by exact eqb_spec.
  - destruct (lookup eqb k' m); rewrite lookup_insert_other by (exact eqb_spec || exact Hne); now rewrite oplus_None.
Qed.
Lemma keys_bump : forall k d m, NoDup (keys m) -> NoDup (keys (bump eqb k d m)).
Proof. intros k d m H. unfold bump. destruct (lookup eqb k m); now apply NoDup_keys_insert. Qed.
Lemma lookup_merge : forall l m k, lookup eqb k (merge eqb m l) = oplus (lookup eqb k m) (tally k l).
Proof.
  unfold merge. induction l as [|[k' d] l IH]; intros m k; cbn [fold_left tally]; [now rewrite oplus_None|]. now rewrite IH, lookup_bump, oplus_assoc.
Qed.
Lemma keys_merge : forall l m, NoDup (keys m) -> NoDup (keys (merge eqb m l)).
Proof. unfold merge. induction l as [|[k' d] l IH]; intros m H; [exact H|]. cbn [fold_left]. apply IH. now apply keys_bump. Qed.
Lemma lookup_merges : forall ls m k, lookup eqb k (fold_left (merge eqb) ls m) = oplus (lookup eqb k m) (tally k (concat ls)).
Proof.
  induction ls as [|l ls IH]; intros m k; cbn [fold_left concat]; [cbn; now rewrite oplus_None|]. now rewrite IH, lookup_merge, tally_app, oplus_assoc.
Qed.
(** Own map and maps of the others: whatever the order, the tally of all. *)
Lemma lookup_merged : forall k N p (c : nat -> list (K * nat)) own taken, p < N -> Permutation own (c p) -> NoDup (keys own) ->
  Permutation taken (map (fun q => (q, c q)) (filter (fun q => negb (q =? p)) (seq 0 N))) ->
  lookup eqb k (fold_left (merge eqb) (map snd taken) own) = tally k (concat (map c (seq 0 N))).
Proof.
  intros k N p c own taken Hp Ho Hn Ht. rewrite lookup_merges, <- tally_map by exact Hn. rewrite <- tally_app. apply tally_perm.
  assert (E : Permutation (concat (map snd taken)) (concat (map c (filter (fun q => negb (q =? p)) (seq 0 N))))).
  { assert (G : forall l l' : list (nat * list (K * nat)), Permutation l l' -> Permutation (concat (map snd l)) (concat (map snd l'))).
    { intros l l' H. induction H; cbn [map concat]; [constructor|now apply Permutation_app_head| |etransitivity; eassumption].
      rewrite !app_assoc. apply Permutation_app_tail, Permutation_app_comm. }
    rewrite (G _ _ Ht), map_map. reflexivity. }
  rewrite E, Ho. change (c p ++ concat (map c (filter (fun q => negb (q =? p)) (seq 0 N)))) with (concat (map c (p :: filter (fun q => negb (q =? p)) (seq 0 N)))).
  assert (P : Permutation (p :: filter (fun q => negb (q =? p)) (seq 0 N)) (seq 0 N)).
  { assert (E2 : seq 0 N = seq 0 p ++ p :: seq (S p) (N - S p)) by (replace N with (p + S (N - S p)) at 1 by lia; rewrite seq_app; reflexivity).
    rewrite E2, filter_app. cbn [filter]. rewrite Nat.eqb_refl. cbn [negb]. rewrite !filter_all_true; [apply Permutation_middle| |];
    intros x Hx; apply in_seq in Hx; apply negb_true_iff, Nat.eqb_neq; lia. }
  assert (G : forall l l', Permutation l l' -> Permutation (concat (map c l)) (concat (map c l'))).
  { intros l l' H. induction H; cbn [map concat]; [constructor|now apply Permutation_app_head| |etransitivity; eassumption].
    rewrite !app_assoc. apply Permutation_app_tail, Permutation_app_comm. }
  now apply G.
Qed.
Lemma tally_concat_ext : forall k (c c' : nat -> list (K * nat)) l, (forall q, In q l -> tally k (c q) = tally k (c' q)) -> tally k (concat (map c l)) = tally k (concat (map c' l)).
Proof.
  intros k c c' l H. induction l as [|q l IH]; [reflexivity|]. cbn [map concat]. rewrite !tally_app, H by now left. f_equal. apply IH. intros x Hx. apply H. now right.
Qed.
Lemma tally_ones : forall A (f : A -> K) k l, tally k (map (fun x => (f x, 1)) l) = positive (count (fun x => eqb k (f x)) l).
Proof.
  intros A f k l. unfold count. induction l as [|x l IH]; [reflexivity|]. cbn [map tally filter]. rewrite IH. change (Some 1) with (positive 1). change (@None nat) with (positive 0).
  destruct (eqb k (f x)); cbn [length]; rewrite oplus_positive; reflexivity.
Qed.
End Tally.

(** ** Weights *)
Lemma edge_weight_merge : forall edges, edge_weight edges = merge edge_key_eqb [] (map (fun e => (edge_key e, 1)) edges).
Proof.
  intros edges. unfold edge_weight, merge. generalize (@nil (((nat * nat) * (nat * nat)) * nat)). induction edges as [|e l IH]; intros m; [reflexivity|]. cbn [map fold_left]. apply IH.
Qed.
Lemma edge_weight_keys : forall edges, NoDup (keys (edge_weight edges)).
Proof. intros. rewrite edge_weight_merge. apply keys_merge; [exact edge_key_eqb_spec|constructor]. Qed.
Lemma edge_weight_lookup : forall edges e, lookup edge_key_eqb (edge_key e) (edge_weight edges) = positive (multiplicity edges e).
Proof. intros. rewrite edge_weight_merge, lookup_merge by exact edge_key_eqb_spec. cbn [lookup oplus]. apply (tally_ones edge_key_eqb _ edge_key). Qed.

(** ** Degrees *)
Definition ends (edges : list edge) : list ((nat * nat) * nat) := flat_map (fun e => [(node_key (fst e), 1); (node_key (snd e), 1)]) edges.
Lemma merge_app : forall K (eqb : K -> K -> bool) l1 l2 m, merge eqb m (l1 ++ l2) = merge eqb (merge eqb m l1) l2.
Proof. intros. unfold merge. apply fold_left_app. Qed.
Lemma existsb_key : forall e seen, existsb (edge_key_eqb (edge_key e)) seen = true <-> In (edge_key e) seen.
Proof.
  intros e seen. rewrite existsb_exists. split.
  - intros (x & Hx & E). destruct (edge_key_eqb_spec (edge_key e) x); congruence.
  - intros H. exists (edge_key e). split; [exact H|]. now destruct (edge_key_eqb_spec (edge_key e) (edge_key e)).
Qed.
Lemma degree_fold : forall edges seen m,
  snd (fold_left degree_step edges (seen, m)) = merge key_eqb m (ends (filter (fun x => negb (existsb (edge_key_eqb (edge_key x)) seen)) (distinct edges))).
Proof.
  induction edges as [|e l IH]; intros seen m; [reflexivity|]. cbn [fold_left degree_step distinct filter]. destruct (existsb (edge_key_eqb (edge_key e)) seen) eqn:E; cbn [negb].
  - rewrite IH. rewrite filter_and. do 2 f_equal. apply filter_ext. intros x. destruct (same_edge e x) eqn:S; [|reflexivity]. apply same_edge_iff in S. rewrite <- S, E. reflexivity.
  - rewrite IH. rewrite filter_and. unfold ends at 2. cbn [flat_map]. rewrite merge_app. f_equal. unfold ends. f_equal. apply filter_ext. intros x. cbn [existsb].
    rewrite negb_orb. f_equal. f_equal. rewrite same_edge_key. destruct (edge_key_eqb_spec (edge_key x) (edge_key e)), (edge_key_eqb_spec (edge_key e) (edge_key x)); congruence.
Qed.
Lemma node_degrees_merge : forall edges, node_degrees edges = merge key_eqb [] (ends (distinct edges)).
Proof. intros edges. unfold node_degrees. rewrite degree_fold. do 2 f_equal. apply filter_all_true. reflexivity. Qed.
Lemma node_degrees_keys : forall edges, NoDup (keys (node_degrees edges)).
Proof. intros. rewrite node_degrees_merge. apply keys_merge; [exact key_eqb_spec|constructor]. Qed.
Lemma tally_ends : forall x l, tally key_eqb (node_key x) (ends l) = positive (count (fun e => same_node x (fst e)) l + count (fun e => same_node x (snd e)) l).
Proof.
  intros x l. unfold count. induction l as [|e l IH]; [reflexivity|]. unfold ends. cbn [flat_map app tally]. fold (ends l). rewrite IH. cbn [filter].
  rewrite !same_node_key. change (Some 1) with (positive 1). change (@None nat) with (positive 0).
  destruct (key_eqb (node_key x) (node_key (fst e))), (key_eqb (node_key x) (node_key (snd e))); cbn [length]; rewrite !oplus_positive; f_equal; lia.
Qed.
Lemma node_degrees_lookup : forall edges x, lookup key_eqb (node_key x) (node_degrees edges) = positive (degree edges x).
Proof. intros. rewrite node_degrees_merge, lookup_merge by exact key_eqb_spec. cbn [lookup oplus]. apply tally_ends. Qed.

Lemma distinct_In : forall x l, In x (distinct l) -> In x l.
Proof. intros x l. induction l as [|e l IH]; [easy|]. cbn [distinct]. intros [->|H]; [now left|]. apply filter_In in H. right. tauto. Qed.
Lemma distinct_covers : forall l e, In e l -> exists x, In x (distinct l) /\ same_edge e x = true.
Proof.
  intros l e. induction l as [|a l IH]; [easy|]. cbn [distinct]. intros [->|H].
  - exists e. split; [now left|]. now apply same_edge_iff.
  - destruct (IH H) as (x & Hx & E). destruct (same_edge a x) eqn:S.
    + exists a. split; [now left|]. apply same_edge_iff in S, E. apply same_edge_iff. congruence.
    + exists x. split; [|exact E]. right. apply filter_In. now rewrite S.
Qed.
Lemma distinct_app : forall l m, (forall a b, In a l -> In b m -> same_edge a b = false) -> distinct (l ++ m) = distinct l ++ distinct m.
Proof.
  induction l as [|e l IH]; intros m H; [reflexivity|]. cbn [app distinct]. rewrite IH by (intros a b Ha Hb; apply H; [now right|exact Hb]). rewrite filter_app. f_equal. f_equal.
  apply filter_all_true. intros x Hx. apply distinct_In in Hx. rewrite (H e x); [reflexivity|now left|exact Hx].
Qed.
Lemma distinct_concat : forall (edges : nat -> list edge) l, NoDup l -> (forall i j a b, In i l -> In j l -> i <> j -> In a (edges i) -> In b (edges j) -> same_edge a b = false) ->
  distinct (concat (map edges l)) = concat (map (fun k => distinct (edges k)) l).
Proof.
  intros edges l. induction l as [|i l IH]; intros Hn H; [reflexivity|]. inversion Hn as [|? ? Hi Hn']; subst. cbn [map concat]. rewrite distinct_app.
  - f_equal. apply IH; [exact Hn'|]. intros; eapply H; eauto; now right.
  - intros a b Ha Hb. apply in_concat in Hb. destruct Hb as (c & Hc & Hb). apply in_map_iff in Hc. destruct Hc as (j & <- & Hj). apply (H i j a b); [now left|now right| |exact Ha|exact Hb]. intros ->. tauto.
Qed.
Lemma source_degree_positive : forall edges e, In e edges -> 1 <= degree edges (fst e).
Proof.
  intros edges e H. destruct (distinct_covers edges e H) as (x & Hx & S). apply same_edge_iff in S. unfold degree, count.
  assert (I : In x (filter (fun e0 => same_node (fst e) (fst e0)) (distinct edges))).
  { apply filter_In. split; [exact Hx|]. rewrite same_node_key. unfold edge_key in S. injection S as S1 S2 S3 S4. destruct (key_eqb_spec (node_key (fst e)) (node_key (fst x))) as [|Hc]; [reflexivity|].
    exfalso. apply Hc. unfold node_key. congruence. }
  destruct (filter (fun e0 => same_node (fst e) (fst e0)) (distinct edges)); [easy|]. cbn. lia.
Qed.
Lemma multiplicity_positive : forall edges e, In e edges -> 1 <= multiplicity edges e.
Proof.
  intros edges e H. unfold multiplicity, count. assert (I : In e (filter (same_edge e) edges)) by (apply filter_In; split; [exact H|now apply same_edge_iff]).
  destruct (filter (same_edge e) edges); [easy|cbn; lia].
Qed.
