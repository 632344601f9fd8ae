(** Lemmas for the analysis of one machine. *)
From Coq Require Import List Arith Bool Lia Permutation Sorting.Sorted.
From Verif.Base Require Import Res Params ListX.
From Verif.Segmentation Require Import Model Spec Proofs PathProofs.
From Verif.Edges Require Import Model Spec.
From Verif.Transposition Require Import Spec.
From Verif.Pipeline Require Import Model Spec.
From Verif.Properties Require Import Segmentation Edges.
Import ListNotations.

(** ** The numbered points *)
Lemma store_points_at : forall K (sector : K -> nat) coords, store_points sector 0 coords = points_at sector coords.
Proof. intros. unfold store_points, points_at. apply map_ext. now intros (i & k). Qed.

Lemma combine_fst : forall A B (l : list A) (l' : list B), length l = length l' -> map fst (combine l l') = l.
Proof. induction l as [|a l IH]; intros [|b l'] E; try discriminate; [reflexivity|]. cbn. injection E as E. now rewrite IH. Qed.

Lemma points_ids : forall K (sector : K -> nat) coords, map pid (points_at sector coords) = seq 0 (length coords).
Proof. intros. unfold points_at. rewrite map_map. cbn [pid]. apply combine_fst. apply seq_length. Qed.

Lemma points_segments : forall K (sector : K -> nat) p coords, (forall k, sector k < rate p) -> segments_ok p (points_at sector coords).
Proof. intros K sector p coords H x Hx. unfold points_at in Hx. apply in_map_iff in Hx. destruct Hx as (ik & <- & _). apply H. Qed.

Lemma seq_sorted : forall n s, StronglySorted lt (seq s n).
Proof. induction n as [|n IH]; intros s; [constructor|]. cbn. constructor; [apply IH|]. apply Forall_forall. intros x Hx. apply in_seq in Hx. lia. Qed.

Lemma points_numbered : forall K (sector : K -> nat) n coords, length coords <= n -> numbered n (points_at sector coords).
Proof.
  intros K sector n coords Hn. split; [rewrite points_ids; apply seq_sorted|]. intros x Hx. apply (in_map pid) in Hx. rewrite points_ids in Hx. apply in_seq in Hx. lia.
Qed.

(** The first point of a pair is not the last one. *)
Lemma pairs_fst_bound : forall l s n t, map pid l = seq s n -> In t (pairs l) -> S (pid (fst t)) < s + n.
Proof.
  induction l as [|a l IH]; intros s n t E Ht; [destruct Ht|]. destruct n as [|n]; [discriminate|]. cbn [map seq] in E. injection E as Ea E. destruct l as [|b l]; [destruct Ht|].
  change (pairs (a :: b :: l)) with ((a, b) :: pairs (b :: l)) in Ht. destruct Ht as [<-|Ht].
  - cbn [fst]. destruct n as [|n]; [discriminate|]. lia.
  - specialize (IH _ _ t E Ht). lia.
Qed.
Lemma from_id_bound : forall K (sector : K -> nat) r coords t, In t (usable_pairs r (points_at sector coords)) -> S (from_id t) < length coords.
Proof. intros K sector r coords t Ht. unfold usable_pairs in Ht. apply filter_In in Ht. destruct Ht as (Ht & _). apply (pairs_fst_bound _ 0 (length coords) t) in Ht; [exact Ht|apply points_ids]. Qed.

Lemma followed_length : forall K p sector (flip : K -> K) coords, length (followed p sector flip coords) = length coords.
Proof. intros. unfold followed. destruct (_ && _); [apply map_length|reflexivity]. Qed.

(** ** Segmentation *)
Lemma build_again : forall p, 1 <= n_cluster_nodes p <= rate p -> forall own points k, all_fine p points ->
  exists g foreign, build_segments p own points {| transitions := []; asked := []; send_point := None; send_transition := None; last_point := None; last_transition := None; invalid_directions := k |} = Ok (g, foreign)
    /\ transitions g = filter (fun t => owner p (from_segment t) =? own) (usable_pairs (rate p) points).
Proof.
  intros p HN own [|x points] k Hf; unfold build_segments.
  - cbn. destruct (own =? 0); cbn; do 2 eexists; split; reflexivity.
  - cbn [foldM]. unfold scan_point at 1. cbn [s_last_point s_transitions s_asked s_send_point s_send_transition s_invalid s_foreign s_last_to_node s_last_transition bind].
    rewrite (scan_ok p HN own points x); [|assumption|reflexivity|reflexivity]. cbn [bind]. do 2 eexists. split; [reflexivity|]. reflexivity.
Qed.

Lemma local_segmentation_ok : forall K (sector : K -> nat) flip p coords, n_cluster_nodes p = 1 -> 1 <= rate p -> (forall k, sector k < rate p) ->
  local_segmentation sector flip p coords = Ok (followed p sector flip coords, transitions_of p sector flip coords).
Proof.
  intros K sector flip p coords HN Hr Hs. unfold local_segmentation, transitions_of. rewrite store_points_at.
  pose proof (points_segments K sector p coords Hs) as Hok. destruct (C26_single_machine_records_usable_pairs p _ HN Hr Hok) as (g & m & E & Et). rewrite E. cbn [bind].
  unfold followed. destruct (self_correction p) eqn:Ec; cbn [andb].
  - destruct (C53_single_machine_decision_partial p _ HN Hr Ec Hok) as (g' & m' & E' & Hd). rewrite E in E'. injection E' as <- <-.
    destruct (mirrors (reported_count true g m) (invalid_directions g)).
    + destruct (Nat.ltb_spec (length (usable_pairs (rate p) (points_at sector coords))) (length (filter (backwards (rate p)) (pairs (points_at sector coords))))) as [L|L]; [|exfalso; apply proj1 in Hd; specialize (Hd eq_refl); lia].
      cbv zeta. rewrite store_points_at.
      destruct (build_again p ltac:(lia) 0 (points_at sector (map flip coords)) (invalid_directions g) (points_segments K sector p _ Hs)) as (g2 & m2 & E2 & Et2). rewrite E2. cbn [bind]. rewrite Et2. f_equal. f_equal.
      apply filter_all_true. intros t _. unfold owner. rewrite HN. now rewrite Nat.min_0_r.
    + destruct (Nat.ltb_spec (length (usable_pairs (rate p) (points_at sector coords))) (length (filter (backwards (rate p)) (pairs (points_at sector coords))))) as [L|L]; [exfalso; apply proj2 in Hd; specialize (Hd L); discriminate|]. now rewrite Et.
  - now rewrite Et.
Qed.

(** ** The edges of the walk, in time order *)
Lemma visits_ids : forall r t c, In c (visits r t) -> fst c = from_id t.
Proof. intros r t c H. unfold visits in H. apply in_map_iff in H. now destruct H as (lag & <- & _). Qed.

Lemma path_sorted : forall r ts, StronglySorted lt (map from_id ts) -> StronglySorted le (map fst (path r ts)).
Proof.
  intros r ts S. unfold path. rewrite concat_map, map_map. induction ts as [|t ts IH]; [constructor|]. cbn [map concat] in *. inversion S; subst.
  assert (G : forall a l, (forall x, In x a -> x = from_id t) -> (forall y, In y l -> from_id t <= y) -> StronglySorted le l -> StronglySorted le (a ++ l)).
  { intros a l Ha Hl Sl. induction a as [|x a IHa]; [exact Sl|]. cbn [app]. constructor; [apply IHa; intros; apply Ha; now right|]. rewrite (Ha x (or_introl eq_refl)). apply Forall_app. split; [|now apply Forall_forall].
    apply Forall_forall. intros y Hy. rewrite (Ha y (or_intror Hy)). lia. }
  apply G; [| |apply IH; assumption].
  - intros x Hx. apply in_map_iff in Hx. destruct Hx as (c & <- & Hc). now apply (visits_ids r).
  - intros y Hy. apply in_concat in Hy. destruct Hy as (l & Hl & Hy). apply in_map_iff in Hl. destruct Hl as (t' & <- & Ht'). apply in_map_iff in Hy. destruct Hy as (c & <- & Hc). rewrite (visits_ids _ _ _ Hc).
    rewrite Forall_forall in H2. specialize (H2 (from_id t') (in_map from_id _ _ Ht')). lia.
Qed.

Lemma pairs_snd_tl : forall A (l : list A), map snd (pairs l) = tl l.
Proof. induction l as [|a [|b l] IH]; [reflexivity|reflexivity|]. change (pairs (a :: b :: l)) with ((a, b) :: pairs (b :: l)). cbn [map snd tl]. now rewrite IH. Qed.

Lemma walk_ids : forall label r ts, map n_from (walk label r ts) = map fst (path r ts).
Proof. intros. unfold walk. rewrite map_map. now apply map_ext. Qed.
Lemma edge_ids : forall label r ts, map to_id (pairs (walk label r ts)) = tl (map fst (path r ts)).
Proof. intros. transitivity (map n_from (map snd (pairs (walk label r ts)))); [now rewrite map_map|]. rewrite pairs_snd_tl. rewrite <- walk_ids with (label := label). now destruct (walk label r ts). Qed.

Lemma walk_ascending : forall label r ts, StronglySorted lt (map from_id ts) -> ascending (pairs (walk label r ts)).
Proof. intros label r ts S. unfold ascending. rewrite edge_ids. pose proof (path_sorted r ts S) as P. inversion P; [constructor|assumption]. Qed.

Lemma path_source : forall r ts c, In c (path r ts) -> exists t, In t ts /\ In c (visits r t).
Proof. intros r ts c H. unfold path in H. apply in_concat in H. destruct H as (l & Hl & Hc). apply in_map_iff in Hl. destruct Hl as (t & <- & Ht). eauto. Qed.
Lemma edge_id_source : forall label r ts e, In e (pairs (walk label r ts)) -> exists t, In t ts /\ to_id e = from_id t.
Proof.
  intros label r ts e H. apply (in_map to_id) in H. rewrite edge_ids in H.
  assert (In (to_id e) (map fst (path r ts))) as G by (destruct (map fst (path r ts)); [exact H|now right]). apply in_map_iff in G. destruct G as (c & E & Hc). apply path_source in Hc. destruct Hc as (t & Ht & Hc).
  exists t. split; [exact Ht|]. rewrite <- E. now apply (visits_ids r).
Qed.
Lemma visits_nonempty : forall r t, usable r t = true -> visits r t <> [].
Proof. intros r t U E. unfold usable in U. apply andb_true_iff in U. destruct U as (U & _). apply Nat.leb_le in U. unfold visits in E. apply map_eq_nil in E. apply (f_equal (@length nat)) in E. rewrite seq_length in E. cbn in E. lia. Qed.

(** A later transition than the one of point 0 is reached by an edge, if there is an edge. *)
Lemma later_edge : forall label r ts, StronglySorted lt (map from_id ts) -> (forall t, In t ts -> usable r t = true) -> (exists t, In t ts /\ from_id t <> 0) ->
  pairs (walk label r ts) <> [] -> exists e, In e (pairs (walk label r ts)) /\ to_id e <> 0.
Proof.
  intros label r ts S U (t & Ht & Hn) Hne. pose proof (path_sorted r ts S) as P.
  assert (Hi : exists i, In i (map fst (path r ts)) /\ i <> 0).
  { exists (from_id t). split; [|exact Hn]. destruct (visits r t) as [|c l] eqn:E; [exfalso; now apply (visits_nonempty r t (U t Ht))|]. apply in_map_iff. exists c. split; [apply (visits_ids r); rewrite E; now left|].
    unfold path. apply in_concat. exists (visits r t). split; [now apply in_map|]. rewrite E. now left. }
  assert (Ht' : tl (map fst (path r ts)) <> []). { rewrite <- edge_ids with (label := label). intros E. apply map_eq_nil in E. contradiction. }
  assert (G : exists i, In i (tl (map fst (path r ts))) /\ i <> 0).
  { destruct Hi as (i & Hi & Hi0). destruct (map fst (path r ts)) as [|j l]; [destruct Hi|]. cbn [tl] in *. destruct Hi as [->|Hi]; [|eauto]. destruct l as [|k l]; [contradiction|]. exists k. split; [now left|]. inversion P as [|? ? _ F]. subst. inversion F. subst. lia. }
  destruct G as (i & Hi' & Hi0). rewrite <- edge_ids with (label := label) in Hi'. apply in_map_iff in Hi'. destruct Hi' as (e & <- & He). eauto.
Qed.
