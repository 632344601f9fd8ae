(** Lemmas for the analysis on a cluster. *)
From Coq Require Import List Arith Bool Lia Permutation Sorting.Sorted.
From Verif.Base Require Import Res Params ListX.
From Verif.Segmentation Require Import Model Spec PathProofs.
From Verif.Edges Require Import Model Spec.
From Verif.Transposition Require Import Spec.
From Verif.Scoring Require Import Model Spec WeightProofs.
From Verif.Pipeline Require Import Spec ClusterSpec Cluster Proofs.
From Verif.Properties Require Import Segmentation Edges.
Import ListNotations.

(** ** Weights and degrees do not depend on the order of the edges *)
Lemma count_map : forall A B (f : B -> bool) (g : A -> B) l, count f (map g l) = count (fun x => f (g x)) l.
Proof. intros. unfold count. induction l as [|x l IH]; [reflexivity|]. cbn [map filter]. destruct (f (g x)); cbn [length]; now rewrite IH. Qed.
Lemma count_perm : forall A (f : A -> bool) l m, Permutation l m -> count f l = count f m.
Proof. intros A f l m H. unfold count. induction H; cbn [filter]; repeat match goal with |- context [if ?b then _ else _] => destruct b end; cbn [length]; congruence. Qed.
Lemma multiplicity_perm : forall l m e, Permutation l m -> multiplicity l e = multiplicity m e.
Proof. intros. now apply count_perm. Qed.
Lemma distinct_keys_nodup : forall l, NoDup (map edge_key (distinct l)).
Proof.
  induction l as [|e l IH]; [constructor|]. cbn [distinct map]. constructor.
  - intros H. apply in_map_iff in H. destruct H as (x & E & Hx). apply filter_In in Hx. destruct Hx as (_ & Hx). apply negb_true_iff in Hx. symmetry in E. apply same_edge_iff in E. congruence.
  - revert IH. generalize (distinct l). clear. induction l as [|x l IH]; intros H; [constructor|]. cbn [map] in H. inversion H; subst. cbn [filter]. destruct (negb (same_edge e x)); [|now apply IH].
    cbn [map]. constructor; [|now apply IH]. intros Hi. apply H2. apply in_map_iff in Hi. destruct Hi as (y & <- & Hy). apply in_map. now apply filter_In in Hy.
Qed.
Lemma distinct_keys_perm : forall l m, Permutation l m -> Permutation (map edge_key (distinct l)) (map edge_key (distinct m)).
Proof.
  assert (G : forall l m k, Permutation l m -> In k (map edge_key (distinct l)) -> In k (map edge_key (distinct m))).
  { intros l m k P H. apply in_map_iff in H. destruct H as (e & <- & He). apply distinct_In, (Permutation_in _ P), distinct_covers in He. destruct He as (x & Hx & E). apply same_edge_iff in E. rewrite E. now apply in_map. }
  intros l m P. apply NoDup_Permutation; try apply distinct_keys_nodup. intros k. split; apply G; [exact P|now symmetry].
Qed.
Lemma degree_by_keys : forall l x, degree l x = count (fun k => key_eqb (node_key x) (fst k)) (map edge_key (distinct l)) + count (fun k => key_eqb (node_key x) (snd k)) (map edge_key (distinct l)).
Proof.
  intros l x. unfold degree. rewrite !count_map. f_equal; unfold count; f_equal; apply filter_ext; intros e; cbn [edge_key fst snd]; apply same_node_key.
Qed.
Lemma degree_perm : forall l m x, Permutation l m -> degree l x = degree m x.
Proof. intros l m x P. rewrite !degree_by_keys. pose proof (distinct_keys_perm l m P) as Q. now rewrite !(count_perm _ _ _ _ Q). Qed.

(** ** The points of a cluster *)
Lemma whole_length : forall n N part, cut n N part -> 1 <= N -> length (whole_series N part) = (N - 1) * (n / N) + length (part (N - 1)).
Proof.
  intros n N part (_ & _ & H) HN. unfold whole_series. replace N with (S (N - 1)) at 1 by lia. rewrite seq_S, map_app, concat_app, app_length. cbn [map concat Nat.add]. rewrite app_nil_r. f_equal.
  assert (G : forall k, k <= N - 1 -> length (concat (map part (seq 0 k))) = k * (n / N)); [|now apply G].
  induction k as [|k IH]; intros Hk; [reflexivity|]. rewrite seq_S, map_app, concat_app, app_length, IH by lia. cbn [map concat Nat.add]. rewrite app_nil_r, H by lia. lia.
Qed.
Lemma cut_numbered : forall n N part, cut n N part -> numbered n (whole_series N part).
Proof.
  intros n N part (E & L & _). split; [rewrite E; apply seq_sorted|]. intros x Hx. apply (in_map pid) in Hx. rewrite E in Hx. apply in_seq in Hx. lia.
Qed.
Lemma usable_from_bound : forall n N part r t, cut n N part -> In t (usable_pairs r (whole_series N part)) -> S (from_id t) < length (whole_series N part).
Proof. intros n N part r t (E & _) Ht. unfold usable_pairs in Ht. apply filter_In in Ht. destruct Ht as (Ht & _). exact (pairs_fst_bound _ 0 _ t E Ht). Qed.

(** Every followed transition but the first one is reached by an edge. *)
Lemma reached_by_edge : forall label r ts t t', StronglySorted lt (map from_id ts) -> (forall t, In t ts -> usable r t = true) -> In t' ts -> In t ts -> from_id t' < from_id t ->
  exists e, In e (pairs (walk label r ts)) /\ to_id e = from_id t.
Proof.
  intros label r ts t t' S U Ht' Ht Hlt.
  assert (G : In (from_id t) (tl (map fst (path r ts)))).
  { destruct ts as [|t0 ts]; [destruct Ht|]. assert (H0 : from_id t0 < from_id t).
    { cbn [map] in S. inversion S as [|? ? S' F]; subst. destruct Ht' as [->|Ht']; [exact Hlt|]. rewrite Forall_forall in F. pose proof (F _ (in_map from_id _ _ Ht')). lia. }
    destruct Ht as [->|Ht]; [lia|]. unfold path. cbn [map concat]. destruct (visits r t0) as [|c l] eqn:E0; [exfalso; apply (visits_nonempty r t0); [apply U; now left|exact E0]|].
    cbn [app map tl]. rewrite map_app. apply in_or_app. right. destruct (visits r t) as [|c' l'] eqn:E; [exfalso; apply (visits_nonempty r t); [apply U; now right|exact E]|].
    apply in_map_iff. exists c'. split; [apply (visits_ids r); rewrite E; now left|]. apply in_concat. exists (visits r t). split; [now apply in_map|]. rewrite E. now left. }
  rewrite <- (edge_ids label) in G. apply in_map_iff in G. destruct G as (e & E & He). now exists e.
Qed.
Lemma edge_after_first : forall label r ts e, In e (pairs (walk label r ts)) -> exists t, In t ts /\ from_id t = to_id e.
Proof. intros label r ts e H. apply edge_id_source in H. destruct H as (t & Ht & E). now exists t. Qed.

(** A list with distinct keys is sorted in one way only. *)
Lemma sorted_once : forall A (key : A -> nat) a b, StronglySorted le (map key a) -> StronglySorted le (map key b) -> NoDup (map key b) -> Permutation a b -> a = b.
Proof.
  intros A key. induction a as [|x a IH]; intros b Sa Sb Nb P; [apply Permutation_nil in P; now subst|]. destruct b as [|y b]; [apply Permutation_sym, Permutation_nil in P; discriminate|].
  cbn [map] in *. inversion Sa as [|? ? Sa' Fa]; subst. inversion Sb as [|? ? Sb' Fb]; subst. inversion Nb as [|? ? Ny Nb']; subst. rewrite Forall_forall in Fa, Fb.
  assert (E : x = y).
  { assert (Hx : In x (y :: b)) by (apply (Permutation_in _ P); now left). assert (Hy : In y (x :: a)) by (apply (Permutation_in _ (Permutation_sym P)); now left).
    destruct Hx as [->|Hx]; [reflexivity|]. destruct Hy as [->|Hy]; [reflexivity|]. specialize (Fa _ (in_map key _ _ Hy)). pose proof (Fb _ (in_map key _ _ Hx)) as L. exfalso. apply Ny. replace (key y) with (key x) by lia. now apply in_map. }
  subst y. f_equal. apply IH; auto. now apply Permutation_cons_inv in P.
Qed.

(** ** More is known *)
Lemma every_mono : forall W (reached over : W -> Prop) (k k' : W -> Prop), (forall w, k w -> k' w) -> every reached over k -> every reached over k'.
Proof. intros W reached over k k' H E w R O. auto. Qed.
Lemma each_gives_mono : forall A N (R : nat -> A -> Prop) (k k' : _ -> Prop), (forall r, k r -> k' r) -> each_gives N R k -> each_gives N R k'.
Proof. intros A N R k k' H (E & K). split; auto. Qed.
Lemma analysis_mono : forall C cross (cluster : list C -> res (list nat)) p n part (k k' : _ -> Prop), (forall r, k r -> k' r) -> cluster_analysis cross cluster p n part k -> cluster_analysis cross cluster p n part k'.
Proof.
  intros C cross cluster p n part k k' H. unfold cluster_analysis. unfold segmentation_stage. apply every_mono. intros hw (G0 & G). split; [exact G0|]. revert G. apply every_mono. intros x. unfold crossing_stage. intros G others Ho. revert others Ho G. intros others Ho G. specialize (G others Ho). revert G.
  apply each_gives_mono. intros r. apply every_mono. intros w G messages Hm. specialize (G messages Hm). revert G. apply each_gives_mono. intros crossings.
  apply each_gives_mono. intros stores G others' a b Ho' Ha Hb. specialize (G others' a b Ho' Ha Hb). revert G. apply each_gives_mono. intros answers.
  apply each_gives_mono. intros edges. apply each_gives_mono. intros r'. apply every_mono. intros w'.
  apply each_gives_mono. intros index G degrees weights Hd Hw. specialize (G degrees weights Hd Hw). revert G. apply every_mono. intros dw. apply every_mono. intros ww. apply every_mono. intros ow.
  apply each_gives_mono. intros w0 G sw Hsw. specialize (G sw Hsw). revert G. apply each_gives_mono. intros parts. apply every_mono. intros rw. apply H.
Qed.
