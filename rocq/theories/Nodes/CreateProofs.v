From Coq Require Import List Arith Bool Lia Permutation.
From Verif.Base Require Import Res Params Assoc ListX.
From Verif.Segmentation Require Import Model Spec Blocks Proofs.
From Verif.Edges Require Import Model Spec Proofs HostProofs.
From Verif.Nodes Require Import Model Spec.
Import ListNotations.

Lemma filter_map_swap : forall A B (f : A -> B) (g : B -> bool) l, filter g (map f l) = map f (filter (fun x => g (f x)) l).
Proof. intros A B f g l. induction l as [|x l IH]; [reflexivity|]. cbn [map filter]. rewrite IH. now destruct (g (f x)). Qed.

Section Create.
Context {C : Type}.
Variable cluster : list C -> res (list nat).
Variable p : params.
Hypothesis HN : 1 <= n_cluster_nodes p <= rate p.
Notation N := (n_cluster_nodes p).
Notation r := (rate p).
Notation w := (rate p / n_cluster_nodes p).
Variable crossed : list (nat * nat).
Hypothesis Hnodup : NoDup crossed.
Hypothesis Hseg : forall c, In c crossed -> snd c < r.
Variable crossings : nat -> list (crossing C).
Hypothesis Hhold : forall h, h < N -> holds_crossings p h crossed (crossings h).
Definition rows (s : nat) : list (crossing C) := filter (fun c => c_segment c =? s) (crossings (owner p s)).
Hypothesis Hcluster : forall s, s < r -> 2 <= length (rows s) -> exists labels, cluster (map c_coordinates (rows s)) = Ok labels /\ length labels = length (rows s).

Definition given (s : nat) : list nat := match labels_of cluster (crossings_of (crossings (owner p s)) s) with Ok l => l | Panic _ => [] end.
Lemma given_ok : forall s, s < r -> labels_of cluster (crossings_of (crossings (owner p s)) s) = Ok (given s) /\ length (given s) = length (rows s).
Proof.
  intros s Hs. specialize (Hcluster s Hs). unfold given, crossings_of. fold (rows s). destruct (rows s) as [|c [|c' l]].
  - cbn. auto.
  - cbn. auto.
  - destruct (Hcluster ltac:(cbn; lia)) as (labels & E & El). cbn [labels_of]. rewrite E. auto.
Qed.
Definition label (i s : nat) : nat := match find (fun ck => c_id (fst ck) =? i) (combine (rows s) (given s)) with Some ck => snd ck | None => 0 end.

Lemma owner_bound : forall s, owner p s < N.
Proof. intros s. unfold owner. lia. Qed.
Lemma rows_perm : forall s, Permutation (map (fun c => (c_id c, c_segment c)) (rows s)) (filter (fun c => snd c =? s) crossed).
Proof.
  intros s. pose proof (Hhold (owner p s) (owner_bound s)) as H. unfold holds_crossings in H. apply filter_perm with (f := fun c => snd c =? s) in H.
  rewrite filter_map_swap in H. cbn [snd] in H. unfold rows. etransitivity; [exact H|]. rewrite filter_and. apply Permutation_refl'. apply filter_ext. intros c.
  destruct (Nat.eqb_spec (snd c) s) as [<-|]; [now rewrite Nat.eqb_refl|apply andb_false_r].
Qed.
Lemma rows_segment : forall s c, In c (rows s) -> c_segment c = s.
Proof. intros s c H. apply filter_In in H. now apply Nat.eqb_eq. Qed.
Lemma rows_ids : forall s, NoDup (map c_id (rows s)).
Proof.
  intros s. pose proof (Permutation_NoDup (Permutation_sym (rows_perm s)) (NoDup_filter _ Hnodup)) as H.
  assert (G : forall l : list (crossing C), (forall c, In c l -> c_segment c = s) -> NoDup (map (fun c => (c_id c, c_segment c)) l) -> NoDup (map c_id l)).
  { induction l as [|c l IH]; intros Hc ND; [constructor|]. cbn [map] in *. inversion ND as [|? ? Hn ND']; subst. constructor; [|apply IH; [intros; apply Hc; now right|exact ND']].
    intros Hi. apply Hn. apply in_map_iff in Hi. destruct Hi as (c' & E & Hi). apply in_map_iff. exists c'. split; [|exact Hi]. rewrite E, (Hc c'), (Hc c); [reflexivity|now left|now right]. }
  apply G; [apply rows_segment|exact H].
Qed.
Lemma label_given : forall s, s < r -> map (fun c => label (c_id c) s) (rows s) = given s.
Proof.
  intros s Hs. destruct (given_ok s Hs) as (_ & Hl). unfold label. pose proof (rows_ids s) as ND. revert ND Hl. generalize (rows s) as l. intros l. generalize (given s) as g. induction l as [|c l IH]; intros g ND Hl; [destruct g; [reflexivity|discriminate]|].
  destruct g as [|k g]; [discriminate|]. cbn [map combine find fst]. rewrite Nat.eqb_refl. cbn [snd]. f_equal. cbn [map] in ND. inversion ND as [|? ? Hn ND']; subst. etransitivity; [|exact (IH g ND' ltac:(cbn in Hl; lia))].
  apply map_ext_in. intros c' Hc'. destruct (Nat.eqb_spec (c_id c) (c_id c')) as [E|]; [|reflexivity]. exfalso. apply Hn. rewrite E. now apply in_map.
Qed.
Lemma segment_nodes_own : forall s, s < r -> segment_nodes cluster (crossings (owner p s)) s = Ok (map (fun c => labelled label (c_id c, s)) (rows s)).
Proof.
  intros s Hs. destruct (given_ok s Hs) as (E & El). unfold segment_nodes. rewrite E. cbn [bind]. f_equal.
  assert (G : map (fun '(c, k) => to_node c k) (combine (rows s) (given s)) = map (fun c => labelled label (c_id c, s)) (rows s)).
  { rewrite <- (label_given s Hs). assert (Hsg := rows_segment s). revert Hsg. generalize (rows s). induction l as [|c l IH]; intros Hsg; [reflexivity|]. cbn [map combine]. rewrite IH by (intros; apply Hsg; now right). f_equal.
    unfold to_node, labelled. cbn [fst snd]. now rewrite (Hsg c (or_introl eq_refl)). }
  unfold crossings_of. fold (rows s). destruct (given s) as [|k g]; [destruct (rows s); [reflexivity|discriminate El]|]. destruct (rows s) as [|c l]; [discriminate El|]. exact G.
Qed.
Lemma segment_nodes_other : forall h s, h < N -> owner p s <> h -> segment_nodes cluster (crossings h) s = Ok [].
Proof.
  intros h s Hh Hne. unfold segment_nodes, crossings_of. assert (E : filter (fun c => c_segment c =? s) (crossings h) = []); [|now rewrite E].
  destruct (filter (fun c => c_segment c =? s) (crossings h)) as [|c l] eqn:E; [reflexivity|]. exfalso. assert (Hc : In c (crossings h) /\ (c_segment c =? s) = true) by (apply (filter_In (fun c => c_segment c =? s)); rewrite E; now left).
  destruct Hc as (Hc & Es). apply Nat.eqb_eq in Es. apply (in_map (fun c => (c_id c, c_segment c))) in Hc. apply (Permutation_in _ (Hhold h Hh)) in Hc. apply filter_In in Hc. destruct Hc as (_ & Ho). cbn [snd] in Ho. apply Nat.eqb_eq in Ho. congruence.
Qed.

Definition bucket (h s : nat) : list node := if owner p s =? h then map (fun c => labelled label (c_id c, s)) (rows s) else [].
Lemma segment_nodes_ok : forall h s, h < N -> s < r -> segment_nodes cluster (crossings h) s = Ok (bucket h s).
Proof.
  intros h s Hh Hs. unfold bucket. destruct (Nat.eqb_spec (owner p s) h) as [<-|Hne]; [now apply segment_nodes_own|now apply segment_nodes_other].
Qed.
Theorem create_ok : forall h, h < N -> exists nodes, create_nodes cluster p h (crossings h) = Ok nodes /\ stored_by_segment p h (map (labelled label) crossed) nodes.
Proof.
  intros h Hh. unfold create_nodes. rewrite udiv_ok by lia. cbn [bind].
  assert (Hw : 1 <= w) by (apply Nat.div_le_lower_bound; lia). assert (Hwn : w * N <= r) by (rewrite Nat.mul_comm; apply Nat.mul_div_le; lia).
  assert (Hwh : w * h + w <= r) by nia. rewrite Nat.max_l by lia.
  rewrite (mapM_all _ _ _ (bucket h)) by (intros s Hs; apply in_seq in Hs; apply segment_nodes_ok; lia). cbn [bind]. eexists. split; [reflexivity|]. exists (bucket h). split.
  - replace (seq 0 r) with (seq 0 (w * h + (r - w * h))) by (f_equal; lia). rewrite seq_app, map_app, concat_app. cbn [Nat.add].
    assert (E : concat (map (bucket h) (seq 0 (w * h))) = []); [|now rewrite E].
    assert (G : forall L, (forall s, In s L -> s < w * h) -> concat (map (bucket h) L) = []).
    { induction L as [|s L IH]; intros HL; [reflexivity|]. cbn [map concat]. rewrite IH by (intros; apply HL; now right). unfold bucket. destruct (Nat.eqb_spec (owner p s) h) as [E|]; [|reflexivity]. exfalso.
      specialize (HL s (or_introl eq_refl)). unfold owner in E. assert (s / w < h) by (apply Nat.div_lt_upper_bound; lia). lia. }
    apply G. intros s Hs. apply in_seq in Hs. lia.
  - intros s Hs. unfold bucket. destruct (owner p s =? h); [|constructor].
    rewrite filter_map_swap. cbn [labelled n_segment]. 
    replace (map (fun c => labelled label (c_id c, s)) (rows s)) with (map (labelled label) (map (fun c => (c_id c, c_segment c)) (rows s))).
    + apply Permutation_map. apply rows_perm.
    + rewrite map_map. apply map_ext_in. intros c Hc. now rewrite (rows_segment s c Hc).
Qed.
Theorem label_is_given : forall s, s < r -> labels_of cluster (crossings_of (crossings (owner p s)) s) = Ok (map (fun c => label (c_id c) s) (rows s)).
Proof. intros s Hs. rewrite label_given by exact Hs. apply given_ok. exact Hs. Qed.
End Create.
