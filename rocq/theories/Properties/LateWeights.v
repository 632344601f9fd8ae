(** C39, C40, C70 in clusters of any size: a host that begins late. *)
From Coq Require Import List Arith Bool Lia Permutation.
From Verif.Base Require Import Res Assoc ListX.
From Verif.Edges Require Import Model Proofs HostProofs.
From Verif.Protocol Require Import Model Exchange Ring RingExec Spec RingProofs LateProofs.
From Verif.Transposition Require Import Model Spec Proofs.
From Verif.Scoring Require Import Model Spec WeightProofs.
From Verif.Properties Require Import Transposition.
Import ListNotations.

(** The run of C31: the last host takes in the contributions of the hosts [n - 2], ..., 1 and its own one. *)
Lemma late_taken : forall T n (c : nat -> T), 3 <= n -> exists w : rworld T, rreachable n c anytime w /\ rstuck n c w /\ (forall p, p < n -> finished (node_of w p) = 1) /\
  Permutation (taken (node_of w (n - 1))) (map (fun q => (q, c q)) (seq 1 (n - 1))).
Proof.
  intros T n c Hn. destruct (loses_one n c Hn) as (w & R & St & L1 & L2). exists w. pose proof (late_complete n c ltac:(lia) w R St) as C. ssplit; auto.
  - intros p Hp. now apply C.
  - assert (E : taken (node_of w (n - 1)) = map (fun q => (q, c q)) (rev (seq 1 (n - 2)) ++ [n - 1])).
    { apply nth_error_ext. intros i. destruct (C (n - 1) ltac:(lia)) as (Hl & _). destruct (lt_dec i (n - 1)) as [Hi|Hi].
      - rewrite nth_error_map. destruct (Nat.eq_dec i (n - 2)) as [->|N].
        + rewrite L2, nth_error_app2 by (rewrite rev_length, seq_length; lia). rewrite rev_length, seq_length, Nat.sub_diag. reflexivity.
        + rewrite (L1 i) by lia. rewrite nth_error_app1 by (rewrite rev_length, seq_length; lia). rewrite nth_error_nth' with (d := 0) by (rewrite rev_length, seq_length; lia).
          rewrite rev_nth, seq_length, seq_nth by (rewrite ?seq_length; lia). cbn [option_map]. replace (1 + (n - 2 - S i)) with (n - 2 - i) by lia. reflexivity.
      - transitivity (@None (nat * T)); [apply nth_error_None; eapply Nat.le_trans; [apply Nat.eq_le_incl; exact Hl|lia]|]. symmetry. apply nth_error_None. rewrite map_length, app_length, rev_length, seq_length. cbn. lia. }
    rewrite E. apply Permutation_map. replace (n - 1) with (S (n - 2)) at 2 by lia. rewrite seq_S. replace (1 + (n - 2)) with (n - 1) by lia. apply Permutation_app_tail, Permutation_sym, Permutation_rev.
Qed.
(** What was taken in, tallied. *)
Lemma tally_taken : forall K (eqb : K -> K -> bool) k (c : nat -> list (K * nat)) l t, Permutation t (map (fun q => (q, c q)) l) -> tally eqb k (concat (map snd t)) = tally eqb k (concat (map c l)).
Proof.
  intros K eqb k c l t P. apply tally_perm. replace (map c l) with (map snd (map (fun q => (q, c q)) l)) by (rewrite map_map; reflexivity).
  generalize dependent (map (fun q => (q, c q)) l). intros u P. induction P; cbn [map concat]; [constructor|now apply Permutation_app_head| |etransitivity; eassumption].
  rewrite !app_assoc. apply Permutation_app_tail, Permutation_app_comm.
Qed.
(** In every cluster of three or more hosts, however the edges are distributed, there is a complete run in which all hosts report to be finished and the last host has counted its
    own edges twice and those of the first host not at all. *)
Theorem C39_every_cluster_refuted : forall N edges, 3 <= N -> exists w, let c := fun k => edge_weight (edges k) in
  rreachable N c anytime w /\ rstuck N c w /\ (forall p, p < N -> finished (node_of w p) = 1) /\
  forall e, let counted := multiplicity (all_edges N edges) e + multiplicity (edges (N - 1)) e - multiplicity (edges 0) e in
  lookup edge_key_eqb (edge_key e) (ring_map edge_key_eqb (edge_weight (edges (N - 1))) (taken (node_of w (N - 1)))) = if counted =? 0 then None else Some counted.
Proof.
  intros N edges HN. destruct (late_taken _ N (fun k => edge_weight (edges k)) HN) as (w & R & St & F & P). exists w. cbv zeta. ssplit; auto. intros e. unfold ring_map.
  rewrite (lookup_merges edge_key_eqb edge_key_eqb_spec), (tally_taken _ edge_key_eqb (edge_key e) _ _ _ P), edge_weight_lookup.
  rewrite (tally_concat_ext edge_key_eqb (edge_key e) _ (fun k => map (fun x => (edge_key x, 1)) (edges k))).
  - rewrite <- (map_map edges (map (fun x => (edge_key x, 1)))), <- concat_map, (tally_ones edge_key_eqb _ edge_key).
    change (count (fun x => edge_key_eqb (edge_key e) (edge_key x)) (concat (map edges (seq 1 (N - 1))))) with (multiplicity (concat (map edges (seq 1 (N - 1)))) e).
    change (oplus (positive (multiplicity (edges (N - 1)) e)) (positive (multiplicity (concat (map edges (seq 1 (N - 1)))) e)) = positive (multiplicity (all_edges N edges) e + multiplicity (edges (N - 1)) e - multiplicity (edges 0) e)).
    rewrite oplus_positive. f_equal. replace (multiplicity (all_edges N edges) e) with (multiplicity (edges 0) e + multiplicity (concat (map edges (seq 1 (N - 1)))) e); [lia|].
    unfold all_edges. replace N with (S (N - 1)) at 2 by lia. cbn [seq map concat]. unfold multiplicity, count. now rewrite filter_app, app_length.
  - intros k Hk. rewrite tally_map by (exact edge_key_eqb_spec || apply edge_weight_keys). rewrite edge_weight_lookup. symmetry. apply (tally_ones edge_key_eqb _ edge_key).
Qed.
(** So the weights are those of the whole graph only for edges that the first and the last host have equally often. *)
Theorem C39_late_exactly : forall N edges, 3 <= N -> exists w, let c := fun k => edge_weight (edges k) in
  rreachable N c anytime w /\ rstuck N c w /\ (forall p, p < N -> finished (node_of w p) = 1) /\
  forall e, 1 <= multiplicity (all_edges N edges) e ->
  (lookup edge_key_eqb (edge_key e) (ring_map edge_key_eqb (edge_weight (edges (N - 1))) (taken (node_of w (N - 1)))) = Some (multiplicity (all_edges N edges) e)
   <-> multiplicity (edges (N - 1)) e = multiplicity (edges 0) e).
Proof.
  intros N edges HN. destruct (C39_every_cluster_refuted N edges HN) as (w & R & St & F & H). exists w. cbv zeta in *. ssplit; auto. intros e He. rewrite H.
  assert (L : multiplicity (edges 0) e <= multiplicity (all_edges N edges) e).
  { unfold all_edges. replace N with (S (N - 1)) by lia. cbn [seq map concat]. unfold multiplicity, count. rewrite filter_app, app_length. lia. }
  destruct (Nat.eqb_spec (multiplicity (all_edges N edges) e + multiplicity (edges (N - 1)) e - multiplicity (edges 0) e) 0) as [Z|Z]; split; intros G; try discriminate.
  - lia.
  - injection G as G. lia.
  - f_equal. lia.
Qed.
(** Four hosts with one edge each. *)
Example C39_four_hosts : exists w, let edges := fun k => [(nd k 0 k, nd (S k) 0 (S k))] in let m := ring_map edge_key_eqb (edge_weight (edges 3)) (taken (node_of w 3)) in
  rreachable 4 (fun k => edge_weight (edges k)) anytime w /\ (forall p, p < 4 -> finished (node_of w p) = 1) /\
  lookup edge_key_eqb (edge_key (nd 3 0 3, nd 4 0 4)) m = Some 2 /\ multiplicity (all_edges 4 edges) (nd 3 0 3, nd 4 0 4) = 1 /\
  lookup edge_key_eqb (edge_key (nd 0 0 0, nd 1 0 1)) m = None /\ multiplicity (all_edges 4 edges) (nd 0 0 0, nd 1 0 1) = 1.
Proof.
  destruct (C39_every_cluster_refuted 4 (fun k => [(nd k 0 k, nd (S k) 0 (S k))]) ltac:(lia)) as (w & R & _ & F & H). exists w. cbv zeta in *. ssplit; auto.
  - exact (H (nd 3 0 3, nd 4 0 4)).
  - exact (H (nd 0 0 0, nd 1 0 1)).
Qed.

(** The degrees of the hosts added up. *)
Lemma tally_degrees : forall x (edges : nat -> list edge) l, tally key_eqb (node_key x) (concat (map (fun k => node_degrees (edges k)) l)) = positive (list_sum (map (fun k => degree (edges k) x) l)).
Proof.
  intros x edges l. induction l as [|k l IH]; [reflexivity|]. cbn [map concat]. rewrite tally_app, IH, tally_map by (exact key_eqb_spec || apply node_degrees_keys).
  rewrite node_degrees_lookup. change (oplus (positive (degree (edges k) x)) (positive (list_sum (map (fun k => degree (edges k) x) l))) = positive (degree (edges k) x + list_sum (map (fun k => degree (edges k) x) l))).
  apply oplus_positive.
Qed.
Lemma degree_sum : forall x edges N, (forall i j a b, i < N -> j < N -> i <> j -> In a (edges i) -> In b (edges j) -> same_edge a b = false) ->
  degree (all_edges N edges) x = list_sum (map (fun k => degree (edges k) x) (seq 0 N)).
Proof.
  intros x edges N Hdis. assert (E : positive (degree (all_edges N edges) x) = positive (list_sum (map (fun k => degree (edges k) x) (seq 0 N)))).
  { rewrite <- tally_degrees. transitivity (tally key_eqb (node_key x) (ends (distinct (all_edges N edges)))); [symmetry; apply tally_ends|].
    rewrite (tally_concat_ext key_eqb (node_key x) (fun k => node_degrees (edges k)) (fun k => ends (distinct (edges k)))).
    - f_equal. unfold all_edges. rewrite distinct_concat; [|apply seq_NoDup|intros i j a b Hi Hj; apply in_seq in Hi; apply in_seq in Hj; apply Hdis; lia].
      generalize (seq 0 N). intros l. induction l as [|k l IH]; [reflexivity|]. cbn [map concat]. unfold ends. rewrite flat_map_app. f_equal. exact IH.
    - intros k Hk. rewrite tally_map by (exact key_eqb_spec || apply node_degrees_keys). rewrite node_degrees_lookup, tally_ends. reflexivity. }
  unfold positive in E. destruct (Nat.eqb_spec (degree (all_edges N edges) x) 0), (Nat.eqb_spec (list_sum (map (fun k => degree (edges k) x) (seq 0 N))) 0); congruence.
Qed.
(** The degrees likewise: in every cluster of three or more hosts that keep equal edges together. *)
Theorem C40_every_cluster_refuted : forall N edges, 3 <= N -> (forall i j a b, i < N -> j < N -> i <> j -> In a (edges i) -> In b (edges j) -> same_edge a b = false) ->
  exists w, let c := fun k => node_degrees (edges k) in
  rreachable N c anytime w /\ rstuck N c w /\ (forall p, p < N -> finished (node_of w p) = 1) /\
  forall x, let counted := degree (all_edges N edges) x + degree (edges (N - 1)) x - degree (edges 0) x in
  lookup key_eqb (node_key x) (ring_map key_eqb (node_degrees (edges (N - 1))) (taken (node_of w (N - 1)))) = if counted =? 0 then None else Some counted.
Proof.
  intros N edges HN Hdis. destruct (late_taken _ N (fun k => node_degrees (edges k)) HN) as (w & R & St & F & P). exists w. cbv zeta. ssplit; auto. intros x. unfold ring_map.
  rewrite (lookup_merges key_eqb key_eqb_spec), (tally_taken _ key_eqb (node_key x) _ _ _ P), node_degrees_lookup, tally_degrees.
  change (oplus (positive (degree (edges (N - 1)) x)) (positive (list_sum (map (fun k => degree (edges k) x) (seq 1 (N - 1))))) = positive (degree (all_edges N edges) x + degree (edges (N - 1)) x - degree (edges 0) x)).
  rewrite oplus_positive. f_equal. rewrite (degree_sum x edges N Hdis). replace N with (S (N - 1)) at 3 by lia. cbn [seq map list_sum fold_right]. unfold list_sum. cbn [fold_right]. lia.
Qed.
(** Four hosts with one edge each: the last node of the last edge seems to have degree 2, the first node of the first edge none. *)
Example C40_four_hosts : exists w, let edges := fun k => [(nd k 0 k, nd (S k) 0 (S k))] in let m := ring_map key_eqb (node_degrees (edges 3)) (taken (node_of w 3)) in
  rreachable 4 (fun k => node_degrees (edges k)) anytime w /\ (forall p, p < 4 -> finished (node_of w p) = 1) /\
  lookup key_eqb (node_key (nd 4 0 4)) m = Some 2 /\ degree (all_edges 4 edges) (nd 4 0 4) = 1 /\ lookup key_eqb (node_key (nd 0 0 0)) m = None /\ degree (all_edges 4 edges) (nd 0 0 0) = 1.
Proof.
  destruct (C40_every_cluster_refuted 4 (fun k => [(nd k 0 k, nd (S k) 0 (S k))]) ltac:(lia)) as (w & R & _ & F & H).
  - intros i j a b _ _ Hij [<-|[]] [<-|[]]. destruct (same_edge _ _) eqn:E; [|reflexivity]. apply same_edge_iff in E. exfalso. apply Hij. exact (f_equal (fun k => fst (fst k)) E).
  - exists w. cbv zeta in *. ssplit; auto; [exact (H (nd 4 0 4))|exact (H (nd 0 0 0))].
Qed.
(** The scores likewise: in every cluster of three or more hosts, whatever the hosts have computed, the last host can miss the part of the first one, and aborts. *)
Theorem C70_every_cluster_refuted : forall F (is_zero : F -> bool) N (c : nat -> list F * bool), 3 <= N -> exists w,
  rreachable N c anytime w /\ rstuck N c w /\ (forall p, p < N -> finished (node_of w p) = 1) /\
  (let! parts := in_order N (subscores (N - 1) (c (N - 1)) (taken (node_of w (N - 1)))) in assemble is_zero parts) = Panic UnwrapNone.
Proof.
  intros F is_zero N c HN. destruct (late_taken _ N c HN) as (w & R & St & Fi & P). exists w. ssplit; auto.
  assert (L : forall l m, (forall x, In x l -> fst x <> 0) -> lookup Nat.eqb 0 (fold_left (fun m '(k, v) => insert Nat.eqb k v m) l m) = lookup Nat.eqb 0 (m : list (nat * (list F * bool)))).
  { induction l as [|[k v] l IH]; intros m H; [reflexivity|]. cbn [fold_left]. rewrite IH by (intros x Hx; apply H; now right).
    apply (lookup_insert_other Nat.eqb Nat.eqb_spec). intros E. apply (H (k, v)); [now left|]. symmetry. exact E. }
  unfold in_order, subscores. destruct N as [|N]; [lia|]. cbn [seq mapM]. rewrite L.
  - cbn [lookup]. destruct (Nat.eqb_spec 0 (S N - 1)); [lia|]. reflexivity.
  - intros x Hx. apply (Permutation_in _ P), in_map_iff in Hx. destruct Hx as (q & <- & Hq). apply in_seq in Hq. cbn. lia.
Qed.
(** Five hosts with two scores each. *)
Example C70_five_hosts : exists w, rreachable 5 (fun k => ([k; S k], false)) anytime w /\ (forall p, p < 5 -> finished (node_of w p) = 1) /\
  (let! parts := in_order 5 (subscores 4 ([4; 5], false) (taken (node_of w 4))) in assemble (Nat.eqb 0) parts) = Panic UnwrapNone.
Proof.
  destruct (C70_every_cluster_refuted nat (Nat.eqb 0) 5 (fun k => ([k; S k], false)) ltac:(lia)) as (w & R & _ & Fi & H). exists w. ssplit; auto.
Qed.
Print Assumptions C39_every_cluster_refuted.
Print Assumptions C39_late_exactly.
Print Assumptions C40_every_cluster_refuted.
Print Assumptions C70_every_cluster_refuted.
