(** Scoring: C39 - C45, C52, C70, C71. *)
From Coq Require Import List Arith Bool Lia Permutation Sorting.Sorted.
From Verif.Base Require Import Res Assoc ListX.
From Verif.Edges Require Import Model Proofs HostProofs.
From Verif.Protocol Require Import Model Exchange Ring RingExec Spec.
From Verif.Segmentation Require Import Proofs.
From Verif.Transposition Require Import Model Spec Proofs.
From Verif.Scoring Require Import Model Spec WeightProofs IndexProofs CollectProofs WindowProofs Overlap OverlapProofs ClusterProofs AssembleProofs.
From Verif.Properties Require Import Protocol Transposition.
Import ListNotations.

(** ** C39 *)
(** One machine: the weight of an edge is the number of edges equal to it; edges that do not occur have none. *)
Theorem C39_weights_are_multiplicities : forall edges e,
  lookup edge_key_eqb (edge_key e) (edge_weight edges) = if multiplicity edges e =? 0 then None else Some (multiplicity edges e).
Proof. intros. rewrite edge_weight_lookup. reflexivity. Qed.
Theorem C39_every_edge_has_a_weight : forall edges e, In e edges -> 1 <= multiplicity edges e.
Proof. exact multiplicity_positive. Qed.
(** Cluster: whatever the distribution of the edges and the order of the messages, every host ends with the multiplicities in the whole graph.
    ([c k] is the map of host [k] in any iteration order.) *)
Theorem C39_cluster_weights : forall N edges c w, 2 <= N -> (forall k, k < N -> Permutation (c k) (edge_weight (edges k))) ->
  rreachable N c not_overtaken w -> rstuck N c w -> forall p e, p < N ->
  lookup edge_key_eqb (edge_key e) (ring_map edge_key_eqb (edge_weight (edges p)) (taken (node_of w p)))
  = if multiplicity (all_edges N edges) e =? 0 then None else Some (multiplicity (all_edges N edges) e).
Proof.
  intros N edges c w HN Hc Hr Hs p e Hp. destruct (C30_every_contribution_if_not_overtaken _ N c w HN Hr Hs p Hp) as (P & _). unfold ring_map.
  rewrite (lookup_merged edge_key_eqb edge_key_eqb_spec (edge_key e) N p c); [|exact Hp|symmetry; now apply Hc|apply edge_weight_keys|exact P].
  rewrite (tally_concat_ext edge_key_eqb (edge_key e) c (fun k => map (fun x => (edge_key x, 1)) (edges k))).
  - rewrite <- (map_map edges (map (fun x => (edge_key x, 1)))), <- concat_map. apply (tally_ones edge_key_eqb _ edge_key).
  - intros k Hk. apply in_seq in Hk. rewrite (tally_perm edge_key_eqb _ _ _ (Hc k ltac:(lia))), tally_map by (exact edge_key_eqb_spec || apply edge_weight_keys).
    rewrite edge_weight_lookup. symmetry. apply (tally_ones edge_key_eqb _ edge_key).
Qed.
(** A host that begins late (see C31): all hosts report to be finished, but host 2 has counted its own edges twice and those of host 0 not at all. *)
Definition late_edges (k : nat) : list edge := match k with 0 => [(nd 0 0 0, nd 1 0 1)] | 1 => [(nd 2 0 2, nd 3 0 2)] | _ => [(nd 4 0 4, nd 5 0 4)] end.
Theorem C39_late_start_refuted : exists w, rreachable 3 (fun k => edge_weight (late_edges k)) anytime w /\ rstuck 3 (fun k => edge_weight (late_edges k)) w
  /\ (forall p, p < 3 -> finished (node_of w p) = 1)
  /\ let m := ring_map edge_key_eqb (edge_weight (late_edges 2)) (taken (node_of w 2)) in
     lookup edge_key_eqb (edge_key (nd 4 0 4, nd 5 0 4)) m = Some 2 /\ multiplicity (all_edges 3 late_edges) (nd 4 0 4, nd 5 0 4) = 1
     /\ lookup edge_key_eqb (edge_key (nd 0 0 0, nd 1 0 1)) m = None /\ multiplicity (all_edges 3 late_edges) (nd 0 0 0, nd 1 0 1) = 1.
Proof.
  exists (rrun 3 (fun k => edge_weight (late_edges k)) late_start). ssplit.
  - apply rrun_reachable.
  - intros w' Hs. inversion Hs as [w p Hp Hb Ha|w p m r Hp Ht|w p m r Hp Hm]; subst; destruct p as [|[|[|p]]]; try lia; vm_compute in *; discriminate.
  - intros p Hp. destruct p as [|[|[|p]]]; try lia; vm_compute; reflexivity.
  - vm_compute. auto.
Qed.

(** ** C40 *)
(** One machine: the degree of a node is the number of distinct edges leaving it plus the number of distinct edges entering it. *)
Theorem C40_degrees : forall edges x, lookup key_eqb (node_key x) (node_degrees edges) = if degree edges x =? 0 then None else Some (degree edges x).
Proof. intros. rewrite node_degrees_lookup. reflexivity. Qed.
(** The subtraction of 1 never underflows. *)
Theorem C40_source_degree_positive : forall edges e, In e edges -> 1 <= degree edges (fst e).
Proof. exact source_degree_positive. Qed.
(** Cluster: if equal edges are on the same host (they are: an edge is kept by the owner of the segment of its first node when degrees are computed), every host ends
    with the degrees in the whole graph. *)
Theorem C40_cluster_degrees : forall N edges c w, 2 <= N -> (forall i j a b, i < N -> j < N -> i <> j -> In a (edges i) -> In b (edges j) -> same_edge a b = false) ->
  (forall k, k < N -> Permutation (c k) (node_degrees (edges k))) ->
  rreachable N c not_overtaken w -> rstuck N c w -> forall p x, p < N ->
  lookup key_eqb (node_key x) (ring_map key_eqb (node_degrees (edges p)) (taken (node_of w p)))
  = if degree (all_edges N edges) x =? 0 then None else Some (degree (all_edges N edges) x).
Proof.
  intros N edges c w HN Hdis Hc Hr Hs p x Hp. destruct (C30_every_contribution_if_not_overtaken _ N c w HN Hr Hs p Hp) as (P & _). unfold ring_map.
  rewrite (lookup_merged key_eqb key_eqb_spec (node_key x) N p c); [|exact Hp|symmetry; now apply Hc|apply node_degrees_keys|exact P].
  rewrite (tally_concat_ext key_eqb (node_key x) c (fun k => ends (distinct (edges k)))).
  - transitivity (tally key_eqb (node_key x) (ends (distinct (all_edges N edges)))); [|apply tally_ends]. f_equal. unfold all_edges. rewrite distinct_concat; [|apply seq_NoDup|intros i j a b Hi Hj; apply in_seq in Hi; apply in_seq in Hj; apply Hdis; lia].
    generalize (seq 0 N). intros l. induction l as [|k l IH]; [reflexivity|]. cbn [map concat]. unfold ends. rewrite flat_map_app. f_equal. exact IH.
  - intros k Hk. apply in_seq in Hk. rewrite (tally_perm key_eqb _ _ _ (Hc k ltac:(lia))), tally_map by (exact key_eqb_spec || apply node_degrees_keys).
    rewrite node_degrees_lookup, tally_ends. reflexivity.
Qed.
(** Without that condition the sum of the degrees is too large. *)
Example C40_same_edge_on_two_hosts : let e := (nd 0 0 0, nd 1 0 1) in let x := (nd 0 0 7) in
  lookup key_eqb (node_key x) (ring_map key_eqb (node_degrees [e]) [(1, node_degrees [e])]) = Some 2 /\ degree [e; e] x = 1.
Proof. vm_compute. auto. Qed.

(** ** C41 *)
Theorem C41_time_index : forall start edges num (last : bool), ascending edges -> (forall e, In e edges -> start <= to_id e < start + (num - if last then 1 else 0)) -> (last = true -> 1 <= num) ->
  (edges <> [] -> exists e, In e edges /\ to_id e <> 0) ->
  count_edges_in_time start edges num last = Ok (map (fun t => edges_until edges (start + t)) (seq 0 (num - if last then 1 else 0))).
Proof. exact count_spec. Qed.
(** ... and does not decrease. *)
Theorem C41_monotone : forall edges a b, a <= b -> edges_until edges a <= edges_until edges b.
Proof. exact edges_until_mono. Qed.
(** All edges at time 0: they are not counted at all. *)
Theorem C41_only_time_zero_refuted : exists edges num, ascending edges /\ (forall e, In e edges -> to_id e < num - 1)
  /\ count_edges_in_time 0 edges num true = Ok [0; 0] /\ map (fun t => edges_until edges t) (seq 0 2) = [1; 1].
Proof. exists [(nd 0 0 0, nd 1 0 0)], 3. ssplit; [repeat constructor|intros e [<-|[]]; cbn; lia|reflexivity|reflexivity]. Qed.
Example C41_case : count_edges_in_time 4 [(nd 0 0 4, nd 1 0 4); (nd 0 0 4, nd 2 0 6); (nd 0 0 4, nd 3 0 6); (nd 0 0 4, nd 4 0 9)] 8 false = Ok [1; 1; 3; 3; 3; 4; 4; 4].
Proof. reflexivity. Qed.

(** ** C42, C71 *)
Section Single.
Variables (edges : list edge) (num q : nat) (g : graph).
Hypothesis Hasc : ascending edges.
Hypothesis Htime : forall e, In e edges -> to_id e < num - 1.
Hypothesis Hpos : edges <> [] -> exists e, In e edges /\ to_id e <> 0.
Hypothesis Hnum : 1 <= num.
Hypothesis Hq : 1 <= q.
Hypothesis Hg : single_graph edges num q = Ok g.

Lemma single_graph_is : g = {| g_edges := edges; g_index := map (fun t => edges_until edges t) (seq 0 (num - 1)); g_weight := edge_weight edges; g_degree := node_degrees edges; g_query := q |}.
Proof.
  unfold single_graph in Hg. rewrite (count_spec 0 edges num true) in Hg; [|exact Hasc|intros e He; pose proof (Htime e He); lia|intros; exact Hnum|exact Hpos].
  cbn [bind Nat.add] in Hg. congruence.
Qed.
Lemma single_view : view edges 0 (length edges) 0 (num - 1) g.
Proof.
  rewrite single_graph_is. unfold view. cbn [g_edges g_index]. ssplit; [exact Hasc|lia|symmetry; now apply slice_full|apply map_ext; intros; cbn [Nat.add]; lia|].
  intros t _. split; [lia|apply edges_until_length].
Qed.
Lemma single_summand : forall e, In e edges -> summand g e = Ok (edge_term edges e).
Proof.
  intros e He. rewrite single_graph_is. pose proof (multiplicity_positive edges e He). pose proof (source_degree_positive edges e He). apply summand_ok; [| |assumption]; cbn [g_weight g_degree].
  - rewrite edge_weight_lookup. unfold positive. destruct (Nat.eqb_spec (multiplicity edges e) 0); [lia|reflexivity].
  - rewrite node_degrees_lookup. unfold positive. destruct (Nat.eqb_spec (degree edges (fst e)) 0); [lia|reflexivity].
Qed.
Lemma single_query : g_query g = q.
Proof. now rewrite single_graph_is. Qed.
Lemma single_terms : forall i, window_terms edges (edge_term edges) (length edges) 0 q i = map (edge_term edges) (window_edges edges q i).
Proof. intros i. unfold window_terms. cbn [Nat.add]. now rewrite slice_is_window. Qed.
End Single.

(** Every window is read within bounds, every weight and degree is found, nothing underflows; and the window consists of exactly the edges after its first point up to its
    last point, and the edge that follows. *)
Theorem C42_windows : forall edges num q g i, ascending edges -> (forall e, In e edges -> to_id e < num - 1) -> (edges <> [] -> exists e, In e edges /\ to_id e <> 0) -> 1 <= q -> i + q < num ->
  single_graph edges num q = Ok g -> window g i = Ok (window_edges edges q i) /\ summands g i = Ok (map (edge_term edges) (window_edges edges q i)).
Proof.
  intros edges num q g i Hasc Ht Hpos Hq Hi Hg. assert (Hnum : 1 <= num) by lia. pose proof (single_view edges num q g Hasc Ht Hpos Hnum Hq Hg) as V. pose proof (single_query edges num q g Hasc Ht Hpos Hnum Hq Hg) as Eq.
  split.
  - rewrite (window_view _ _ _ _ _ _ i V) by lia. rewrite Eq. cbn [Nat.add]. now rewrite slice_is_window.
  - rewrite (summands_view _ _ _ _ _ _ (edge_term edges) i V); [|lia|lia|now apply (single_summand edges num q g Hasc Ht Hpos Hnum Hq Hg)]. rewrite Eq. now rewrite single_terms.
Qed.
Theorem C42_no_abort : forall edges num q, ascending edges -> (forall e, In e edges -> to_id e < num - 1) -> (edges <> [] -> exists e, In e edges /\ to_id e <> 0) -> 1 <= q -> q <= num -> 1 <= num ->
  exists g, single_graph edges num q = Ok g /\ score_length g = Ok (num - q) /\ forall i, i < num - q -> exists xs, summands g i = Ok xs.
Proof.
  intros edges num q Hasc Ht Hpos Hq Hqn Hnum. eexists. assert (E : single_graph edges num q = Ok {| g_edges := edges; g_index := map (fun t => edges_until edges t) (seq 0 (num - 1)); g_weight := edge_weight edges; g_degree := node_degrees edges; g_query := q |}).
  { unfold single_graph. rewrite (count_spec 0 edges num true); [reflexivity|exact Hasc|intros e He; pose proof (Ht e He); lia|intros; exact Hnum|exact Hpos]. }
  split; [exact E|]. split.
  - rewrite (score_length_view _ _ _ _ _ _ (single_view edges num q _ Hasc Ht Hpos Hnum Hq E)); cbn [g_query]; [f_equal; lia|lia|lia].
  - intros i Hi. eexists. apply (C42_windows edges num q _ i Hasc Ht Hpos Hq ltac:(lia) E).
Qed.
(** C71: the score of window [i] is computed from exactly these edges: *)
Theorem C71_window_content : forall edges num q g i e, ascending edges -> (forall e, In e edges -> to_id e < num - 1) -> (edges <> [] -> exists e, In e edges /\ to_id e <> 0) -> 1 <= q -> i + q < num ->
  single_graph edges num q = Ok g -> exists es, window g i = Ok es /\ (In e edges -> i < to_id e <= i + q - 1 -> In e es) /\
  (In e es -> In e edges /\ i < to_id e /\ (i + q - 1 < to_id e -> forall e', In e' edges -> i + q - 1 < to_id e' -> to_id e <= to_id e')).
Proof.
  intros edges num q g i e Hasc Ht Hpos Hq Hi Hg. destruct (C42_windows edges num q g i Hasc Ht Hpos Hq Hi Hg) as (-> & _). eexists. split; [reflexivity|]. unfold window_edges. split.
  - intros He Hr. apply in_or_app. left. apply filter_In. split; [exact He|]. apply andb_true_intro. rewrite Nat.ltb_lt, Nat.leb_le. lia.
  - intros He. apply in_app_or in He. destruct He as [He|He].
    + apply filter_In in He. destruct He as (He & Hr). apply andb_true_iff in Hr. rewrite Nat.ltb_lt, Nat.leb_le in Hr. ssplit; [exact He|lia|]. intros H. lia.
    + remember (filter (fun e0 => i + q - 1 <? to_id e0) edges) as l eqn:El. destruct l as [|x l]; [easy|]. destruct He as [->|[]].
      assert (In e edges /\ i + q - 1 < to_id e) as (He & Hr) by (rewrite <- Nat.ltb_lt, <- (filter_In (fun e0 => i + q - 1 <? to_id e0)), <- El; now left). ssplit; [exact He|lia|].
      intros _ e' He' Hr'. assert (Hin : In e' (e :: l)) by (rewrite El; apply filter_In; rewrite Nat.ltb_lt; auto). destruct Hin as [->|Hin]; [lia|].
      assert (Hs : StronglySorted le (map to_id (e :: l))) by (rewrite El; now apply sorted_filter). cbn [map] in Hs. inversion Hs as [|? ? _ Hf]; subst. rewrite Forall_forall in Hf. apply Hf. now apply in_map.
Qed.
(** With query length 0, or fewer points than the query length, scoring aborts. *)
Theorem C42_query_length_zero_aborts : forall g, g_query g = 0 -> score_length g = Panic Underflow.
Proof. intros g H. unfold score_length. rewrite H. reflexivity. Qed.
Theorem C42_query_too_long_aborts : forall g, 1 <= g_query g -> length (g_index g) < g_query g - 1 -> score_length g = Panic Explicit.
Proof. intros g H L. unfold score_length. rewrite usub_ok by exact H. cbn [bind]. destruct (Nat.ltb_spec (length (g_index g)) (g_query g - 1)); [reflexivity|lia]. Qed.

Definition ex_edges : list edge := [(nd 0 0 0, nd 1 0 1); (nd 1 0 1, nd 0 0 2); (nd 0 0 2, nd 1 0 2); (nd 1 0 2, nd 2 1 4); (nd 2 1 4, nd 0 0 5)].
Example C42_case : ascending ex_edges /\ (forall e, In e ex_edges -> to_id e < 9 - 1) /\ (exists e, In e ex_edges /\ to_id e <> 0)
  /\ (let! g := single_graph ex_edges 9 3 in mapM (summands g) (seq 0 6)) = Ok [[4; 2; 4; 2]; [2; 4; 2]; [2; 1]; [2; 1]; [1]; []].
Proof.
  split; [repeat constructor; cbn; lia|]. split; [intros e He; repeat (destruct He as [<-|He]; [cbn; lia|]); easy|]. split; [exists (nd 0 0 0, nd 1 0 1); split; [now left|discriminate]|].
  vm_compute. reflexivity.
Qed.

(** ** C43 *)
(** For all numbers of threads up to the number of windows and all orders in which their responses (and the responses put back) are handled: nothing aborts, exactly one vector
    is passed on, after the last response, and it is the sequential one. *)
Theorem C43_independent_of_threads : forall F (zero : F) is_zero value edges num q threads g, is_zero zero = true ->
  ascending edges -> (forall e, In e edges -> to_id e < num - 1) -> (edges <> [] -> exists e, In e edges /\ to_id e <> 0) -> 1 <= q -> 1 <= threads -> threads <= num - q ->
  single_graph edges num q = Ok g ->
  let scores := carry value zero (map (fun i => map (edge_term edges) (window_edges edges q i)) (seq 0 (num - q))) in
  exists w0, start_scoring zero value g threads = Ok w0 /\ forall w, scoring_run is_zero w0 w ->
    (forall v, In v (c_delivered (collecting w)) -> fst v = scores) /\ length (c_delivered (collecting w)) <= 1
    /\ (flying w <> [] -> exists w', scoring_step is_zero w w')
    /\ (flying w = [] -> map fst (c_delivered (collecting w)) = [scores]).
Proof.
  intros F zero is_zero value edges num q threads g Hz Hasc Ht Hpos Hq Hth Hle Hg scores. assert (Hnum : 1 <= num) by lia.
  pose proof (single_view edges num q g Hasc Ht Hpos Hnum Hq Hg) as V. pose proof (single_query edges num q g Hasc Ht Hpos Hnum Hq Hg) as Eq.
  destruct (view_windows _ _ _ _ _ g (edge_term edges) V) as (Hws & Htail); [lia|now apply (single_summand edges num q g Hasc Ht Hpos Hnum Hq Hg)|]. rewrite Eq in Hws, Htail.
  replace (num - 1 + 1 - q) with (num - q) in Hws, Htail by lia.
  assert (Es : map (window_terms edges (edge_term edges) (length edges) 0 q) (seq 0 (num - q)) = map (fun i => map (edge_term edges) (window_edges edges q i)) (seq 0 (num - q))) by (apply map_ext; intros; now apply single_terms).
  rewrite Es in Hws, Htail. set (ws := map (fun i => map (edge_term edges) (window_edges edges q i)) (seq 0 (num - q))) in *.
  assert (HL : length ws = num - q) by (unfold ws; now rewrite map_length, seq_length).
  destruct (collected F zero is_zero value g ws threads Hz Hws Htail ltac:(lia)) as (w0 & E0 & R).
  { rewrite (score_length_view _ _ _ _ _ _ V), Eq by lia. f_equal. lia. }
  exists w0. split; [exact E0|]. intros w Hr. destruct (R w Hr) as (D & S & X). ssplit.
  - intros v Hv. destruct D as [D|D]; rewrite D in Hv; [easy|]. destruct Hv as [<-|[]]. reflexivity.
  - destruct D as [D|D]; rewrite D; cbn; lia.
  - exact S.
  - intros Hf. now rewrite (X Hf).
Qed.
(** Handling the responses ends. *)
Theorem C43_no_infinite_run : forall F (is_zero : F -> bool) (run : nat -> scoring_world F), ~ (forall i, scoring_step is_zero (run i) (run (S i))).
Proof.
  intros F is_zero run H. assert (K : forall i, scoring_measure (run i) + i <= scoring_measure (run 0)).
  { induction i as [|i IH]; [lia|]. pose proof (scoring_step_decreases _ _ _ _ (H i)). lia. }
  specialize (K (S (scoring_measure (run 0)))). lia.
Qed.
(** Two threads, the second answers first. *)
Example C43_case : exists w0 w, (let! g := single_graph ex_edges 9 3 in start_scoring 0 (fun xs => fold_left Nat.add xs 0) g 2) = Ok w0
  /\ scoring_run (Nat.eqb 0) w0 w /\ flying w = [] /\ c_delivered (collecting w) = [([12; 8; 3; 3; 1; 1], false)].
Proof.
  eexists. eexists. split; [vm_compute; reflexivity|]. split.
  - eapply run_step; [eapply run_step; [eapply run_step; [apply run_start|]|]|].
    + eapply (handles _ _ [_] _ []); [reflexivity|vm_compute; reflexivity].
    + eapply (handles _ _ [] _ []); [reflexivity|vm_compute; reflexivity].
    + eapply (handles _ _ [] _ []); [reflexivity|vm_compute; reflexivity].
  - split; reflexivity.
Qed.

(** ** C44 *)
(** With fewer windows than threads there is always an order of the responses after which nothing is under way and nothing has been passed on. *)
Theorem C44_fewer_windows_than_threads_refuted : forall F (zero : F) is_zero value g threads n w0, score_length g = Ok n -> 1 <= n < threads -> start_scoring zero value g threads = Ok w0 ->
  exists w, scoring_run is_zero w0 w /\ flying w = [] /\ c_delivered (collecting w) = [].
Proof.
  intros F zero is_zero value g threads n w0 Hn Hlt Hw0. unfold start_scoring in Hw0. rewrite Hn in Hw0. cbn [bind] in Hw0. unfold instructions in Hw0. rewrite udiv_ok, umod_ok in Hw0 by lia. cbn [bind] in Hw0.
  rewrite Nat.div_small, Nat.mod_small in Hw0 by lia. apply bind_ok_inv in Hw0. destruct Hw0 as (rs & Hrs & Hw0). injection Hw0 as <-.
  assert (Es : seq 0 threads = seq 0 (threads - 1) ++ [threads - 1]) by (replace threads with (S (threads - 1)) at 1 by lia; rewrite seq_S; reflexivity).
  assert (Mapp : forall A B (f : A -> res B) l m rs, mapM f (l ++ m) = Ok rs -> exists r1 r2, mapM f l = Ok r1 /\ mapM f m = Ok r2 /\ rs = r1 ++ r2).
  { intros A B f l m. induction l as [|x l IH]; intros r E; [exists [], r; auto|]. cbn [app mapM] in E. apply bind_ok_inv in E. destruct E as (b & E1 & E). apply bind_ok_inv in E. destruct E as (bs & E2 & E). injection E as <-.
    destruct (IH _ E2) as (r1 & r2 & A1 & A2 & ->). exists (b :: r1), r2. cbn [mapM]. rewrite E1, A1. auto. }
  rewrite Es, map_app in Hrs. apply Mapp in Hrs. destruct Hrs as (r1 & r2 & H1 & H2 & ->).
  assert (E1 : r1 = repeat {| r_start := 0; r_scores := []; r_first_empty := false |} (threads - 1)).
  { assert (K : forall k a r, a + k <= threads - 1 -> mapM (respond zero value g) (map (fun i => (i * 0, 0 + (if i =? threads - 1 then n else 0))) (seq a k)) = Ok r -> r = repeat {| r_start := 0; r_scores := []; r_first_empty := false |} k).
    { induction k as [|k IH]; intros a r Ha E; [cbn in E; injection E as <-; reflexivity|]. cbn [seq map mapM] in E. destruct (Nat.eqb_spec a (threads - 1)); [lia|]. rewrite Nat.mul_0_r in E. cbn [Nat.add] in E.
      unfold respond in E at 1. cbn [seq foldM bind] in E. apply bind_ok_inv in E. destruct E as (bs & E2 & E). injection E as <-. cbn [repeat]. f_equal. apply (IH (S a)); [lia|exact E2]. }
    apply (K (threads - 1) 0); [lia|exact H1]. }
  cbn [map mapM] in H2. rewrite Nat.eqb_refl, Nat.mul_0_r in H2. cbn [Nat.add] in H2. apply bind_ok_inv in H2. destruct H2 as (big & Hbig & H2). injection H2 as <-.
  assert (Hb : r_start big = 0 /\ length (r_scores big) = n).
  { unfold respond in Hbig. apply bind_ok_inv in Hbig. destruct Hbig as ([sc fe] & Hf & E). injection E as <-. split; [reflexivity|]. cbn [r_scores].
    assert (K : forall l s s', foldM (score_step zero value g) l s = Ok s' -> length (fst s') = length (fst s) + length l).
    { induction l as [|i l IH]; intros s s' E; [cbn in E; injection E as <-; cbn; lia|]. cbn [foldM] in E. apply bind_ok_inv in E. destruct E as (s1 & E1' & E). rewrite (IH _ _ E). destruct s as [x y]. cbn [score_step] in E1'. apply bind_ok_inv in E1'. destruct E1' as (xs & _ & E1').
      cbn [length fst]. assert (length (fst s1) = S (length x)); [|lia]. destruct xs; [destruct (nth_error x (length x - 1))|]; injection E1' as <-; cbn [fst]; rewrite app_length; cbn; lia. }
    apply K in Hf. cbn [fst length Nat.add] in Hf. now rewrite seq_length in Hf. }
  destruct Hb as (Hb1 & Hb2). subst r1. set (z := {| r_start := 0; r_scores := []; r_first_empty := false |} : response F) in *.
  (* the long response first *)
  assert (S1 : exists c, collect is_zero big (new_collector threads) = Ok (c, []) /\ length (c_scores c) = n /\ c_delivered c = []).
  { unfold collect, new_collector. cbn [c_scores length c_pool]. rewrite Hb1, iter_sent. cbn [Nat.eqb negb]. unfold h_received_one. cbn [h_sent h_total h_received]. rewrite usub_ok by lia. cbn [bind last_of nth_error length Nat.sub c_first_empty c_buffer c_delivered].
    unfold h_running. cbn [h_received h_total]. destruct (Nat.ltb_spec 1 threads); [|lia]. cbn [negb]. destruct (r_first_empty big); cbn [lookup app]; eexists; (split; [reflexivity|]); split; auto. }
  destruct S1 as (c & Ec & Lc & Dc).
  (* the others are put aside *)
  assert (S2 : forall k c w0, length (c_scores c) = n -> c_delivered c = [] -> scoring_run is_zero w0 {| collecting := c; flying := repeat z k |} -> exists w, scoring_run is_zero w0 w /\ flying w = [] /\ c_delivered (collecting w) = []).
  { induction k as [|k IH]; intros c1 w1 L1 D1 R1; [exists {| collecting := c1; flying := [] |}; auto|].
    pose (c2 := {| c_pool := c_pool c1; c_scores := c_scores c1; c_first_empty := c_first_empty c1; c_buffer := insert Nat.eqb 0 z (c_buffer c1); c_delivered := c_delivered c1 |}).
    assert (E2 : collect is_zero z c1 = Ok (c2, [])) by (unfold collect; cbn [r_start z]; rewrite L1; destruct n; [lia|reflexivity]).
    apply (IH c2); [exact L1|exact D1|]. eapply run_step; [exact R1|].
    pose proof (handles is_zero {| collecting := c1; flying := repeat z (S k) |} [] z (repeat z k) c2 [] eq_refl E2) as Hst. cbn [app] in Hst. rewrite app_nil_r in Hst. exact Hst. }
  apply (S2 (threads - 1) c); [exact Lc|exact Dc|]. eapply run_step; [apply run_start|].
  pose proof (handles is_zero {| collecting := new_collector threads; flying := repeat z (threads - 1) ++ [big] |} (repeat z (threads - 1)) big [] c [] eq_refl Ec) as Hst. cbn [app] in Hst. rewrite app_nil_r in Hst. exact Hst.
Qed.
(** Two windows, three threads. *)
Example C44_case : exists g w0, single_graph ex_edges 9 7 = Ok g /\ score_length g = Ok 2 /\ start_scoring 0 (fun xs => fold_left Nat.add xs 0) g 3 = Ok w0.
Proof. eexists. eexists. split; [vm_compute; reflexivity|]. split; vm_compute; reflexivity. Qed.

Print Assumptions C39_cluster_weights.
Print Assumptions C40_cluster_degrees.
Print Assumptions C41_time_index.
Print Assumptions C42_windows.
Print Assumptions C43_independent_of_threads.
Print Assumptions C44_fewer_windows_than_threads_refuted.
