(** Scoring on a cluster: C45, C52, C70. *)
From Coq Require Import List Arith Bool Lia Permutation Sorting.Sorted.
From Verif.Base Require Import Res Assoc ListX.
From Verif.Edges Require Import Model Proofs HostProofs.
From Verif.Protocol Require Import Model Exchange ExchangeExec Ring RingExec Spec.
From Verif.Segmentation Require Import Proofs.
From Verif.Transposition Require Import Model Spec Proofs.
From Verif.Scoring Require Import Model Spec WeightProofs IndexProofs CollectProofs WindowProofs Overlap OverlapProofs ClusterProofs AssembleProofs.
From Verif.Pipeline Require Import RunProofs.
From Verif.Properties Require Import Protocol Transposition Scoring.
Import ListNotations.

(** A cluster after transposition: [N] hosts with parts of [d] time stamps, the last with [l]; [E k]: the edges of host [k]. *)
Definition distributed (N d l : nat) (E : nat -> list edge) : Prop :=
  (forall k, k < N -> ascending (E k)) /\ (forall k e, k < N -> In e (E k) -> k * d <= to_id e < k * d + (if k =? N - 1 then l else d)).
(** Its own edges and time index, as computed by every host (C41). *)
Definition own_data (N d l : nat) (E : nat -> list edge) (k : nat) : list edge * list nat :=
  (E k, map (fun t => edges_until (E k) (k * d + t)) (seq 0 (if k =? N - 1 then l else d))).
(** With this it can be scored: all edges up to [q - 1] time stamps after its part, and their number up to every time stamp. *)
Definition scoring_data (N q d l : nat) (E : nat -> list edge) (k : nat) : list edge * list nat :=
  (filter (fun e => (k * d <=? to_id e) && ((to_id e <=? S k * d + q - 1) || (k =? N - 1))) (all_edges N E),
   map (fun t => count (fun e => (k * d <=? to_id e) && (to_id e <=? k * d + t)) (all_edges N E)) (seq 0 (if k =? N - 1 then l else d + q - 1))).
Lemma final_is : forall N q d l E k, 2 <= N -> 1 <= q -> 1 <= d -> q <= l -> distributed N d l E -> k < N -> final N q d l E k = scoring_data N q d l E k.
Proof.
  intros N q d l E k HN Hq Hd Hl (Ha & Hr) Hk. rewrite (surjective_pairing (final N q d l E k)). unfold scoring_data. f_equal.
  - now apply final_edges.
  - now apply final_index.
Qed.

(** ** C52 *)
Lemma overlap_data : forall N q d l E own, 2 <= N -> 1 <= q -> 1 <= d -> q <= l -> distributed N d l E -> (forall k, k < N -> own k = own_data N d l E k) ->
  final N q d l E (N - 1) = own (N - 1) /\ (forall k, k < N -> overlap_of q (final N q d l E k) = Ok (out N q d E k)) /\
  (forall k, k < N - 1 -> add_overlap (own k) (out N q d E (S k)) = Ok (final N q d l E k)).
Proof.
  intros N q d l E own HN Hq Hd Hl (Ha & HR) Ho. change (own_data N d l E) with (data N d l E) in Ho. ssplit; [rewrite Ho by lia; now apply last_data|intros; now apply out_ok|intros; rewrite Ho by lia; now apply add_ok].
Qed.
Lemma overlap_from : forall N q d l E own w, 2 <= N -> 1 <= q -> 1 <= d -> q <= l -> distributed N d l E -> (forall k, k < N -> own k = own_data N d l E k) ->
  oreachable N q own w -> forall p, p < N ->
  o_scored (ohosts w p) <= 1 /\ (o_scored (ohosts w p) = 1 -> o_data (ohosts w p) = scoring_data N q d l E p)
  /\ ((forall w', ~ ostep N q w w') -> o_scored (ohosts w p) = 1).
Proof.
  intros N q d l E own w HN Hq Hd Hl HD Ho Hr p Hp. destruct (overlap_data N q d l E own HN Hq Hd Hl HD Ho) as (L & O & A).
  destruct (oinv_reachable N q HN Hq own (final N q d l E) (out N q d E) L O A w Hr) as (j & I).
  destruct (oinv_scored N q HN Hq own (final N q d l E) (out N q d E) O A j w p I Hp) as (S1 & S2). ssplit.
  - exact S1.
  - intros H. rewrite (S2 H). apply final_is; auto.
  - intros Hs. exact (oinv_stuck N q HN Hq own (final N q d l E) (out N q d E) L O A j w I Hs p Hp).
Qed.
(** Whenever the hosts become ready and in whatever order the overlaps arrive: a host begins to score at most once, only with the complete data; and when nothing is left to do every host did. *)
Theorem C52_overlap : forall N q d l E w, 2 <= N -> 1 <= q -> 1 <= d -> q <= l -> distributed N d l E ->
  oreachable N q (own_data N d l E) w -> forall p, p < N ->
  o_scored (ohosts w p) <= 1 /\ (o_scored (ohosts w p) = 1 -> o_data (ohosts w p) = scoring_data N q d l E p)
  /\ ((forall w', ~ ostep N q w w') -> o_scored (ohosts w p) = 1).
Proof. intros N q d l E w HN Hq Hd Hl HD. now apply overlap_from. Qed.
(** The exchange of overlaps always ends, and nothing prevents it from ending. *)
Theorem C52_every_run_ends : forall N q d l E (run : nat -> oworld), 2 <= N -> 1 <= q -> 1 <= d -> q <= l -> distributed N d l E ->
  run 0 = ofresh (own_data N d l E) -> ~ (forall i, ostep N q (run i) (run (S i))).
Proof.
  intros N q d l E run HN Hq Hd Hl HD H0 H. destruct (overlap_data N q d l E _ HN Hq Hd Hl HD (fun _ _ => eq_refl)) as (L & O & A).
  assert (R : forall i, oreachable N q (own_data N d l E) (run i)) by (induction i as [|i IH]; [rewrite H0; constructor|econstructor; eauto]).
  assert (G : forall a b i, todo N (run i) < a -> length (onet (run i)) < b -> False).
  { induction a as [|a IHa]; [lia|]. induction b as [|b IHb]; intros i Hi Hb; [lia|]. destruct (oinv_reachable N q HN Hq _ _ _ L O A (run i) (R i)) as (j & I).
    destruct (ostep_decreases N q HN Hq _ _ _ O A j (run i) (run (S i)) I (H i)) as [D|(D1 & D2)]; [apply (IHa (S (length (onet (run (S i))))) (S i)); lia|apply (IHb (S i)); lia]. }
  apply (G (S (todo N (run 0))) (S (length (onet (run 0)))) 0); lia.
Qed.
Lemma overlap_completes : forall N q d l E own, 2 <= N -> 1 <= q -> 1 <= d -> q <= l -> distributed N d l E -> (forall k, k < N -> own k = own_data N d l E k) ->
  exists w, oreachable N q own w /\ forall w', ~ ostep N q w w'.
Proof.
  intros N q d l E own HN Hq Hd Hl HD Ho. destruct (overlap_data N q d l E own HN Hq Hd Hl HD Ho) as (L & O & A). change own with own.
  apply (completes _ (oreachable N q own) (ostep N q) (todo N) (fun w => length (onet w))) with (w := ofresh own); [| |constructor].
  - intros w Rw. destruct (oinv_reachable N q HN Hq _ _ _ L O A w Rw) as (j & I). destruct (some_below (fun k => negb (o_ready (ohosts w k))) N) as [(k & Hk & E1)|E1].
    + left. apply negb_true_iff in E1. destruct (ready_ok N q HN Hq _ _ _ L O A j w k I Hk E1) as (h & o & E2 & _). eexists. now apply (becomes_ready N q w k h o).
    + destruct (onet w) as [|[k m] r] eqn:En.
      * right. intros w' St. inversion St as [w0 k h o Hk Hr|w0 k m a b h o En']; subst; [specialize (E1 k Hk); rewrite Hr in E1; discriminate|rewrite En in En'; now destruct a].
      * left. destruct (take_ok N q HN Hq _ _ _ O A j w k m [] r I En) as (h & o & E2 & _). eexists. exact (takes N q w k m [] r h o En E2).
  - intros w w' Rw St. split; [econstructor; eauto|]. destruct (oinv_reachable N q HN Hq _ _ _ L O A w Rw) as (j & I). exact (ostep_decreases N q HN Hq _ _ _ O A j w w' I St).
Qed.
Definition three (k : nat) : list edge := match k with
  | 0 => [(nd 0 0 0, nd 1 0 1); (nd 1 0 1, nd 0 0 2)] | 1 => [(nd 0 0 2, nd 1 0 3); (nd 1 0 3, nd 2 1 5)] | _ => [(nd 2 1 5, nd 0 0 6); (nd 0 0 6, nd 1 0 8)] end.
Lemma three_distributed : distributed 3 3 4 three.
Proof.
  split.
  - intros k Hk. destruct k as [|[|[|k]]]; try lia; repeat constructor; cbn; lia.
  - intros k e Hk He. destruct k as [|[|[|k]]]; try lia; repeat (destruct He as [<-|He]; [cbn; lia|]); easy.
Qed.
(** Three hosts; the overlap of host 2 arrives before host 1 is ready. *)
Example C52_case : exists w, oreachable 3 3 (own_data 3 3 4 three) w /\ (forall p, p < 3 -> o_scored (ohosts w p) = 1) /\ map to_id (fst (o_data (ohosts w 0))) = [1; 2; 3; 5] /\ snd (o_data (ohosts w 0)) = [0; 1; 2; 3; 3].
Proof.
  eexists. split.
  - eapply o_after; [eapply o_after; [eapply o_after; [eapply o_after; [eapply o_after; [eapply o_after; [apply o_start|]|]|]|]|]|].
    + eapply (becomes_ready 3 3 _ 2); [lia|reflexivity|vm_compute; reflexivity].
    + eapply (takes 3 3 _ 1 _ [] []); [vm_compute; reflexivity|vm_compute; reflexivity].
    + eapply (becomes_ready 3 3 _ 1); [lia|reflexivity|vm_compute; reflexivity].
    + eapply (takes 3 3 _ 1 _ [] []); [vm_compute; reflexivity|vm_compute; reflexivity].
    + eapply (becomes_ready 3 3 _ 0); [lia|reflexivity|vm_compute; reflexivity].
    + eapply (takes 3 3 _ 0 _ [] []); [vm_compute; reflexivity|vm_compute; reflexivity].
  - split; [intros p Hp; destruct p as [|[|[|p]]]; try lia; reflexivity|]. split; reflexivity.
Qed.

(** ** C70 *)
(** The windows host [k] scores, as lists of summands. *)
Definition host_windows (N q d l : nat) (E : nat -> list edge) (k : nat) : list (list nat) :=
  map (fun i => map (edge_term (all_edges N E)) (cluster_window (all_edges N E) N d q k i)) (seq (k * d) (if k =? N - 1 then l + 1 - q else d)).
(** The maps of a host are those of the whole graph (C39, C40). *)
Definition whole_graph (edges : list edge) (g : graph) : Prop :=
  (forall e, In e edges -> lookup edge_key_eqb (edge_key e) (g_weight g) = Some (multiplicity edges e)) /\
  (forall e, In e edges -> lookup key_eqb (node_key (fst e)) (g_degree g) = Some (degree edges (fst e))).

Lemma map_seq_shift : forall A (f : nat -> A) s k, map f (seq s k) = map (fun i => f (s + i)) (seq 0 k).
Proof.
  intros A f s k. revert s f. induction k as [|k IH]; intros s f; [reflexivity|]. cbn [seq map]. rewrite Nat.add_0_r. f_equal. rewrite IH, <- seq_shift, map_map. apply map_ext. intros i. f_equal. lia.
Qed.
Lemma host_windows_ok : forall N q d l E k g, 2 <= N -> 1 <= q -> 1 <= d -> q <= l -> distributed N d l E -> k < N ->
  (g_edges g, g_index g) = scoring_data N q d l E k -> g_query g = q -> whole_graph (all_edges N E) g ->
  (forall i w, nth_error (host_windows N q d l E k) i = Some w -> summands g i = Ok w) /\ empty_tail (host_windows N q d l E k) /\ score_length g = Ok (length (host_windows N q d l E k)).
Proof.
  intros N q d l E k g HN Hq Hd Hl HD Hk Hg Eq (Hw & Hdg). pose proof HD as (Ha & HR). rewrite <- final_is in Hg by assumption.
  assert (V : view (all_edges N E) (B E k) (M N q d E k) (k * d) (flen N q d l k) g).
  { pose proof (final_view N q d l HN Hq Hd Hl E Ha HR k (g_weight g) (g_degree g) Hk) as V. rewrite <- Hg in V. cbn [fst snd] in V. clear - V Eq. destruct g as [a b c e f]. cbn [g_edges g_index g_weight g_degree g_query] in *. subst q. exact V. }
  assert (GA : ascending (all_edges N E)) by (apply (G_asc N q d l); auto).
  assert (Hf : flen N q d l k + 1 - q = if k =? N - 1 then l + 1 - q else d) by (unfold flen; destruct (k =? N - 1); lia).
  assert (Ew : map (window_terms (all_edges N E) (edge_term (all_edges N E)) (M N q d E k) (k * d) q) (seq 0 (flen N q d l k + 1 - q)) = host_windows N q d l E k).
  { unfold host_windows. rewrite Hf, (map_seq_shift _ _ (k * d)). apply map_ext_in. intros i Hi. apply in_seq in Hi. unfold window_terms. f_equal.
    assert (i < d \/ k = N - 1) as [Hid| ->] by (destruct (Nat.eqb_spec k (N - 1)); [now right|left; lia]).
    - apply slice_is_cluster_window; auto. nia.
    - unfold M. rewrite Nat.eqb_refl. rewrite slice_is_window by auto. symmetry. apply cluster_window_same; auto. left. lia. }
  assert (Hs : forall e, In e (all_edges N E) -> summand g e = Ok (edge_term (all_edges N E) e)).
  { intros e He. apply summand_ok; [now apply Hw|now apply Hdg|now apply source_degree_positive]. }
  destruct (view_windows _ _ _ _ _ g (edge_term (all_edges N E)) V) as (A & T); [lia|exact Hs|]. rewrite Eq, Ew in A, T. ssplit; [exact A|exact T|].
  rewrite (score_length_view _ _ _ _ _ _ V), Eq; [|lia|]; unfold host_windows; [rewrite map_length, seq_length; f_equal; exact Hf|]. rewrite Eq. unfold flen. destruct (k =? N - 1); lia.
Qed.
(** Every host: like C43, for its windows. *)
Theorem C70_host_vector : forall F (zero : F) is_zero value N q d l E k g threads, is_zero zero = true -> 2 <= N -> 1 <= q -> 1 <= d -> q <= l -> distributed N d l E -> k < N ->
  (g_edges g, g_index g) = scoring_data N q d l E k -> g_query g = q -> whole_graph (all_edges N E) g -> 1 <= threads <= (if k =? N - 1 then l + 1 - q else d) ->
  let part := (carry value zero (host_windows N q d l E k), match host_windows N q d l E k with [] :: _ => true | _ => false end) in
  exists w0, start_scoring zero value g threads = Ok w0 /\ forall w, scoring_run is_zero w0 w ->
    (c_delivered (collecting w) = [] \/ c_delivered (collecting w) = [part]) /\ (flying w <> [] -> exists w', scoring_step is_zero w w') /\ (flying w = [] -> c_delivered (collecting w) = [part]).
Proof.
  intros F zero is_zero value N q d l E k g threads Hz HN Hq Hd Hl HD Hk Hg Eq Hwg Hth part. destruct (host_windows_ok N q d l E k g HN Hq Hd Hl HD Hk Hg Eq Hwg) as (A & T & L).
  apply (collected F zero is_zero value g (host_windows N q d l E k) threads Hz A T); [|exact L]. unfold host_windows. rewrite map_length, seq_length. exact Hth.
Qed.
(** The assembled vector: [c k] is the part passed on by host [k]. *)
Definition part_vector {F} (value : list nat -> F) zero (ws : list (list nat)) : list F * bool := (carry value zero ws, match ws with [] :: _ => true | _ => false end).
Lemma windows_tail : forall N q d l E k, 2 <= N -> 1 <= q -> 1 <= d -> q <= l -> distributed N d l E -> k < N -> empty_tail (host_windows N q d l E k).
Proof.
  intros N q d l E k HN Hq Hd Hl HD Hk.
  destruct (host_windows_ok N q d l E k {| g_edges := fst (scoring_data N q d l E k); g_index := snd (scoring_data N q d l E k); g_weight := edge_weight (all_edges N E); g_degree := node_degrees (all_edges N E); g_query := q |} HN Hq Hd Hl HD Hk) as (_ & T & _); auto.
  split; intros e He; cbn [g_weight g_degree].
  - rewrite edge_weight_lookup. pose proof (multiplicity_positive _ e He). unfold positive. destruct (Nat.eqb_spec (multiplicity (all_edges N E) e) 0); [lia|reflexivity].
  - rewrite node_degrees_lookup. pose proof (source_degree_positive _ e He). unfold positive. destruct (Nat.eqb_spec (degree (all_edges N E) (fst e)) 0); [lia|reflexivity].
Qed.
Lemma head_window : forall N q d l E, 2 <= N -> 1 <= d -> head_empty (host_windows N q d l E 0) = match cluster_window (all_edges N E) N d q 0 0 with [] => true | _ => false end.
Proof.
  intros N q d l E HN Hd. unfold host_windows. destruct (Nat.eqb_spec 0 (N - 1)); [lia|]. destruct d as [|d]; [lia|]. cbn [seq map Nat.mul head_empty].
  destruct (cluster_window (all_edges N E) N (S d) q 0 0); reflexivity.
Qed.
(** Every host of the cluster assembles the same vector: the windows of all hosts in order, a window without edges repeating the score of the window before, also across hosts.
    But if the very first window has no edges, every host aborts. *)
Theorem C70_assembled : forall F (zero : F) is_zero value N q d l E w p, is_zero zero = true -> 2 <= N -> 1 <= q -> 1 <= d -> q <= l -> distributed N d l E -> p < N ->
  let c := fun k => part_vector value zero (host_windows N q d l E k) in
  rreachable N c not_overtaken w -> rstuck N c w ->
  (let! parts := in_order N (subscores p (c p) (taken (node_of w p))) in assemble is_zero parts)
  = match cluster_window (all_edges N E) N d q 0 0 with
    | [] => Panic UnwrapNone
    | _ => Ok (carry value zero (concat (map (host_windows N q d l E) (seq 0 N))))
    end.
Proof.
  intros F zero is_zero value N q d l E w p Hz HN Hq Hd Hl HD Hp c Hr Hs. destruct (C30_every_contribution_if_not_overtaken _ N c w HN Hr Hs p Hp) as (P & _).
  rewrite (in_order_ok zero is_zero Hz N p c _ Hp P). cbn [bind]. unfold c. rewrite <- (map_map (host_windows N q d l E) (part_vector value zero)). change (part_vector value zero) with (part_of zero value).
  destruct N as [|N]; [lia|]. cbn [seq map]. pose proof (head_window (S N) q d l E HN Hd) as Hh.
  assert (Ne : forall k, k < S N -> host_windows (S N) q d l E k <> []).
  { intros k Hk. unfold host_windows. intros H. apply (f_equal (@length _)) in H. rewrite map_length, seq_length in H. destruct (k =? S N - 1); cbn in H; lia. }
  destruct (cluster_window (all_edges (S N) E) (S N) d q 0 0) eqn:E0.
  - exact (assemble_first_empty zero is_zero value _ (map (host_windows (S N) q d l E) (seq 1 N)) Hh).
  - cbn [concat]. apply (assemble_ok zero is_zero value Hz (host_windows (S N) q d l E 0) (map (host_windows (S N) q d l E) (seq 1 N))).
    + apply windows_tail; auto; lia.
    + exact Hh.
    + intros _. apply Ne. lia.
    + intros ws Hws. apply in_map_iff in Hws. destruct Hws as (k & <- & Hk). apply in_seq in Hk. apply windows_tail; auto; lia.
    + intros a ws b Eb _. assert (Hin : In ws (map (host_windows (S N) q d l E) (seq 1 N))) by (rewrite Eb; apply in_elt).
      apply in_map_iff in Hin. destruct Hin as (k & <- & Hk). apply in_seq in Hk. apply Ne. lia.
Qed.
(** If there is an edge just after the windows of every host, all windows contain what they contain on one machine. *)
Theorem C70_same_as_one_machine_partial : forall N q d l E, 2 <= N -> 1 <= q -> 1 <= d -> q <= l -> distributed N d l E ->
  (forall k, S k < N -> exists e, In e (all_edges N E) /\ to_id e = S k * d + q - 1) ->
  concat (map (host_windows N q d l E) (seq 0 N))
  = map (fun i => map (edge_term (all_edges N E)) (window_edges (all_edges N E) q i)) (seq 0 ((N - 1) * d + l + 1 - q)).
Proof.
  intros N q d l E HN Hq Hd Hl HD Hb. assert (GA : ascending (all_edges N E)) by (destruct HD; apply (G_asc N q d l); auto).
  set (f := fun i => map (edge_term (all_edges N E)) (window_edges (all_edges N E) q i)).
  assert (Hw : forall k, k < N -> host_windows N q d l E k = map f (seq (k * d) (if k =? N - 1 then l + 1 - q else d))).
  { intros k Hk. unfold host_windows. apply map_ext_in. intros i Hi. apply in_seq in Hi. unfold f. f_equal. apply cluster_window_same; auto.
    destruct (Nat.eqb_spec k (N - 1)); [left; lia|]. right. left. destruct (Hb k ltac:(lia)) as (e & He & Et). exists e. split; [exact He|]. rewrite Et. lia. }
  assert (K : forall k, k < N -> concat (map (host_windows N q d l E) (seq 0 k)) = map f (seq 0 (k * d))).
  { induction k as [|k IH]; intros Hk; [reflexivity|]. rewrite seq_S, map_app, concat_app, IH by lia. cbn [map concat Nat.add]. rewrite app_nil_r, Hw by lia.
    destruct (Nat.eqb_spec k (N - 1)); [lia|]. rewrite <- map_app. f_equal. replace (S k * d) with (k * d + d) by lia. now rewrite seq_app. }
  replace N with (S (N - 1)) at 2 by lia. rewrite seq_S, map_app, concat_app, K by lia. cbn [map concat Nat.add]. rewrite app_nil_r, Hw by lia. rewrite Nat.eqb_refl, <- map_app. f_equal.
  rewrite <- (Nat.add_0_l ((N - 1) * d)) at 2. rewrite <- seq_app. f_equal. generalize ((N - 1) * d). intros. lia.
Qed.
(** Otherwise a window at the end of a part can lack the edge that follows it: two hosts, d = 3, q = 2, no edge at time 4. *)
Theorem C70_border_window_refuted : exists N q d l E k i, 2 <= N /\ 1 <= q /\ 1 <= d /\ q <= l /\ distributed N d l E /\ k * d <= i < S k * d /\ S k < N
  /\ cluster_window (all_edges N E) N d q k i <> window_edges (all_edges N E) q i.
Proof.
  exists 2, 2, 3, 4, (fun k => match k with 0 => [(nd 0 0 0, nd 1 0 1)] | _ => [(nd 1 0 1, nd 0 0 5)] end), 0, 2. ssplit; try lia.
  - split.
    + intros k _. destruct k; repeat constructor.
    + intros k e Hk He. destruct k as [|[|k]]; try lia; destruct He as [<-|[]]; cbn; lia.
  - vm_compute. discriminate.
Qed.
(** One edge at the end of the second part: on one machine the scores of the first windows come from that edge; the cluster aborts. *)
Theorem C70_first_window_empty_aborts_refuted : exists N q d l E, 2 <= N /\ 1 <= q /\ 1 <= d /\ q <= l /\ distributed N d l E /\ all_edges N E <> []
  /\ cluster_window (all_edges N E) N d q 0 0 = [] /\ window_edges (all_edges N E) q 0 <> [].
Proof.
  exists 2, 2, 3, 4, (fun k => match k with 0 => [] | _ => [(nd 1 0 1, nd 0 0 5)] end). ssplit; try lia; try (vm_compute; congruence).
  split.
  - intros k _. destruct k; repeat constructor.
  - intros k e Hk He. destruct k as [|[|k]]; try lia; [easy|]; destruct He as [<-|[]]; cbn; lia.
Qed.
(** If the ring of partial scores is overtaken (C31), a host can miss a part: it aborts. *)
Theorem C70_late_start_refuted : forall F (is_zero : F -> bool) (c : nat -> list F * bool), exists w, rreachable 3 c anytime w /\ rstuck 3 c w /\ (forall p, p < 3 -> finished (node_of w p) = 1)
  /\ (let! parts := in_order 3 (subscores 2 (c 2) (taken (node_of w 2))) in assemble is_zero parts) = Panic UnwrapNone.
Proof.
  intros F is_zero c. exists (rrun 3 c late_start). ssplit.
  - apply rrun_reachable.
  - intros w' Hs. inversion Hs as [w p Hp Hb Ha|w p m r Hp Ht|w p m r Hp Hm]; subst; destruct p as [|[|[|p]]]; try lia; vm_compute in *; discriminate.
  - intros p Hp. destruct p as [|[|[|p]]]; try lia; vm_compute; reflexivity.
  - vm_compute. reflexivity.
Qed.
Definition dense (k : nat) : list edge := match k with
  | 0 => [(nd 0 0 0, nd 1 0 1); (nd 1 0 1, nd 0 0 2)] | 1 => [(nd 0 0 2, nd 1 0 3); (nd 1 0 3, nd 2 1 4)] | _ => [(nd 2 1 4, nd 0 0 7); (nd 0 0 7, nd 1 0 8)] end.
Example C70_case : distributed 3 3 4 dense /\ (forall k, S k < 3 -> exists e, In e (all_edges 3 dense) /\ to_id e = S k * 3 + 2 - 1)
  /\ (forall k, k < 3 -> whole_graph (all_edges 3 dense) {| g_edges := fst (scoring_data 3 2 3 4 dense k); g_index := snd (scoring_data 3 2 3 4 dense k);
        g_weight := edge_weight (all_edges 3 dense); g_degree := node_degrees (all_edges 3 dense); g_query := 2 |})
  /\ assemble (Nat.eqb 0) (map (fun k => part_vector (fun xs => fold_left Nat.add xs 0) 0 (host_windows 3 2 3 4 dense k)) (seq 0 3)) = Ok [8; 8; 8; 3; 1; 1; 7; 6; 6].
Proof.
  ssplit.
  - split.
    + intros k Hk. destruct k as [|[|[|k]]]; try lia; repeat constructor; cbn; lia.
    + intros k e Hk He. destruct k as [|[|[|k]]]; try lia; repeat (destruct He as [<-|He]; [cbn; lia|]); easy.
  - intros k Hk. destruct k as [|[|k]]; try lia; [exists (nd 1 0 3, nd 2 1 4)|exists (nd 2 1 4, nd 0 0 7)]; (split; [cbn; tauto|reflexivity]).
  - intros k Hk. split; intros e He; repeat (destruct He as [<-|He]; [reflexivity|]); easy.
  - vm_compute. reflexivity.
Qed.

(** Edges with the same time stamp are ordered by arrival (C38), and the edge added to a window depends on that order: the same edges, two orders of delivery, different scores. *)
Definition tied (k : nat) : list edge := match k with 0 => [(nd 1 0 0, nd 2 0 1)] | 1 => [(nd 1 0 0, nd 2 0 4)] | _ => [(nd 3 0 0, nd 1 0 4)] end.
Theorem C70_arrival_order_refuted : exists a w w', (forall k, k < 3 -> transpose 15 3 k (tied k) = Ok (k * 5, a k))
  /\ reachable (edge_exchange 3 a) w /\ stuck (edge_exchange 3 a) w /\ reachable (edge_exchange 3 a) w' /\ stuck (edge_exchange 3 a) w'
  /\ let es := concat (map (fun k => transposed k (a k) (state w k)) (seq 0 3)) in let es' := concat (map (fun k => transposed k (a k) (state w' k)) (seq 0 3)) in
     map (edge_term es) (window_edges es 2 1) = [2] /\ map (edge_term es') (window_edges es' 2 1) = [0].
Proof.
  set (a := fun k => map (fun e => (0, e)) (tied k)).
  exists a, (run (edge_exchange 3 a) [Enter 0; Enter 1; Enter 2; Deliver 2; Deliver 3; Deliver 0; Deliver 0; Deliver 0; Deliver 0]),
    (run (edge_exchange 3 a) [Enter 0; Enter 1; Enter 2; Deliver 4; Deliver 2; Deliver 0; Deliver 0; Deliver 0; Deliver 0]). ssplit.
  - intros k Hk. destruct k as [|[|[|k]]]; try lia; reflexivity.
  - apply run_reachable.
  - apply run_stuck; [reflexivity|]. intros p Hp. destruct p as [|[|[|p]]]; [reflexivity|reflexivity|reflexivity|cbn in Hp; lia].
  - apply run_reachable.
  - apply run_stuck; [reflexivity|]. intros p Hp. destruct p as [|[|[|p]]]; [reflexivity|reflexivity|reflexivity|cbn in Hp; lia].
  - vm_compute. auto.
Qed.

(** ** C45 *)
Lemma carry_length' : forall F (value : list nat -> F) before ws, length (carry value before ws) = length ws.
Proof. intros F value before ws. revert before. induction ws as [|w ws IH]; intros before; [reflexivity|]. cbn [carry length]. now rewrite IH. Qed.
(** One machine: [n] points, pattern length [P] (so [n + 1 - P] embedded points), query length [q]: the vector passed on has length [n + 1 - P - q]. *)
Theorem C45_length_one_machine : forall F (zero : F) is_zero value edges n P q threads g, is_zero zero = true ->
  let num := n + 1 - P in
  ascending edges -> (forall e, In e edges -> to_id e < num - 1) -> (edges <> [] -> exists e, In e edges /\ to_id e <> 0) -> 1 <= q -> 1 <= threads -> threads <= num - q ->
  single_graph edges num q = Ok g ->
  exists w0, start_scoring zero value g threads = Ok w0 /\ forall w, scoring_run is_zero w0 w -> flying w = [] -> map (fun v => length (fst v)) (c_delivered (collecting w)) = [n + 1 - P - q].
Proof.
  intros F zero is_zero value edges n P q threads g Hz num Ha Ht Hp Hq Hth Hle Hg.
  destruct (C43_independent_of_threads F zero is_zero value edges num q threads g Hz Ha Ht Hp Hq Hth Hle Hg) as (w0 & E0 & R). exists w0. split; [exact E0|]. intros w Hr Hf.
  destruct (R w Hr) as (_ & _ & _ & X). rewrite <- (map_map fst (@length F)), (X Hf). cbn [map]. now rewrite carry_length', map_length, seq_length.
Qed.
(** Cluster: parts of [d = n / N] points, the last takes the rest; its [n - (N - 1) * d + 1 - P] embedded points give [l = n - (N - 1) * d - P] index entries. *)
Theorem C45_length_cluster : forall F (zero : F) is_zero value N P q n E w p, is_zero zero = true -> 2 <= N -> 1 <= q ->
  let d := n / N in let l := n - (N - 1) * d - P in 1 <= d -> q <= l -> distributed N d l E -> p < N ->
  let c := fun k => part_vector value zero (host_windows N q d l E k) in
  rreachable N c not_overtaken w -> rstuck N c w -> forall scores,
  (let! parts := in_order N (subscores p (c p) (taken (node_of w p))) in assemble is_zero parts) = Ok scores -> length scores = n + 1 - P - q.
Proof.
  intros F zero is_zero value N P q n E w p Hz HN Hq d l Hd Hl HD Hp c Hr Hs scores Hsc. unfold c in Hsc, Hr, Hs. rewrite C70_assembled in Hsc by assumption.
  destruct (cluster_window (all_edges N E) N d q 0 0); [discriminate|]. injection Hsc as <-. rewrite carry_length'.
  assert (K : forall k, k < N -> length (concat (map (host_windows N q d l E) (seq 0 k))) = k * d).
  { induction k as [|k IH]; intros Hk; [reflexivity|]. rewrite seq_S, map_app, concat_app, app_length, IH by lia. cbn [map concat Nat.add]. rewrite app_nil_r. unfold host_windows. rewrite map_length, seq_length.
    destruct (Nat.eqb_spec k (N - 1)); lia. }
  replace N with (S (N - 1)) at 2 by lia. rewrite seq_S, map_app, concat_app, app_length, K by lia. cbn [map concat Nat.add]. rewrite app_nil_r. unfold host_windows at 1. rewrite map_length, seq_length, Nat.eqb_refl.
  unfold l. assert (N * d <= n) by (apply Nat.mul_div_le; lia). nia.
Qed.

Print Assumptions C52_overlap.
Print Assumptions C52_every_run_ends.
Print Assumptions C70_host_vector.
Print Assumptions C70_assembled.
Print Assumptions C70_same_as_one_machine_partial.
Print Assumptions C45_length_one_machine.
Print Assumptions C45_length_cluster.
