(** C67, C68: nodes, questions and answers, and the graph of a cluster. *)
From Coq Require Import List Arith Bool Lia Permutation Sorting.Sorted.
From Verif.Base Require Import Res Params ListX.
From Verif.Segmentation Require Import Model Spec Handover PathProofs.
From Verif.Edges Require Import Model Spec.
From Verif.Nodes Require Import Model Spec Proofs CoverProofs CreateProofs.
From Verif.Properties Require Import Segmentation Edges.
Import ListNotations.

Lemma stored_all : forall p h label crossed nodes, (forall c, In c crossed -> snd c < rate p) -> stored_by_segment p h (map (labelled label) crossed) nodes ->
  Permutation nodes (map (labelled label) (filter (fun c => owner p (snd c) =? h) crossed)).
Proof.
  intros p h label crossed nodes Hs (bucket & -> & HB). pose proof (classes_perm _ (fun c => snd c) (filter (fun c => owner p (snd c) =? h) crossed) (rate p)) as CP.
  specialize (CP ltac:(intros c Hc; apply filter_In in Hc; apply Hs, Hc)). apply (Permutation_map (labelled label)) in CP. etransitivity; [|exact CP]. clear CP. rewrite concat_map, map_map.
  assert (G : forall L, (forall s, In s L -> s < rate p) -> Permutation (concat (map bucket L)) (concat (map (fun x => map (labelled label) (filter (fun c => snd c =? x) (filter (fun c => owner p (snd c) =? h) crossed))) L))).
  { induction L as [|s L IH]; intros HL; [constructor|]. cbn [map concat]. apply Permutation_app; [|apply IH; intros; apply HL; now right]. rewrite (HB s (HL s (or_introl eq_refl))). rewrite Edges.HostProofs.filter_and, filter_map_swap.
    destruct (Nat.eqb_spec (owner p s) h) as [E|E].
    - apply Permutation_refl'. f_equal. apply filter_ext. intros c. cbn [labelled n_segment]. destruct (Nat.eqb_spec (snd c) s) as [->|]; [rewrite E, Nat.eqb_refl|rewrite andb_false_r]; reflexivity.
    - apply Permutation_refl'. symmetry. clear -E. induction crossed as [|c l IHc]; [reflexivity|]. cbn [filter]. destruct (Nat.eqb_spec (snd c) s) as [->|]; [|now rewrite andb_false_r].
      destruct (Nat.eqb_spec (owner p s) h); [contradiction|exact IHc]. }
  apply G. intros s Hs'. apply in_seq in Hs'. lia.
Qed.

(** ** C68 *)
(** Every crossing gets exactly one node, on the host that owns its segment; its label is the one the clustering gave to its row, [0] if it is alone in its segment. *)
Theorem C68_one_node_per_crossing : forall C (cluster : list C -> res (list nat)) p crossed (crossings : nat -> list (crossing C)),
  1 <= n_cluster_nodes p <= rate p -> NoDup crossed -> (forall c, In c crossed -> snd c < rate p) ->
  (forall h, h < n_cluster_nodes p -> holds_crossings p h crossed (crossings h)) ->
  let rows s := filter (fun c => c_segment c =? s) (crossings (owner p s)) in
  (forall s, s < rate p -> 2 <= length (rows s) -> exists labels, cluster (map c_coordinates (rows s)) = Ok labels /\ length labels = length (rows s)) ->
  exists label,
    (forall h, h < n_cluster_nodes p -> exists nodes, create_nodes cluster p h (crossings h) = Ok nodes /\ stored_by_segment p h (map (labelled label) crossed) nodes /\
       Permutation nodes (map (labelled label) (filter (fun c => owner p (snd c) =? h) crossed))) /\
    (forall s, s < rate p -> 2 <= length (rows s) -> cluster (map c_coordinates (rows s)) = Ok (map (fun c => label (c_id c) s) (rows s))) /\
    (forall s c, s < rate p -> rows s = [c] -> label (c_id c) s = 0).
Proof.
  intros C cluster p crossed crossings HN ND Hs Hh rows Hc. exists (label cluster p crossings). ssplit.
  - intros h Hlt. destruct (create_ok cluster p HN crossed ND crossings Hh Hc h Hlt) as (nodes & E & St). exists nodes. ssplit; [exact E|exact St|]. now apply stored_all.
  - intros s Hlt H2. pose proof (label_is_given cluster p HN crossed ND crossings Hh Hc s Hlt) as E. unfold crossings_of in E. fold (rows s) in E. change (CreateProofs.rows p crossings s) with (rows s) in E.
    destruct (rows s) as [|c [|c' l]]; [cbn in H2; lia|cbn in H2; lia|exact E].
  - intros s c Hlt E1. pose proof (label_is_given cluster p HN crossed ND crossings Hh Hc s Hlt) as E. unfold crossings_of in E. fold (rows s) in E. change (CreateProofs.rows p crossings s) with (rows s) in E.
    rewrite E1 in E. cbn in E. injection E as E. now symmetry.
Qed.
(** The clustering fails for one segment: no node of the host is created at all. *)
Theorem C68_failed_clustering_aborts : forall C (cluster : list C -> res (list nat)) p h (store : list (crossing C)) s e, 1 <= n_cluster_nodes p <= rate p ->
  rate p / n_cluster_nodes p * h <= s < rate p -> let rows := filter (fun c => c_segment c =? s) store in
  2 <= length rows -> cluster (map c_coordinates rows) = Panic e -> exists e', create_nodes cluster p h store = Panic e'.
Proof.
  intros C cluster p h store s e HN Hs rows H2 E. unfold create_nodes. rewrite udiv_ok by lia. cbn [bind]. rewrite Nat.max_l by lia.
  assert (Es : segment_nodes cluster store s = Panic e).
  { unfold segment_nodes, crossings_of. fold rows. destruct rows as [|c [|c' l]]; [cbn in H2; lia|cbn in H2; lia|]. cbn [labels_of]. rewrite E. reflexivity. }
  assert (G : forall L, In s L -> exists e', mapM (segment_nodes cluster store) L = Panic e').
  { induction L as [|x L IH]; [easy|]. intros [->|Hi]; cbn [mapM].
    - rewrite Es. cbn. eauto.
    - destruct (IH Hi) as (e' & E'). rewrite E'. destruct (segment_nodes cluster store x); cbn; eauto. }
  destruct (G (seq (rate p / n_cluster_nodes p * h) (rate p - rate p / n_cluster_nodes p * h))) as (e' & E'); [apply in_seq; lia|]. rewrite E'. cbn. eauto.
Qed.

(** ** C67 *)
(** If the hosts together ask for every step that changes the host, then for every order of the messages every question is answered, without an abort,
    and the answers every host receives are those it needs for the edges. *)
Theorem C67_answers_complete : forall p label crossed asked stores others ask_order answer_order,
  1 <= n_cluster_nodes p <= rate p -> NoDup crossed -> (forall c, In c crossed -> snd c < rate p) ->
  questions_cover p crossed asked ->
  (forall h, h < n_cluster_nodes p -> stored_by_segment p h (map (labelled label) crossed) (stores h)) ->
  (forall b, b < n_cluster_nodes p -> other_hosts p b (others b)) ->
  (forall b, b < n_cluster_nodes p -> Permutation (ask_order b) (seq 0 (n_cluster_nodes p))) ->
  (forall a, a < n_cluster_nodes p -> Permutation (answer_order a) (seq 0 (n_cluster_nodes p))) ->
  exists answers, (forall b, b < n_cluster_nodes p -> answers_at (others b) b (stores b) asked (ask_order b) = Ok (answers b)) /\
    forall a, a < n_cluster_nodes p -> answers_complete p a (map (labelled label) crossed) (foreign_at a answers (answer_order a)).
Proof. intros p label crossed asked stores others ask_order answer_order HN ND Hs Hc Hst Ho Ha Hb. now apply exchange_answers. Qed.

(** The questions of the segmentation are of this kind, if no step over a border between partitions is lost. *)
Theorem C67_questions_cover_partial : forall p part w, 1 <= n_cluster_nodes p <= rate p ->
  (forall k, k < n_cluster_nodes p -> segments_ok p (part k)) -> (forall k, k < n_cluster_nodes p -> usable_pairs (rate p) (part k) <> []) ->
  NoDup (map pid (concat (map part (seq 0 (n_cluster_nodes p))))) -> (forall k, k + 1 < n_cluster_nodes p -> border_asked p part k) ->
  hreachable p part false w -> hstuck p part false w ->
  questions_cover p (path (rate p) (usable_pairs (rate p) (concat (map part (seq 0 (n_cluster_nodes p)))))) (fun k => asked (segmentation_of (phase_of w k))).
Proof. intros p part w HN Hf Hu Hid Hb Hr Hs. now apply cover. Qed.

(** From the points to the graph of a cluster: if no step over a border is lost, the hosts together hold exactly the steps of the walk of the whole series, each once. *)
Theorem C67_graph_of_a_cluster_partial : forall C (cluster : list C -> res (list nat)) p n part w (crossings : nat -> list (crossing C)) others ask_order answer_order,
  2 <= n_cluster_nodes p <= rate p ->
  let points := concat (map part (seq 0 (n_cluster_nodes p))) in
  let crossed := path (rate p) (usable_pairs (rate p) points) in
  (forall k, k < n_cluster_nodes p -> segments_ok p (part k)) -> (forall k, k < n_cluster_nodes p -> usable_pairs (rate p) (part k) <> []) -> numbered n points ->
  (forall k, k + 1 < n_cluster_nodes p -> border_asked p part k) ->
  hreachable p part false w -> hstuck p part false w ->
  (forall h, h < n_cluster_nodes p -> holds_crossings p h crossed (crossings h)) ->
  (forall s, s < rate p -> let rows := filter (fun c => c_segment c =? s) (crossings (owner p s)) in
     2 <= length rows -> exists labels, cluster (map c_coordinates rows) = Ok labels /\ length labels = length rows) ->
  (forall b, b < n_cluster_nodes p -> other_hosts p b (others b)) ->
  (forall b, b < n_cluster_nodes p -> Permutation (ask_order b) (seq 0 (n_cluster_nodes p))) ->
  (forall a, a < n_cluster_nodes p -> Permutation (answer_order a) (seq 0 (n_cluster_nodes p))) ->
  exists label stores answers edges, forall h, h < n_cluster_nodes p ->
    create_nodes cluster p h (crossings h) = Ok (stores h) /\
    answers_at (others h) h (stores h) (fun k => asked (segmentation_of (phase_of w k))) (ask_order h) = Ok (answers h) /\
    estimate_edges n (stores h) (foreign_at h answers (answer_order h)) = Ok (edges h) /\
    edges h = filter (fun e => owner p (n_segment (fst e)) =? h) (pairs (walk label (rate p) (usable_pairs (rate p) points))).
Proof.
  intros C cluster p n part w crossings others ask_order answer_order HN points crossed Hf Hu Hn Hb Hr Hs Hh Hc Ho Ha Han.
  assert (HN' : 1 <= n_cluster_nodes p <= rate p) by lia.
  assert (Hids : NoDup (map pid points)).
  { destruct Hn as (S & _). clear -S. induction S as [|x l S IH F]; constructor; [|exact IH]. intros Hi. rewrite Forall_forall in F. specialize (F x Hi). lia. }
  assert (Hok : segments_ok p points). { intros x Hx. apply in_concat in Hx. destruct Hx as (l & Hl & Hx). apply in_map_iff in Hl. destruct Hl as (k & <- & Hk). apply in_seq in Hk. apply (Hf k ltac:(lia) x Hx). }
  assert (Hfine : forall t, In t (usable_pairs (rate p) points) -> usable (rate p) t = true) by (intros t Ht; apply filter_In in Ht; apply Ht).
  assert (NDc : NoDup crossed) by (apply (path_nodup p HN'); [exact Hfine|apply (pairs_ids_nodup p); exact Hids]).
  assert (Hsg : forall c, In c crossed -> snd c < rate p).
  { intros c Hi. unfold crossed, path in Hi. apply in_concat in Hi. destruct Hi as (l & Hl & Hi). apply in_map_iff in Hl. destruct Hl as (t & <- & _). unfold visits in Hi. apply in_map_iff in Hi. destruct Hi as (lag & <- & _). cbn. apply Nat.mod_upper_bound. lia. }
  destruct (C68_one_node_per_crossing C cluster p crossed crossings HN' NDc Hsg Hh Hc) as (label & Hcr & _).
  set (stores := fun h => match create_nodes cluster p h (crossings h) with Ok x => x | Panic _ => [] end).
  assert (Hst : forall h, h < n_cluster_nodes p -> create_nodes cluster p h (crossings h) = Ok (stores h) /\ stored_by_segment p h (map (labelled label) crossed) (stores h)).
  { intros h Hlt. destruct (Hcr h Hlt) as (x & E & St & _). unfold stores. now rewrite E. }
  pose proof (C67_questions_cover_partial p part w HN' Hf Hu Hids Hb Hr Hs) as Hcov.
  destruct (C67_answers_complete p label crossed _ stores others ask_order answer_order HN' NDc Hsg Hcov (fun h Hlt => proj2 (Hst h Hlt)) Ho Ha Han) as (answers & Ea & Hans).
  exists label, stores, answers, (fun h => filter (fun e => owner p (n_segment (fst e)) =? h) (pairs (walk label (rate p) (usable_pairs (rate p) points)))).
  intros h Hlt. ssplit; [apply Hst; exact Hlt|apply Ea; exact Hlt| |reflexivity].
  apply (C66_edges_of_a_host p h label n points); try assumption; [apply Hst; exact Hlt|apply Hans; exact Hlt|lia].
Qed.

(** Refuted without the condition on borders: two hosts, rate 4, one usable transition spans the border.  The step from crossing (1, 3) of host 1 to crossing (2, 0) of host 0 is asked for by nobody;
    no host holds it, and host 1 holds a step from (1, 3) to (3, 2) that the series never took. *)
Definition lost_part (k : nat) : list pt :=
  nth k [[{| pid := 0; pseg := 0 |}; {| pid := 1; pseg := 1 |}]; [{| pid := 2; pseg := 3 |}; {| pid := 3; pseg := 0 |}; {| pid := 4; pseg := 2 |}]] [].
Definition one_label (i s : nat) : nat := 0.
Definition at_zero (c : nat * nat) : crossing unit := {| c_id := fst c; c_segment := snd c; c_coordinates := tt |}.
Definition all_one (rows : list unit) : res (list nat) := Ok (map (fun _ => 0) rows).

Theorem C67_lost_border_step_refuted : exists p part w stores answers,
  2 <= n_cluster_nodes p <= rate p /\ (forall k, k < n_cluster_nodes p -> segments_ok p (part k)) /\ (forall k, k < n_cluster_nodes p -> usable_pairs (rate p) (part k) <> []) /\
  let points := concat (map part (seq 0 (n_cluster_nodes p))) in
  let crossed := path (rate p) (usable_pairs (rate p) points) in
  let nodes := walk one_label (rate p) (usable_pairs (rate p) points) in
  numbered 5 points /\ hreachable p part false w /\ hstuck p part false w /\
  (forall h, h < n_cluster_nodes p -> create_nodes all_one p h (map at_zero (filter (fun c => owner p (snd c) =? h) crossed)) = Ok (stores h)) /\
  (forall h, h < n_cluster_nodes p -> answers_at (filter (fun b => negb (b =? h)) (seq 0 (n_cluster_nodes p))) h (stores h) (fun k => asked (segmentation_of (phase_of w k))) (seq 0 (n_cluster_nodes p)) = Ok (answers h)) /\
  exists edges, (forall h, h < n_cluster_nodes p -> estimate_edges 5 (stores h) (foreign_at h answers (seq 0 (n_cluster_nodes p))) = Ok (edges h)) /\
    (exists e, In e (edges 1) /\ ~ In e (pairs nodes)) /\ (exists e, In e (pairs nodes) /\ forall h, h < n_cluster_nodes p -> ~ In e (edges h)).
Proof.
  set (p := with_rate_nodes 4 2). set (part := lost_part).
  eassert (R1 : hreachable p part false _). { eapply h_after; [constructor|]. apply (segment_step p part false hinitial 0); [vm_compute; lia|reflexivity]. }
  eassert (R2 : hreachable p part false _). { eapply h_after; [exact R1|]. apply (segment_step p part false _ 1); [vm_compute; lia|reflexivity]. }
  eassert (R3 : hreachable p part false _).
  { eapply h_after; [exact R2|]. apply (first_point_step p part false _ 0 {| pid := 2; pseg := 3 |} ({| pid := 2; pseg := 3 |}, {| pid := 3; pseg := 0 |}) [] []);
    [vm_compute; reflexivity|right; vm_compute; discriminate]. }
  set (nd := fun i s => {| n_segment := s; n_cluster := 0; n_from := i |}).
  exists p, part. match type of R3 with hreachable _ _ _ ?w => exists w end.
  exists (fun h => nth h [[nd 2 0; nd 0 1; nd 3 1]; [nd 1 2; nd 3 2; nd 1 3]] []), (fun h => nth h [[(1, [(2, 3, 2, nd 2 0)])]; [(0, [(0, 1, 1, nd 1 2); (3, 1, 3, nd 3 2)])]] []).
  ssplit; [vm_compute; lia|vm_compute; lia| | |].
  - intros k Hk. change (k < 2) in Hk. intros x Hx. destruct k as [|[|k]]; [| |lia]; cbn in Hx; repeat destruct Hx as [<-|Hx]; try easy; vm_compute; lia.
  - intros k Hk. change (k < 2) in Hk. destruct k as [|[|k]]; [vm_compute; discriminate|vm_compute; discriminate|lia].
  - cbv zeta. ssplit.
    + split; [cbn; repeat constructor; lia|]. intros x Hx. cbn in Hx. repeat destruct Hx as [<-|Hx]; try easy; cbn; lia.
    + exact R3.
    + intros w' St. inversion St as [w0 k Hk Hb|w0 k a t l rr En He]; subst.
      * assert (k < 2) by exact Hk. destruct k as [|[|k]]; [vm_compute in Hb; discriminate|vm_compute in Hb; discriminate|lia].
      * vm_compute in En. destruct l; discriminate.
    + intros h Hh. change (h < 2) in Hh. destruct h as [|[|h]]; [vm_compute; reflexivity|vm_compute; reflexivity|lia].
    + intros h Hh. change (h < 2) in Hh. destruct h as [|[|h]]; [vm_compute; reflexivity|vm_compute; reflexivity|lia].
    + exists (fun h => nth h [[(nd 0 1, nd 1 2); (nd 2 0, nd 3 1); (nd 3 1, nd 3 2)]; [(nd 1 2, nd 1 3); (nd 1 3, nd 3 2)]] []). ssplit.
      * intros h Hh. change (h < 2) in Hh. destruct h as [|[|h]]; [vm_compute; reflexivity|vm_compute; reflexivity|lia].
      * exists (nd 1 3, nd 3 2). split; [cbn; auto|]. vm_compute. intuition discriminate.
      * exists (nd 1 3, nd 2 0). split; [vm_compute; auto 10|]. intros h Hh. change (h < 2) in Hh. destruct h as [|[|h]]; [vm_compute; intuition discriminate|vm_compute; intuition discriminate|lia].
Qed.

(** A cluster as required by C67_graph_of_a_cluster_partial: as above, but the first usable transition of the second partition stays on the host where the path arrived. *)
Definition good_part (k : nat) : list pt :=
  nth k [[{| pid := 0; pseg := 0 |}; {| pid := 1; pseg := 1 |}]; [{| pid := 2; pseg := 2 |}; {| pid := 3; pseg := 3 |}; {| pid := 4; pseg := 1 |}]] [].
Example C67_two_hosts : let p := with_rate_nodes 4 2 in
  (forall k, k < 2 -> segments_ok p (good_part k)) /\ (forall k, k < 2 -> usable_pairs 4 (good_part k) <> []) /\ numbered 5 (concat (map good_part (seq 0 2))) /\
  (forall k, k + 1 < 2 -> border_asked p good_part k) /\ (exists w, hreachable p good_part false w /\ hstuck p good_part false w) /\
  let crossed := path 4 (usable_pairs 4 (concat (map good_part (seq 0 2)))) in crossed = [(0, 1); (1, 2); (2, 3); (3, 0); (3, 1)] /\
  (forall h, h < 2 -> holds_crossings p h crossed (map at_zero (filter (fun c => owner p (snd c) =? h) crossed))) /\
  (forall rows, exists labels, all_one rows = Ok labels /\ length labels = length rows) /\
  (forall b, b < 2 -> other_hosts p b (filter (fun a => negb (a =? b)) (seq 0 2))).
Proof.
  intros p. ssplit.
  - intros k Hk x Hx. destruct k as [|[|k]]; [| |lia]; cbn in Hx; repeat destruct Hx as [<-|Hx]; try easy; vm_compute; lia.
  - intros k Hk. destruct k as [|[|k]]; [vm_compute; discriminate|vm_compute; discriminate|lia].
  - split; [cbn; repeat constructor; lia|]. intros x Hx. cbn in Hx. repeat destruct Hx as [<-|Hx]; try easy; cbn; lia.
  - intros k Hk a t Ea Et. destruct k as [|k]; [|lia]. cbn in Ea. injection Ea as <-. vm_compute in Et. injection Et as <-. left. vm_compute. reflexivity.
  - eassert (R1 : hreachable p good_part false _). { eapply h_after; [constructor|]. apply (segment_step p good_part false hinitial 0); [vm_compute; lia|reflexivity]. }
    eassert (R2 : hreachable p good_part false _). { eapply h_after; [exact R1|]. apply (segment_step p good_part false _ 1); [vm_compute; lia|reflexivity]. }
    eassert (R3 : hreachable p good_part false _).
    { eapply h_after; [exact R2|]. apply (first_point_step p good_part false _ 0 {| pid := 2; pseg := 2 |} ({| pid := 2; pseg := 2 |}, {| pid := 3; pseg := 3 |}) [] []);
      [vm_compute; reflexivity|right; vm_compute; discriminate]. }
    match type of R3 with hreachable _ _ _ ?w => exists w end. split; [exact R3|]. intros w' St. inversion St as [w0 k Hk Hb|w0 k a t l rr En He]; subst.
    + assert (k < 2) by exact Hk. destruct k as [|[|k]]; [vm_compute in Hb; discriminate|vm_compute in Hb; discriminate|lia].
    + vm_compute in En. destruct l; discriminate.
  - cbv zeta. ssplit; [reflexivity| | |].
    + intros h Hh. unfold holds_crossings. rewrite map_map. apply Permutation_refl'. rewrite <- map_id. apply map_ext. now intros [].
    + intros rows. eexists. split; [reflexivity|]. now rewrite map_length.
    + intros b Hb. split; [apply NoDup_filter, seq_NoDup|]. intros a. rewrite filter_In, in_seq, negb_true_iff, Nat.eqb_neq. change (n_cluster_nodes p) with 2. lia.
Qed.
Example C68_case : create_nodes (fun rows : list nat => Ok (map (fun x => x mod 2) rows)) (with_rate_nodes 4 2) 1
    [{| c_id := 4; c_segment := 3; c_coordinates := 7 |}; {| c_id := 5; c_segment := 2; c_coordinates := 9 |}; {| c_id := 1; c_segment := 3; c_coordinates := 6 |}]
  = Ok [{| n_segment := 2; n_cluster := 0; n_from := 5 |}; {| n_segment := 3; n_cluster := 1; n_from := 4 |}; {| n_segment := 3; n_cluster := 0; n_from := 1 |}].
Proof. vm_compute. reflexivity. Qed.
Print Assumptions C68_one_node_per_crossing.
Print Assumptions C68_failed_clustering_aborts.
Print Assumptions C67_answers_complete.
Print Assumptions C67_questions_cover_partial.
Print Assumptions C67_graph_of_a_cluster_partial.
Print Assumptions C67_lost_border_step_refuted.
