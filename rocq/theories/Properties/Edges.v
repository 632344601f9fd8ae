(** C35, C36, C37, C66: edges are the walk of the series through the graph. *)
From Coq Require Import List Arith Bool Lia Permutation Sorting.Sorted.
From Verif.Base Require Import Res Params ListX.
From Verif.Transition Require Import Spec Proofs.
From Verif.Segmentation Require Import Model Spec Proofs PathProofs.
From Verif.Edges Require Import Model Spec OrdererProofs Proofs ArcProofs HostProofs.
From Verif.Properties Require Import Segmentation.
Import ListNotations.

(** ** C35 *)
(** [stored]: the crossed nodes of one usable transition [t] in ascending segment order. *)
Theorem C35_travel_order : forall r label t q stored, pseg (fst t) < r -> pseg (snd t) < r -> usable r t = true ->
  Permutation stored (map (labelled label) (visits r t)) -> StronglySorted le (map n_segment stored) ->
  connect_point (Some q) stored = Ok (pairs (q :: map (labelled label) (visits r t)), Some (last (map (labelled label) (visits r t)) q)).
Proof.
  intros r label t q stored Hf Ht Hu P S. set (p := with_rate_nodes r 1). assert (HN : 1 <= n_cluster_nodes p <= rate p) by (cbn; lia).
  set (V := map (labelled label) (visits r t)) in *.
  assert (Fine : fine p t) by (split; assumption).
  destruct (visits_split p HN 0 ltac:(cbn; lia) label t Fine Hu) as (pre & a & m & post & Ev & Ha & Hm & Hpre & Hown & Hpost & _ & _). change (rate p) with r in *. fold V in Ev.
  pose proof (own_one p HN 0 ltac:(cbn; lia) eq_refl) as O.
  destruct pre as [|z pre]; [|pose proof (Hpre z (or_introl eq_refl)) as X; rewrite O in X; discriminate].
  destruct post as [|z post]; [|pose proof (Hpost z (or_introl eq_refl)) as X; rewrite O in X; discriminate].
  cbn [app] in Ev. rewrite app_nil_r in Ev.
  assert (NV : V <> []) by (unfold V; intros E; apply map_eq_nil in E; now apply (visits_nonempty p HN t Hu)).
  assert (Hm1 : 1 <= m) by (destruct m; [rewrite Ev in NV; now contradiction NV|lia]).
  assert (Segs : forall x, In x V -> n_segment x < r).
  { intros x Hx. unfold V, visits in Hx. rewrite map_map in Hx. apply in_map_iff in Hx. destruct Hx as (l & <- & _). cbn. apply Nat.mod_upper_bound. lia. }
  assert (ES : stored = by_segment r V).
  { transitivity (filter (fun x => n_segment x <? r) stored); [symmetry; apply filter_all_true; intros x Hx; apply Nat.ltb_lt, Segs; now apply (Permutation_in _ P)|].
    rewrite by_key by exact S. unfold by_segment. f_equal. apply map_ext_in. intros s Hs. apply filter_perm with (f := fun x => n_segment x =? s) in P.
    assert (Len : length (filter (fun x => n_segment x =? s) V) <= 1).
    { assert (ND : NoDup (map n_segment V)).
      { pose proof (visits_nodup p HN t Hu) as ND. change (rate p) with r in ND. unfold V. rewrite map_map. cbn [labelled n_segment]. 
        assert (I : forall c, In c (visits r t) -> fst c = from_id t) by (intros c Hc; exact (in_visits p t c Hc)). revert ND I. generalize (visits r t). clear. induction l as [|c l IH]; intros ND I; [constructor|].
        inversion ND as [|? ? Hn ND']; subst. cbn [map]. constructor; [|apply IH; [exact ND'|intros; apply I; now right]]. intros Hi. apply in_map_iff in Hi. destruct Hi as (c' & E & Hc'). apply Hn.
        replace c with c'; [exact Hc'|]. apply injective_projections; [rewrite (I c), (I c'); [reflexivity|now right|now left]|exact E]. }
      clear - ND. induction V as [|x l IH]; [cbn; lia|]. cbn [map] in ND. inversion ND as [|? ? Hn ND']; subst. cbn [filter]. destruct (Nat.eqb_spec (n_segment x) s) as [E|E]; [|now apply IH].
      rewrite filter_nil; [cbn; lia|]. intros y Hy. apply Nat.eqb_neq. intros E'. apply Hn. rewrite E, <- E'. now apply in_map. }
    destruct (filter (fun x => n_segment x =? s) V) as [|x [|y l]]; [|apply Permutation_length_1_inv; now apply Permutation_sym|cbn in Len; lia]. apply Permutation_nil. now apply Permutation_sym. }
  pose proof (half_bounds r) as Hb. destruct (arc_connect r (labels label t) ltac:(reflexivity) (Some q) a m Ha ltac:(lia)) as (_ & C & _). rewrite ES, Ev, C by (left; discriminate). cbn [opt_list app]. f_equal. f_equal. rewrite <- Ev.
  destruct V as [|x V']; [congruence|]. rewrite last_error_last. now rewrite last_cons.
Qed.
(** A transition from segment 96 to segment 2 of 100, after a node in segment 96. *)
Example C35_wraps :
  let nd s := {| n_segment := s; n_cluster := 7; n_from := 4 |} in let q := {| n_segment := 96; n_cluster := 1; n_from := 3 |} in
  let t := ({| pid := 4; pseg := 96 |}, {| pid := 5; pseg := 2 |}) in
  usable 100 t = true /\ map (labelled (fun _ _ => 7)) (visits 100 t) = map nd [97; 98; 99; 0; 1; 2] /\
  connect_point (Some q) (map nd [0; 1; 2; 97; 98; 99]) = Ok ([(q, nd 97); (nd 97, nd 98); (nd 98, nd 99); (nd 99, nd 0); (nd 0, nd 1); (nd 1, nd 2)], Some (nd 2)).
Proof. vm_compute. auto. Qed.

(** ** The points behind the walk *)
Definition numbered (n : nat) (points : list pt) : Prop := StronglySorted lt (map pid points) /\ forall x, In x points -> pid x < n.

Lemma numbered_pairs : forall p n points, numbered n points -> 
  StronglySorted lt (map from_id (usable_pairs (rate p) points)) /\ forall t, In t (usable_pairs (rate p) points) -> from_id t < n.
Proof.
  intros p n points (S & B). split.
  - assert (SP : StronglySorted lt (map from_id (pairs points : list transition))).
    { clear B. induction points as [|x points IH]; [constructor|]. destruct points as [|y points]; [constructor|]. inversion S as [|? ? S' F]; subst. 
      change (pairs (x :: y :: points)) with ((x, y) :: pairs (y :: points)). cbn [map]. constructor; [now apply IH|]. apply Forall_forall. intros i Hi. apply in_map_iff in Hi. destruct Hi as ((a, b) & <- & Hab).
      cbn. apply pairs_in in Hab. rewrite Forall_forall in F. apply F. exact (in_map pid (y :: points) a (proj1 Hab)). }
    unfold usable_pairs. revert SP. generalize (pairs points : list transition). clear. intros l. induction l as [|t l IH]; intros H; [constructor|]. cbn [map] in H. inversion H as [|? ? H' F]; subst. cbn [filter].
    destruct (usable (rate p) t); [|now apply IH]. cbn [map]. constructor; [now apply IH|]. rewrite Forall_forall in *. intros i Hi. apply in_map_iff in Hi. destruct Hi as (t' & <- & Ht'). apply filter_In in Ht'. apply F. now apply in_map.
  - intros t Ht. unfold usable_pairs in Ht. apply filter_In in Ht. destruct Ht as (Ht & _). destruct t as (a, b). apply B. apply pairs_in in Ht. apply Ht.
Qed.

(** ** C66 *)
Theorem C66_edges_of_a_host : forall p h label n points store foreign,
  1 <= n_cluster_nodes p <= rate p -> h < n_cluster_nodes p -> segments_ok p points -> numbered n points ->
  let nodes := walk label (rate p) (usable_pairs (rate p) points) in
  stored_by_segment p h nodes store -> answers_complete p h nodes foreign -> (n_cluster_nodes p = 1 -> ~ starts_across (rate p) nodes) ->
  estimate_edges n store foreign = Ok (filter (fun e => owner p (n_segment (fst e)) =? h) (pairs nodes)).
Proof.
  intros p h label n points store foreign HN Hh Hs Hn nodes Hst Ha Hnc. destruct (numbered_pairs p n points Hn) as (S & B).
  apply (estimate_spec p HN h Hh label (usable_pairs (rate p) points) n); try assumption. intros t Ht. exact (fine_pairs p HN points t Hs Ht).
Qed.
(** All hosts together hold every step of the walk exactly once. *)
Theorem C66_union : forall p label n points stores foreigns,
  1 <= n_cluster_nodes p <= rate p -> segments_ok p points -> numbered n points ->
  let nodes := walk label (rate p) (usable_pairs (rate p) points) in
  (forall h, h < n_cluster_nodes p -> stored_by_segment p h nodes (stores h) /\ answers_complete p h nodes (foreigns h)) -> (n_cluster_nodes p = 1 -> ~ starts_across (rate p) nodes) ->
  exists edges, (forall h, h < n_cluster_nodes p -> estimate_edges n (stores h) (foreigns h) = Ok (edges h)) /\ Permutation (concat (map edges (seq 0 (n_cluster_nodes p)))) (pairs nodes).
Proof.
  intros p label n points stores foreigns HN Hs Hn nodes Hst Hnc. exists (fun h => filter (fun e => owner p (n_segment (fst e)) =? h) (pairs nodes)). split.
  - intros h Hh. destruct (Hst h Hh). now apply (C66_edges_of_a_host p h label n points).
  - assert (B : forall e, In e (pairs nodes) -> owner p (n_segment (fst e)) < n_cluster_nodes p) by (intros e _; unfold owner; lia).
    exact (classes_perm _ (fun e => owner p (n_segment (fst e))) (pairs nodes) _ B).
Qed.

(** A store and answers as required exist: two hosts, rate 6, three usable transitions (0 -> 2, 2 -> 4 and 4 -> 1 over segment 0). *)
Definition ex_points : list pt := [{| pid := 0; pseg := 0 |}; {| pid := 1; pseg := 2 |}; {| pid := 2; pseg := 4 |}; {| pid := 3; pseg := 1 |}; {| pid := 4; pseg := 1 |}].
Definition ex_label (i s : nat) : nat := (i + s) mod 2.
Definition ex_node (i s : nat) : node := labelled ex_label (i, s).
Definition ex_store0 : list node := [ex_node 2 0; ex_node 2 1; ex_node 0 1; ex_node 0 2].
Definition ex_store1 : list node := [ex_node 1 3; ex_node 1 4; ex_node 2 5].
Example C66_two_hosts :
  let p := with_rate_nodes 6 2 in let nodes := walk ex_label 6 (usable_pairs 6 ex_points) in
  nodes = [ex_node 0 1; ex_node 0 2; ex_node 1 3; ex_node 1 4; ex_node 2 5; ex_node 2 0; ex_node 2 1] /\ segments_ok p ex_points /\ numbered 5 ex_points /\
  stored_by_segment p 0 nodes ex_store0 /\ stored_by_segment p 1 nodes ex_store1 /\
  answers_complete p 0 nodes [((0, 2), (1, ex_node 1 3))] /\ answers_complete p 1 nodes [((2, 5), (2, ex_node 2 0))] /\
  estimate_edges 5 ex_store0 [((0, 2), (1, ex_node 1 3))] = Ok [(ex_node 0 1, ex_node 0 2); (ex_node 0 2, ex_node 1 3); (ex_node 2 0, ex_node 2 1)] /\
  estimate_edges 5 ex_store1 [((2, 5), (2, ex_node 2 0))] = Ok [(ex_node 1 3, ex_node 1 4); (ex_node 1 4, ex_node 2 5); (ex_node 2 5, ex_node 2 0)].
Proof.
  cbv zeta. assert (E : walk ex_label 6 (usable_pairs 6 ex_points) = [ex_node 0 1; ex_node 0 2; ex_node 1 3; ex_node 1 4; ex_node 2 5; ex_node 2 0; ex_node 2 1]) by reflexivity.
  ssplit.
  - exact E.
  - intros x Hx. cbn in Hx. repeat destruct Hx as [<-|Hx]; try easy; cbn; lia.
  - split; [cbn; repeat constructor; lia|]. intros x Hx. cbn in Hx. repeat destruct Hx as [<-|Hx]; try easy; cbn; lia.
  - rewrite E. exists (fun s => nth s [[ex_node 2 0]; [ex_node 2 1; ex_node 0 1]; [ex_node 0 2]] []). split; [reflexivity|].
    intros s Hs. cbn in Hs. do 6 (destruct s as [|s]; [try (apply Permutation_refl); apply perm_swap|]). lia.
  - rewrite E. exists (fun s => nth s [[]; []; []; [ex_node 1 3]; [ex_node 1 4]; [ex_node 2 5]] []). split; [reflexivity|].
    intros s Hs. cbn in Hs. do 6 (destruct s as [|s]; [apply Permutation_refl|]). lia.
  - rewrite E. split.
    + intros x y Hi Hx Hy. cbn in Hi. repeat destruct Hi as [Hi|Hi]; try easy; injection Hi as <- <-; try (vm_compute in Hx; discriminate); try (exfalso; apply Hy; reflexivity); reflexivity.
    + intros x Hi Hx Hy. cbn in Hi. repeat destruct Hi as [<-|Hi]; try easy; try (vm_compute in Hx; discriminate); try reflexivity. exfalso. specialize (Hy (ex_node 1 3) ltac:(cbn; auto)). vm_compute in Hy. discriminate.
  - rewrite E. split.
    + intros x y Hi Hx Hy. cbn in Hi. repeat destruct Hi as [Hi|Hi]; try easy; injection Hi as <- <-; try (vm_compute in Hx; discriminate); try (exfalso; apply Hy; reflexivity); reflexivity.
    + intros x Hi Hx Hy. cbn in Hi. repeat destruct Hi as [<-|Hi]; try easy; try (vm_compute in Hx; discriminate); try reflexivity. exfalso. specialize (Hy (ex_node 2 0) ltac:(cbn; auto 10)). vm_compute in Hy. discriminate.
  - reflexivity.
  - reflexivity.
Qed.

(** ** C36 *)
(** On one machine edge creation fails exactly if the first transition crosses into the last segment and then into segment 0. *)
Theorem C36_aborts_exactly_if : forall p label n points store, n_cluster_nodes p = 1 -> 1 <= rate p -> segments_ok p points -> numbered n points ->
  let nodes := walk label (rate p) (usable_pairs (rate p) points) in stored_by_segment p 0 nodes store ->
  (estimate_edges n store [] = Panic UnwrapNone <-> starts_across (rate p) nodes) /\ ((exists edges, estimate_edges n store [] = Ok edges) <-> ~ starts_across (rate p) nodes).
Proof.
  intros p label n points store E1 Hr Hs Hn nodes Hst. assert (HN : 1 <= n_cluster_nodes p <= rate p) by lia. destruct (numbered_pairs p n points Hn) as (S & B).
  assert (Ht : forall t, In t (usable_pairs (rate p) points) -> fine p t /\ usable (rate p) t = true) by (intros t Ht; exact (fine_pairs p HN points t Hs Ht)).
  assert (A : answers_complete p 0 nodes []).
  { split; [|reflexivity]. intros x y _ _ Hy. exfalso. apply Hy. unfold owner. rewrite E1. apply Nat.min_0_r. }
  assert (P1 : starts_across (rate p) nodes -> estimate_edges n store [] = Panic UnwrapNone) by (intros Sa; apply (estimate_panics p HN 0 ltac:(lia) label (usable_pairs (rate p) points) n); assumption).
  assert (P2 : ~ starts_across (rate p) nodes -> estimate_edges n store [] = Ok (filter (fun e => owner p (n_segment (fst e)) =? 0) (pairs nodes))).
  { intros Sa. apply (C66_edges_of_a_host p 0 label n points); try assumption; [lia|]. intros _. exact Sa. }
  assert (Dec : starts_across (rate p) nodes \/ ~ starts_across (rate p) nodes).
  { unfold starts_across. destruct nodes as [|x [|y l]].
    - right. intros (? & ? & ? & E & _). discriminate.
    - right. intros (? & ? & ? & E & _). discriminate.
    - destruct (Nat.eq_dec (n_segment x) (rate p - 1)) as [E2|E2]; [|right; intros (? & ? & ? & E & ?); injection E as -> -> ->; tauto].
      destruct (Nat.eq_dec (n_segment y) 0) as [E3|E3]; [|right; intros (? & ? & ? & E & ?); injection E as -> -> ->; tauto].
      destruct (Nat.eq_dec (n_from x) (n_from y)) as [E4|E4]; [left; exists x, y, l; auto|right; intros (? & ? & ? & E & ?); injection E as -> -> ->; tauto]. }
  destruct Dec as [D|D]; [rewrite (P1 D)|rewrite (P2 D)].
  - split; split; try tauto. intros (e & E). discriminate.
  - split; split; try tauto; [discriminate|]. intros _. eexists; reflexivity.
Qed.
(** Segment 98 of 100 to segment 1: crossed are 99, 0 and 1. *)
Theorem C36_first_transition_refuted : exists p label n points store, n_cluster_nodes p = 1 /\ segments_ok p points /\ numbered n points /\
  stored_by_segment p 0 (walk label (rate p) (usable_pairs (rate p) points)) store /\ usable_pairs (rate p) points <> [] /\ estimate_edges n store [] = Panic UnwrapNone.
Proof.
  exists (with_rate_nodes 100 1), (fun _ _ => 0), 2, [{| pid := 0; pseg := 98 |}; {| pid := 1; pseg := 1 |}], (map (fun s => {| n_segment := s; n_cluster := 0; n_from := 0 |}) [0; 1; 99]).
  ssplit; [reflexivity| | | |discriminate|reflexivity].
  - intros x Hx. cbn in Hx. repeat destruct Hx as [<-|Hx]; try easy; cbn; lia.
  - split; [cbn; repeat constructor; lia|]. intros x Hx. cbn in Hx. repeat destruct Hx as [<-|Hx]; try easy; cbn; lia.
  - exists (fun s => filter (fun x => n_segment x =? s) (map (fun s => {| n_segment := s; n_cluster := 0; n_from := 0 |}) [99; 0; 1])). split; [reflexivity|]. intros s _. cbn [rate with_rate_nodes].
    replace (owner _ s) with 0 by (unfold owner; cbn; lia). apply Permutation_refl.
Qed.
(** On a cluster, and on one machine for all other first transitions, edge creation succeeds. *)
Theorem C36_succeeds_partial : forall p h label n points store foreign,
  1 <= n_cluster_nodes p <= rate p -> h < n_cluster_nodes p -> segments_ok p points -> numbered n points ->
  let nodes := walk label (rate p) (usable_pairs (rate p) points) in
  stored_by_segment p h nodes store -> answers_complete p h nodes foreign -> 2 <= n_cluster_nodes p \/ ~ starts_across (rate p) nodes ->
  exists edges, estimate_edges n store foreign = Ok edges.
Proof.
  intros p h label n points store foreign HN Hh Hs Hn nodes Hst Ha Hnc. eexists. apply (C66_edges_of_a_host p h label n points); try assumption. intros E. destruct Hnc; [lia|assumption].
Qed.

(** ** C37 *)
Theorem C37_single_machine_walk : forall p label n points store edges, n_cluster_nodes p = 1 -> 1 <= rate p -> segments_ok p points -> numbered n points ->
  let nodes := walk label (rate p) (usable_pairs (rate p) points) in stored_by_segment p 0 nodes store -> estimate_edges n store [] = Ok edges ->
  edges = pairs nodes /\ forall i e e', nth_error edges i = Some e -> nth_error edges (S i) = Some e' -> snd e = fst e'.
Proof.
  intros p label n points store edges E1 Hr Hs Hn nodes Hst He.
  destruct (C36_aborts_exactly_if p label n points store E1 Hr Hs Hn Hst) as (_ & (Na & _)). specialize (Na (ex_intro _ _ He)).
  assert (E : edges = pairs nodes).
  { assert (X : estimate_edges n store [] = Ok (filter (fun e => owner p (n_segment (fst e)) =? 0) (pairs nodes))).
    { apply (C66_edges_of_a_host p 0 label n points); try assumption; try lia; [|intros _; exact Na]. split; [|reflexivity]. intros x y _ _ Hy. exfalso. apply Hy. unfold owner. rewrite E1. apply Nat.min_0_r. }
    rewrite filter_all_true in X; [congruence|]. intros e _. apply Nat.eqb_eq. unfold owner. rewrite E1. apply Nat.min_0_r. }
  split; [exact E|]. rewrite E. clear. generalize nodes. clear. induction nodes as [|x l IH]; intros i e e' H1 H2; [now destruct i|]. destruct l as [|y l]; [now destruct i|].
  change (pairs (x :: y :: l)) with ((x, y) :: pairs (y :: l)) in *. destruct i as [|i]; [|exact (IH i e e' H1 H2)]. injection H1 as <-. destruct l as [|z l]; [discriminate|]. injection H2 as <-. reflexivity.
Qed.
Example C37_one_machine :
  let p := with_rate_nodes 6 1 in let nodes := walk ex_label 6 (usable_pairs 6 ex_points) in
  let store := [ex_node 2 0; ex_node 2 1; ex_node 0 1; ex_node 0 2; ex_node 1 3; ex_node 1 4; ex_node 2 5] in
  stored_by_segment p 0 nodes store /\ estimate_edges 5 store [] = Ok (pairs nodes) /\ length (pairs nodes) = 6.
Proof.
  cbv zeta. ssplit; [|reflexivity|reflexivity]. exists (fun s => nth s [[ex_node 2 0]; [ex_node 2 1; ex_node 0 1]; [ex_node 0 2]; [ex_node 1 3]; [ex_node 1 4]; [ex_node 2 5]] []). split; [reflexivity|].
  intros s Hs. cbn in Hs. do 6 (destruct s as [|s]; [try (apply Permutation_refl); apply perm_swap|]). lia.
Qed.

Print Assumptions C35_travel_order.
Print Assumptions C36_aborts_exactly_if.
Print Assumptions C37_single_machine_walk.
Print Assumptions C66_edges_of_a_host.
Print Assumptions C66_union.
