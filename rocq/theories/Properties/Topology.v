From Coq Require Import List Arith ZArith Lia.
From Verif.Base Require Import Res Params Assoc.
From Verif.Topology Require Import Model Spec Proofs.
Import ListNotations.

(** C01: segments are owned in consecutive non-empty blocks, all of width rate/n except the last, which is not shorter;
    every segment has exactly one owner; "first segment of the i-th next node" is the left border of that node's block. *)
Theorem C01_segment_ownership : forall p, 1 <= n_cluster_nodes p <= rate p ->
  exists border : nat -> nat,
    cuts border (n_cluster_nodes p) (rate p)
    /\ (forall k, S k < n_cluster_nodes p -> border (S k) - border k = rate p / n_cluster_nodes p)
    /\ rate p / n_cluster_nodes p <= rate p - border (n_cluster_nodes p - 1)
    /\ (forall s, s < rate p -> exists k, segment_id_to_assignment p s = Ok k)
    /\ (forall s k, s < rate p ->
          (segment_id_to_assignment p s = Ok k <-> k < n_cluster_nodes p /\ border k <= s < border (S k)))
    /\ (forall s i k, s < rate p -> segment_id_to_assignment p s = Ok k ->
          first_segment_of_i_next_cluster_node p s i = Ok (border ((k + i) mod n_cluster_nodes p))).
Proof. exact segment_ownership. Qed.
Print Assumptions C01_segment_ownership.

Theorem C01_first_segment_is_smallest_owned : forall p s i k, 1 <= n_cluster_nodes p <= rate p -> s < rate p ->
  segment_id_to_assignment p s = Ok k ->
  exists f, first_segment_of_i_next_cluster_node p s i = Ok f /\ f < rate p
    /\ segment_id_to_assignment p f = Ok ((k + i) mod n_cluster_nodes p)
    /\ forall t, t < rate p -> segment_id_to_assignment p t = Ok ((k + i) mod n_cluster_nodes p) -> f <= t.
Proof. exact first_segment_is_first. Qed.
Print Assumptions C01_first_segment_is_smallest_owned.

(** rate 100 on 7 nodes: 14 segments each, the last node has 16. *)
Example C01_example :
  1 <= n_cluster_nodes (with_rate_nodes 100 7) <= rate (with_rate_nodes 100 7)
  /\ segment_id_to_assignment (with_rate_nodes 100 7) 13 = Ok 0
  /\ segment_id_to_assignment (with_rate_nodes 100 7) 14 = Ok 1
  /\ segment_id_to_assignment (with_rate_nodes 100 7) 99 = Ok 6
  /\ first_segment_of_i_next_cluster_node (with_rate_nodes 100 7) 99 2 = Ok 14.
Proof. cbn [rate n_cluster_nodes with_rate_nodes]. split; [lia|]. repeat split. Qed.

(** C02 is false: with more nodes than segments every lookup aborts. *)
Theorem C02_owner_lookup_aborts : forall p s, rate p < n_cluster_nodes p ->
  segment_id_to_assignment p s = Panic DivByZero.
Proof. exact owner_lookup_aborts. Qed.
Print Assumptions C02_owner_lookup_aborts.

Theorem C02_owner_lookup_refuted : exists p s, 1 <= n_cluster_nodes p /\ s < rate p
  /\ forall k, segment_id_to_assignment p s <> Ok k.
Proof. exists (with_rate_nodes 4 5), 2. split; [cbn; lia|]. split; [cbn; lia|]. intros k. vm_compute. discriminate. Qed.
Print Assumptions C02_owner_lookup_refuted.

(** C03 *)
Theorem C03_own_index_and_neighbours : forall addr (c : cluster_nodes addr) own n, all_but own n (keys c) ->
  get_own_idx c = Ok own
  /\ (2 <= n -> get_next_idx c = Ok (Some ((own + 1) mod n)))
  /\ (2 <= n -> get_previous_idx c = Ok (Some ((own + (n - 1)) mod n)))
  /\ (forall j, (exists a, get c j = Some a) <-> (j < n /\ j <> own)).
Proof.
  exact (fun addr c own n H => conj (own_idx c own n H) (conj (next_idx c own n H) (conj (prev_idx c own n H)
         (fun j => get_remote_iff c own n j H)))).
Qed.
Print Assumptions C03_own_index_and_neighbours.

Theorem C03_single_host_has_no_neighbour : forall addr (c : cluster_nodes addr), all_but 0 1 (keys c) ->
  get_next_idx c = Ok None /\ get_previous_idx c = Ok None.
Proof. exact @no_neighbour_alone. Qed.
Print Assumptions C03_single_host_has_no_neighbour.

Theorem C03_next_previous_inverse : forall addr (a b : cluster_nodes addr) n i j, 2 <= n ->
  all_but i n (keys a) -> all_but j n (keys b) ->
  (get_next_idx a = Ok (Some j) <-> get_previous_idx b = Ok (Some i)).
Proof. exact next_prev_inverse. Qed.
Print Assumptions C03_next_previous_inverse.

(** Following [get_next_idx] from any host reaches every host within n hops. *)
Theorem C03_ring_covers_cluster : forall addr (tbl : nat -> cluster_nodes addr) n, 2 <= n ->
  (forall k, k < n -> all_but k n (keys (tbl k))) ->
  forall k j, k < n -> j < n -> exists i, i < n /\ Nat.iter i (hop tbl) k = j.
Proof. exact ring_covers. Qed.
Print Assumptions C03_ring_covers_cluster.

(** The iterator over all addresses: one per index, the local one exactly at the own index. *)
Theorem C03_iterator : forall addr (c : cluster_nodes addr) own n fuel, all_but own n (keys c) -> n <= fuel ->
  let l := iter_take c 0 fuel in
  length l = n
  /\ (forall j, j < n -> nth_error l j = Some Local <-> j = own)
  /\ (forall j, j < n -> j <> own -> exists a, get c j = Some a /\ nth_error l j = Some (Remote a)).
Proof. exact @iter_all. Qed.
Print Assumptions C03_iterator.

Theorem C03_cyclic_node_distance : forall p a b, a < n_cluster_nodes p -> b < n_cluster_nodes p ->
  exists d, cluster_node_diff p a b = Ok d /\ d < n_cluster_nodes p /\ (a + d) mod n_cluster_nodes p = b.
Proof. exact node_diff. Qed.
Print Assumptions C03_cyclic_node_distance.

(** A peer table of host 2 of 4, in an arbitrary iteration order. *)
Definition ex_table : cluster_nodes nat := [(3, 903); (0, 900); (1, 901)].
Example C03_example : all_but 2 4 (keys ex_table)
  /\ get_own_idx ex_table = Ok 2 /\ get_next_idx ex_table = Ok (Some 3) /\ get_previous_idx ex_table = Ok (Some 1)
  /\ iter_take ex_table 0 9 = [Remote 900; Remote 901; Local; Remote 903].
Proof.
  split; [|repeat split].
  split; [lia|]. split.
  - repeat constructor; cbn; intuition lia.
  - intros j. cbn. split; [intros H; lia|intros H; lia].
Qed.
