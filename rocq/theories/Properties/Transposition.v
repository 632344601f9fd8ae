(** Transposition: C38. *)
From Coq Require Import List Arith Bool Lia Permutation Sorting.Sorted.
From Verif.Base Require Import Res ListX.
From Verif.Edges Require Import Model HostProofs.
From Verif.Protocol Require Import Model Exchange Spec.
From Verif.Transposition Require Import Model Spec Proofs.
From Verif.Properties Require Import Protocol.
Import ListNotations.

(** ** C38 *)
(** With at least as many rows as hosts nothing aborts. *)
Theorem C38_never_aborts : forall n N own edges, 1 <= N <= n -> exists start a, transpose n N own edges = Ok (start, a).
Proof.
  intros n N own edges H. unfold transpose, partition_len. rewrite udiv_ok by lia. cbn [bind]. rewrite assign_spec; [cbn [bind]; eauto|lia|].
  pose proof (Nat.div_str_pos n N ltac:(lia)). lia.
Qed.
(** For all edges, all orders of delivery and all moments at which hosts enter: when nothing is left to do, every host holds exactly the edges of its part
    of the series, ascending, and all hosts together hold the edges there were. *)
Theorem C38_edges_reach_their_owner : forall n N edges start a w, 1 <= N <= n -> (forall k, k < N -> transpose n N k (edges k) = Ok (start k, a k)) ->
  reachable (edge_exchange N a) w -> stuck (edge_exchange N a) w ->
  (forall k, k < N ->
    start k = k * (n / N)
    /\ Permutation (transposed k (a k) (state w k)) (filter (fun e => in_part n N k (to_id e)) (all_edges N edges))
    /\ ascending (transposed k (a k) (state w k)))
  /\ Permutation (concat (map (fun k => transposed k (a k) (state w k)) (seq 0 N))) (all_edges N edges).
Proof.
  intros n N edges start a w HN Ht Hr Hs.
  assert (L : n / N <> 0) by (pose proof (Nat.div_str_pos n N ltac:(lia)); lia).
  assert (Ea : forall k, k < N -> start k = k * (n / N) /\ a k = map (fun e => (dest N (n / N) (to_id e), e)) (edges k)).
  { intros k Hk. specialize (Ht k Hk). unfold transpose, partition_len in Ht. rewrite udiv_ok in Ht by lia. cbn [bind] in Ht. rewrite assign_spec in Ht by lia. cbn [bind] in Ht.
    injection Ht as E1 E2. split; [rewrite <- E1; unfold range_start; lia|now symmetry]. }
  assert (P : forall k, k < N -> Permutation (transposed k (a k) (state w k)) (filter (fun e => dest N (n / N) (to_id e) =? k) (all_edges N edges))).
  { intros k Hk. destruct (C29_every_bucket_exactly_once _ _ w Hr Hs k Hk) as (P & _). cbn [hosts to_self bucket edge_exchange] in P.
    rewrite (transposed_perm N a _ k Hk P). unfold all_edges. rewrite filter_concat, map_map. erewrite map_ext_in; [apply Permutation_refl|].
    intros q Hq. apply in_seq in Hq. destruct (Ea q ltac:(lia)) as (_ & ->). apply assigned_spec. }
  split.
  - intros k Hk. split; [apply (Ea k Hk)|]. split; [|unfold transposed; apply sort_edges_sorted].
    rewrite (P k Hk). erewrite filter_ext; [apply Permutation_refl|]. intros e. now apply dest_in_part.
  - etransitivity; [|apply (classes_perm _ (fun e => dest N (n / N) (to_id e)) (all_edges N edges) N)]; [|intros x _; apply dest_lt; lia].
    assert (G : forall l, (forall k, In k l -> k < N) -> Permutation (concat (map (fun k => transposed k (a k) (state w k)) l)) (concat (map (fun k => filter (fun e => dest N (n / N) (to_id e) =? k) (all_edges N edges)) l))).
    { induction l as [|k l IH]; intros H; [constructor|]. cbn [map concat]. apply Permutation_app; [apply P; apply H; now left|]. apply IH. intros q Hq. apply H. now right. }
    apply G. intros k Hk. apply in_seq in Hk. lia.
Qed.
(** Fewer rows than hosts: the first edge aborts the host. *)
Theorem C38_more_hosts_than_rows_aborts : forall n N own e edges, n < N -> transpose n N own (e :: edges) = Panic DivByZero.
Proof. intros n N own e edges H. unfold transpose, partition_len. rewrite udiv_ok by lia. cbn [bind]. rewrite Nat.div_small by exact H. reflexivity. Qed.

Definition nd (s c f : nat) : node := {| n_segment := s; n_cluster := c; n_from := f |}.
(** Three hosts, seven rows: parts 0-1, 2-3, 4-6; host 2 also takes time stamp 6. *)
Example C38_three_hosts :
  (let! (_, a) := transpose 7 3 0 [(nd 0 0 0, nd 1 0 0); (nd 1 0 0, nd 2 0 3); (nd 1 0 0, nd 2 1 6); (nd 3 0 5, nd 4 0 5)] in Ok (map (fun i => map to_id (assigned a i)) [0; 1; 2])) = Ok [[0]; [3]; [6; 5]].
Proof. reflexivity. Qed.
(** A complete run with two hosts; two edges with the same time stamp 2 end up at host 1. *)
Example C38_run : let a := fun k => if k =? 0 then [(0, (nd 0 0 1, nd 1 0 1)); (1, (nd 1 0 1, nd 2 0 2))] else [(1, (nd 3 0 2, nd 4 0 2)); (0, (nd 5 0 0, nd 6 0 1))] in
  transpose 4 2 0 [(nd 0 0 1, nd 1 0 1); (nd 1 0 1, nd 2 0 2)] = Ok (0, a 0) /\ transpose 4 2 1 [(nd 3 0 2, nd 4 0 2); (nd 5 0 0, nd 6 0 1)] = Ok (2, a 1) /\
  exists w, reachable (edge_exchange 2 a) w /\ stuck (edge_exchange 2 a) w
  /\ transposed 0 (a 0) (state w 0) = [(nd 0 0 1, nd 1 0 1); (nd 5 0 0, nd 6 0 1)] /\ transposed 1 (a 1) (state w 1) = [(nd 3 0 2, nd 4 0 2); (nd 1 0 1, nd 2 0 2)].
Proof.
  intros a. split; [reflexivity|]. split; [reflexivity|]. set (x := edge_exchange 2 a).
  eassert (R1 : reachable x _). { eapply after; [constructor|]. apply (enters x initial 0); [unfold x; cbn; lia|reflexivity]. }
  eassert (R2 : reachable x _). { eapply after; [exact R1|]. apply (enters x _ 1); [unfold x; cbn; lia|reflexivity]. }
  eassert (R3 : reachable x _). { eapply after; [exact R2|]. apply (delivers x _ 1 (0, [(nd 1 0 1, nd 2 0 2)]) [] [(0, (1, [(nd 5 0 0, nd 6 0 1)]))]). reflexivity. }
  eassert (R4 : reachable x _). { eapply after; [exact R3|]. apply (delivers x _ 0 (1, [(nd 5 0 0, nd 6 0 1)]) [] []). reflexivity. }
  eexists. ssplit; [exact R4| |reflexivity|reflexivity].
  intros w' Hs. inversion Hs as [w p Hp Hf|w p m l r E]; subst.
  - destruct p as [|[|p]]; [discriminate|discriminate|unfold x in Hp; cbn in Hp; lia].
  - cbn in E. destruct l; discriminate.
Qed.

Print Assumptions C38_never_aborts.
Print Assumptions C38_edges_reach_their_owner.
Print Assumptions C38_more_hosts_than_rows_aborts.
