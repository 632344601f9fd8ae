From Coq Require Import List Arith ZArith Lia Bool Reals Lra Permutation.
From Verif.Base Require Import Res Params Assoc ListX.
From Verif.Topology Require Import Model Spec.
From Verif.Reader Require Import Model Spec.
From Verif.Stats Require Import Model Spec.
From Verif.Manager Require Import Collect CollectSpec CollectMain ArrayProofs.
From Verif.Interface Require Import Model Proofs.
Import ListNotations.
Local Open Scope nat_scope.

(** C91: a file of [records] that the reader can distribute (C06), with numbers in the selected columns.  Messages on the network
    arrive in any order, every host handles its mailbox in order of arrival.  In every execution no host aborts, the execution
    ends, no host preprocesses twice, and a host that preprocesses has exactly its rows, the extremes of each column of the whole
    file and its number of rows; when the execution ends all hosts have started preprocessing. *)
Theorem C91_statistics_everywhere : forall cell (parse : cell -> option R) val fmax p peers width records,
  let N := n_cluster_nodes p in
  let rows := map (selected p width val) records in
  let w := Z.to_nat (column_limit width (column_end p)) - column_start p in
  1 <= N -> introduced N peers ->
  1 <= pattern_length p <= length records / N -> length records mod N <= pattern_length p - 1 -> 2 <= length records ->
  Forall (fun r => length r = width) records -> (Z.of_nat width < 2 ^ 64)%Z ->
  (forall r b, In r records -> In b r -> parse b = Some (val b)) ->
  (Z.of_nat (column_start p) <= column_limit width (column_end p) <= Z.of_nat width)%Z ->
  (forall j x, entry rows j x -> (- fmax <= x <= fmax)%R) ->
  exists mn mx, column_extremes rows w mn mx
  /\ (forall k s, runs parse fmax p peers width records k (file_start p) s ->
        ~ aborts parse fmax p peers width records s
        /\ k <= (N + 3) * (8 * N) + N
        /\ (exists std, forall h, h < N -> preps (hosts s h) <= 1
              /\ (preps (hosts s h) = 1 -> hdata (hosts s h) = Some (partition_of N (pattern_length p - 1) h rows)
                    /\ minmax (hosts s h) = Some (mn, mx) /\ dev (hosts s h) = Some (std, length rows)))
        /\ ((forall s', ~ step parse fmax p peers width records s s') -> forall h, h < N -> preps (hosts s h) = 1))
  /\ (exists k s, runs parse fmax p peers width records k (file_start p) s
        /\ forall s', ~ step parse fmax p peers width records s s').
Proof. intros. eapply statistics_everywhere; eassumption. Qed.
Print Assumptions C91_statistics_everywhere.

(** Two hosts; a file with an index column, one channel and a label column. *)
Definition c91_params : params :=
  {| rate := 100; n_threads := 1; n_cluster_nodes := 2; pattern_length := 3; latent := 1; query_length := 5;
     column_start := 1; column_end := (-1)%Z; self_correction := false |}.
Definition c91_peers (h : nat) : cluster_nodes nat := if h =? 0 then [(1, 1)] else [(0, 0)].
Definition c91_records : list (list nat) := map (fun i => [i; (7 * i) mod 5; 0]) (seq 0 8).
Example C91_case :
  1 <= n_cluster_nodes c91_params /\ introduced 2 c91_peers
  /\ 1 <= pattern_length c91_params <= length c91_records / 2 /\ length c91_records mod 2 <= pattern_length c91_params - 1
  /\ 2 <= length c91_records /\ Forall (fun r => length r = 3) c91_records /\ (Z.of_nat 3 < 2 ^ 64)%Z
  /\ (forall r b, In r c91_records -> In b r -> Some (INR b) = Some (INR b))
  /\ (Z.of_nat (column_start c91_params) <= column_limit 3 (column_end c91_params) <= Z.of_nat 3)%Z
  /\ (forall j x, entry (map (selected c91_params 3 INR) c91_records) j x -> (- 10 <= x <= 10)%R)
  /\ map (selected c91_params 3 INR) c91_records = map (fun x => [INR x]) [0; 2; 4; 1; 3; 0; 2; 4].
Proof.
  split; [cbn; lia|]. split.
  { intros h Hh. assert (h = 0 \/ h = 1) as [->| ->] by lia; (split;
      [unfold all_but; cbn; (split; [lia|]); (split; [repeat constructor; cbn; lia|]); intros j; lia
      |cbn; intros j a [E|[]]; injection E as <- <-; reflexivity]). }
  split; [cbn; lia|]. split; [cbn; lia|]. split; [cbn; lia|].
  split; [repeat constructor|]. split; [lia|]. split; [reflexivity|]. split; [cbn; lia|].
  assert (E : map (selected c91_params 3 INR) c91_records = map (fun x => [INR x]) [0; 2; 4; 1; 3; 0; 2; 4]) by reflexivity.
  split; [|exact E]. rewrite E. intros j x (r & Hr & Hx). apply in_map_iff in Hr. destruct Hr as (v & <- & Hv).
  assert (v <= 4) by (cbn in Hv; lia). assert (INR v <= INR 4)%R by (now apply le_INR). pose proof (pos_INR v). cbn [INR] in H0.
  destruct j as [|j]; [|destruct j; discriminate]. injection Hx as <-. lra.
Qed.

(** C92: data handed over as an array.  On one machine the caller's rows are taken as they are, with all their columns (the column
    selection is for files only), and preprocessing starts once, with the extremes and the sample standard deviation of each column. *)
Theorem C92_array_alone : forall cell (parse : cell -> option R) fmax p peers width (records : list (list cell)) d w,
  Forall (fun r => length r = w) d -> 2 <= length d -> (forall j x, entry d j x -> (- fmax <= x <= fmax)%R) ->
  n_cluster_nodes p = 1 ->
  exists mn mx std, column_extremes d w mn mx /\ length std = w
  /\ (forall j, j < w -> nth_error std j = Some (sample_std (column j d)))
  /\ (forall k s, runs parse fmax p peers width records k (array_start d) s ->
        ~ aborts parse fmax p peers width records s /\ k <= 5 /\ preps (hosts s 0) <= 1
        /\ (preps (hosts s 0) = 1 -> hdata (hosts s 0) = Some d /\ minmax (hosts s 0) = Some (mn, mx)
              /\ dev (hosts s 0) = Some (std, length d))
        /\ ((forall s', ~ step parse fmax p peers width records s s') -> preps (hosts s 0) = 1))
  /\ (exists s, runs parse fmax p peers width records 5 (array_start d) s).
Proof. intros. eapply array_alone; eassumption. Qed.
Print Assumptions C92_array_alone.

(** C92 is false when the settings name more than one host: the only host waits for the statistics of the others, and the
    preprocessing never starts. *)
Theorem C92_array_with_hosts_refuted : forall cell (parse : cell -> option R) fmax p peers width (records : list (list cell)) d w,
  Forall (fun r => length r = w) d -> 2 <= length d -> 2 <= n_cluster_nodes p ->
  forall k s, runs parse fmax p peers width records k (array_start d) s ->
    ~ aborts parse fmax p peers width records s /\ k <= 3 /\ preps (hosts s 0) = 0
    /\ ((forall s', ~ step parse fmax p peers width records s s') ->
          parcels s = [] /\ minmax (hosts s 0) = None /\ dev (hosts s 0) = None).
Proof. intros. eapply array_waits; eassumption. Qed.
Print Assumptions C92_array_with_hosts_refuted.

Definition c92_data : list (list R) := [[0; 5]; [1; 4]; [3; 1]]%R.
Example C92_case : Forall (fun r => length r = 2) c92_data /\ 2 <= length c92_data
  /\ (forall j x, entry c92_data j x -> (- 10 <= x <= 10)%R) /\ n_cluster_nodes c91_params = 2.
Proof.
  split; [repeat constructor|]. split; [cbn; lia|]. split; [|reflexivity].
  intros j x (r & Hr & Hx). cbn in Hr.
  destruct Hr as [<-|[<-|[<-|[]]]]; (destruct j as [|[|j]]; [injection Hx as <-; lra|injection Hx as <-; lra|destruct j; discriminate]).
Qed.

(** C93: the caller of the array interface gets the scores.  However the sink is polled, before, after and as often as it may be,
    every value that reaches the caller is the score that was sent; it is the one returned as soon as the sink was polled after
    the sending, and before that the caller waits. *)
Theorem C93_scores_are_returned : forall T (score : T) before after,
  Forall (fun c => forall y, c <> Send y) before -> Forall (fun c => forall y, c <> Send y) after ->
  scoring_done true (Some score) = Ok (None, Some score)
  /\ received (calls before (@new_sink T)) = None
  /\ (forall x, In x (channel (calls (before ++ Send score :: after) new_sink)) -> x = score)
  /\ received (calls (before ++ Send score :: after) new_sink) = match after with [] => None | _ => Some score end.
Proof.
  intros T score before after Hb Ha. pose proof (one_send before after score Hb Ha) as E. split; [reflexivity|]. split.
  - unfold received. destruct (polls_channel before new_sink Hb) as (_ & B). rewrite B. reflexivity.
  - unfold received. rewrite E. split.
    + intros x Hx. now apply repeat_spec in Hx.
    + destruct after; reflexivity.
Qed.
Print Assumptions C93_scores_are_returned.

(** As actix does: polled when nothing is there, sent, polled, closed. *)
Example C93_case :
  Forall (fun c => forall y : nat, c <> Send y) [Ready] /\ Forall (fun c => forall y : nat, c <> Send y) [Ready; Close]
  /\ channel (calls [Ready; Send 7; Ready; Close] new_sink) = [7; 7].
Proof. split; [repeat constructor; discriminate|]. split; [repeat constructor; discriminate|]. reflexivity. Qed.
