From Coq Require Import List Arith Bool Lia.
From Verif.Base Require Import ListX.
From Verif.Manager Require Import Model Proofs.
Import ListNotations.

(** C58: whatever the order in which the peer table, the partition and the global statistics reach a host, its partition is
    never lost: statistics are computed at most once, preprocessing starts at most once, no foreign data is stored; and when no message is left both
    have happened exactly once on the own partition. *)
Theorem C58_partition_processed_once : forall data is_reader (own : data) s, reachable is_reader own s ->
  calcs s <= 1 /\ preps s <= 1
  /\ (stored s = None \/ stored s = Some own)
  /\ (mailbox s = [] -> network s = [] -> calcs s = 1 /\ preps s = 1 /\ stored s = Some own).
Proof. intros data is_reader own. apply manager_once. Qed.
Print Assumptions C58_partition_processed_once.

(** The partition arrives before the peer table and is buffered. *)
Example C58_example : exists s, reachable false 5 s /\ partition_buffer s = [5] /\ connected s = false.
Proof.
  eexists. split.
  - eapply r_step; [eapply r_step; [apply r_start|apply (arrive 5 _ [MLoad] (MPart 5) []); reflexivity]|].
    eapply act. cbn. reflexivity.
  - split; reflexivity.
Qed.
(** ... and a complete run exists. *)
Example C58_example_end : exists s, reachable false 5 s /\ mailbox s = [] /\ network s = [] /\ preps s = 1.
Proof.
  pose proof (r_start false 5) as H.
  match type of H with reachable _ _ ?s => pose proof (r_step _ _ _ _ H (arrive 5 s [MLoad] (MPart 5) [] eq_refl)) as H'; clear H; rename H' into H; cbn in H end.
  match type of H with reachable _ _ ?s => pose proof (r_step _ _ _ _ H (act 5 s (MPart 5) [] eq_refl)) as H'; clear H; rename H' into H; cbn in H end.
  match type of H with reachable _ _ ?s => pose proof (r_step _ _ _ _ H (arrive 5 s [] MLoad [] eq_refl)) as H'; clear H; rename H' into H; cbn in H end.
  match type of H with reachable _ _ ?s => pose proof (r_step _ _ _ _ H (act 5 s MLoad [] eq_refl)) as H'; clear H; rename H' into H; cbn in H end.
  match type of H with reachable _ _ ?s => pose proof (r_step _ _ _ _ H (act 5 s (MPart 5) [] eq_refl)) as H'; clear H; rename H' into H; cbn in H end.
  match type of H with reachable _ _ ?s => pose proof (r_step _ _ _ _ H (arrive 5 s [MMinMaxDone] MStdDone [] eq_refl)) as H'; clear H; rename H' into H; cbn in H end.
  match type of H with reachable _ _ ?s => pose proof (r_step _ _ _ _ H (act 5 s MStdDone [] eq_refl)) as H'; clear H; rename H' into H; cbn in H end.
  match type of H with reachable _ _ ?s => pose proof (r_step _ _ _ _ H (arrive 5 s [] MMinMaxDone [] eq_refl)) as H'; clear H; rename H' into H; cbn in H end.
  match type of H with reachable _ _ ?s => pose proof (r_step _ _ _ _ H (act 5 s MMinMaxDone [] eq_refl)) as H'; clear H; rename H' into H; cbn in H end.
  eexists. split; [exact H|]. repeat split.
Qed.
