From Coq Require Import List Arith Bool Lia Permutation Reals Lra.
From Verif.Base Require Import Res ListX Params.
From Verif.Transition Require Import Model.
From Verif.Segmentation Require Import Model.
From Verif.Nodes Require Import Model.
From Verif.Geometry Require Import Model Spec Proofs Crossing.
From Verif.Kde Require Import Real.
From Verif.Intersections Require Import Model Real.
From Verif.Protocol Require Import Model Pool PoolProofs Workers WorkersProofs.
Import ListNotations.

(** C110, release builds.  A failing task ends the process: no execution of the analysis waits for an answer that does not come, whatever the tasks, the threads and the order of events. *)
Theorem C110_release : forall T A (work : T -> res A) running tasks t q,
  In t tasks -> work t = Panic q -> 1 <= running ->
  (forall w, history work true (sent_off running tasks) w -> at_rest work true w -> ended w = true /\ proceeds (asker w) = 0)
  (** and every execution comes to rest *)
  /\ (forall f, ~ forall i, happens work true (f i) (f (S i))).
Proof.
  intros T A work running tasks t q I E Hr. split; [|apply no_infinite]. intros w H Z. pose proof (ended_history work true running _ _ H) as W. apply reached in H.
  assert (Hn : tasks <> []) by (intros ->; destruct I).
  destruct (all_tasks_used work running tasks w t q H I E) as (arr & R & C). split.
  - destruct (ended w) eqn:En; [reflexivity|]. exfalso. destruct (rest_inv work true _ _ _ Hn H Z En) as (_ & QT).
    unfold ended_why in W. rewrite En in W. cbn [threads ended sent_off] in W. specialize (W ltac:(lia)).
    destruct H as (lost & fin & arr' & P & _ & N & Q & _). destruct lost as [|x lost]; [|cbn [length] in N; lia].
    destruct QT as [QT|QT]; [|lia]. rewrite QT in P. cbn [app] in P.
    assert (J : In (work t) (map Ok (arr' ++ under_way w))) by (eapply Permutation_in; [symmetry; exact Q|]; apply in_map; eapply Permutation_in; eauto).
    rewrite E in J. apply in_map_iff in J. destruct J as (a & J & _). discriminate J.
  - rewrite run_pool_ok in R; [|destruct tasks; [contradiction|cbn; lia]|lia]. injection R as <-. cbn [proceeds].
    destruct (Nat.eqb_spec (length arr) (length tasks)); [lia|reflexivity].
Qed.
Print Assumptions C110_release.

(** All other builds: the requester never goes on, never aborts, the process never ends, and every execution comes to rest: the analysis waits for ever. *)
Theorem C110_waits_forever_refuted : forall T A (work : T -> res A) running tasks t q,
  In t tasks -> work t = Panic q ->
  (forall w, history work false (sent_off running tasks) w -> proceeds (asker w) = 0 /\ ended w = false /\ ~ requester_fails w)
  /\ (forall f, ~ forall i, happens work false (f i) (f (S i))).
Proof.
  intros T A work running tasks t q I E. split; [|apply no_infinite]. intros w H. pose proof (ended_history work false running _ _ H) as W. apply reached in H.
  assert (Hn : tasks <> []) by (intros ->; destruct I).
  split; [|split].
  - destruct (all_tasks_used work running tasks w t q H I E) as (arr & R & C).
    rewrite run_pool_ok in R; [|destruct tasks; [contradiction|cbn; lia]|lia]. injection R as <-. cbn [proceeds].
    destruct (Nat.eqb_spec (length arr) (length tasks)); [lia|reflexivity].
  - exact (W eq_refl).
  - intros (_ & l & a & r & q' & U & F). destruct (next_answer work _ _ _ _ _ _ Hn H U) as (s & S1). congruence.
Qed.
Print Assumptions C110_waits_forever_refuted.

(** Helpers that cannot even be built (no thread runs): the same. *)
Theorem C110_no_helper_refuted : forall T A (work : T -> res A) tasks, tasks <> [] ->
  forall w, history work false (sent_off 0 tasks) w -> w = sent_off 0 tasks.
Proof.
  intros T A work tasks Hn w H. remember (sent_off 0 tasks) as w0 eqn:E. destruct H as [w|w1 w2 w3 H K]; [reflexivity|]. exfalso.
  unfold sent_off in E. destruct H as [? ? ? ? ? ? ? ?|? ? ? ? ? ? ? ?|? ? l a r ? ? ?]; injection E; intros; try discriminate. destruct l; discriminate.
Qed.
Print Assumptions C110_no_helper_refuted.

(** The other direction: with at least one thread and no failing task the requester goes on exactly once, and has the answers of all tasks, each once. *)
Theorem C110_goes_on_partial : forall T A (work : T -> res A) release running tasks w,
  tasks <> [] -> 1 <= running -> (forall t, In t tasks -> exists a, work t = Ok a) ->
  history work release (sent_off running tasks) w ->
  (exists w', history work release w w' /\ at_rest work release w')
  /\ (at_rest work release w -> proceeds (asker w) = 1 /\ Permutation (map Ok (answers (asker w))) (map work tasks)).
Proof.
  intros T A work release running tasks w Hn Hr Hok H. pose proof (still_running work release running tasks w Hok H) as En. apply reached in H. split.
  - revert H En. induction w as [w IH] using (well_founded_induction (Wf_nat.well_founded_ltof _ measure)). intros H En.
    destruct (under_way w) as [|a r] eqn:U.
    + destruct (queue w) as [|t r] eqn:Q.
      * exists w. split; [constructor|]. intros w' Z. destruct Z; cbn [queue under_way] in *;
          match goal with Z : ?l ++ _ :: _ = [] |- _ => symmetry in Z; now apply app_cons_not_nil in Z end.
      * pose proof H as (lost & fin & arr & P & L & N & _).
        assert (E : lost = []).
        { destruct lost as [|x lost]; [reflexivity|]. exfalso. destruct (L x (or_introl eq_refl)) as (q & Wx).
          destruct (Hok x) as (a & Wa); [|congruence]. eapply Permutation_in; [symmetry; exact P|]. rewrite Q. right. apply in_or_app. right. now left. }
        subst lost. cbn [length] in N. destruct w as [qu k fl a0 en]. cbn [queue threads under_way asker ended] in *. subst qu fl en. destruct k as [|k]; [lia|].
        destruct (Hok t) as (a & Wt); [eapply Permutation_in; [symmetry; exact P|]; now left|].
        pose proof (finishes work release [] t r k [] a0 a Wt) as St. destruct (IH _ (measure_step work release _ _ St)) as (w' & K & Z).
        { eapply accounted_step; eauto. }
        { reflexivity. }
        exists w'. split; [eapply later; eauto|exact Z].
    + destruct (next_answer work _ _ w [] a r Hn H U) as (s & S1). destruct w as [qu k fl a0 en]. cbn [queue threads under_way asker ended] in *. subst fl en.
      pose proof (handles work release qu k [] a r a0 s S1) as St. destruct (IH _ (measure_step work release _ _ St)) as (w' & K & Z).
      { eapply accounted_step; eauto. }
        { reflexivity. }
      exists w'. split; [eapply later; eauto|exact Z].
  - intros Z. destruct (rest_inv work release _ _ _ Hn H Z En) as (U & QT). destruct H as (lost & fin & arr & P & L & N & Q & R).
    assert (E : lost = []).
    { destruct lost as [|x lost]; [reflexivity|]. exfalso. destruct (L x (or_introl eq_refl)) as (q & Wx).
      destruct (Hok x) as (a & Wa); [|congruence]. eapply Permutation_in; [symmetry; exact P|]. apply in_or_app. right. now left. }
    subst lost. cbn [length] in N. destruct QT as [QT|QT]; [|lia]. rewrite QT in P. cbn [app] in P. rewrite U, app_nil_r in Q.
    assert (Ln : length arr = length tasks).
    { apply Permutation_length in P. apply Permutation_length in Q. rewrite !map_length in Q. lia. }
    rewrite run_pool_ok in R; [|destruct tasks; [contradiction|cbn; lia]|lia]. injection R as <-. cbn [proceeds answers]. rewrite Ln, Nat.eqb_refl. split; [reflexivity|].
    etransitivity; [exact Q|]. apply Permutation_map. now symmetry.
Qed.
Print Assumptions C110_goes_on_partial.

(** The crossings of a host: one message with all pairs of transition and segment for one helper thread, intersection_calculation/mod.rs:166-218, helper.rs:44-48.
    One pair without a crossing stops the host for good, although every other pair has one. *)
Theorem C110_crossings_refuted : forall C (cross : list transition -> transition -> nat -> res C) p ts t s q,
  In (t, s) (tasks_of p ts) -> cross ts t s = Panic q ->
  forall w, history (mapM (cross_task cross ts)) false (sent_off 1 [rev (tasks_of p ts)]) w -> proceeds (asker w) = 0 /\ ended w = false /\ ~ requester_fails w.
Proof.
  intros C cross p ts t s q I E w H.
  assert (F : exists q', mapM (cross_task cross ts) (rev (tasks_of p ts)) = Panic q').
  { clear w H. apply in_rev in I. revert I. induction (rev (tasks_of p ts)) as [|x l IH]; intros I; [destruct I|]. cbn [mapM]. destruct I as [->|I].
    - unfold cross_task at 1. cbn [fst snd]. rewrite E. eexists; reflexivity.
    - destruct (cross_task cross ts x) as [c|q1]; cbn [bind]; [|eexists; reflexivity]. destruct (IH I) as (q' & ->). eexists; reflexivity. }
  destruct F as (q' & F). exact (proj1 (C110_waits_forever_refuted _ _ _ 1 [rev (tasks_of p ts)] _ q' (or_introl eq_refl) F) w H).
Qed.
Print Assumptions C110_crossings_refuted.

(** Two tasks and two threads; the second task fails: the first answer is handled, then nothing happens any more. *)
Definition halves (n : nat) : res nat := if n =? 3 then Panic Explicit else Ok (n / 2).
Example C110_case : exists w, history halves false (sent_off 2 [8; 3]) w /\ at_rest halves false w /\ answers (asker w) = [4] /\ proceeds (asker w) = 0 /\ threads w = 1.
Proof.
  eexists. split; [|split; [|split; [|split]]].
  - unfold sent_off. eapply later; [exact (breaks halves false [8] 3 [] 1 [] _ Explicit eq_refl)|]. cbn [app].
    eapply later; [exact (finishes halves false [] 8 [] 0 [] _ 4 eq_refl)|]. cbn [app].
    eapply later; [eapply (handles halves false [] 1 [] 4 []); reflexivity|]. constructor.
  - intros w' Z. remember {| queue := _; threads := _; under_way := _; asker := _; ended := _ |} as w eqn:E in Z. destruct Z as [l ? ? ? ? ? ? ?|l ? ? ? ? ? ? ?|? ? l ? ? ? ? ?]; injection E; intros; destruct l; discriminate.
  - reflexivity.
  - reflexivity.
  - reflexivity.
Qed.
(** The same tasks in a release build. *)
Example C110_release_case : exists w, history halves true (sent_off 2 [8; 3]) w /\ at_rest halves true w /\ ended w = true.
Proof.
  eexists. split; [|split].
  - unfold sent_off. eapply later; [exact (breaks halves true [8] 3 [] 1 [] _ Explicit eq_refl)|]. constructor.
  - intros w' Z. remember {| queue := _; threads := _; under_way := _; asker := _; ended := _ |} as w eqn:E in Z. destruct Z; discriminate E.
  - reflexivity.
Qed.
(** One thread, both tasks succeed. *)
Example C110_good_case : exists w, history halves true (sent_off 1 [8; 6]) w /\ at_rest halves true w /\ answers (asker w) = [3; 4] /\ proceeds (asker w) = 1.
Proof.
  eexists. split; [|split; [|split]].
  - unfold sent_off. eapply later; [exact (finishes halves true [8] 6 [] 0 [] _ 3 eq_refl)|]. cbn [app].
    eapply later; [exact (finishes halves true [] 8 [] 0 [3] _ 4 eq_refl)|]. cbn [app].
    eapply later; [eapply (handles halves true [] 1 [] 3 [4]); reflexivity|]. cbn [app].
    eapply later; [eapply (handles halves true [] 1 [] 4 []); reflexivity|]. constructor.
  - intros w' Z. remember {| queue := _; threads := _; under_way := _; asker := _; ended := _ |} as w eqn:E in Z. destruct Z as [l ? ? ? ? ? ? ?|l ? ? ? ? ? ? ?|? ? l ? ? ? ? ?]; injection E; intros; destruct l; discriminate.
  - reflexivity.
  - reflexivity.
Qed.

Local Open Scope R_scope.
(** The failing crossing of C64 as a host meets it: three points, the second opposite to the first and the third; the transition from the second to the third point has no crossing
    with border 0.  For every right way of inverting matrices the host waits for ever. *)
Definition opposite_points : list (list R) := [[1; 0]; [-1; 0]; [1; 0]].
Definition opposite_transitions : list transition :=
  [({| pid := 0; pseg := 0 |}, {| pid := 1; pseg := 4 |}); ({| pid := 1; pseg := 4 |}, {| pid := 2; pseg := 0 |})].
Definition opposite_params : params := {| rate := 8; n_threads := 1; n_cluster_nodes := 1; pattern_length := 2; latent := 1; query_length := 1; column_start := 0; column_end := 0%Z; self_correction := false |}.
Theorem C110_opposite_points_refuted : forall inv, (forall m m', inv m = Some m' -> left_inverse 2 m' m) ->
  (forall i x y s, nth_error opposite_points i = Some [x; y] -> nth_error [0; 4; 0]%nat i = Some s -> in_sector 8 s x y)
  /\ forall w, history (mapM (cross_task (real_cross inv 8 opposite_points) opposite_transitions)) false (sent_off 1 [rev (tasks_of opposite_params opposite_transitions)]) w ->
       proceeds (asker w) = 0%nat /\ ended w = false /\ ~ requester_fails w.
Proof.
  intros inv Hinv. pose proof PI_RGT_0 as Hpi. split.
  - assert (P0 : in_sector 8 0 1 0) by (exists 0; split; [cbn; lra|]; exists 1; rewrite cos_0, sin_0; lra).
    assert (P4 : in_sector 8 4 (-1) 0) by (exists PI; split; [cbn; lra|]; exists 1; rewrite cos_PI, sin_PI; lra).
    intros i x y s Hx Hs. destruct i as [|[|[|i]]]; cbn in Hx, Hs; try (injection Hx as <- <-; injection Hs as <-; assumption). destruct i; discriminate.
  - apply (C110_crossings_refuted _ _ _ _ ({| pid := 1; pseg := 4 |}, {| pid := 2; pseg := 0 |}) 0%nat Explicit).
    + vm_compute. tauto.
    + unfold real_cross. cbn -[border_intersection plane_radius Rmax Rmin Rabs].
      rewrite parallel_none; [reflexivity|exact Hinv|]. unfold border_angle. cbn [nth].
      replace (2 * PI * INR 0 / INR 8) with 0 by (cbn; field). rewrite cos_0, sin_0. ring.
Qed.
Print Assumptions C110_opposite_points_refuted.
