From Coq Require Import List Arith Bool Lia Permutation.
From Verif.Base Require Import Res Params Assoc ListX.
From Verif.Transition Require Import Spec Proofs.
From Verif.Segmentation Require Import Model Spec Handover Blocks Proofs PathProofs HandoverProofs.
From Verif.Nodes Require Import Model Spec.
Import ListNotations.

Section Cover.
Variable p : params.
Hypothesis HN : 1 <= n_cluster_nodes p <= rate p.
Notation N := (n_cluster_nodes p).
Notation r := (rate p).

Lemma departure_not_visited : forall ts t, (forall u, In u ts -> fine p u /\ usable r u = true) -> NoDup (map from_id ts) -> In t ts -> ~ In (departure t) (path r ts).
Proof.
  intros ts t F ND Ht Hi. unfold path in Hi. apply in_concat in Hi. destruct Hi as (l & Hl & Hi). apply in_map_iff in Hl. destruct Hl as (u & <- & Hu).
  assert (E : u = t).
  { pose proof (in_visits p u _ Hi) as E. cbn [departure fst] in E. destruct (in_split u ts Hu) as (l1 & l2 & ->). rewrite map_app in ND. cbn [map] in ND. apply NoDup_remove_2 in ND.
    apply in_app_or in Ht. destruct Ht as [Ht|[Ht|Ht]]; [exfalso; apply ND, in_or_app; left; rewrite <- E; now apply in_map|exact Ht|exfalso; apply ND, in_or_app; right; rewrite <- E; now apply in_map]. }
  subst u. destruct (F t Ht) as ((Hf & _) & Ut). pose proof (usable_span p t Ut) as Hs. pose proof (half_bounds r) as Hh. unfold visits in Hi. apply in_map_iff in Hi. destruct Hi as (lag & E & Hlag). apply in_seq in Hlag.
  change (ccw r (pseg (fst t)) (pseg (snd t))) with (span p t) in Hlag. unfold departure, from_id in E. injection E as E. unfold from_segment in *.
  assert (X : (pseg (fst t) + lag) mod r <> pseg (fst t)); [|contradiction].
  destruct (Nat.lt_ge_cases (pseg (fst t) + lag) r) as [Hl|Hl]; [rewrite Nat.mod_small by exact Hl; lia|].
  rewrite <- (Nat.mod_unique (pseg (fst t) + lag) r 1 (pseg (fst t) + lag - r)); lia.
Qed.

Section Concat.
Variable us : nat -> list transition.
Lemma steps_concat : forall n s prev q, (forall k, s <= k < s + n -> us k <> []) ->
  (In q (steps_all p prev (concat (map us (seq s n)))) <-> exists k, s <= k < s + n /\ In q (steps_all p (if k =? s then prev else last_opt None (us (k - 1))) (us k))).
Proof.
  induction n as [|n IH]; intros s prev q Hne.
  - cbn. split; [easy|]. intros (k & Hk & _). lia.
  - cbn [seq map concat]. rewrite steps_all_app, in_app_iff. rewrite (IH (S s)) by (intros; apply Hne; lia). split.
    + intros [H|(k & Hk & H)]; [exists s; split; [lia|now rewrite Nat.eqb_refl]|]. exists k. split; [lia|]. destruct (Nat.eqb_spec k s) as [|_]; [lia|].
      destruct (Nat.eqb_spec k (S s)) as [->|_]; [|exact H]. replace (S s - 1) with s by lia. destruct (us s) as [|t l] eqn:E; [exfalso; apply (Hne s); [lia|exact E]|]. 
      rewrite (last_opt_some _ (t :: l) t) by discriminate. revert H. assert (Ex : forall pv, last_opt pv (t :: l) = Some (last (t :: l) t)); [|now rewrite Ex].
      intros pv. destruct (exists_last (l := t :: l)) as (l' & x & El); [discriminate|]. rewrite El. now rewrite last_opt_app, last_last.
    + intros (k & Hk & H). destruct (Nat.eqb_spec k s) as [->|Hks]; [now left|]. right. exists k. split; [lia|]. destruct (Nat.eqb_spec k (S s)) as [->|_]; [|exact H].
      replace (S s - 1) with s in H by lia. destruct (us s) as [|t l] eqn:E; [exfalso; apply (Hne s); [lia|exact E]|].
      assert (Ex : forall pv, last_opt pv (t :: l) = Some (last (t :: l) t)); [|rewrite Ex in *; exact H].
      intros pv. destruct (exists_last (l := t :: l)) as (l' & x & El); [discriminate|]. rewrite El. now rewrite last_opt_app, last_last.
Qed.
End Concat.

Variable part : nat -> list pt.
Hypothesis Hfine : forall k, k < N -> all_fine p (part k).
Hypothesis Husable : forall k, k < N -> usable_pairs r (part k) <> [].
Hypothesis Hids : NoDup (map pid (concat (map part (seq 0 N)))).
Hypothesis Hborder : forall k, k + 1 < N -> border_asked p part k.
Notation us k := (usable_pairs r (extended part N k)).
Notation ALL := (usable_pairs r (concat (map part (seq 0 N)))).

Lemma ne : forall k, k < N -> part k <> [].
Proof. intros k Hk E. apply (Husable k Hk). rewrite E. reflexivity. Qed.
Lemma us_split : forall k, k < N -> exists more, us k = usable_pairs r (part k) ++ more.
Proof.
  intros k Hk. unfold extended. destruct (Nat.ltb_spec (k + 1) N) as [H|H]; [|exists []; now rewrite !app_nil_r]. destruct (part (k + 1)) as [|a l] eqn:E; [exists []; cbn; now rewrite !app_nil_r|].
  cbn [firstn]. rewrite (usable_snoc p (part k) a a (ne k Hk)). eauto.
Qed.
Lemma us_ne : forall k, k < N -> us k <> [].
Proof. intros k Hk E. destruct (us_split k Hk) as (m & Em). rewrite Em in E. apply app_eq_nil in E. now apply (Husable k Hk). Qed.
Lemma all_concat : ALL = concat (map (fun k => us k) (seq 0 N)).
Proof. exact (usable_all p HN part Hfine Husable N 0 ltac:(intros k Hk; apply ne; lia)). Qed.
Lemma all_fine_all : all_fine p (concat (map part (seq 0 N))).
Proof. intros x Hx. apply in_concat in Hx. destruct Hx as (l & Hl & Hx). apply in_map_iff in Hl. destruct Hl as (k & <- & Hk). apply in_seq in Hk. now apply (Hfine k ltac:(lia)). Qed.
Lemma fine_all : forall t, In t ALL -> fine p t /\ usable r t = true.
Proof. intros t Ht. exact (fine_pairs p HN _ t all_fine_all Ht). Qed.
Lemma us_in : forall k t, k < N -> In t (us k) -> In t ALL.
Proof. intros k t Hk Ht. rewrite all_concat. apply in_concat. exists (us k). split; [|exact Ht]. apply in_map with (f := fun k => us k). apply in_seq. lia. Qed.

Variable w : hworld.
Hypothesis Hr : hreachable p part false w.
Hypothesis Hs : hstuck p part false w.
Notation asked_by k := (asked (segmentation_of (phase_of w k))).

Lemma asked_collected : forall k, k < N -> asked_by k = record p (collected p part N k) [].
Proof.
  intros k Hk. pose proof (hinv_reachable p HN part Hfine Husable w Hr) as HI. pose proof (hstuck_done p HN part Hfine Husable w HI Hs k Hk) as Hd.
  destruct HI as (_ & _ & _ & _ & I4). specialize (I4 k Hk). destruct (phase_of w k); try discriminate. apply I4.
Qed.
Lemma asked_iff : forall k a b q, k < N -> In q (questions_of (asked_by k) b a) <-> (In q (steps_all p None (us k)) \/ In q (bridge p part N k)) /\ between_hosts p a b q = true.
Proof.
  intros k a b q Hk. rewrite asked_collected by exact Hk. rewrite questions_of_record_nil, in_dedup. unfold collected. rewrite filter_app, in_app_iff.
  rewrite (in_questions p HN) by (intros t Ht; apply fine_all; eapply us_in; eauto). rewrite filter_In. tauto.
Qed.

(** Where the questions of one host come from. *)
Lemma bridge_in : forall k q, k < N -> In q (bridge p part N k) -> k + 1 < N /\ In q (steps_all p (last_opt None (us k)) (us (k + 1))).
Proof.
  intros k q Hk H. unfold bridge in H. destruct (Nat.ltb_spec (k + 1) N) as [Hk1|]; [|easy]. split; [exact Hk1|]. destruct (part (k + 1)) as [|a l] eqn:Ep; [easy|].
  destruct (us_split (k + 1) Hk1) as (more & Em). rewrite Ep in Em. destruct (usable_pairs r (a :: l)) as [|t u]; [easy|]. cbn [app] in Em. rewrite Em. cbn [hd_error app steps_all] in *.
  destruct (usable r (last (part k) a, a)) eqn:U; [easy|].
  assert (E : us k = usable_pairs r (part k)). { unfold extended. destruct (Nat.ltb_spec (k + 1) N); [|lia]. rewrite Ep. cbn [firstn]. rewrite (usable_snoc p (part k) a a (ne k Hk)), U. apply app_nil_r. }
  rewrite E. rewrite (last_opt_some _ _ t (Husable k Hk)) in *. cbn [between_asks] in H. destruct (_ =? _); [easy|]. destruct H as [<-|[]]. apply in_or_app. left.
  assert (Ht : In t ALL). { apply (us_in (k + 1)); [exact Hk1|]. rewrite Em. now left. }
  destruct (fine_all t Ht) as (_ & Ut).
  destruct (steps1_prev p HN (last (usable_pairs r (part k)) t) t Ut) as (rest & -> & _). now left.
Qed.

Theorem cover : questions_cover p (path r ALL) (fun k => asked_by k).
Proof.
  assert (Steps : forall q, In q (steps_all p None ALL) <-> exists k, k < N /\ In q (steps_all p (if k =? 0 then None else last_opt None (us (k - 1))) (us k))).
  { intros q. rewrite all_concat. rewrite (steps_concat (fun k => us k) N 0 None q) by (intros k Hk; apply us_ne; lia). split; intros (k & Hk & H); exists k; (split; [lia|exact H]). }
  assert (Hne : ALL <> []). { intros E. pose proof (us_ne 0 ltac:(lia)) as H0. destruct (us 0) as [|t u] eqn:E0; [congruence|]. pose proof (us_in 0 t ltac:(lia)) as Hi. rewrite E0, E in Hi. apply Hi. now left. }
  destruct ALL as [|t0 rest0] eqn:EALL; [congruence|]. rewrite <- EALL in *.
  assert (Epairs : steps_all p None ALL = map as_question (pairs (departure t0 :: path r ALL))). { rewrite (steps_all_pairs p HN _ None fine_all), EALL. reflexivity. }
  assert (Hpath : exists z l, path r ALL = z :: l).
  { rewrite EALL. unfold path. cbn [map concat]. assert (V : visits r t0 <> []) by (apply (visits_nonempty p HN), fine_all; rewrite EALL; now left). destruct (visits r t0); [congruence|]. cbn. eauto. }
  destruct Hpath as (z & l & Epath).
  assert (Eall : steps_all p None ALL = as_question (departure t0, z) :: map as_question (pairs (path r ALL))). { rewrite Epairs, Epath. reflexivity. }
  assert (ND : NoDup (map from_id ALL)) by (apply (pairs_ids_nodup p); exact Hids).
  split.
  - intros s a b Hst B. assert (Hq : In (as_question s) (steps_all p None ALL)) by (rewrite Eall; right; now apply in_map).
    apply Steps in Hq. destruct Hq as (k & Hk & Hq). destruct (Nat.eqb_spec k 0) as [->|Hk0].
    + exists 0. split; [exact Hk|]. apply asked_iff; auto.
    + destruct (us_split k Hk) as (more & Em). pose proof (Husable k Hk) as Huk. destruct (usable_pairs r (part k)) as [|t u] eqn:Eu; [congruence|]. cbn [app] in Em.
      assert (Ft : fine p t /\ usable r t = true) by (apply fine_all, (us_in k _ Hk); rewrite Em; now left). destruct Ft as (_ & Ut).
      pose proof (us_ne (k - 1) ltac:(lia)) as Hpn. rewrite (last_opt_some _ _ t Hpn) in Hq. set (before := last (us (k - 1)) t) in *.
      destruct (steps1_prev p HN before t Ut) as (rest & R1 & R2). rewrite Em in Hq. cbn [steps_all] in Hq. rewrite R1 in Hq. cbn [app] in Hq. destruct Hq as [Hq|Hq].
      * (* the step over the border *)
        destruct (part k) as [|a0 l0] eqn:Epk; [exfalso; exact (ne k Hk Epk)|].
        assert (Eb : us (k - 1) = usable_pairs r (part (k - 1) ++ [a0])). { unfold extended. destruct (Nat.ltb_spec (k - 1 + 1) N); [|lia]. replace (k - 1 + 1) with k by lia. now rewrite Epk. }
        pose proof (Hborder (k - 1) ltac:(lia)) as HB. unfold border_asked in HB. replace (k - 1 + 1) with k in HB by lia. rewrite Epk in HB. specialize (HB a0 t eq_refl). rewrite Eu in HB. specialize (HB eq_refl). cbv zeta in HB. rewrite <- Eb in HB. fold before in HB.
        exists (k - 1). split; [lia|]. apply asked_iff; [lia|]. split; [|exact B]. right.
        destruct HB as [HB|(U & Ho)].
        -- exfalso. rewrite <- Hq in B. apply (bh_spec p HN) in B. destruct B as (B1 & B2 & B3). unfold first_question in B1, B2. cbn in B1, B2. apply B3. rewrite <- B1, <- B2. exact HB.
        -- unfold bridge. destruct (Nat.ltb_spec (k - 1 + 1) N); [|lia]. replace (k - 1 + 1) with k by lia. rewrite Epk, Eu. cbn [hd_error]. rewrite U.
           assert (Ep : us (k - 1) = usable_pairs r (part (k - 1))). { rewrite Eb, (usable_snoc p (part (k - 1)) a0 a0 (ne (k - 1) ltac:(lia))), U. apply app_nil_r. }
           rewrite <- Ep, (last_opt_some _ _ t Hpn). fold before. cbn [between_asks]. unfold from_segment, to_segment. destruct (Nat.eqb_spec (owner p (pseg (fst t))) (owner p (pseg (snd before)))); [contradiction|]. now left.
      * exists k. split; [exact Hk|]. apply asked_iff; [exact Hk|]. split; [|exact B]. left. rewrite Em. cbn [steps_all]. rewrite R2. cbn [app]. now right.
  - intros k a b q Hk Hq. apply asked_iff in Hq; [|exact Hk]. destruct Hq as (Hq & B). split; [exact B|].
    assert (Cases : In q (steps_all p None ALL) \/ exists t u, us k = t :: u /\ q = as_question (departure t, hd (0, 0) (visits r t))).
    { destruct Hq as [Hq|Hq].
      - destruct (us k) as [|t u] eqn:E; [easy|]. assert (Ht : In t ALL) by (apply (us_in k _ Hk); rewrite E; now left). destruct (fine_all t Ht) as (Ft & Ut).
        destruct (Nat.eqb_spec k 0) as [->|Hk0]; [left; apply Steps; exists 0; split; [exact Hk|]; rewrite E; exact Hq|].
        cbn [steps_all] in Hq. destruct (steps1_prev p HN (last (us (k - 1)) t) t Ut) as (rest & R1 & R2). rewrite R2 in Hq. cbn [app] in Hq. destruct Hq as [Hq|Hq].
        + right. exists t, u. split; [reflexivity|]. pose proof (steps1_pairs p HN None t Ft Ut) as Es. rewrite R2 in Es. pose proof (visits_nonempty p HN t Ut) as Hv. destruct (visits r t) as [|v vs]; [congruence|].
          change (pairs (start_of None t :: v :: vs)) with ((start_of None t, v) :: pairs (v :: vs)) in Es. cbn [map start_of] in Es. rewrite <- Hq. exact (f_equal (hd q) Es).
        + left. apply Steps. exists k. split; [exact Hk|]. destruct (Nat.eqb_spec k 0); [lia|]. rewrite (last_opt_some _ _ t (us_ne (k - 1) ltac:(lia))). rewrite E. cbn [steps_all]. rewrite R1. cbn [app]. now right.
      - left. destruct (bridge_in k q Hk Hq) as (Hk1 & Hi). apply Steps. exists (k + 1). split; [exact Hk1|]. destruct (Nat.eqb_spec (k + 1) 0); [lia|]. now replace (k + 1 - 1) with k by lia. }
    assert (Dep : forall t c, In t ALL -> In c (path r ALL) -> q = as_question (departure t, c) ->
       In (q_id q, q_segment q) (path r ALL) /\ (In (q_prev_id q, q_prev_segment q) (path r ALL) -> In q (map as_question (pairs (path r ALL))))).
    { intros t c Ht Hc ->. cbn [as_question q_id q_segment q_prev_id q_prev_segment fst snd]. rewrite <- surjective_pairing. split; [exact Hc|]. intros H. exfalso. exact (departure_not_visited ALL t fine_all ND Ht H). }
    destruct Cases as [H|(t & u & E & Eq)].
    + rewrite Eall in H. destruct H as [H|H].
      * apply (Dep t0 z); [rewrite EALL; now left|rewrite Epath; now left|now symmetry].
      * split; [|intros _; exact H]. apply in_map_iff in H. destruct H as ((c1 & c2) & <- & Hi). cbn. rewrite <- surjective_pairing.
        assert (G : forall (L : list (nat * nat)) x y, In (x, y) (pairs L) -> In y L).
        { induction L as [|x L IH]; [easy|]. destruct L as [|y L]; [easy|]. intros x' y' [E|H]; [injection E as <- <-; right; now left|right; eapply IH; exact H]. }
        exact (G _ _ _ Hi).
    + assert (Ht : In t ALL) by (apply (us_in k _ Hk); rewrite E; now left). destruct (fine_all t Ht) as (_ & Ut). apply (Dep t (hd (0, 0) (visits r t))); [exact Ht| |exact Eq].
      unfold path. apply in_concat. exists (visits r t). split; [now apply in_map|]. pose proof (visits_nonempty p HN t Ut) as Hv. destruct (visits r t); [congruence|now left].
Qed.
End Cover.
