(** Every stage of a cluster has a complete execution: as long as something can be done, something is done, and this ends. *)
From Coq Require Import List Arith Bool Lia.
From Verif.Base Require Import Res Params ListX.
From Verif.Segmentation Require Import Model Handover HandoverProofs.
From Verif.Protocol Require Import Model Exchange ExchangeProofs Ring RingProofs.
From Verif.Scoring Require Import Model Overlap AssembleProofs.
From Verif.Pipeline Require Import Cluster.
Import ListNotations.

Lemma completes : forall W (R : W -> Prop) (step : W -> W -> Prop) (a b : W -> nat),
  (forall w, R w -> (exists w', step w w') \/ forall w', ~ step w w') ->
  (forall w w', R w -> step w w' -> R w' /\ (a w' < a w \/ a w' = a w /\ b w' < b w)) ->
  forall w, R w -> exists w', R w' /\ forall w'', ~ step w' w''.
Proof.
  intros W R step a b Dec Dn. assert (G : forall x y w, a w < x -> b w < y -> R w -> exists w', R w' /\ forall w'', ~ step w' w'').
  { induction x as [|x IHx]; intros y; [lia|]. induction y as [|y IHy]; intros w Ha Hb Hw; [lia|]. destruct (Dec w Hw) as [(w' & St)|St]; [|now exists w].
    destruct (Dn w w' Hw St) as (Hw' & [L|(E & L)]); [apply (IHx (S (b w')) w'); auto; lia|apply (IHy w'); auto; lia]. }
  intros w. apply (G (S (a w)) (S (b w))); lia.
Qed.

Lemma some_below : forall (f : nat -> bool) n, (exists k, k < n /\ f k = true) \/ forall k, k < n -> f k = false.
Proof.
  intros f. induction n as [|n IH]; [right; lia|]. destruct IH as [(k & Hk & E)|IH]; [left; exists k; split; [lia|exact E]|]. destruct (f n) eqn:E; [left; exists n; split; [lia|exact E]|].
  right. intros k Hk. destruct (Nat.eq_dec k n) as [->|]; [exact E|]. apply IH. lia.
Qed.
Lemma some_member : forall A (f : A -> bool) l, (exists a x b, l = a ++ x :: b /\ f x = true) \/ forall x, In x l -> f x = false.
Proof.
  intros A f. induction l as [|x l IH]; [right; intros x []|]. destruct (f x) eqn:E; [left; exists [], x, l; now split|]. destruct IH as [(a & y & b & -> & Ey)|IH]; [left; exists (x :: a), y, b; now split|].
  right. intros y [<-|Hy]; auto.
Qed.

(** ** Exchanges *)
Lemma exchange_completes : forall T (x : exchange T), exists w, reachable x w /\ stuck x w.
Proof.
  intros T x. apply (completes _ (reachable x) (step x) (weight x) (fun _ => 0)) with (w := initial); [| |constructor].
  - intros w _. destruct (net w) as [|[p m] r] eqn:En.
    + destruct (some_below (fun k => negb (entered (state w k))) (hosts x)) as [(k & Hk & E)|E].
      * left. eexists. apply (enters x w k Hk). now apply negb_true_iff.
      * right. intros w' St. inversion St as [w0 k Hk He|w0 k m l r E']; subst; [|rewrite En in E'; now destruct l]. specialize (E k Hk). apply negb_false_iff in E. congruence.
    + left. eexists. apply (delivers x w p m [] r). exact En.
  - intros w w' Hw St. split; [econstructor; eauto|]. left. apply (step_weight x); [|exact St]. now apply inv_reachable.
Qed.

(** ** The hand-over of first points *)
Lemma handover_completes : forall p part, exists w, hreachable p part false w /\ hstuck p part false w.
Proof.
  intros p part. apply (completes _ (hreachable p part false) (hstep p part false) (hmeasure p) (fun _ => 0)) with (w := hinitial); [| |constructor].
  - intros w _. destruct (some_below (fun k => negb (segmented (phase_of w k))) (n_cluster_nodes p)) as [(k & Hk & E)|E].
    + left. eexists. apply (segment_step p part false w k Hk). apply negb_true_iff in E. now destruct (phase_of w k).
    + destruct (some_member _ (fun m => segmented (phase_of w (fst m))) (first_points w)) as [(l & [k [a t]] & r & El & Es)|Es].
      * left. eexists. apply (first_point_step p part false w k a t l r El). right. intros H. cbn [fst] in Es. rewrite H in Es. discriminate.
      * right. intros w' St. inversion St as [w0 k Hk Hb|w0 k a t l r El Hb]; subst.
        -- specialize (E k Hk). rewrite Hb in E. discriminate.
        -- destruct Hb as [Hb|Hb]; [discriminate|]. specialize (Es (k, (a, t)) ltac:(rewrite El; apply in_elt)). cbn [fst] in Es. destruct (phase_of w k); try discriminate. now apply Hb.
  - intros w w' Hw St. split; [econstructor; eauto|]. left. eapply hmeasure_step; eauto.
Qed.

(** ** Rings *)
Lemma ring_completes : forall T n (c : nat -> T), 2 <= n -> exists w, rreachable n c not_overtaken w /\ rstuck n c w.
Proof.
  intros T n c Hn. destruct (completes _ (rreachable n c not_overtaken) (rstep n c not_overtaken) (rweight n) (fun _ => 0)) with (w := @rinitial T) as (w & Rw & Sw); [| |constructor|].
  - intros w _. destruct (some_below (fun k => match mailbox (node_of w k) with [] => false | _ => true end) n) as [(k & Hk & E)|E1].
    + left. destruct (mailbox (node_of w k)) as [|m r] eqn:Em; [discriminate|]. eexists. now apply (takes_in n c not_overtaken w k m r).
    + destruct (some_below (fun k => match transit w k with [] => false | _ => true end) n) as [(k & Hk & E)|E2].
      * left. destruct (transit w k) as [|m r] eqn:Em; [discriminate|]. eexists. now apply (arrives n c not_overtaken w k m r).
      * destruct (some_below (fun k => negb (begun (node_of w k))) n) as [(k & Hk & E)|E3].
        -- left. eexists. apply (begins n c not_overtaken w k Hk); [now apply negb_true_iff|]. right. specialize (E1 k Hk). now destruct (mailbox (node_of w k)).
        -- right. intros w' St. inversion St as [w0 k Hk Hb Ha|w0 k m r Hk Et|w0 k m r Hk Em]; subst.
           ++ specialize (E3 k Hk). rewrite Hb in E3. discriminate.
           ++ specialize (E2 k Hk). rewrite Et in E2. discriminate.
           ++ specialize (E1 k Hk). rewrite Em in E1. discriminate.
  - intros w w' Hw St. split; [econstructor; eauto|]. left. eapply (linv_step n); eauto. eapply linv_reachable; eauto.
  - exists w. split; [exact Rw|]. intros w' St. inversion St as [w0 k Hk Hb Ha|w0 k m r Hk Et|w0 k m r Hk Em]; subst.
    + destruct (mailbox (node_of w k)) as [|m r] eqn:Em; [|eapply Sw; apply (takes_in n c not_overtaken w k m r); eauto]. eapply Sw. apply (begins n c not_overtaken w k Hk Hb). now right.
    + eapply Sw. eapply (arrives n c not_overtaken w k m r); eauto.
    + eapply Sw. eapply (takes_in n c not_overtaken w k m r); eauto.
Qed.

(** ** The same exchange *)
Lemma enter_ext : forall T (x y : exchange T) p h, hosts x = hosts y -> to_self x = to_self y -> (forall j, bucket x p j = bucket y p j) -> enter x p h = enter y p h.
Proof. intros T x y p h E1 E2 E3. unfold enter, addressees. rewrite E1, E2. destruct (resolve_buffer _) as (pr & again). do 2 f_equal. apply map_ext. intros j. now rewrite E3. Qed.
Lemma step_ext : forall T (x y : exchange T) w w', hosts x = hosts y -> to_self x = to_self y -> (forall k j, k < hosts x -> bucket x k j = bucket y k j) -> step x w w' -> step y w w'.
Proof.
  intros T x y w w' E1 E2 E3 St. destruct St as [w p Hp He|w p m l r En]; [|now apply delivers]. rewrite (enter_ext T x y) by (auto; intros; now apply E3). apply enters; [congruence|exact He].
Qed.
Lemma reachable_ext : forall T (x y : exchange T) w, hosts x = hosts y -> to_self x = to_self y -> (forall k j, k < hosts x -> bucket x k j = bucket y k j) -> reachable x w -> reachable y w.
Proof. intros T x y w E1 E2 E3 R. induction R as [|w w' R IH St]; [constructor|]. econstructor; [exact IH|]. now apply (step_ext T x y). Qed.
Lemma stuck_ext : forall T (x y : exchange T) w, hosts x = hosts y -> to_self x = to_self y -> (forall k j, k < hosts x -> bucket x k j = bucket y k j) -> stuck x w -> stuck y w.
Proof. intros T x y w E1 E2 E3 St w' H. apply (St w'). apply (step_ext T y x); auto. intros k j Hk. symmetry. apply E3. now rewrite E1. Qed.
Lemma rstep_ext : forall T n (c c' : nat -> T) allowed w w', (forall k, k < n -> c k = c' k) -> rstep n c allowed w w' -> rstep n c' allowed w w'.
Proof.
  intros T n c c' allowed w w' E St. destruct St as [w p Hp Hb Ha|w p m r Hp Et|w p m r Hp Em]; [|now apply arrives|now apply takes_in].
  assert (Eb : begin_ring n c p (node_of w p) = begin_ring n c' p (node_of w p)) by (unfold begin_ring; now rewrite (E p Hp)). rewrite Eb. now apply begins.
Qed.
Lemma rreachable_ext : forall T n (c c' : nat -> T) allowed w, (forall k, k < n -> c k = c' k) -> rreachable n c allowed w -> rreachable n c' allowed w.
Proof. intros T n c c' allowed w E R. induction R as [|w w' R IH St]; [constructor|]. econstructor; [exact IH|]. now apply (rstep_ext T n c c'). Qed.
Lemma rstuck_ext : forall T n (c c' : nat -> T) w, (forall k, k < n -> c k = c' k) -> rstuck n c w -> rstuck n c' w.
Proof. intros T n c c' w E St w' H. apply (St w'). apply (rstep_ext T n c' c); auto. intros k Hk. symmetry. now apply E. Qed.

(** ** All hosts *)
Lemma choose : forall A N (R : nat -> A -> Prop), 1 <= N -> (forall h, h < N -> exists a, R h a) -> exists r, forall h, h < N -> R h (r h).
Proof.
  intros A N R HN. induction HN as [|N HN IH]; intros H.
  - destruct (H 0 ltac:(lia)) as (a & Ha). exists (fun _ => a). intros h Hh. now replace h with 0 by lia.
  - destruct IH as (r & Hr); [intros; apply H; lia|]. destruct (H N ltac:(lia)) as (a & Ha). exists (fun h => if h =? N then a else r h). intros h Hh. destruct (Nat.eqb_spec h N) as [->|Nh]; [exact Ha|]. apply Hr. lia.
Qed.
Lemma each_gives_some : forall A N (R : nat -> A -> Prop) k, 1 <= N -> each_gives N R k -> exists r, (forall h, h < N -> R h (r h)) /\ k r.
Proof. intros A N R k HN (H1 & H2). destruct (choose A N R HN H1) as (r & Hr). exists r. split; [exact Hr|now apply H2]. Qed.
Lemma each_gives_and : forall A N (R : nat -> A -> Prop) (k k' : _ -> Prop), each_gives N R k -> each_gives N R k' -> each_gives N R (fun r => k r /\ k' r).
Proof. intros A N R k k' (H1 & H2) (H1' & H2'). split; [exact H1|]. intros r Hr. split; auto. Qed.
Lemma scoring_completes : forall F (is_zero : F -> bool) w0, (forall w, scoring_run is_zero w0 w -> flying w <> [] -> exists w', scoring_step is_zero w w') -> exists w, scoring_run is_zero w0 w /\ flying w = [].
Proof.
  intros F is_zero w0 H. destruct (completes _ (scoring_run is_zero w0) (scoring_step is_zero) (@scoring_measure F) (fun _ => 0)) with (w := w0) as (w & Rw & Sw); [| |constructor|].
  - intros w Rw. destruct (flying w) as [|r l] eqn:Ef; [right; intros w' St; inversion St as [w1 a r b c g E]; subst; rewrite Ef in E; now destruct a|]. left. apply H; [exact Rw|]. rewrite Ef. discriminate.
  - intros w w' Rw St. split; [econstructor; eauto|]. left. eapply scoring_step_decreases; eauto.
  - exists w. split; [exact Rw|]. destruct (flying w) as [|r l] eqn:Ef; [reflexivity|]. exfalso. destruct (H w Rw) as (w' & St); [rewrite Ef; discriminate|]. now apply (Sw w').
Qed.
