(** How an analysis on a cluster ends: C78, C79. *)
From Coq Require Import List Arith Bool Lia Permutation.
From Verif.Base Require Import ListX.
From Verif.Protocol Require Import Model Exchange ExchangeProofs Ring RingProofs Spec.
From Verif.Shutdown Require Import Model Proofs Early.
Import ListNotations.

(** ** C78 *)
(** If the notice that another host left is handled only by hosts that already have their result: at the end every host, the main host among them, took in every other
    contribution, has exactly one result and ended its process. *)
Theorem C78_all_results_if_late_notices_partial : forall T n (contribution : nat -> T) w, 2 <= n ->
  sreachable n contribution not_overtaken after_result (fun _ => False) w -> sstuck n contribution after_result w ->
  forall p, p < n -> Permutation (taken (node_of (ring w) p)) (others n contribution p) /\ finished (node_of (ring w) p) = 1 /\ gone w p = true.
Proof.
  intros T n contribution w Hn Hr Hs p Hp. pose proof (rinv_reachable n contribution Hn _ (sreachable_ring n contribution _ _ _ _ Hr)) as HI.
  destruct (late_notices_stuck n contribution Hn w _ Hr (fun _ H => H) Hs) as (Hst & Hgone).
  pose proof (stuck_complete n contribution Hn (ring w) HI Hst p Hp) as E.
  assert (Ef : finished (node_of (ring w) p) = 1).
  { destruct (HI p Hp) as (_ & P2 & _). destruct (P2 (proj1 (stuck_facts n contribution (ring w) Hst p Hp))) as (_ & Ef). rewrite Ef, E, Nat.eqb_refl. reflexivity. }
  ssplit; [exact (taken_all n contribution Hn (ring w) p HI Hp E)|exact Ef|apply Hgone; [exact Hp|lia]].
Qed.
(** Two hosts: the main host always obtains its result, whenever the hosts begin and whenever the notice is handled. *)
Theorem C78_main_of_two_hosts_partial : forall T (contribution : nat -> T) w,
  sreachable 2 contribution anytime anytime (fun _ => False) w -> sstuck 2 contribution anytime w ->
  taken (node_of (ring w) 0) = [(1, contribution 1)] /\ finished (node_of (ring w) 0) = 1 /\ gone w 0 = true /\ gone w 1 = true.
Proof.
  intros T contribution w Hr Hs. assert (Hn : 2 <= 2) by lia. pose proof (two_hosts 2 contribution Hn eq_refl _ (sreachable_ring 2 contribution _ _ _ _ Hr)) as HI.
  assert (G : (gone w 0 = true -> 1 <= finished (node_of (ring w) 0)) /\ (gone w 1 = true -> gone w 0 = true \/ 1 <= finished (node_of (ring w) 1))).
  { clear Hs HI. induction Hr as [|w w' _ (G0 & G1) Hst]; [split; discriminate|]. destruct (sstep_ring 2 contribution _ _ _ _ _ Hst) as [(Hri & E)|(E & p & Hp & Hg & E2 & Hwhy)].
    - rewrite E. pose proof (finished_mono 2 contribution Hn _ _ _ 0 Hri). pose proof (finished_mono 2 contribution Hn _ _ _ 1 Hri). split; [intros; specialize (G0 H1); lia|intros; destruct (G1 H1); [auto|right; lia]].
    - rewrite E, E2. destruct p as [|[|p]]; [| |lia]; cbn [set Nat.eqb].
      + split; [intros _|intros _; now left]. destruct Hwhy as [H|[(H & _)|[]]]; [exact H|lia].
      + split; [exact G0|intros _]. destruct Hwhy as [H|[(_ & _ & q & Hq & Hgq)|[]]]; [now right|]. destruct q as [|[|q]]; [now left|congruence|lia]. }
  destruct G as (G0 & G1).
  assert (F0 : 1 <= finished (node_of (ring w) 0)).
  { destruct (gone w 0) eqn:Eg0; [now apply G0|].
    assert (B0 : begun (node_of (ring w) 0) = true). { destruct (begun (node_of (ring w) 0)) eqn:E; [reflexivity|]. exfalso. eapply Hs. apply (s_begins 2 contribution anytime anytime _ w 0); auto. exact I. }
    assert (T0 : transit (ring w) 0 = []). { destruct (transit (ring w) 0) eqn:E; [reflexivity|]. exfalso. eapply Hs. eapply (s_arrives 2 contribution anytime anytime _ w 0); eauto. }
    assert (M0 : mailbox (node_of (ring w) 0) = []). { destruct (mailbox (node_of (ring w) 0)) eqn:E; [reflexivity|]. exfalso. eapply Hs. eapply (s_takes_in 2 contribution anytime anytime _ w 0); eauto. }
    assert (B1 : begun (node_of (ring w) 1) = true).
    { destruct (gone w 1) eqn:Eg1.
      - destruct (G1 eq_refl) as [?|F1]; [discriminate|]. apply (finished_all 2 contribution Hn (ring w) 1 HI ltac:(lia) F1).
      - destruct (begun (node_of (ring w) 1)) eqn:E; [reflexivity|]. exfalso. eapply Hs. apply (s_begins 2 contribution anytime anytime _ w 1); auto. exact I. }
    destruct (HI 0 ltac:(lia)) as (_ & P2 & P3). destruct (P2 B0) as (Epr & Ef). rewrite T0, M0, Epr in P3. cbn [buffer app] in P3. rewrite app_nil_r in P3.
    apply (f_equal (@length _)) in P3. unfold sent_list in P3. rewrite map_length, seq_length in P3. unfold sends in P3. change (prev 2 0) with 1 in P3. rewrite B1 in P3.
    rewrite Nat.min_r in P3 by (cbn; lia). rewrite Ef, P3. cbn. lia. }
  destruct (finished_all 2 contribution Hn (ring w) 0 HI ltac:(lia) F0) as (_ & L & Ef & _).
  assert (Eg : gone w 0 = true). { destruct (gone w 0) eqn:E; [reflexivity|]. exfalso. eapply Hs. apply (s_done 2 contribution anytime anytime _ w 0); auto. }
  ssplit; [|exact Ef|exact Eg|].
  - pose proof (taken_all 2 contribution Hn (ring w) 0 HI ltac:(lia) L) as P. cbn in P. apply Permutation_sym, Permutation_length_1_inv in P. exact P.
  - destruct (gone w 1) eqn:E; [reflexivity|]. exfalso. eapply Hs. apply (s_left 2 contribution anytime anytime _ w 1 0); auto. exact I.
Qed.
(** Every run ends, whoever is lost and whenever notices are handled. *)
Theorem C78_no_infinite_run : forall T n (contribution : nat -> T) allowed notified crashes (run : nat -> sworld T), 2 <= n ->
  sreachable n contribution allowed notified crashes (run 0) -> ~ (forall i, sstep n contribution allowed notified crashes (run i) (run (S i))).
Proof. intros. now apply shutdown_no_infinite. Qed.

(** From three hosts on there is a run in which nobody was lost, all channels are in order and every host began before anything arrived, and which ends with the main host
    waiting for ever: the contribution of host 1 never reaches it, because the last host left when host 1, which had its result, had left. *)
Theorem C78_early_leave_refuted : forall T n (contribution : nat -> T), 3 <= n -> exists w,
  sreachable n contribution nothing_early anytime (fun _ => False) w /\ sstuck n contribution anytime w /\
  gone w 0 = false /\ finished (node_of (ring w) 0) = 0 /\ ~ In (1, contribution 1) (taken (node_of (ring w) 0)) /\
  finished (node_of (ring w) 1) = 1 /\ gone w 1 = true /\ gone w (n - 1) = true.
Proof. intros T n contribution Hn. now apply early_leave_all. Qed.
(** Three hosts: host 1 has its result first and leaves; host 2 handles the notice before the contribution of host 1, which it should have passed on. *)
Definition early_leave : list schoice :=
  [SBegin 0; SBegin 1; SBegin 2; SArrive 0; STake 0; SArrive 1; STake 1; SArrive 1; STake 1; SDone 1; SArrive 2; SLeft 2 1].
Example C78_early_leave_case : exists w : sworld nat,
  sreachable 3 (fun p => p) nothing_early anytime (fun _ => False) w /\ sstuck 3 (fun p => p) anytime w /\
  gone w 0 = false /\ finished (node_of (ring w) 0) = 0 /\ taken (node_of (ring w) 0) = [(2, 2)] /\ finished (node_of (ring w) 1) = 1 /\ gone w 1 = true /\ gone w 2 = true.
Proof.
  exists (srun 3 (fun p => p) early_leave). ssplit; try (vm_compute; reflexivity).
  - apply srun_reachable.
  - apply sstuck_test_ok. vm_compute. reflexivity.
Qed.
(** A complete run with three hosts. *)
Example C78_example : let w := srun 3 (fun p => p * 10) [SBegin 0; SBegin 1; SBegin 2; SArrive 0; STake 0; SArrive 1; STake 1; SArrive 1; STake 1; SDone 1; SArrive 2; STake 2; SArrive 2; STake 2; SLeft 2 1;
    SArrive 0; STake 0; SDone 0] in
  sstuck 3 (fun p => p * 10) after_result w /\ taken (node_of (ring w) 0) = [(2, 20); (1, 10)] /\ map (gone w) [0; 1; 2] = [true; true; true].
Proof.
  cbv zeta. ssplit; [|vm_compute; reflexivity|vm_compute; reflexivity].
  apply sstuck_test_ok. vm_compute. reflexivity.
Qed.

(** ** C79 *)
(** A sub host lost before it contributes: the main host neither obtains a result nor ends, in no continuation, whatever the other hosts do. *)
Theorem C79_main_waits_forever_refuted : forall T n (contribution : nat -> T) notified crashes w q, 2 <= n -> ~ crashes 0 -> q < n ->
  sreachable n contribution not_overtaken notified crashes w -> gone w q = true -> begun (node_of (ring w) q) = false ->
  finished (node_of (ring w) 0) = 0 /\ gone w 0 = false.
Proof.
  intros T n contribution notified crashes w q Hn Hc Hq Hr Hg Hb. pose proof (rinv_reachable n contribution Hn _ (sreachable_ring n contribution _ _ _ _ Hr)) as HI.
  assert (F : finished (node_of (ring w) 0) = 0).
  { destruct (finished (node_of (ring w) 0)) as [|k] eqn:E; [reflexivity|]. exfalso. assert (H : begun (node_of (ring w) q) = true) by (apply (finished_begun n contribution Hn (ring w) 0 q HI); lia). congruence. }
  split; [exact F|]. destruct (gone w 0) eqn:E; [|reflexivity]. exfalso.
  assert (G : forall v, sreachable n contribution not_overtaken notified crashes v -> gone v 0 = true -> 1 <= finished (node_of (ring v) 0)).
  { clear - Hc Hn. intros v. induction 1 as [|v v' _ IH Hst]; [discriminate|]. destruct (sstep_ring n contribution _ _ _ _ _ Hst) as [(Hri & E)|(E & p & Hp & Hg & E2 & Hwhy)].
    - rewrite E. intros H1. pose proof (finished_mono n contribution Hn _ _ _ 0 Hri). specialize (IH H1). lia.
    - rewrite E, E2. destruct (Nat.eq_dec p 0) as [->|Hne]; [intros _|rewrite set_other by auto; exact IH]. destruct Hwhy as [H|[(H & _)|H]]; [exact H|lia|contradiction]. }
  specialize (G w Hr E). lia.
Qed.
(** … and the loss is permanent: the hypotheses stay true in every continuation. *)
Theorem C79_loss_is_permanent : forall T n (contribution : nat -> T) allowed notified crashes w w' q, sstep n contribution allowed notified crashes w w' ->
  gone w q = true -> begun (node_of (ring w) q) = false -> gone w' q = true /\ begun (node_of (ring w') q) = false.
Proof. intros T n contribution allowed notified crashes w w' q Hs Hg Hb. destruct (gone_mono n contribution _ _ _ _ _ q Hs Hg) as (A & B). split; [exact A|congruence]. Qed.
(** Every other sub host can end at once after the loss (only the main host cannot). *)
Theorem C79_sub_hosts_stop : forall T n (contribution : nat -> T) crashes w p q, p < n -> q < n -> p <> 0 -> gone w q = true -> gone w p = false ->
  exists w', sstep n contribution anytime anytime crashes w w' /\ gone w' p = true.
Proof.
  intros T n contribution crashes w p q Hp Hq Hne Hg Hgp. eexists. split; [apply (s_left n contribution anytime anytime crashes w p q); auto; exact I|]. cbn. now rewrite set_same.
Qed.
(** The loss of the only other host of two. *)
Example C79_example : exists w : sworld nat, sreachable 2 (fun p => p) not_overtaken anytime (fun p => p = 1) w /\ gone w 1 = true /\ begun (node_of (ring w) 1) = false /\ begun (node_of (ring w) 0) = true /\
  transit (ring w) 1 = [(0, 0)].
Proof.
  eexists. split.
  - eapply s_after; [eapply s_after; [constructor|]|].
    + apply (s_begins 2 (fun p => p) not_overtaken anytime (fun p => p = 1) sinitial 0); auto. unfold not_overtaken. cbn. auto.
    + apply (s_crash 2 (fun p => p) not_overtaken anytime (fun p => p = 1) _ 1); auto.
  - ssplit; vm_compute; reflexivity.
Qed.

Print Assumptions C78_all_results_if_late_notices_partial.
Print Assumptions C78_main_of_two_hosts_partial.
Print Assumptions C78_no_infinite_run.
Print Assumptions C78_early_leave_refuted.
Print Assumptions C79_main_waits_forever_refuted.
Print Assumptions C79_loss_is_permanent.
Print Assumptions C79_sub_hosts_stop.
