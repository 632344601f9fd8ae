(** Exchanges between hosts and with helper pools: C29, C30, C31, C32, C65. *)
From Coq Require Import List Arith Bool Lia Permutation.
From Verif.Base Require Import Res ListX.
From Verif.Protocol Require Import Model Exchange ExchangeProofs Ring RingProofs RingExec Pool PoolProofs Spec.
Import ListNotations.

(** ** C29 *)
(** When nothing is left to do, every host has processed exactly one bucket of every sender, and has left the phase exactly once. *)
Theorem C29_every_bucket_exactly_once : forall T (x : exchange T) w, reachable x w -> stuck x w -> forall p, p < hosts x ->
  Permutation (processed (state w p)) (buckets_for (hosts x) (to_self x) (bucket x) p) /\ (buckets_for (hosts x) (to_self x) (bucket x) p <> [] -> left (state w p) = 1).
Proof.
  intros T x w Hr Hs p Hp. destruct (inv_reachable x w Hr) as (_ & H). destruct (H p Hp) as (_ & P2 & P3). destruct (stuck_all x w Hs) as (En & Ha).
  destruct (P2 (Ha p Hp)) as (Epr & El). rewrite Epr, En in P3. cbn [buffer app under_way filter map] in P3. rewrite app_nil_r in P3.
  rewrite (incoming_expected x w p Ha) in P3. split; [exact P3|]. intros Hne. pose proof (Permutation_length P3) as L. change (expected x p <> []) in Hne.
  assert (1 <= length (addressees x p)) by (rewrite <- expected_length; destruct (expected x p); [congruence|cbn; lia]).
  rewrite expected_length in L. rewrite El. rewrite L. destruct (Nat.leb_spec 1 (length (addressees x p))); destruct (Nat.leb_spec (length (addressees x p)) (length (addressees x p))); cbn [andb]; auto; lia.
Qed.
(** At every moment: nothing is processed twice, nothing is invented. *)
Theorem C29_never_twice : forall T (x : exchange T) w, reachable x w -> forall p, p < hosts x ->
  exists missing, Permutation (processed (state w p) ++ missing) (buckets_for (hosts x) (to_self x) (bucket x) p).
Proof.
  intros T x w Hr p Hp. destruct (inv_reachable x w Hr) as (_ & H). destruct (H p Hp) as (_ & _ & P3). destruct (incoming_part x w p) as (rest & R).
  exists ((buffer (proto (state w p)) ++ under_way p (net w)) ++ rest). rewrite app_assoc. etransitivity; [|exact R]. apply Permutation_app_tail.
  etransitivity; [|exact P3]. rewrite !app_assoc. reflexivity.
Qed.
(** A host leaves the phase at most once, and only after it processed everything addressed to it. *)
Theorem C29_leaves_once_after_everything : forall T (x : exchange T) w, reachable x w -> forall p, p < hosts x ->
  left (state w p) <= 1 /\ (left (state w p) = 1 -> Permutation (processed (state w p)) (buckets_for (hosts x) (to_self x) (bucket x) p)).
Proof.
  intros T x w Hr p Hp. destruct (C29_never_twice T x w Hr p Hp) as (missing & M). destruct (inv_reachable x w Hr) as (_ & H). destruct (H p Hp) as (P1 & P2 & _).
  destruct (entered (state w p)) eqn:E.
  - destruct (P2 eq_refl) as (_ & El). rewrite El. split; [destruct (_ && _); lia|]. destruct (Nat.leb_spec 1 (length (addressees x p))); destruct (Nat.leb_spec (length (addressees x p)) (length (processed (state w p)))); cbn [andb]; try discriminate.
    intros _. pose proof (Permutation_length M) as L. rewrite app_length in L. change (length (processed (state w p)) + length missing = length (expected x p)) in L. rewrite expected_length in L.
    destruct missing; [now rewrite app_nil_r in M|cbn in L; lia].
  - destruct (P1 eq_refl) as (_ & _ & El). rewrite El. split; [lia|discriminate].
Qed.
(** Every run ends. *)
Theorem C29_no_infinite_run : forall T (x : exchange T) (run : nat -> world T), run 0 = initial -> ~ (forall i, step x (run i) (run (S i))).
Proof. exact @no_infinite. Qed.

(** Two hosts: the bucket of host 0 reaches host 1 before it enters, is buffered, and is processed after all. *)
Example C29_early_bucket : let x := {| hosts := 2; to_self := false; bucket := fun p q => 10 * p + q |} in
  exists w, reachable x w /\ stuck x w /\ processed (state w 1) = [(0, 1)] /\ processed (state w 0) = [(1, 10)] /\ left (state w 1) = 1
  /\ exists v, reachable x v /\ entered (state v 1) = false /\ buffer (proto (state v 1)) = [(0, 1)].
Proof.
  intros x.
  assert (R1 : reachable x {| state := set (fun _ => new_host) 0 (fst (enter x 0 new_host)); net := [(1, (0, 1))] |}).
  { eapply after; [constructor|]. apply (enters x initial 0); [unfold x; cbn; lia|reflexivity]. }
  eassert (R2 : reachable x _). { eapply after; [exact R1|]. apply (delivers x _ 1 (0, 1) [] []). reflexivity. }
  eassert (R3 : reachable x _). { eapply after; [exact R2|]. apply (enters x _ 1); [unfold x; cbn; lia|reflexivity]. }
  eassert (R4 : reachable x _). { eapply after; [exact R3|]. apply (delivers x _ 1 (0, 1) [] [(0, (1, 10))]). reflexivity. }
  eassert (R5 : reachable x _). { eapply after; [exact R4|]. apply (delivers x _ 0 (1, 10) [] []). reflexivity. }
  eexists. ssplit; [exact R5| |reflexivity|reflexivity|reflexivity|].
  - intros w' Hs. inversion Hs as [w p Hp Hf|w p m l r E]; subst.
    + destruct p as [|[|p]]; [discriminate|discriminate|unfold x in Hp; cbn in Hp; lia].
    + cbn in E. destruct l; discriminate.
  - eexists. ssplit; [exact R2|reflexivity|reflexivity].
Qed.

(** ** C30 *)
(** Hosts that begin before anything was buffered: at the end each has taken in every other contribution exactly once and finished exactly once. *)
Theorem C30_every_contribution_exactly_once : forall T n (contribution : nat -> T) w, 2 <= n ->
  rreachable n contribution nothing_early w -> rstuck n contribution w ->
  forall p, p < n -> Permutation (taken (node_of w p)) (others n contribution p) /\ finished (node_of w p) = 1.
Proof.
  intros T n contribution w Hn Hr Hs p Hp. pose proof (rinv_reachable n contribution Hn w (nothing_early_ok n contribution w Hr)) as HI.
  pose proof (stuck_complete n contribution Hn w HI Hs p Hp) as E. split; [exact (taken_all n contribution Hn w p HI Hp E)|].
  destruct (HI p Hp) as (_ & P2 & _). destruct (P2 (proj1 (stuck_facts n contribution w Hs p Hp))) as (_ & Ef). rewrite Ef, E, Nat.eqb_refl. reflexivity.
Qed.
(** The same under the weaker condition that buffered contributions are not overtaken. *)
Theorem C30_every_contribution_if_not_overtaken : forall T n (contribution : nat -> T) w, 2 <= n ->
  rreachable n contribution not_overtaken w -> rstuck n contribution w ->
  forall p, p < n -> Permutation (taken (node_of w p)) (others n contribution p) /\ finished (node_of w p) = 1.
Proof.
  intros T n contribution w Hn Hr Hs p Hp. pose proof (rinv_reachable n contribution Hn w Hr) as HI.
  pose proof (stuck_complete n contribution Hn w HI Hs p Hp) as E. split; [exact (taken_all n contribution Hn w p HI Hp E)|].
  destruct (HI p Hp) as (_ & P2 & _). destruct (P2 (proj1 (stuck_facts n contribution w Hs p Hp))) as (_ & Ef). rewrite Ef, E, Nat.eqb_refl. reflexivity.
Qed.
(** At every moment: only contributions of other hosts, none twice; finished only after all of them. *)
Theorem C30_never_twice : forall T n (contribution : nat -> T) w, 2 <= n -> rreachable n contribution not_overtaken w -> forall p, p < n ->
  NoDup (taken (node_of w p)) /\ incl (taken (node_of w p)) (others n contribution p) /\ finished (node_of w p) <= 1 /\
  (finished (node_of w p) = 1 -> Permutation (taken (node_of w p)) (others n contribution p)).
Proof.
  intros T n contribution w Hn Hr p Hp. pose proof (rinv_reachable n contribution Hn w Hr) as HI. destruct (taken_nodup n contribution Hn w p HI Hp) as (A & B).
  destruct (HI p Hp) as (P1 & P2 & _). ssplit; [exact A| | |].
  - intros m Hm. destruct (B m Hm) as (q & Hq & Hne & ->). unfold others. apply in_map_iff. exists q. split; [reflexivity|]. apply filter_In. rewrite in_seq, negb_true_iff, Nat.eqb_neq. lia.
  - destruct (begun (node_of w p)); [rewrite (proj2 (P2 eq_refl)); destruct (_ =? _); lia|destruct (P1 eq_refl) as (_ & _ & ->); lia].
  - intros Hf. apply (taken_all n contribution Hn w p HI Hp). destruct (begun (node_of w p)).
    + destruct (P2 eq_refl) as (_ & E). rewrite E in Hf. destruct (Nat.eqb_spec (length (taken (node_of w p))) (n - 1)); [assumption|discriminate].
    + destruct (P1 eq_refl) as (_ & _ & E). lia.
Qed.
(** Every run ends, whenever the hosts begin. *)
Theorem C30_no_infinite_run : forall T n (contribution : nat -> T) allowed (run : nat -> rworld T), 2 <= n ->
  rreachable n contribution allowed (run 0) -> ~ (forall i, rstep n contribution allowed (run i) (run (S i))).
Proof. intros. now apply ring_no_infinite. Qed.

(** ** C31 *)
(** Two hosts: correct whenever they begin. *)
Theorem C31_two_hosts_partial : forall T (contribution : nat -> T) w, rreachable 2 contribution anytime w -> rstuck 2 contribution w ->
  forall p, p < 2 -> Permutation (taken (node_of w p)) (others 2 contribution p) /\ finished (node_of w p) = 1.
Proof.
  intros T contribution w Hr Hs p Hp. assert (Hn : 2 <= 2) by lia. pose proof (two_hosts 2 contribution Hn eq_refl w Hr) as HI.
  pose proof (stuck_complete 2 contribution Hn w HI Hs p Hp) as E. split; [exact (taken_all 2 contribution Hn w p HI Hp E)|].
  destruct (HI p Hp) as (_ & P2 & _). destruct (P2 (proj1 (stuck_facts 2 contribution w Hs p Hp))) as (_ & Ef). rewrite Ef, E, Nat.eqb_refl. reflexivity.
Qed.

(** Three hosts, host 1 begins last: one contribution is already buffered, the next one waits in its mailbox. *)
Definition late_start : list rchoice :=
  [CBegin 0; CBegin 2; CArrive 1; CTake 1; CArrive 0; CTake 0; CArrive 1; CBegin 1; CTake 1; CTake 1; CArrive 2; CTake 2; CArrive 2; CTake 2; CArrive 0; CTake 0].

(** All hosts report to be finished, but host 2 has taken in its own contribution and misses the one of host 0. *)
Theorem C31_late_start_refuted : exists w : rworld nat,
  rreachable 3 (fun p => p) anytime w /\ rstuck 3 (fun p => p) w /\ (forall p, p < 3 -> finished (node_of w p) = 1) /\
  taken (node_of w 2) = [(1, 1); (2, 2)] /\ ~ Permutation (taken (node_of w 2)) (others 3 (fun p => p) 2).
Proof.
  exists (rrun 3 (fun p => p) late_start). ssplit.
  - apply rrun_reachable.
  - intros w' Hs. inversion Hs as [w p Hp Hb Ha|w p m r Hp Ht|w p m r Hp Hm]; subst; destruct p as [|[|[|p]]]; try lia; vm_compute in *; discriminate.
  - intros p Hp. destruct p as [|[|[|p]]]; try lia; vm_compute; reflexivity.
  - vm_compute. reflexivity.
  - intros HP. assert (Hin : In (2, 2) (others 3 (fun p => p) 2)).
    { eapply Permutation_in; [exact HP|]. vm_compute. tauto. }
    vm_compute in Hin. destruct Hin as [E|[E|[]]]; discriminate.
Qed.

(** Three hosts that all begin before anything arrives: the hypotheses of C30 are met, all finish. *)
Example C30_three_hosts : exists w : rworld nat, rreachable 3 (fun p => 10 * p) nothing_early w /\ taken (node_of w 0) = [(2, 20); (1, 10)] /\ finished (node_of w 0) = 1.
Proof.
  set (c := fun p => 10 * p).
  assert (G : forall w p, p < 3 -> begun (node_of w p) = false -> buffer (rproto (node_of w p)) = [] -> rreachable 3 c nothing_early w -> rreachable 3 c nothing_early (rdo 3 c w (CBegin p))).
  { intros w p Hp Hb He Hr. eapply r_after; [exact Hr|]. cbn [rdo]. rewrite (proj2 (Nat.ltb_lt p 3) Hp), Hb. cbn [andb negb]. now apply begins. }
  assert (G1 : forall w p, rreachable 3 c nothing_early w -> rreachable 3 c nothing_early (rdo 3 c w (CArrive p))).
  { intros w p Hr. cbn [rdo]. destruct (transit w p) eqn:E; [exact Hr|]. destruct (Nat.ltb_spec p 3); [|exact Hr]. eapply r_after; [exact Hr|]. now apply arrives. }
  assert (G2 : forall w p, rreachable 3 c nothing_early w -> rreachable 3 c nothing_early (rdo 3 c w (CTake p))).
  { intros w p Hr. cbn [rdo]. destruct (mailbox (node_of w p)) eqn:E; [exact Hr|]. destruct (Nat.ltb_spec p 3); [|exact Hr]. eapply r_after; [exact Hr|]. now apply takes_in. }
  exists (rrun 3 c [CBegin 0; CBegin 1; CBegin 2; CArrive 0; CTake 0; CArrive 2; CTake 2; CArrive 0; CTake 0]). split; [|split; vm_compute; reflexivity].
  unfold rrun. cbn [fold_left]. apply G2, G1, G2, G1, G2, G1. apply G; [lia|reflexivity|reflexivity|]. apply G; [lia|reflexivity|reflexivity|]. apply G; [lia|reflexivity|reflexivity|]. constructor.
Qed.

(** ** C32 *)
(** Whatever the order in which the pool answers [tasks], the requester processes each answer once and proceeds once, with the last one; before that it does not proceed. *)
Theorem C32_pool : forall A B (f : A -> B) tasks order, tasks <> [] -> Permutation order tasks ->
  exists r, run_pool (length tasks) (map f order) = Ok r /\ Permutation (answers r) (map f tasks) /\ proceeds r = 1 /\ h_sent (pool r) = 0.
Proof.
  intros A B f tasks order Hne HP. assert (L : 1 <= length tasks) by (destruct tasks; [congruence|cbn; lia]). pose proof (Permutation_length HP) as E.
  rewrite run_pool_ok by (rewrite ?map_length; lia). eexists. split; [reflexivity|]. cbn [answers proceeds pool h_sent]. rewrite map_length, E, Nat.eqb_refl, Nat.sub_diag.
  ssplit; auto. now apply Permutation_map.
Qed.
Theorem C32_not_before : forall A B (f : A -> B) tasks some rest, Permutation (some ++ rest) tasks -> rest <> [] ->
  exists r, run_pool (length tasks) (map f some) = Ok r /\ answers r = map f some /\ proceeds r = 0.
Proof.
  intros A B f tasks some rest HP Hne. pose proof (Permutation_length HP) as E. rewrite app_length in E. assert (1 <= length rest) by (destruct rest; [congruence|cbn; lia]).
  rewrite run_pool_ok by (rewrite ?map_length; lia). eexists. split; [reflexivity|]. cbn [answers proceeds]. rewrite map_length. split; [reflexivity|].
  destruct (Nat.eqb_spec (length some) (length tasks)); [lia|reflexivity].
Qed.
Example C32_case : exists r, run_pool 3 (map (fun t => t * t) [2; 0; 1]) = Ok r /\ answers r = [4; 0; 1] /\ proceeds r = 1.
Proof. eexists. vm_compute. repeat split. Qed.

(** ** C65 *)
(** Both rings of the weight initialisation: for every interleaving of their messages the end of the initialisation is announced exactly once, with the last message of both. *)
Theorem C65_announced_once : forall n messages, 2 <= n ->
  length (filter is_degrees messages) <= n - 1 -> length (filter (fun m => negb (is_degrees m)) messages) <= n - 1 ->
  init_done_sent (fold_left ring_handle messages (init_rings n)) =
    if (length (filter is_degrees messages) =? n - 1) && (length (filter (fun m => negb (is_degrees m)) messages) =? n - 1) then 1 else 0.
Proof. intros n ms Hn Hd Hw. destruct (init_run n ms Hn Hd Hw) as (_ & _ & _ & _ & E). exact E. Qed.
Example C65_case : map (fun k => init_done_sent (fold_left ring_handle (firstn k [Degrees; Weights; Degrees; Weights]) (init_rings 3))) [0; 1; 2; 3; 4] = [0; 0; 0; 0; 1].
Proof. vm_compute. reflexivity. Qed.

Print Assumptions C29_every_bucket_exactly_once.
Print Assumptions C30_every_contribution_exactly_once.
Print Assumptions C31_late_start_refuted.
Print Assumptions C32_pool.
Print Assumptions C65_announced_once.
