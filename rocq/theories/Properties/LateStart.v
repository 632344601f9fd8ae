(** C31 in rings of any size: a host that begins late. *)
From Coq Require Import List Arith Bool Lia Permutation.
From Verif.Base Require Import ListX.
From Verif.Protocol Require Import Model Exchange Ring Spec RingProofs LateProofs.
Import ListNotations.

(** Whenever the hosts begin: at the end every host has taken in as many contributions as there are other hosts, and finished exactly once. *)
Theorem C31_counts_partial : forall T n (contribution : nat -> T) w, 2 <= n -> rreachable n contribution anytime w -> rstuck n contribution w ->
  forall p, p < n -> length (taken (node_of w p)) = n - 1 /\ finished (node_of w p) = 1.
Proof. intros T n contribution w Hn R St. exact (late_complete n contribution Hn w R St). Qed.

(** But in every ring of three or more hosts there is a complete run in which all hosts report to be finished although the last host has taken in its own contribution and misses the one of the first host. *)
Theorem C31_every_ring_refuted : forall T n (contribution : nat -> T), 3 <= n -> exists w : rworld T,
  rreachable n contribution anytime w /\ rstuck n contribution w /\ (forall p, p < n -> finished (node_of w p) = 1) /\
  In (n - 1, contribution (n - 1)) (taken (node_of w (n - 1))) /\ (forall m, In m (taken (node_of w (n - 1))) -> fst m <> 0) /\
  ~ Permutation (taken (node_of w (n - 1))) (others n contribution (n - 1)).
Proof.
  intros T n contribution Hn. destruct (loses_one n contribution Hn) as (w & R & St & L1 & L2). exists w. pose proof (late_complete n contribution ltac:(lia) w R St) as C. ssplit; auto.
  - intros p Hp. now apply C.
  - apply nth_error_In in L2. exact L2.
  - intros m Hm. apply In_nth_error in Hm. destruct Hm as (i & Hi). assert (Hl : i < n - 1) by (rewrite <- (proj1 (C (n - 1) ltac:(lia))); apply nth_error_Some; congruence).
    destruct (Nat.eq_dec i (n - 2)) as [->|N]; [rewrite L2 in Hi; injection Hi as <-; cbn; lia|]. rewrite L1 in Hi by lia. injection Hi as <-. cbn. lia.
  - intros HP. apply nth_error_In in L2. apply (Permutation_in _ HP) in L2. unfold others in L2. apply in_map_iff in L2. destruct L2 as (q & E & Hq). apply filter_In in Hq. destruct Hq as (_ & Hq). injection E as E _. rewrite E, Nat.eqb_refl in Hq. discriminate.
Qed.
(** Five hosts that contribute numbers. *)
Example C31_five_hosts : exists w : rworld nat, rreachable 5 (fun p => 10 * p) anytime w /\ rstuck 5 (fun p => 10 * p) w /\ (forall p, p < 5 -> length (taken (node_of w p)) = 4 /\ finished (node_of w p) = 1) /\ In (4, 40) (taken (node_of w 4)).
Proof.
  destruct (C31_every_ring_refuted nat 5 (fun p => 10 * p) ltac:(lia)) as (w & R & St & _ & I & _). exists w. ssplit; auto. intros p Hp. exact (C31_counts_partial nat 5 (fun p => 10 * p) w ltac:(lia) R St p Hp).
Qed.
Print Assumptions C31_counts_partial.
Print Assumptions C31_every_ring_refuted.
