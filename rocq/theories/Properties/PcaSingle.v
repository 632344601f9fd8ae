(** C100, C101: the means by which the windows are centred, in single precision. *)
From Coq Require Import List Arith Bool Lia Permutation ZArith.
From Verif.Base Require Import ListX Float32.
From Verif.Pca Require Import Model Spec Exec Chunks Canon Single SingleSpec HostsArrival.
From Coq Require Import Reals Lra.
From Flocq Require Import Core.
From Verif.Base Require Import Float32Proofs.
From Verif.Pca Require Import SingleProofs SingleRuns SingleHosts.
Import ListNotations.
Open Scope R_scope.

(** Which orders occur: the main thread's own means first, those of the other threads in any order; and this for every number of threads that all have rows. *)
Theorem C100_orders : forall rows threads order, (1 <= rows)%nat -> (1 <= threads)%nat ->
  (exists t, complete_run rows threads order t)
  <-> ((threads - 1) * ((rows + threads - 1) / threads) < rows)%nat /\ exists others, order = 0%nat :: others /\ Permutation others (seq 1 (threads - 1)).
Proof.
  intros rows threads order H1 H2. split.
  - intros (t & H). destruct (complete_busy _ _ _ _ H1 H2 H) as (Busy & _). split; [|now apply (runs_only rows threads order t)]. now apply (all_used rows threads H1 H2).
  - intros (Hb & o & -> & Ho). apply runs_exist; auto. now apply (all_used rows threads H1 H2).
Qed.
Print Assumptions C100_orders.
Example C100_orders_case : exists t, complete_run 10 4 [0; 2; 3; 1]%nat t.
Proof.
  apply C100_orders; [lia|lia|]. split; [cbn; lia|]. exists [2; 3; 1]%nat. split; [reflexivity|]. cbn. etransitivity; [|apply perm_swap]. apply perm_trans with [2; 1; 3]%nat; [|reflexivity]. repeat constructor.
Qed.

(** The factors are merged in the same way in every run. *)
Theorem C100_same_factor : forall rows threads order t order' t', (1 <= rows)%nat -> (1 <= threads)%nat ->
  complete_run rows threads order t -> complete_run rows threads order' t' -> t = t'.
Proof. exact runs_tree. Qed.
Print Assumptions C100_same_factor.

(** The means are not: for every number of threads from three on there is a column - 2^24, 1, -2^24 and zeros, one value per thread - whose mean is zero in one run and 1/n in another. *)
Theorem C100_repeated_run_refuted : forall threads, (3 <= threads)%nat -> (Z.of_nat threads <= 2 ^ 24)%Z ->
  exists column order order' t, length column = threads
    /\ complete_run (length column) threads order t /\ complete_run (length column) threads order' t
    /\ f_real (threads_mean column threads order) = 0
    /\ f_real (threads_mean column threads order') = rnd (/ INR threads) /\ 0 < rnd (/ INR threads).
Proof.
  intros n Hn Hz. exists (spread n), (0 :: 1 :: 2 :: seq 3 (n - 3))%nat, (0 :: 2 :: 1 :: seq 3 (n - 3))%nat. rewrite spread_len.
  assert (P : Permutation (1 :: 2 :: seq 3 (n - 3))%nat (seq 1 (n - 1))) by (replace (n - 1)%nat with (S (S (n - 3))) by lia; reflexivity).
  destruct (runs_exist n n (1 :: 2 :: seq 3 (n - 3))%nat) as (t & R1); [lia|lia|apply spread_busy; lia|exact P|].
  destruct (runs_exist n n (2 :: 1 :: seq 3 (n - 3))%nat) as (t' & R2); [lia|lia|apply spread_busy; lia|etransitivity; [apply perm_swap|exact P]|].
  pose proof (runs_tree n n _ _ _ _ ltac:(lia) ltac:(lia) R1 R2) as E. subst t'. exists t. destruct (spread_differs n Hn Hz) as (D1 & D2).
  ssplit; auto. apply rnd_inv_pos; [lia|exact Hz].
Qed.
Print Assumptions C100_repeated_run_refuted.
Example C100_repeated_run_case : exists t, complete_run 3 3 [0; 1; 2]%nat t /\ complete_run 3 3 [0; 2; 1]%nat t
  /\ threads_mean [f_of 16777216 0; f_of 1 0; f_of (-16777216) 0] 3 [0; 1; 2]%nat = f_zero
  /\ f_gt (threads_mean [f_of 16777216 0; f_of 1 0; f_of (-16777216) 0] 3 [0; 2; 1]%nat) (f_of 85 (-8)) = true.
Proof.
  destruct (proj2 (C100_orders 3 3 [0; 1; 2]%nat ltac:(lia) ltac:(lia))) as (t & R1); [split; [cbn; lia|]; exists [1; 2]%nat; split; [reflexivity|reflexivity]|].
  destruct (proj2 (C100_orders 3 3 [0; 2; 1]%nat ltac:(lia) ltac:(lia))) as (t' & R2); [split; [cbn; lia|]; exists [2; 1]%nat; split; [reflexivity|apply perm_swap]|].
  pose proof (C100_same_factor 3 3 _ _ _ _ ltac:(lia) ltac:(lia) R1 R2) as E. subst t'. exists t. split; [exact R1|]. split; [exact R2|]. split; [apply f_same; vm_compute; reflexivity|vm_compute; reflexivity].
Qed.

(** With one or two threads all runs use the same order, and so give the same mean. *)
Theorem C100_two_threads : forall rows threads order t order' t', (1 <= rows)%nat -> (1 <= threads <= 2)%nat ->
  complete_run rows threads order t -> complete_run rows threads order' t' -> order = order' /\ t = t'.
Proof.
  intros rows threads order t order' t' H1 H2 R1 R2. split; [|exact (runs_tree _ _ _ _ _ _ H1 (proj1 H2) R1 R2)].
  destruct (runs_only _ _ _ _ H1 (proj1 H2) R1) as (o & -> & P1). destruct (runs_only _ _ _ _ H1 (proj1 H2) R2) as (o' & -> & P2). f_equal.
  destruct threads as [|[|[|n]]]; try lia; cbn in P1, P2.
  - apply Permutation_sym, Permutation_nil in P1. apply Permutation_sym, Permutation_nil in P2. congruence.
  - apply Permutation_sym, Permutation_length_1_inv in P1. apply Permutation_sym, Permutation_length_1_inv in P2. congruence.
Qed.
Print Assumptions C100_two_threads.
Example C100_two_threads_case : exists t, complete_run 7 2 [0; 1]%nat t.
Proof. apply C100_orders; [lia|lia|]. split; [cbn; lia|]. exists [1%nat]. split; reflexivity. Qed.

(** For values of absolute value at most [2^e] the means of any two runs are numbers and differ by at most twice the rounding errors of the summation over the threads. *)
Theorem C100_runs_agree_approximately_partial : forall e column threads order t order' t',
  (-149 <= e <= 100)%Z -> within (bpow radix2 e) column -> (1 <= length column)%nat -> (Z.of_nat (length column) <= 2 ^ 24)%Z -> (1 <= threads)%nat ->
  complete_run (length column) threads order t -> complete_run (length column) threads order' t' ->
  f_finite (threads_mean column threads order) = true /\ f_finite (threads_mean column threads order') = true
  /\ Rabs (f_real (threads_mean column threads order) - f_real (threads_mean column threads order'))
     <= 2 * (((1 + u) ^ threads - 1 + 2 * u) * bpow radix2 e + 2 * eta).
Proof.
  intros e col thr order t order' t' He Hin H1 Hmax H2 R1 R2. destruct (complete_busy _ _ _ _ H1 H2 R1) as (Busy & _).
  destruct (runs_only _ _ _ _ H1 H2 R1) as (o & -> & P1). destruct (runs_only _ _ _ _ H1 H2 R2) as (o' & -> & P2).
  destruct (order_close e He col thr Hin H1 Hmax H2 Busy _ (order_perm thr o H2 P1)) as (F1 & _ & D1). destruct (order_close e He col thr Hin H1 Hmax H2 Busy _ (order_perm thr o' H2 P2)) as (F2 & _ & D2).
  ssplit; auto. set (w := weighted _ / _) in *.
  match goal with |- Rabs (?a - ?b) <= _ => replace (a - b) with ((a - w) - (b - w)) by ring end. apply Rle_trans with (1 := Rabs_triang _ _). rewrite Rabs_Ropp. lra.
Qed.
Print Assumptions C100_runs_agree_approximately_partial.

(** And every run finds the mean of the column up to rounding errors, never more than the largest absolute value. *)
Theorem C100_every_run_accurate : forall e column threads order t,
  (-149 <= e <= 100)%Z -> within (bpow radix2 e) column -> (1 <= length column)%nat -> (Z.of_nat (length column) <= 2 ^ 24)%Z -> (1 <= threads)%nat ->
  complete_run (length column) threads order t ->
  let chunk := ((length column + threads - 1) / threads)%nat in
  Rabs (f_real (threads_mean column threads order)) <= bpow radix2 e
  /\ Rabs (f_real (threads_mean column threads order) - mean_of column)
     <= (((1 + u) ^ threads - 1) + ((1 + u) ^ chunk - 1) + 3 * u) * bpow radix2 e + 3 * eta.
Proof.
  intros e col thr order t He Hin H1 Hmax H2 R1 chunk. destruct (complete_busy _ _ _ _ H1 H2 R1) as (Busy & _).
  destruct (runs_only _ _ _ _ H1 H2 R1) as (o & -> & P1). pose proof (order_perm thr o H2 P1) as P.
  split; [apply (order_close e He col thr Hin H1 Hmax H2 Busy _ P)|apply (order_accurate e He col thr Hin H1 Hmax H2 Busy _ P)].
Qed.
Print Assumptions C100_every_run_accurate.
Example C100_every_run_accurate_case : within (bpow radix2 24) (spread 3) /\ (1 <= length (spread 3))%nat /\ exists t, complete_run (length (spread 3)) 3 [0; 2; 1]%nat t.
Proof.
  split; [|split; [cbn; lia|]].
  - assert (G : forall k : Z, (Z.abs k <= 2 ^ 24)%Z -> f_finite (f_of k 0) = true /\ Rabs (f_real (f_of k 0)) <= bpow radix2 24).
    { intros k Hk. assert (E : F2R (Float radix2 k 0) = IZR k) by (unfold F2R; cbn; lra).
      assert (Fm : rnd (IZR k) = IZR k) by (apply rnd_format, ScoreProofs.format_Z; exact Hk).
      destruct (f_of_ok k 0) as (A & C); rewrite E, Fm in *; [apply ScoreProofs.IZR_lt_max; lia|]. split; [exact A|]. rewrite C, <- abs_IZR. change (bpow radix2 24) with (IZR (2 ^ 24)). now apply IZR_le. }
    unfold spread. cbn [seq map val]. unfold within. constructor; [apply G; now vm_compute|]. constructor; [apply G; now vm_compute|]. constructor; [apply G; now vm_compute|constructor].
  - rewrite spread_len. apply C100_orders; [lia|lia|]. split; [cbn; lia|]. exists [2; 1]%nat. split; [reflexivity|apply perm_swap].
Qed.

(** Between hosts as well every order occurs, even if messages from one host to another stay in order. *)
Theorem C100_hosts_orders : forall n ordered others, (2 <= n)%nat -> Permutation others (seq 1 (n - 1)) -> exists t, complete_cluster_run n ordered (0%nat :: others) t.
Proof. intros n ordered others Hn Ho. destruct (every_host_order n ordered Hn others Ho) as (s & t & A & B & C). exists t, s. auto. Qed.
Print Assumptions C100_hosts_orders.
Example C100_hosts_orders_case : exists t, complete_cluster_run 4 true [0; 3; 1; 2]%nat t.
Proof. apply C100_hosts_orders; [lia|]. cbn. change [1; 2; 3]%nat with ([1; 2] ++ [3])%nat. apply (Permutation_cons_append [1; 2]%nat 3%nat). Qed.

(** Again the factors are always merged in the same way. *)
Theorem C100_hosts_same_factor : forall n ordered ordered' order t order' t', (1 <= n)%nat ->
  complete_cluster_run n ordered order t -> complete_cluster_run n ordered' order' t' -> t = t'.
Proof.
  intros n o1 o2 order t order' t' Hn (s & A & _ & C) (s' & A' & _ & C').
  rewrite (same_tree (hosts n false o1 1) Hn eq_refl (le_n _) s order t A) by (rewrite C; now left).
  now rewrite (same_tree (hosts n false o2 1) Hn eq_refl (le_n _) s' order' t' A') by (rewrite C'; now left).
Qed.
Print Assumptions C100_hosts_same_factor.

(** And the means again depend on the order, for every number of hosts from three on. *)
Theorem C100_hosts_repeated_run_refuted : forall n ordered, (3 <= n)%nat -> (Z.of_nat n <= 2 ^ 24)%Z ->
  exists parts order order' t, (forall h, length (parts h) = 1%nat) /\ complete_cluster_run n ordered order t /\ complete_cluster_run n ordered order' t
    /\ f_real (cluster_mean parts (fun _ => 1%nat) (fun _ => [0%nat]) order) = 0
    /\ f_real (cluster_mean parts (fun _ => 1%nat) (fun _ => [0%nat]) order') = rnd (/ INR n) /\ 0 < rnd (/ INR n).
Proof.
  intros n ordered Hn Hz. exists (fun h => [val h]), (0 :: 1 :: 2 :: seq 3 (n - 3))%nat, (0 :: 2 :: 1 :: seq 3 (n - 3))%nat.
  assert (P : Permutation (1 :: 2 :: seq 3 (n - 3))%nat (seq 1 (n - 1))) by (replace (n - 1)%nat with (S (S (n - 3))) by lia; reflexivity).
  destruct (C100_hosts_orders n ordered (1 :: 2 :: seq 3 (n - 3))%nat) as (t & R1); [lia|exact P|].
  destruct (C100_hosts_orders n ordered (2 :: 1 :: seq 3 (n - 3))%nat) as (t' & R2); [lia|etransitivity; [apply perm_swap|exact P]|].
  pose proof (C100_hosts_same_factor n _ _ _ _ _ _ ltac:(lia) R1 R2) as E. subst t'. exists t.
  assert (Eq : forall order, (forall i, In i order -> (i < n)%nat) -> cluster_mean (fun h => [val h]) (fun _ => 1%nat) (fun _ => [0%nat]) order = threads_mean (spread n) n order).
  { intros order Ho. unfold cluster_mean, threads_mean. f_equal. apply map_ext_in. intros i Hi. rewrite spread_row by (try lia; now apply Ho). unfold host_row. cbn [Nat.eqb length]. f_equal.
    destruct i as [|[|[|i]]]; now apply f_same; vm_compute. }
  assert (In3 : forall a b c i, (a < 3)%nat -> (b < 3)%nat -> (c < 3)%nat -> In i (a :: b :: c :: seq 3 (n - 3)) -> (i < n)%nat).
  { intros a b c i Ha Hb Hc [<-|[<-|[<-|Hi]]]; try lia. apply in_seq in Hi. lia. }
  rewrite !Eq by (intros i; apply In3; lia). destruct (spread_differs n Hn Hz) as (D1 & D2). ssplit; auto. apply rnd_inv_pos; [lia|exact Hz].
Qed.
Print Assumptions C100_hosts_repeated_run_refuted.

(** C101: the number of hosts matters.  For every number of hosts from two on there is a column, two rows per host, whose mean is zero on one machine, and positive on the hosts whatever the order of their messages. *)
Theorem C101_hosts_refuted : forall n, (2 <= n)%nat -> (Z.of_nat (2 * n) <= 2 ^ 24)%Z ->
  exists parts, (forall h, length (parts h) = 2%nat)
    /\ f_real (machine_mean (concat (map parts (seq 0 n))) 1 [0%nat]) = 0
    /\ (forall ordered others, Permutation others (seq 1 (n - 1)) -> exists t, complete_cluster_run n ordered (0%nat :: others) t
          /\ f_real (cluster_mean parts (fun _ => 1%nat) (fun _ => [0%nat]) (0%nat :: others)) = rnd (/ INR (2 * n)) /\ 0 < rnd (/ INR (2 * n))).
Proof.
  intros n Hn Hz. exists pair_of. split; [exact pair_len|]. assert (Pr : 0 < rnd (/ INR (2 * n))) by (apply rnd_inv_pos; [lia|exact Hz]). split.
  - apply (hosts_differ n (0 :: seq 1 (n - 1))%nat Hn Hz). exists (seq 1 (n - 1)). split; reflexivity.
  - intros ordered o Ho. destruct (C100_hosts_orders n ordered o Hn Ho) as (t & Hr). exists t. split; [exact Hr|]. split; [|exact Pr]. apply (hosts_differ n (0%nat :: o) Hn Hz). eauto.
Qed.
Print Assumptions C101_hosts_refuted.
Example C101_hosts_case :
  f_eq (machine_mean [f_of 16777216 0; f_of 1 0; f_of 1 0; f_of (-16777216) 0] 1 [0%nat]) f_zero = true
  /\ f_eq (cluster_mean (fun h => match h with 0%nat => [f_of 16777216 0; f_of 1 0] | _ => [f_of 1 0; f_of (-16777216) 0] end) (fun _ => 1%nat) (fun _ => [0%nat]) [0; 1]%nat) (f_of 1 (-2)) = true.
Proof. split; vm_compute; reflexivity. Qed.

(** The number of threads matters: from three threads on there is a column whose mean is zero with one thread and positive with that many, in some run. *)
Theorem C101_threads_refuted : forall n, (3 <= n)%nat -> (Z.of_nat n <= 2 ^ 24)%Z ->
  exists column order t, length column = n /\ complete_run n n order t /\ f_real (machine_mean column 1 [0%nat]) = 0 /\ 0 < f_real (machine_mean column n order).
Proof.
  intros n Hn Hz. exists (spread n), (0 :: 2 :: 1 :: seq 3 (n - 3))%nat.
  assert (P : Permutation (2 :: 1 :: seq 3 (n - 3))%nat (seq 1 (n - 1))) by (replace (n - 1)%nat with (S (S (n - 3))) by lia; apply perm_swap).
  destruct (runs_exist n n (2 :: 1 :: seq 3 (n - 3))%nat) as (t & R); [lia|lia|apply spread_busy; lia|exact P|]. exists t. split; [apply spread_len|]. split; [exact R|]. split.
  - apply machine_spread_zero; [lia|exact Hz].
  - apply machine_spread_pos; auto.
Qed.
Print Assumptions C101_threads_refuted.

(** But on any number of hosts with any numbers of threads the column is centred by its mean up to rounding errors: for hosts that all have rows, at most [T] threads each and at most [c] rows per thread. *)
Theorem C101_close_partial : forall e hosts parts threads orders ts order T c, (-149 <= e <= 100)%Z -> (1 <= hosts)%nat ->
  let column := concat (map parts (seq 0 hosts)) in
  within (bpow radix2 e) column -> (Z.of_nat (length column) <= 2 ^ 24)%Z ->
  (forall h, (h < hosts)%nat -> (1 <= length (parts h))%nat /\ (1 <= threads h <= T)%nat /\ ((length (parts h) + threads h - 1) / threads h <= c)%nat
     /\ complete_run (length (parts h)) (threads h) (orders h) (ts h)) ->
  Permutation order (seq 0 hosts) ->
  f_finite (cluster_mean parts threads orders order) = true /\ Rabs (f_real (cluster_mean parts threads orders order)) <= bpow radix2 e
  /\ Rabs (f_real (cluster_mean parts threads orders order) - mean_of column) <= (((1 + u) ^ hosts - 1) + ((1 + u) ^ T - 1) + ((1 + u) ^ c - 1) + 5 * u) * bpow radix2 e + 5 * eta.
Proof. intros e hosts parts threads orders ts order T c He. exact (cluster_close e He hosts parts threads orders ts order T c). Qed.
Print Assumptions C101_close_partial.
Example C101_close_case : forall h, (h < 2)%nat -> exists t, (1 <= length (pair_of h))%nat /\ (1 <= 1 <= 1)%nat /\ ((length (pair_of h) + 1 - 1) / 1 <= 2)%nat /\ complete_run (length (pair_of h)) 1 [0%nat] t.
Proof. intros h _. rewrite pair_len. destruct (proj2 (C100_orders 2 1 [0%nat] ltac:(lia) ltac:(lia))) as (t & R); [split; [cbn; lia|]; exists []; split; reflexivity|]. exists t. ssplit; auto. Qed.
