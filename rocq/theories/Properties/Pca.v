From Coq Require Import List Arith Bool Lia Permutation.
From Verif.Base Require Import ListX.
From Verif.Pca Require Import Model Spec Tree Abs Proofs Help Order Lost One Rounds Threads Chunks Exec.
From Verif.Pca Require Gram GramSpec GramProofs.
Import ListNotations.

(** C17, hosts: whatever the number of hosts, the number of threads per host and the delivery order - as long as no host receives a factor
    before it begins its own PCA - nobody aborts, the main node finalizes at most once, with a factor into which
    every node's factor went exactly once; and when nothing is left to do it has finalized and every node got to the rotation exactly once. *)
Theorem C17_hosts_merge_every_factor_once : forall n several_threads ordered s, 1 <= n ->
  let cf := hosts n several_threads ordered 1 in
  reachable cf (nobody_early cf) s ->
  panicked s = false
  /\ length (finals s) <= 1
  /\ Forall (fun o => Permutation (leaves (snd o)) (seq 0 n)) (finals s)
  /\ (quiescent cf s -> length (finals s) = 1 /\ forall p, p < n -> rotated (nodes s p) = 1).
Proof.
  intros n th ord s Hn cf Hr. destruct (reach_inv cf Hn eq_refl (le_n _) s Hr) as (HI & _).
  destruct (inv_safe cf Hn eq_refl (le_n _) s HI) as (A & B & C). ssplit; auto.
  intros Q. destruct (inv_done cf Hn eq_refl (le_n _) s HI eq_refl Q) as (D & E). split; [exact D|]. exact (E eq_refl).
Qed.
Print Assumptions C17_hosts_merge_every_factor_once.

(** ... and no run goes on forever. *)
Theorem C17_hosts_terminate : forall n several_threads ordered (r : nat -> pstate), 1 <= n ->
  let cf := hosts n several_threads ordered 1 in
  r 0 = initial cf -> ~ (forall i, step cf (r i) (r (S i)) /\ nobody_early cf (r (S i))).
Proof. intros n th ord r Hn cf H0. apply (no_infinite_run cf Hn eq_refl (le_n _) r H0). Qed.
Print Assumptions C17_hosts_terminate.

(** C17, helper threads of one host: the same without any assumption on the run. *)
Theorem C17_helper_threads_merge_every_factor_once : forall n s, 1 <= n ->
  reachable (helper_threads n n) any_run s ->
  panicked s = false
  /\ length (finals s) <= 1
  /\ Forall (fun o => Permutation (leaves (snd o)) (seq 0 n)) (finals s)
  /\ (quiescent (helper_threads n n) s -> length (finals s) = 1).
Proof.
  intros n s Hn Hr. set (cf := helper_threads n n) in *. destruct (helpers_started cf s eq_refl Hr) as (_ & Hr').
  destruct (reach_inv cf Hn eq_refl (le_n _) s Hr') as (HI & _).
  destruct (inv_safe cf Hn eq_refl (le_n _) s HI) as (A & B & C). ssplit; auto.
  intros Q. apply (inv_done cf Hn eq_refl (le_n _) s HI eq_refl Q).
Qed.
Print Assumptions C17_helper_threads_merge_every_factor_once.

Theorem C17_helper_threads_terminate : forall n (r : nat -> pstate), 1 <= n ->
  r 0 = initial (helper_threads n n) -> ~ (forall i, step (helper_threads n n) (r i) (r (S i))).
Proof.
  intros n r Hn H0 Hs. apply (no_infinite_run (helper_threads n n) Hn eq_refl (le_n _) r H0). intros i. split; [apply Hs|].
  assert (G : forall k, reachable (helper_threads n n) any_run (r k)).
  { induction k as [|k IH]; [rewrite H0; constructor|]. econstructor; [exact IH|apply Hs|exact I]. }
  destruct (helpers_started (helper_threads n n) (r (S i)) eq_refl (G (S i))) as (S1 & _). intros p _ E. rewrite S1 in E. discriminate.
Qed.
Print Assumptions C17_helper_threads_terminate.

(** A complete run of three hosts (not a power of two) in which node 2's factor overtakes its means. *)
Definition starts n := map (fun _ => Deliver 0) (seq 0 n) ++ map Handle (seq 0 n).
Definition drain n k := concat (repeat (Deliver 0 :: map Handle (seq 0 n)) k).
Definition run3 := starts 3 ++ [Deliver 2; Handle 0; Deliver 2; Handle 0] ++ drain 3 12.
Example C17_hosts_example : let cf := hosts 3 false false 1 in exists s,
  reachable cf (nobody_early cf) s /\ quiescent cf s /\ finals s = [([0; 2; 1], Combine (Combine (Own 0) (Own 2)) (Own 1))] /\ rotated (nodes s 2) = 1.
Proof.
  exists (run (hosts 3 false false 1) run3). split; [apply run_early; vm_compute; reflexivity|]. split.
  - split; [vm_compute; reflexivity|]. intros p Hp. cbn in Hp. destruct p as [|[|[|p]]]; [| | |lia]; vm_compute; reflexivity.
  - split; vm_compute; reflexivity.
Qed.
Example C17_helper_threads_example : exists s, reachable (helper_threads 5 5) any_run s /\ quiescent (helper_threads 5 5) s /\ length (finals s) = 1.
Proof.
  exists (run (helper_threads 5 5) (concat (repeat [Handle 4; Handle 3; Handle 2; Handle 1; Handle 0] 8))). split; [apply run_reach|]. split.
  - split; [vm_compute; reflexivity|]. intros p Hp. cbn in Hp. destruct p as [|[|[|[|[|p]]]]]; [| | | | |lia]; vm_compute; reflexivity.
  - vm_compute; reflexivity.
Qed.

(** C18, helper threads of one host: the main thread knows the column means of every thread, each once, when it finalizes. *)
Theorem C18_helper_threads_know_all_means : forall n s, 1 <= n -> reachable (helper_threads n n) any_run s ->
  Forall (fun o => Permutation (fst o) (seq 0 n)) (finals s).
Proof. intros n s Hn. now apply helper_means. Qed.
Print Assumptions C18_helper_threads_know_all_means.
Example C18_helper_threads_example : exists s, reachable (helper_threads 5 5) any_run s /\ map fst (finals s) = [[0; 4; 3; 2; 1]].
Proof.
  exists (run (helper_threads 5 5) (concat (repeat [Handle 4; Handle 3; Handle 2; Handle 1; Handle 0] 8))).
  split; [apply run_reach|]. vm_compute; reflexivity.
Qed.

(** C18, hosts: false.  Two hosts with several threads: means and factor of host 1 arrive in this order while host 0 waits for its helper threads; both are
    buffered, and the factor is put back into the mailbox before the means. *)
Theorem C18_two_hosts_refuted : exists s m t,
  reachable (hosts 2 true true 1) (nobody_early (hosts 2 true true 1)) s /\ finals s = [(m, t)] /\ leaves t = [0; 1] /\ ~ In 1 m.
Proof.
  exists (run (hosts 2 true true 1) (starts 2 ++ [Deliver 1; Handle 1; Deliver 1; Handle 0; Deliver 1; Handle 0; Deliver 0; Handle 0; Handle 0])), [0], (Combine (Own 0) (Own 1)).
  ssplit; [apply run_early; vm_compute; reflexivity|vm_compute; reflexivity|reflexivity|cbn; lia].
Qed.
Print Assumptions C18_two_hosts_refuted.

(** Four hosts with one thread each, all of them started before any message is delivered, FIFO channels: the factor of host 3 reaches host 0 by way of host 1,
    faster than its means. *)
Theorem C18_four_hosts_refuted : exists s m t,
  reachable (hosts 4 false true 1) (nobody_early (hosts 4 false true 1)) s /\ finals s = [(m, t)] /\ In 3 (leaves t) /\ ~ In 3 m.
Proof.
  exists (run (hosts 4 false true 1) (starts 4 ++ [Deliver 4; Handle 1; Deliver 0; Deliver 0; Deliver 0; Deliver 1; Handle 0; Handle 0; Handle 0; Handle 0])), [0; 1; 2],
    (Combine (Combine (Own 0) (Own 2)) (Combine (Own 1) (Own 3))).
  ssplit; [apply run_early; vm_compute; reflexivity|vm_compute; reflexivity|cbn; auto 6|cbn; lia].
Qed.
Print Assumptions C18_four_hosts_refuted.

(** C18, hosts, what is true: with one thread per host the main host knows the means of every host, each once, when it finalizes, provided nothing
    is received before the own PCA begins and no factor overtakes means that belong to it.  (Missing for the full claim: both provisos.) *)
Theorem C18_means_ahead_partial : forall n ordered s, 1 <= n ->
  let cf := hosts n false ordered 1 in
  reachable cf (fun s => nothing_early cf s /\ means_ahead s) s ->
  Forall (fun o => Permutation (fst o) (seq 0 n)) (finals s).
Proof. intros n ord s Hn. now apply ahead_means. Qed.
Print Assumptions C18_means_ahead_partial.

(** Up to three hosts nothing can be overtaken if the channels keep their order: every host sends its factor straight to the main host.  By
    [C18_four_hosts_refuted] this stops at three, by [C18_two_hosts_refuted] one thread per host is needed. *)
Theorem C18_three_hosts_partial : forall n s, 1 <= n <= 3 ->
  let cf := hosts n false true 1 in
  reachable cf (nothing_early cf) s -> Forall (fun o => Permutation (fst o) (seq 0 n)) (finals s).
Proof. intros n s Hn cf Hr. apply (ahead_means n true); [lia|]. apply three_hosts; [lia|lia|exact Hr]. Qed.
Print Assumptions C18_three_hosts_partial.

(** The same three hosts, the factor of host 1 is there before that of host 2 and waits: the means are complete. *)
Definition run3o := starts 3 ++ [Deliver 0; Deliver 0; Handle 0; Handle 0] ++ drain 3 12.
Example C18_three_hosts_example : let cf := hosts 3 false true 1 in exists s,
  reachable cf (nothing_early cf) s /\ quiescent cf s /\ map fst (finals s) = [[0; 1; 2]].
Proof.
  exists (run (hosts 3 false true 1) run3o). split; [apply run_nothing_early; vm_compute; reflexivity|]. split.
  - split; [vm_compute; reflexivity|]. intros p Hp. cbn in Hp. destruct p as [|[|[|p]]]; [| | |lia]; vm_compute; reflexivity.
  - vm_compute; reflexivity.
Qed.
(** Four hosts, every message delivered in the order of sending: nothing is overtaken. *)
Example C18_means_ahead_example : let cf := hosts 4 false true 1 in exists s,
  reachable cf (fun s => nothing_early cf s /\ means_ahead s) s /\ map (fun o => length (fst o)) (finals s) = [4].
Proof.
  exists (run (hosts 4 false true 1) (starts 4 ++ drain 4 14)). split; [apply run_ahead; vm_compute; reflexivity|vm_compute; reflexivity].
Qed.

(** C19: false.  The factor of host 1 arrives before host 0 begins its own PCA, is kept, and thrown away by the beginning of the PCA: nothing is left to do
    and nobody ever finalizes - with one thread per host and with several. *)
Theorem C19_early_factor_lost_refuted : forall several_threads, exists s,
  reachable (hosts 2 several_threads true 1) any_run s /\ quiescent (hosts 2 several_threads true 1) s
  /\ finals s = [] /\ panicked s = false /\ rotated (nodes s 0) = 0 /\ rotated (nodes s 1) = 0.
Proof.
  intros [|].
  - exists (run (hosts 2 true true 1) ([Deliver 1; Handle 1; Deliver 1; Handle 1; Deliver 1; Handle 0; Deliver 1; Handle 0] ++ drain 2 6)).
    split; [apply run_reach|]. split; [split; [vm_compute; reflexivity|]|ssplit; vm_compute; reflexivity].
    intros p Hp. cbn in Hp. destruct p as [|[|p]]; [| |lia]; vm_compute; reflexivity.
  - exists (run (hosts 2 false true 1) ([Deliver 1; Handle 1; Deliver 1; Handle 0; Deliver 1; Handle 0] ++ drain 2 6)).
    split; [apply run_reach|]. split; [split; [vm_compute; reflexivity|]|ssplit; vm_compute; reflexivity].
    intros p Hp. cbn in Hp. destruct p as [|[|p]]; [| |lia]; vm_compute; reflexivity.
Qed.
Print Assumptions C19_early_factor_lost_refuted.

(** C19 is false whenever it matters: for any number of hosts and threads, once a host has received a factor before beginning its own PCA,
    no continuation of the run ever finalizes - no host aborts, and no host gets to the rotation. *)
Theorem C19_early_factor_stops_everything_refuted : forall n several_threads ordered s p t c, 1 <= n ->
  let cf := hosts n several_threads ordered 1 in
  reachable cf any_run s -> p < n -> started (nodes s p) = false -> In (R t c) (buffer (nodes s p)) ->
  forall s', continues cf s s' -> panicked s' = false /\ finals s' = [] /\ forall q, q < n -> rotated (nodes s' q) = 0.
Proof. intros n th ord s p t c Hn cf Hr Hp Hs Hb s' Hc. exact (lost_for_ever n th ord Hn s p t c Hr Hp Hs Hb s' Hc). Qed.
Print Assumptions C19_early_factor_stops_everything_refuted.
(** Five hosts: host 3 is done with its own factor before host 1 begins. *)
Example C19_early_factor_example : exists s, reachable (hosts 5 false true 1) any_run s /\ started (nodes s 1) = false /\ In (R (Own 3) 2) (buffer (nodes s 1)).
Proof.
  exists (run (hosts 5 false true 1) [Deliver 3; Handle 3; Deliver 5; Handle 1]). split; [apply run_reach|]. vm_compute. auto.
Qed.

(** C59: false.  Two hosts, two channels, FIFO, all hosts started before any message is delivered: host 1 is done with the first channel and sends its factor for the second one
    before host 0 has begun the second channel; the factor is lost and the second PCA never finalizes. *)
Theorem C59_second_channel_refuted : exists s,
  reachable (hosts 2 false true 2) (nobody_early (hosts 2 false true 2)) s /\ quiescent (hosts 2 false true 2) s
  /\ length (finals s) = 1 /\ panicked s = false /\ rotated (nodes s 0) = 0 /\ rotated (nodes s 1) = 0.
Proof.
  exists (run (hosts 2 false true 2) (starts 2 ++ [Deliver 0; Handle 0; Deliver 0; Handle 0; Deliver 0; Handle 1; Handle 1; Deliver 0; Deliver 0] ++ map (fun _ => Handle 0) (seq 0 8) ++ drain 2 10)).
  split; [apply run_early; vm_compute; reflexivity|]. split; [split; [vm_compute; reflexivity|]|ssplit; vm_compute; reflexivity].
  intros p Hp. cbn in Hp. destruct p as [|[|p]]; [| |lia]; vm_compute; reflexivity.
Qed.
Print Assumptions C59_second_channel_refuted.

(** On one host, with any number of threads, every channel is reduced, exactly once each, and then the host goes on, once.  (Missing for the full
    claim: more hosts, where it is false.) *)
Theorem C59_one_host_partial : forall k several_threads ordered s, 1 <= k ->
  let cf := hosts 1 several_threads ordered k in
  reachable cf any_run s ->
  panicked s = false /\ length (finals s) <= k /\ Forall (fun o => o = ([0], Own 0)) (finals s)
  /\ (quiescent cf s -> length (finals s) = k /\ rotated (nodes s 0) = 1).
Proof. intros k th ord s Hk cf Hr. exact (one_host th ord k Hk s Hr). Qed.
Print Assumptions C59_one_host_partial.
Example C59_one_host_example : exists s, reachable (hosts 1 true true 3) any_run s /\ quiescent (hosts 1 true true 3) s /\ length (finals s) = 3.
Proof.
  exists (run (hosts 1 true true 3) (drain 1 14)). split; [apply run_reach|]. split; [split; [vm_compute; reflexivity|]|vm_compute; reflexivity].
  intros p Hp. cbn in Hp. destruct p as [|p]; [vm_compute; reflexivity|lia].
Qed.

(** On any number of hosts with one thread each: if no host handles a factor or means of a channel whose PCA it has not begun, and no factor is faster than the
    means that belong to it, then every channel is reduced, exactly once each, with the rows and the means of every host, every host goes on, once, and the
    PCAs end.  (Missing for the full claim: runs in which a factor reaches a host early, where it is false.) *)
Theorem C59_hosts_in_step_partial : forall n k ordered, 1 <= n -> 1 <= k ->
  let cf := hosts n false ordered k in
  let in_step s := rounds_apart cf s /\ means_ahead s in
  (forall s, reachable cf in_step s ->
     panicked s = false /\ length (finals s) <= k
     /\ Forall (fun o => Permutation (fst o) (seq 0 n) /\ Permutation (leaves (snd o)) (seq 0 n)) (finals s)
     /\ (quiescent cf s -> length (finals s) = k /\ forall p, p < n -> rotated (nodes s p) = 1))
  /\ (forall run : nat -> pstate, run 0 = initial cf -> ~ (forall i, step cf (run i) (run (S i)) /\ in_step (run (S i)))).
Proof.
  intros n k ord Hn Hk cf in_step. split.
  - intros s Hr. destruct (rounds_safe n k ord Hn s Hk Hr) as (A & B & C). ssplit; auto. exact (rounds_done n k ord Hn s Hk Hr).
  - intros r. exact (rounds_end n k ord Hn r Hk).
Qed.
Print Assumptions C59_hosts_in_step_partial.
Definition in_step_run := concat (repeat [Handle 0; Handle 0; Handle 0; Deliver 0; Handle 1; Handle 2] 22).
Example C59_hosts_in_step_example : let cf := hosts 3 false true 2 in exists s,
  reachable cf (fun s => rounds_apart cf s /\ means_ahead s) s /\ quiescent cf s
  /\ finals s = [([0; 1; 2], Combine (Combine (Own 0) (Own 2)) (Own 1)); ([0; 1; 2], Combine (Combine (Own 0) (Own 2)) (Own 1))].
Proof.
  cbn zeta. exists (run (hosts 3 false true 2) in_step_run). split; [apply run_apart; vm_compute; reflexivity|]. split; [split; [vm_compute; reflexivity|]|vm_compute; reflexivity].
  intros p Hp. cbn in Hp. destruct p as [|[|[|p]]]; [| | |lia]; vm_compute; reflexivity.
Qed.

(** Several threads on every host: the same, if moreover no host receives a factor or means while its threads are still at work on its own factor; with one channel
    this also says that the main host knows the means of all hosts (C18).  By [C18_two_hosts_refuted] the proviso is needed. *)
Theorem C59_hosts_with_threads_in_step_partial : forall n k ordered, 1 <= n -> 1 <= k ->
  let cf := hosts n true ordered k in
  let in_step s := rounds_apart cf s /\ means_ahead s /\ nothing_before cf s in
  (forall s, reachable cf in_step s ->
     panicked s = false /\ length (finals s) <= k
     /\ Forall (fun o => Permutation (fst o) (seq 0 n) /\ Permutation (leaves (snd o)) (seq 0 n)) (finals s)
     /\ (quiescent cf s -> length (finals s) = k /\ forall p, p < n -> rotated (nodes s p) = 1))
  /\ (forall run : nat -> pstate, run 0 = initial cf -> ~ (forall i, step cf (run i) (run (S i)) /\ in_step (run (S i)))).
Proof.
  intros n k ord Hn Hk cf in_step. split.
  - intros s Hr. destruct (threads_safe n k ord Hn Hk s Hr) as (A & B & C). ssplit; auto. exact (threads_done n k ord Hn Hk s Hr).
  - intros r. exact (threads_end n k ord Hn Hk r).
Qed.
Print Assumptions C59_hosts_with_threads_in_step_partial.
Definition in_step_threads_run := starts 3 ++ [Deliver 1; Handle 1; Deliver 1; Handle 2; Deliver 0; Handle 0] ++ concat (repeat [Handle 0; Handle 0; Handle 0; Deliver 0; Handle 1; Handle 2] 26).
Example C59_hosts_with_threads_in_step_example : let cf := hosts 3 true true 2 in exists s,
  reachable cf (fun s => rounds_apart cf s /\ means_ahead s /\ nothing_before cf s) s /\ quiescent cf s
  /\ finals s = [([0; 1; 2], Combine (Combine (Own 0) (Own 2)) (Own 1)); ([0; 1; 2], Combine (Combine (Own 0) (Own 2)) (Own 1))].
Proof.
  cbn zeta. exists (run (hosts 3 true true 2) in_step_threads_run). split; [apply run_threads; vm_compute; reflexivity|]. split; [split; [vm_compute; reflexivity|]|vm_compute; reflexivity].
  intros p Hp. cbn in Hp. destruct p as [|[|[|p]]]; [| | |lia]; vm_compute; reflexivity.
Qed.

(** C21: the rows are given to the helper threads in consecutive, non-empty chunks that cover every row exactly once. *)
Theorem C21_chunks_tile_the_rows : forall rows threads, 1 <= rows -> 1 <= threads ->
  length (assigned rows threads) <= threads
  /\ (forall r, r < rows -> exists k lo hi, nth_error (assigned rows threads) k = Some (lo, hi) /\ lo <= r < hi
       /\ forall k' lo' hi', nth_error (assigned rows threads) k' = Some (lo', hi') -> lo' <= r < hi' -> k' = k)
  /\ (forall k lo hi, nth_error (assigned rows threads) k = Some (lo, hi) -> lo < hi <= rows)
  /\ (forall k lo hi lo' hi', nth_error (assigned rows threads) k = Some (lo, hi) -> nth_error (assigned rows threads) (S k) = Some (lo', hi') -> lo' = hi).
Proof.
  intros m t Hm Ht. ssplit.
  - rewrite assigned_length by assumption. now apply n_le_t.
  - now apply assigned_tile.
  - now apply assigned_nonempty.
  - now apply assigned_next.
Qed.
Print Assumptions C21_chunks_tile_the_rows.

(** The step completes if there are more than (threads-1)^2 rows ... *)
Theorem C21_completes_partial : forall rows threads s, 1 <= threads -> (threads - 1) * (threads - 1) < rows ->
  reachable (helper_threads threads (length (assigned rows threads))) any_run s ->
  quiescent (helper_threads threads (length (assigned rows threads))) s -> length (finals s) = 1.
Proof.
  intros m t s Ht Hm. assert (Hm1 : 1 <= m) by exact (Nat.le_lt_trans 0 _ m (Nat.le_0_l _) Hm).
  rewrite (proj2 (all_used m t Hm1 Ht)) by (now apply enough_rows). intros Hr Q.
  now apply (C17_helper_threads_merge_every_factor_once t s Ht Hr).
Qed.
Print Assumptions C21_completes_partial.

(** ... and exactly if the last thread gets a chunk: otherwise no run ever produces a result. *)
Theorem C21_completes_exactly_if : forall rows threads, 1 <= rows -> 1 <= threads ->
  let used := length (assigned rows threads) in let cf := helper_threads threads used in
  let c := (rows + threads - 1) / threads in
  ((threads - 1) * c < rows -> forall s, reachable cf any_run s -> quiescent cf s -> length (finals s) = 1)
  /\ (rows <= (threads - 1) * c -> forall s, reachable cf any_run s -> finals s = []).
Proof.
  intros m t Hm Ht used cf c. split.
  - intros Hlt s Hr Q. unfold cf, used in *. rewrite (proj2 (all_used m t Hm Ht) Hlt) in *.
    now apply (C17_helper_threads_merge_every_factor_once t s Ht Hr).
  - intros Hge s Hr. destruct (helpers_started cf s eq_refl Hr) as (_ & Hr').
    assert (Hu : used < t).
    { destruct (Nat.lt_ge_cases used t) as [|Hge']; [assumption|]. exfalso.
      assert (used = t) as E. { apply Nat.le_antisymm; [|assumption]. unfold used. rewrite assigned_length by assumption. now apply n_le_t. }
      apply (all_used m t Hm Ht) in E. unfold chunk_size in E. fold c in E. lia. }
    apply (never_reach cf Ht eq_refl (Nat.lt_le_incl _ _ Hu) s used Hr' Hu (le_n _)).
Qed.
Print Assumptions C21_completes_exactly_if.

(** C21 as stated is false: nine rows on four threads. *)
Theorem C21_every_row_count_refuted : exists rows threads, 1 <= threads <= rows
  /\ forall s, reachable (helper_threads threads (length (assigned rows threads))) any_run s -> finals s = [].
Proof.
  exists 9, 4. split; [lia|]. apply (C21_completes_exactly_if 9 4); cbn; lia.
Qed.
Print Assumptions C21_every_row_count_refuted.
Example C21_example : assigned 9 4 = [(0, 3); (3, 6); (6, 9)] /\ assigned 10 4 = [(0, 3); (3, 6); (6, 9); (9, 10)].
Proof. split; vm_compute; reflexivity. Qed.

(** C20 *)
Import Reals.
Import GramSpec.
Local Open Scope R_scope.
(** Helper threads of one host: for every QR factorization, every number of threads, every division of the rows into non-empty parts, every run: whenever the main thread finalizes,
    the means it reports are the column means of all rows and the Gram matrix of the factor it reports is the scatter matrix of all rows. *)
Theorem C20_helper_threads_scatter : forall qr data n s o, preserves_gram qr -> (1 <= n)%nat -> (forall k, (k < n)%nat -> data k <> []) ->
  reachable (helper_threads n n) any_run s -> In o (finals s) ->
  (forall j, Gram.host_means data o j = column_mean (all_rows data n) j)
  /\ (forall a b, gram (Gram.host_r qr data o) a b = scatter_matrix (all_rows data n) a b).
Proof.
  intros qr data n s o Hqr Hn Hne Hr Ho.
  pose proof (C18_helper_threads_know_all_means n s Hn Hr) as HM. rewrite Forall_forall in HM. specialize (HM _ Ho).
  destruct (C17_helper_threads_merge_every_factor_once n s Hn Hr) as (_ & _ & HL & _). rewrite Forall_forall in HL. specialize (HL _ Ho).
  destruct (GramProofs.host_gram qr Hqr data n o Hn Hne HM HL) as (A & B & _). auto.
Qed.
Print Assumptions C20_helper_threads_scatter.

(** Hosts with one thread each: the same, for every finalization that knows all means (see C18). *)
Theorem C20_hosts_scatter : forall qr data n several_threads ordered s o, preserves_gram qr -> (1 <= n)%nat -> (forall k, (k < n)%nat -> data k <> []) ->
  let cf := hosts n several_threads ordered 1 in
  reachable cf (nobody_early cf) s -> In o (finals s) -> Permutation (fst o) (seq 0 n) ->
  (forall j, Gram.host_means data o j = column_mean (all_rows data n) j)
  /\ (forall a b, gram (Gram.host_r qr data o) a b = scatter_matrix (all_rows data n) a b).
Proof.
  intros qr data n th ord s o Hqr Hn Hne cf Hr Ho HM.
  destruct (C17_hosts_merge_every_factor_once n th ord s Hn Hr) as (_ & _ & HL & _). rewrite Forall_forall in HL. specialize (HL _ Ho).
  destruct (GramProofs.host_gram qr Hqr data n o Hn Hne HM HL) as (A & B & _). auto.
Qed.
Print Assumptions C20_hosts_scatter.

(** Hosts with several threads each: host [i] has the parts [data i 0], [data i 1], ... on its [t i] threads; [inner i] is what its threads arrived at. *)
Theorem C20_hosts_with_threads_scatter : forall qr data n t ordered s o inner, preserves_gram qr -> (1 <= n)%nat ->
  (forall i, (i < n)%nat -> (1 <= t i)%nat) -> (forall i k, (i < n)%nat -> (k < t i)%nat -> data i k <> []) ->
  (forall i, (i < n)%nat -> exists si, reachable (helper_threads (t i) (t i)) any_run si /\ In (inner i) (finals si)) ->
  let cf := hosts n true ordered 1 in
  reachable cf (nobody_early cf) s -> In o (finals s) -> Permutation (fst o) (seq 0 n) ->
  (forall j, Gram.threads_means data inner o j = column_mean (all_rows (fun i => all_rows (data i) (t i)) n) j)
  /\ (forall a b, gram (Gram.threads_r qr data inner o) a b = scatter_matrix (all_rows (fun i => all_rows (data i) (t i)) n) a b).
Proof.
  intros qr data n t ord s o inner Hqr Hn Ht Hne Hin cf Hr Ho HM.
  destruct (C17_hosts_merge_every_factor_once n true ord s Hn Hr) as (_ & _ & HL & _). rewrite Forall_forall in HL. specialize (HL _ Ho).
  apply (GramProofs.threads_gram qr Hqr); auto. intros i Hi. destruct (Hin i Hi) as (si & Hsi & Hoi). split.
  - pose proof (C18_helper_threads_know_all_means (t i) si (Ht i Hi) Hsi) as G. rewrite Forall_forall in G. exact (G _ Hoi).
  - destruct (C17_helper_threads_merge_every_factor_once (t i) si (Ht i Hi) Hsi) as (_ & _ & G & _). rewrite Forall_forall in G. exact (G _ Hoi).
Qed.
Print Assumptions C20_hosts_with_threads_scatter.

(** One of several channels: the same, on one host, and on hosts in step (C59). *)
Lemma several_complete : forall n th o, (1 <= n)%nat -> of_several_channels n th o -> Permutation (fst o) (seq 0 n) /\ Permutation (leaves (snd o)) (seq 0 n).
Proof.
  intros n th o Hn [k ord s -> Hk Hr Ho|k ord s -> Hk cf Hr Ho|k ord s -> Hk cf Hr Ho].
  - destruct (C59_one_host_partial k th ord s Hk Hr) as (_ & _ & F & _). rewrite Forall_forall in F. rewrite (F o Ho). split; apply Permutation_refl.
  - destruct (proj1 (C59_hosts_in_step_partial n k ord Hn Hk) s Hr) as (_ & _ & F & _). rewrite Forall_forall in F. exact (F o Ho).
  - destruct (proj1 (C59_hosts_with_threads_in_step_partial n k ord Hn Hk) s Hr) as (_ & _ & F & _). rewrite Forall_forall in F. exact (F o Ho).
Qed.
Theorem C20_channels_scatter : forall qr data n o, preserves_gram qr -> (1 <= n)%nat -> (forall k, (k < n)%nat -> data k <> []) -> of_several_channels n false o ->
  (forall j, Gram.host_means data o j = column_mean (all_rows data n) j)
  /\ (forall a b, gram (Gram.host_r qr data o) a b = scatter_matrix (all_rows data n) a b).
Proof.
  intros qr data n o Hqr Hn Hne Ho. destruct (several_complete n false o Hn Ho) as (HM & HL). destruct (GramProofs.host_gram qr Hqr data n o Hn Hne HM HL) as (A & B & _). auto.
Qed.
Print Assumptions C20_channels_scatter.
Theorem C20_channels_with_threads_scatter : forall qr data n t o inner, preserves_gram qr -> (1 <= n)%nat ->
  (forall i, (i < n)%nat -> (1 <= t i)%nat) -> (forall i k, (i < n)%nat -> (k < t i)%nat -> data i k <> []) ->
  (forall i, (i < n)%nat -> exists si, reachable (helper_threads (t i) (t i)) any_run si /\ In (inner i) (finals si)) -> of_several_channels n true o ->
  (forall j, Gram.threads_means data inner o j = column_mean (all_rows (fun i => all_rows (data i) (t i)) n) j)
  /\ (forall a b, gram (Gram.threads_r qr data inner o) a b = scatter_matrix (all_rows (fun i => all_rows (data i) (t i)) n) a b).
Proof.
  intros qr data n t o inner Hqr Hn Ht Hne Hin Ho. destruct (several_complete n true o Hn Ho) as (HM & HL).
  apply (GramProofs.threads_gram qr Hqr); auto. intros i Hi. destruct (Hin i Hi) as (si & Hsi & Hoi). split.
  - pose proof (C18_helper_threads_know_all_means (t i) si (Ht i Hi) Hsi) as G. rewrite Forall_forall in G. exact (G _ Hoi).
  - destruct (C17_helper_threads_merge_every_factor_once (t i) si (Ht i Hi) Hsi) as (_ & _ & G & _). rewrite Forall_forall in G. exact (G _ Hoi).
Qed.
Print Assumptions C20_channels_with_threads_scatter.
Example C20_channels_example : of_several_channels 3 true ([0; 1; 2]%nat, Combine (Combine (Own 0) (Own 2)) (Own 1)).
Proof. apply (threads_in_step 3 true _ 2 true (run (hosts 3 true true 2) in_step_threads_run)); [reflexivity|lia|apply run_threads; vm_compute; reflexivity|vm_compute; auto]. Qed.

(** A factorization with the required property exists (any matrix is a factor of itself with Q the identity), and two helper threads with different rows finalize. *)
Example C20_example : preserves_gram (fun M => M) /\ exists s o, reachable (helper_threads 2 2) any_run s /\ In o (finals s).
Proof.
  split; [intros M a b; reflexivity|].
  exists (run (helper_threads 2 2) [Handle 0; Handle 1; Handle 0; Handle 0]), ([0; 1]%nat, Combine (Own 0) (Own 1)). split; [apply run_reach|]. vm_compute. auto.
Qed.

(** C60: the sign of a principal component is normalised: the result is the component or its negation, and its first entry is not negative. *)
Theorem C60_component_sign : forall v,
  (Gram.normalize_row v = v \/ Gram.normalize_row v = map Ropp v) /\ match Gram.normalize_row v with [] => v = [] | x :: _ => 0 <= x end.
Proof. exact GramProofs.normalize_row_spec. Qed.
Print Assumptions C60_component_sign.
Example C60_example : Gram.normalize_row [-1; 2] = [1; -2].
Proof. cbn. destruct (Rge_dec (-1) 0) as [H|_]; [exfalso; Lra.lra|]. cbn. repeat f_equal; Lra.lra. Qed.
