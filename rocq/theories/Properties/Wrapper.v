(** The Python wrapper: C55, C74. *)
From Coq Require Import List Arith ZArith Bool String Lia.
From Verif.Base Require Import Res ListX.
From Verif.Protocol Require Import Pool.
From Verif.Wrapper Require Import Model.
Import ListNotations.
Local Open Scope nat_scope.

(** ** C55 *)
(** Every method the wrapper offers is accepted: refuted.  With 'meanshift' every analysis aborts, whatever the other arguments. *)
Theorem C55_meanshift_refuted : forall cpus a, 1 <= cpus -> a_clustering a = MeanShift -> fit_predict cpus a = Panic UnwrapNone.
Proof.
  intros cpus a Hc H. unfold fit_predict, local_array, call, init. cbn. rewrite H. destruct (Z.ltb_spec 0 (a_n_threads a)).
  - destruct (Z.ltb_spec (a_n_threads a) 0); [lia|reflexivity].
  - destruct (Z.ltb_spec (Z.min (Z.of_nat cpus - 1) 1) 0); [lia|reflexivity].
Qed.
(** The other method is accepted. *)
Theorem C55_kde_partial : forall cpus a, 1 <= cpus -> a_clustering a = KDE -> exists p, fit_predict cpus a = Ok p /\ p_clustering p = MultiKDE.
Proof.
  intros cpus a Hc H. unfold fit_predict, local_array, call, init. cbn. rewrite H. destruct (Z.ltb_spec 0 (a_n_threads a)).
  - destruct (Z.ltb_spec (a_n_threads a) 0); [lia|]. eexists. split; reflexivity.
  - destruct (Z.ltb_spec (Z.min (Z.of_nat cpus - 1) 1) 0); [lia|]. eexists. split; reflexivity.
Qed.
Definition ex_arguments := {| a_pattern_length := 50; a_latent := None; a_rate := 100; a_query_length := Some 75; a_n_threads := -1; a_clustering := KDE; a_self_correction := false |}.
Example C55_case : fit_predict 8 ex_arguments = Ok {| p_pattern_length := 50; p_latent := 16; p_rate := 100; p_n_threads := 1; p_query_length := 75; p_clustering := MultiKDE; p_self_correction := false; p_cluster_nodes := 1 |}.
Proof. reflexivity. Qed.

(** ** C74 *)
(** The engine runs with the arguments the user gave, each in its place, and with the documented defaults: a third of the pattern length, the pattern length. *)
Theorem C74_arguments : forall cpus a p, 1 <= cpus -> fit_predict cpus a = Ok p ->
  p_pattern_length p = a_pattern_length a /\ p_rate p = a_rate a /\ p_self_correction p = a_self_correction a /\
  (forall l, a_latent a = Some l -> 1 <= l -> p_latent p = l) /\ (a_latent a = None -> 3 * p_latent p <= a_pattern_length a < 3 * p_latent p + 3) /\
  (forall q, a_query_length a = Some q -> 1 <= q -> p_query_length p = q) /\ (a_query_length a = None -> p_query_length p = a_pattern_length a) /\
  ((0 < a_n_threads a)%Z -> Z.of_nat (p_n_threads p) = a_n_threads a).
Proof.
  intros cpus a p Hc H. destruct (a_clustering a) eqn:Em; [|rewrite C55_meanshift_refuted in H by assumption; discriminate].
  unfold fit_predict, local_array, call, init in H. cbn in H. rewrite Em in H.
  assert (Hp : p = {| p_pattern_length := a_pattern_length a; p_latent := or_default (a_latent a) (a_pattern_length a / 3); p_rate := a_rate a;
    p_n_threads := Z.to_nat (if (0 <? a_n_threads a)%Z then a_n_threads a else Z.min (Z.of_nat cpus - 1) 1); p_query_length := or_default (a_query_length a) (a_pattern_length a);
    p_clustering := MultiKDE; p_self_correction := a_self_correction a; p_cluster_nodes := 1 |}).
  { destruct ((if (0 <? a_n_threads a)%Z then a_n_threads a else Z.min (Z.of_nat cpus - 1) 1) <? 0)%Z; [discriminate|]. cbn in H. now injection H as <-. }
  subst p. cbn -[Nat.div or_default]. ssplit; auto.
  - intros l -> Hl. destruct l; [lia|reflexivity].
  - intros ->. cbn [or_default]. pose proof (Nat.div_mod (a_pattern_length a) 3). pose proof (Nat.mod_upper_bound (a_pattern_length a) 3). lia.
  - intros q -> Hq. destruct q; [lia|reflexivity].
  - now intros ->.
  - intros Ht. destruct (Z.ltb_spec 0 (a_n_threads a)); lia.
Qed.
(** The default number of threads uses the processors of the machine: refuted, it is at most one... *)
Theorem C74_default_is_one_thread_refuted : forall cpus a p, (a_n_threads a <= 0)%Z -> fit_predict cpus a = Ok p -> p_n_threads p <= 1.
Proof.
  intros cpus a p Ha H. unfold fit_predict, local_array, call, init in H. cbn in H. destruct (Z.ltb_spec 0 (a_n_threads a)); [lia|].
  destruct (Z.ltb_spec (Z.min (Z.of_nat cpus - 1) 1) 0); [discriminate|]. apply bind_ok_inv in H. destruct H as (c & _ & H). injection H as <-. cbn. lia.
Qed.
(** ... and zero on a machine with one processor, with which the clustering of nodes divides by zero. *)
Theorem C74_no_threads_refuted : forall a, (a_n_threads a <= 0)%Z -> a_clustering a = KDE -> exists p, fit_predict 1 a = Ok p /\ p_n_threads p = 0 /\ forall n t, kde_range n (p_n_threads p) t = Panic DivByZero.
Proof.
  intros a Ha Hm. unfold fit_predict, local_array, call, init. cbn -[kde_range]. rewrite Hm. destruct (Z.ltb_spec 0 (a_n_threads a)); [lia|]. cbn. eexists. split; [reflexivity|]. split; reflexivity.
Qed.
(** The hosts of a cluster started with the same arguments run with the same parameters, but for their own address and their role. *)
Theorem C74_hosts_agree : forall addr (parse : string -> option addr) e out cs ce n lm ls mh X p q,
  distributed_main parse (call_main {| base := e; d_local_host := lm; d_output_path := out; d_column_start := cs; d_column_end := ce; d_n_cluster_nodes := n; d_mainhost := None |} X) = Ok p ->
  distributed_sub parse (call_sub {| base := e; d_local_host := ls; d_output_path := out; d_column_start := cs; d_column_end := ce; d_n_cluster_nodes := n; d_mainhost := Some mh |} mh) = Ok q ->
  f_common p = f_common q /\ p_cluster_nodes (f_common p) = n /\ p_pattern_length (f_common p) = pattern_length e /\ p_latent (f_common p) = latent e /\ p_query_length (f_common p) = query_length e /\
  p_rate (f_common p) = rate e /\ p_self_correction (f_common p) = self_correction e /\ Z.of_nat (p_n_threads (f_common p)) = n_threads e /\
  f_output p = out /\ f_output q = out /\ f_column_start p = cs /\ f_column_start q = cs /\ f_column_end p = ce /\ f_column_end q = ce /\
  f_role p = Main X /\ (exists a, parse mh = Some a /\ f_role q = Sub a) /\ parse lm = Some (f_local_host p) /\ parse ls = Some (f_local_host q).
Proof.
  intros addr parse e out cs ce n lm ls mh X p q Hp Hq. unfold distributed_main, call_main in Hp. cbn in Hp. unfold distributed_sub, call_sub in Hq. cbn in Hq.
  apply bind_ok_inv in Hq. destruct Hq as (m & Hm & Hq). cbn in Hq.
  destruct (Z.ltb_spec (n_threads e) 0); [discriminate|].
  apply bind_ok_inv in Hp. destruct Hp as (c & Hc & Hp). apply bind_ok_inv in Hp. destruct Hp as (h & Hh & Hp). injection Hp as <-.
  apply bind_ok_inv in Hq. destruct Hq as (c' & Hc' & Hq). apply bind_ok_inv in Hq. destruct Hq as (h' & Hh' & Hq). injection Hq as <-.
  rewrite Hc in Hc'. injection Hc' as <-. cbn. unfold unwrap in *.
  destruct (parse mh) as [a|] eqn:Ea; [|discriminate]. destruct (parse lm); [|discriminate]. destruct (parse ls); [|discriminate].
  injection Hm as <-. injection Hh as <-. injection Hh' as <-. ssplit; auto; [lia|]. exists a. auto.
Qed.
Example C74_hosts_case : let parse s := if String.eqb s "" then None else Some s in
  exists p q, distributed_main parse (call_main {| base := init 8 ex_arguments; d_local_host := "a"; d_output_path := "o"; d_column_start := 1; d_column_end := -1; d_n_cluster_nodes := 2; d_mainhost := None |} "x") = Ok p
    /\ distributed_sub parse (call_sub {| base := init 8 ex_arguments; d_local_host := "b"; d_output_path := "o"; d_column_start := 1; d_column_end := -1; d_n_cluster_nodes := 2; d_mainhost := Some "a"%string |} "a") = Ok q.
Proof. cbn. eexists. eexists. split; reflexivity. Qed.
(** An explicit latent of 0 or query length of 0 is not what the engine gets: it is replaced silently by the default. *)
Theorem C74_zero_replaced_refuted : forall cpus a p, fit_predict cpus a = Ok p ->
  (a_latent a = Some 0 -> 3 * p_latent p <= a_pattern_length a < 3 * p_latent p + 3) /\ (a_query_length a = Some 0 -> p_query_length p = a_pattern_length a).
Proof.
  intros cpus a p H. unfold fit_predict, local_array, call, init in H. cbn -[Nat.div or_default] in H.
  destruct ((if (0 <? a_n_threads a)%Z then a_n_threads a else Z.min (Z.of_nat cpus - 1) 1) <? 0)%Z; [discriminate|]. apply bind_ok_inv in H. destruct H as (c & _ & H). injection H as <-.
  cbn [p_latent p_query_length]. split.
  - intros ->. cbn [or_default]. change (fst (Nat.divmod (a_pattern_length a) 2 0 2)) with (a_pattern_length a / 3). pose proof (Nat.div_mod (a_pattern_length a) 3). pose proof (Nat.mod_upper_bound (a_pattern_length a) 3). lia.
  - now intros ->.
Qed.
Print Assumptions C74_zero_replaced_refuted.
Example C74_zero_case : fit_predict 4 {| a_pattern_length := 30; a_latent := Some 0; a_rate := 7; a_query_length := Some 0; a_n_threads := 5; a_clustering := KDE; a_self_correction := true |}
  = Ok {| p_pattern_length := 30; p_latent := 10; p_rate := 7; p_n_threads := 5; p_query_length := 30; p_clustering := MultiKDE; p_self_correction := true; p_cluster_nodes := 1 |}.
Proof. reflexivity. Qed.
Print Assumptions C55_meanshift_refuted. Print Assumptions C74_arguments. Print Assumptions C74_default_is_one_thread_refuted. Print Assumptions C74_no_threads_refuted.
Print Assumptions C74_hosts_agree.
