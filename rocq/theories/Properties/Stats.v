From Coq Require Import List Arith Reals ZArith Lia Lra Bool Permutation.
From Verif.Base Require Import Res Params Assoc ListX.
From Verif.Topology Require Import Model Spec.
From Verif.Reader Require Import Spec.
From Verif.Stats Require Import Model Spec Proofs Excess.
Import ListNotations.
Local Open Scope R_scope.

(** C10: [parts] lists the nodes' partitions (C06) in order of arrival of their statistics at the main node.  Before the last
    message nothing is published; with the last one every node gets exactly one message with the same values, which are
    the minimum and maximum of each column of the whole data set. *)
Theorem C10_global_minmax : forall source N ov fmax w rows (parts : list (source * list (list R))),
  (1 <= N)%nat -> rows <> [] -> Forall (fun r => length r = w) rows ->
  (forall j x, entry rows j x -> - fmax <= x <= fmax) ->
  Permutation (map snd parts) (map (fun i => partition_of N ov i rows) (seq 0 N)) ->
  let msgs := map (fun sp => calculate_minmax fmax w (snd sp) (fst sp)) parts in
  (exists mn mx st,
     collect (handle_minmax N) (Some minmax_init) msgs = Ok (st, map (fun s => (s, (mn, mx))) (map fst parts))
     /\ length mn = w /\ length mx = w
     /\ forall j, (j < w)%nat -> exists v u, nth_error mn j = Some v /\ nth_error mx j = Some u
          /\ column_minimum rows j v /\ column_maximum rows j u)
  /\ (forall k, (k < N)%nat -> exists st, collect (handle_minmax N) (Some minmax_init) (firstn k msgs) = Ok (st, [])).
Proof. exact @minmax_global. Qed.
Print Assumptions C10_global_minmax.

Definition ex_data : list (list R) := map (fun i => [INR i; - INR i]) (seq 0 6).
Example C10_example : exists parts : list (nat * list (list R)),
  (1 <= 2)%nat /\ ex_data <> [] /\ Forall (fun r => length r = 2%nat) ex_data
  /\ (forall j x, entry ex_data j x -> - 100 <= x <= 100)
  /\ Permutation (map snd parts) (map (fun i => partition_of 2 1 i ex_data) (seq 0 2))
  /\ map fst parts = [1; 0]%nat.
Proof.
  exists [(1%nat, partition_of 2 1 1 ex_data); (0%nat, partition_of 2 1 0 ex_data)].
  split; [lia|]. split; [discriminate|]. split; [repeat constructor|]. split.
  - intros j x (r & Hr & Hx). unfold ex_data in Hr. apply in_map_iff in Hr. destruct Hr as (i & <- & Hi).
    apply in_seq in Hi. assert (INR i <= INR 6) by (apply le_INR; lia). pose proof (pos_INR i). cbn [INR] in H.
    destruct j as [|[|j]]; cbn in Hx; [injection Hx as <-; lra|injection Hx as <-; lra|destruct j; discriminate].
  - split; [apply perm_swap|reflexivity].
Qed.

(** C11: [hosts] lists cluster index, peer table and address of every node in order of arrival. *)
Theorem C11_published_length : forall source addr p N w rows (hosts : list (nat * (cluster_nodes addr * source))),
  (1 <= N)%nat -> (1 <= pattern_length p <= length rows / N)%nat -> (2 <= length rows)%nat ->
  Forall (fun r => length r = w) rows ->
  Permutation (map fst hosts) (seq 0 N) ->
  (forall i c s, In (i, (c, s)) hosts -> all_but i N (keys c)) ->
  exists msgs std st,
    mapM (fun h => calculate_std p (fst (snd h)) w (partition_of N (pattern_length p - 1) (fst h) rows) (snd (snd h))) hosts
      = Ok msgs
    /\ collect (handle_std N) (Some std_init) msgs
       = Ok (st, map (fun s => (s, (std, length rows))) (map (fun h => snd (snd h)) hosts)).
Proof. exact @std_counts_rows. Qed.
Print Assumptions C11_published_length.

Definition ex_std_params : params :=
  {| rate := 100; n_threads := 1; n_cluster_nodes := 2; pattern_length := 2; latent := 1; query_length := 5;
     column_start := 0; column_end := 0%Z; self_correction := false |}.
(** Two nodes; node 1 answers first. *)
Definition ex_hosts : list (nat * (cluster_nodes nat * nat)) := [(1, ([(0, 70)], 71)); (0, ([(1, 71)], 70))]%nat.
Lemma ex_hosts_tables : forall i c s, In (i, (c, s)) ex_hosts -> all_but i 2 (keys c).
Proof.
  intros i c s [E|[E|[]]]; injection E as <- <- <-; unfold all_but, keys; cbn; (split; [lia|]); (split; [repeat constructor; cbn; lia|]);
    intros j; lia.
Qed.
Example C11_example :
  (1 <= 2)%nat /\ (1 <= pattern_length ex_std_params <= length ex_data / 2)%nat /\ (2 <= length ex_data)%nat
  /\ Forall (fun r => length r = 2%nat) ex_data /\ Permutation (map fst ex_hosts) (seq 0 2)
  /\ (forall i c s, In (i, (c, s)) ex_hosts -> all_but i 2 (keys c)).
Proof.
  split; [lia|]. split; [cbn; lia|]. split; [cbn; lia|]. split; [repeat constructor|].
  split; [apply perm_swap|exact ex_hosts_tables].
Qed.

(** C12, one node: the published value is the sample standard deviation. *)
Theorem C12_single_node : forall source (addr : Type) p w rows (src : source),
  (1 <= pattern_length p)%nat -> (2 <= length rows)%nat -> Forall (fun r => length r = w) rows ->
  exists msg st std,
    calculate_std p ([] : cluster_nodes addr) w rows src = Ok msg
    /\ collect (handle_std 1) (Some std_init) [msg] = Ok (st, [(src, (std, length rows))])
    /\ length std = w
    /\ forall j, (j < w)%nat -> nth_error std j = Some (sample_std (column j rows)).
Proof.
  intros source addr p w rows src HP H2 HF.
  destruct (@calculate_std_ok source addr p [] 0 1 w rows src) as (msg & E & Es & G); auto.
  - unfold all_but. cbn. split; [lia|]. split; [constructor|]. intros j; lia.
  - unfold counted. cbn. lia.
  - replace (length rows - counted p 1 0)%nat with (length rows) in G by (unfold counted; cbn; lia). rewrite firstn_all in G.
    destruct (std_equal_means w (fun j => mean (column j rows)) [(rows, msg)]) as (st & std & Ec & L & H).
    + discriminate.
    + constructor; [|constructor]. cbn. ssplit; auto. intros ->. cbn in H2. lia.
    + cbn. rewrite app_nil_r. exact H2.
    + cbn [map fst snd concat length] in *. rewrite app_nil_r, Es in *. exists msg, st, std. auto.
Qed.
Print Assumptions C12_single_node.

(** C12, several nodes whose columns have the same means: the published value is correct.  ([std_good w m msg]: [msg] holds the number of
    rows, the column means and the column scatters of [m]; C12_node_message shows that every node sends such a message for the
    rows it counts.) *)
Theorem C12_equal_means : forall source w mu (parts : list (list (list R) * std_msg source)),
  parts <> [] ->
  Forall (fun sp => std_good w (fst sp) (snd sp) /\ Forall (fun r => length r = w) (fst sp) /\ fst sp <> []
                    /\ forall j, (j < w)%nat -> mean (column j (fst sp)) = mu j) parts ->
  (2 <= length (concat (map fst parts)))%nat ->
  exists st std, collect (handle_std (length parts)) (Some std_init) (map snd parts)
     = Ok (st, map (fun s => (s, (std, length (concat (map fst parts))))) (map (fun sp => sm_source (snd sp)) parts))
   /\ length std = w
   /\ forall j, (j < w)%nat -> nth_error std j = Some (sample_std (column j (concat (map fst parts)))).
Proof. exact @std_equal_means. Qed.
Print Assumptions C12_equal_means.

Theorem C12_node_message : forall source addr p (c : cluster_nodes addr) own N w data (src : source),
  all_but own N (keys c) -> Forall (fun r => length r = w) data -> (1 <= pattern_length p)%nat ->
  let overlap := (if (own =? N - 1)%nat then 0 else pattern_length p - 1)%nat in
  (overlap < length data)%nat ->
  exists msg, calculate_std p c w data src = Ok msg /\ sm_source msg = src
    /\ sm_n msg = (length data - overlap)%nat
    /\ length (sm_mean msg) = w /\ length (sm_m2 msg) = w
    /\ forall j, (j < w)%nat ->
         nth_error (sm_mean msg) j = Some (mean (column j (firstn (length data - overlap) data)))
         /\ nth_error (sm_m2 msg) j = Some (scatter (column j (firstn (length data - overlap) data))).
Proof.
  intros source addr p c own N w data src Hall HF HP overlap Ho.
  destruct (@calculate_std_ok source addr p c own N w data src Hall HF HP Ho) as (msg & E & Es & G).
  exists msg. split; [exact E|]. split; [exact Es|]. unfold std_good in G. rewrite firstn_length, Nat.min_l in G by lia. exact G.
Qed.
Print Assumptions C12_node_message.

(** C12, two nodes: the published variance is off by [d^2 * (1 - n*m/(n+m)) / (n+m-1)], [d] the difference of the means. *)
Theorem C12_two_node_error : forall source w a b (ma mb : std_msg source),
  Forall (fun r => length r = w) a -> Forall (fun r => length r = w) b -> a <> [] -> b <> [] ->
  std_good w a ma -> std_good w b mb ->
  exists st std, collect (handle_std 2) (Some std_init) [ma; mb]
     = Ok (st, [(sm_source ma, (std, length (a ++ b))); (sm_source mb, (std, length (a ++ b)))])
   /\ forall j, (j < w)%nat ->
      let A := column j a in let B := column j b in
      let n := INR (length a) in let m := INR (length b) in
      nth_error std j = Some (sqrt ((scatter (A ++ B) + (mean B - mean A) * (mean B - mean A) * (1 - n * m / (n + m)))
                                    / (n + m - 1))).
Proof. exact @std_two_nodes. Qed.
Print Assumptions C12_two_node_error.

(** C12 is false for two nodes. *)
Theorem C12_two_nodes_refuted : exists p rows (hosts : list (nat * (cluster_nodes nat * nat))) msgs st std v,
  (1 <= pattern_length p <= length rows / 2)%nat /\ Forall (fun r => length r = 1%nat) rows
  /\ Permutation (map fst hosts) (seq 0 2) /\ (forall i c s, In (i, (c, s)) hosts -> all_but i 2 (keys c))
  /\ mapM (fun h => calculate_std p (fst (snd h)) 1 (partition_of 2 (pattern_length p - 1) (fst h) rows) (snd (snd h))) hosts = Ok msgs
  /\ collect (handle_std 2) (Some std_init) msgs = Ok (st, map (fun s => (s, (std, length rows))) (map (fun h => snd (snd h)) hosts))
  /\ nth_error std 0 = Some v /\ v <> sample_std (column 0 rows).
Proof.
  set (rows := [[0]; [0]; [0]; [2]; [2]; [2]]).
  set (p0 := [[0]; [0]; [0]; [2]]). set (p1 := [[2]; [2]; [2]]).
  destruct (@calculate_std_ok nat nat ex_std_params [(0, 70)]%nat 1 2 1 p1 71%nat) as (m1 & E1 & S1 & G1).
  { apply (ex_hosts_tables 1 _ 71). now left. }
  { repeat constructor. }
  { cbn; lia. }
  { cbn; lia. }
  destruct (@calculate_std_ok nat nat ex_std_params [(1, 71)]%nat 0 2 1 p0 70%nat) as (m0 & E0 & S0 & G0).
  { apply (ex_hosts_tables 0 _ 70). right. now left. }
  { repeat constructor. }
  { cbn; lia. }
  { cbn; lia. }
  cbn [counted p0 p1 length Nat.eqb Nat.sub pattern_length ex_std_params firstn] in G0, G1.
  destruct (@std_two_nodes nat 1 [[2]; [2]; [2]] [[0]; [0]; [0]] m1 m0) as (st & std & Ec & Hstd); [| | | |exact G1|exact G0|].
  1,2: repeat constructor. 1,2: discriminate.
  specialize (Hstd 0%nat ltac:(lia)). cbv zeta in Hstd.
  exists ex_std_params, rows, ex_hosts, [m1; m0], st, std. eexists.
  split; [cbn; lia|]. split; [repeat constructor|]. split; [apply perm_swap|]. split; [exact ex_hosts_tables|].
  split.
  { unfold ex_hosts. cbn [mapM fst snd]. change (partition_of 2 (pattern_length ex_std_params - 1) 1 rows) with p1.
    change (partition_of 2 (pattern_length ex_std_params - 1) 0 rows) with p0. rewrite E1. cbn [bind]. rewrite E0. reflexivity. }
  split.
  { rewrite Ec. rewrite S1, S0. reflexivity. }
  split; [exact Hstd|].
  unfold sample_std, scatter, mean, Rsum, column, rows. cbn.
  intros Hbad. apply sqrt_inj in Hbad; lra.
Qed.
Print Assumptions C12_two_nodes_refuted.

(** C12 for any number of nodes and any order of arrival: what is published.  [excess] of the nodes' own rows in the order of arrival: for each node after
    the first, the squared difference between its mean and the mean of all rows before, times [1 - n * m / (n + m)]. *)
Theorem C12_cluster_published : forall source addr p N w rows (hosts : list (nat * (cluster_nodes addr * source))),
  (1 <= N)%nat -> (1 <= pattern_length p <= length rows / N)%nat -> (2 <= length rows)%nat ->
  Forall (fun r => length r = w) rows ->
  Permutation (map fst hosts) (seq 0 N) ->
  (forall i c s, In (i, (c, s)) hosts -> all_but i N (keys c)) ->
  exists msgs std st,
    mapM (fun h => calculate_std p (fst (snd h)) w (partition_of N (pattern_length p - 1) (fst h) rows) (snd (snd h))) hosts = Ok msgs
    /\ collect (handle_std N) (Some std_init) msgs = Ok (st, map (fun s => (s, (std, length rows))) (map (fun h => snd (snd h)) hosts))
    /\ length std = w
    /\ forall j, (j < w)%nat -> nth_error std j
         = Some (sqrt ((scatter (column j rows) + excess (map (fun h => column j (partition_of N 0 (fst h) rows)) hosts)) / (INR (length rows) - 1))).
Proof. exact @std_cluster. Qed.
Print Assumptions C12_cluster_published.

(** With at least two rows per node the published value is never too large. *)
Theorem C12_cluster_never_too_large : forall source addr p N w rows (hosts : list (nat * (cluster_nodes addr * source))) msgs std n st s,
  (1 <= N)%nat -> (1 <= pattern_length p <= length rows / N)%nat -> (2 <= length rows / N)%nat ->
  Forall (fun r => length r = w) rows ->
  Permutation (map fst hosts) (seq 0 N) ->
  (forall i c s, In (i, (c, s)) hosts -> all_but i N (keys c)) ->
  mapM (fun h => calculate_std p (fst (snd h)) w (partition_of N (pattern_length p - 1) (fst h) rows) (snd (snd h))) hosts = Ok msgs ->
  collect (handle_std N) (Some std_init) msgs = Ok st -> In (s, (std, n)) (snd st) ->
  forall j v, nth_error std j = Some v -> v <= sample_std (column j rows).
Proof.
  intros source addr p N w rows hosts msgs std n st s HN HP H2 HF Hperm Htab Em Ec Hin j v Hv.
  pose proof (Nat.mul_div_le (length rows) N ltac:(lia)) as Hdiv. assert (Hl : (2 <= length rows)%nat) by nia.
  destruct (std_cluster p N w rows hosts HN HP Hl HF Hperm Htab) as (msgs' & std' & st' & Em' & Ec' & L & H).
  rewrite Em in Em'. injection Em' as <-. rewrite Ec in Ec'. injection Ec' as ->. cbn [snd] in Hin. apply in_map_iff in Hin. destruct Hin as (s' & E & _).
  injection E as _ <- _. assert (Hj : (j < w)%nat) by (rewrite <- L; apply nth_error_Some; congruence).
  rewrite (H j Hj) in Hv. injection Hv as <-. unfold sample_std. rewrite (column_length _ _ w) by assumption. apply sqrt_le_1_alt.
  assert (P : 0 < INR (length rows) - 1) by (apply le_INR in Hl; cbn [INR] in Hl; lra).
  unfold Rdiv. apply Rmult_le_compat_r; [apply Rlt_le, Rinv_0_lt_compat, P|].
  enough (excess (map (fun h => column j (partition_of N 0 (fst h) rows)) hosts) <= 0) by lra. apply excess_nonpos. apply Forall_forall. intros b Hb.
  apply in_map_iff in Hb. destruct Hb as (h & <- & Hh). assert (Hi : In (fst h) (seq 0 N)) by (eapply Permutation_in; [exact Hperm|]; now apply in_map).
  apply in_seq in Hi. rewrite (column_length _ _ w); [|now apply partition_widths|exact Hj]. now apply own_part_length.
Qed.
Print Assumptions C12_cluster_never_too_large.

(** With at least three rows per node it is right exactly if all nodes' own rows have the same mean. *)
Theorem C12_cluster_correct_exactly : forall source addr p N w rows (hosts : list (nat * (cluster_nodes addr * source))) msgs std n st s,
  (1 <= N)%nat -> (1 <= pattern_length p <= length rows / N)%nat -> (3 <= length rows / N)%nat ->
  Forall (fun r => length r = w) rows ->
  Permutation (map fst hosts) (seq 0 N) ->
  (forall i c s, In (i, (c, s)) hosts -> all_but i N (keys c)) ->
  mapM (fun h => calculate_std p (fst (snd h)) w (partition_of N (pattern_length p - 1) (fst h) rows) (snd (snd h))) hosts = Ok msgs ->
  collect (handle_std N) (Some std_init) msgs = Ok st -> In (s, (std, n)) (snd st) ->
  forall j, (j < w)%nat ->
    (nth_error std j = Some (sample_std (column j rows))
     <-> forall a b, (a < N)%nat -> (b < N)%nat -> mean (column j (partition_of N 0 a rows)) = mean (column j (partition_of N 0 b rows))).
Proof.
  intros source addr p N w rows hosts msgs std n st s HN HP H3 HF Hperm Htab Em Ec Hin j Hj.
  pose proof (Nat.mul_div_le (length rows) N ltac:(lia)) as Hdiv. assert (Hl : (2 <= length rows)%nat) by nia.
  destruct (std_cluster p N w rows hosts HN HP Hl HF Hperm Htab) as (msgs' & std' & st' & Em' & Ec' & L & H).
  rewrite Em in Em'. injection Em' as <-. rewrite Ec in Ec'. injection Ec' as ->. cbn [snd] in Hin. apply in_map_iff in Hin. destruct Hin as (s' & E & _).
  injection E as _ <- _. rewrite (H j Hj). unfold sample_std. rewrite (column_length _ _ w) by assumption.
  assert (P : 0 < INR (length rows) - 1) by (apply le_INR in Hl; cbn [INR] in Hl; lra).
  set (cols := map (fun h => column j (partition_of N 0 (fst h) rows)) hosts).
  assert (Hidx : forall h, In h hosts -> (fst h < N)%nat).
  { intros h Hh. assert (Hi : In (fst h) (seq 0 N)) by (eapply Permutation_in; [exact Hperm|]; now apply in_map). apply in_seq in Hi. lia. }
  assert (Three : Forall (fun b : list R => (3 <= length b)%nat) cols).
  { apply Forall_forall. intros b Hb. apply in_map_iff in Hb. destruct Hb as (h & <- & Hh).
    rewrite (column_length _ _ w); [|now apply partition_widths|exact Hj]. apply own_part_length; auto. }
  assert (Cat : scatter (concat cols) = scatter (column j rows)).
  { unfold cols. rewrite <- (map_map (fun h => partition_of N 0 (fst h) rows) (column j)), <- column_concat. apply scatter_perm. unfold column. apply Permutation_flat_map.
    transitivity (concat (map (fun i => partition_of N 0 i rows) (seq 0 N))); [|now rewrite own_parts].
    rewrite <- (map_map fst (fun i => partition_of N 0 i rows)), <- !flat_map_concat_map. now apply Permutation_flat_map. }
  pose proof (excess_bound cols) as Bd. rewrite Cat in Bd.
  assert (Ne : Forall (fun b : list R => b <> []) cols) by (rewrite Forall_forall in *; intros b Hb Z; pose proof (Three b Hb); subst b; cbn in *; lia).
  specialize (Bd Ne). pose proof (scatter_nonneg (column j rows)) as Nn.
  transitivity (excess cols = 0).
  - split; [|intros ->; now rewrite Rplus_0_r]. intros Z. injection Z as Z. apply sqrt_inj in Z.
    + apply Rmult_eq_reg_r in Z; [lra|]. apply Rinv_neq_0_compat. lra.
    + apply Rmult_le_pos; [exact Bd|]. apply Rlt_le, Rinv_0_lt_compat, P.
    + apply Rmult_le_pos; [exact Nn|]. apply Rlt_le, Rinv_0_lt_compat, P.
  - rewrite (excess_zero cols Three). unfold cols. split.
    + intros A a b Ha Hb.
      assert (I : forall k, (k < N)%nat -> In (column j (partition_of N 0 k rows)) (map (fun h => column j (partition_of N 0 (fst h) rows)) hosts)).
      { intros k Hk. assert (Hi : In k (map fst hosts)) by (eapply Permutation_in; [apply Permutation_sym, Hperm|]; apply in_seq; lia).
        apply in_map_iff in Hi. destruct Hi as (h & <- & Hh). apply in_map_iff. eauto. }
      apply A; auto.
    + intros A x y Hx Hy. apply in_map_iff in Hx, Hy. destruct Hx as (h & <- & Hh). destruct Hy as (k & <- & Hk). apply A; auto.
Qed.
Print Assumptions C12_cluster_correct_exactly.

(** Two nodes with three rows each, node 1 first: the hypotheses hold, the own means differ. *)
Example C12_cluster_case :
  (1 <= pattern_length ex_std_params <= length ex_data / 2)%nat /\ (3 <= length ex_data / 2)%nat /\ Forall (fun r => length r = 2%nat) ex_data
  /\ Permutation (map fst ex_hosts) (seq 0 2) /\ (forall i c s, In (i, (c, s)) ex_hosts -> all_but i 2 (keys c))
  /\ mean (column 0 (partition_of 2 0 0 ex_data)) <> mean (column 0 (partition_of 2 0 1 ex_data)).
Proof.
  split; [cbn; lia|]. split; [cbn; lia|]. split; [repeat constructor|]. split; [apply perm_swap|]. split; [exact ex_hosts_tables|].
  unfold mean, Rsum, column, partition_of, ex_data. cbn. lra.
Qed.
