(** C94: from the file to the scores. *)
From Verif.Pca Require Import Model Spec.
From Coq Require Import List Arith ZArith Bool Lia Permutation Reals Lra.
From Verif.Base Require Import Res Params ListX Float32.
From Verif.Topology Require Import Model.
From Verif.Stats Require Import Spec.
From Verif.Reader Require Import Spec.
From Verif.Manager Require Import Collect CollectSpec CollectMain ArrayProofs.
From Verif.Pca Require Import GramSpec Components ComponentsSpec.
From Verif.Transition Require Import Spec.
From Verif.Segmentation Require Import Model Spec PathProofs.
From Verif.Geometry Require Import Model Spec Crossing.
From Verif.Front Require Import Model Spec.
From Verif.Nodes Require Import Spec.
From Verif.Intersections Require Import Real RealSpec.
From Verif.Kde Require Import Real RealSpec.
From Verif.Scoring Require Import Model Spec.
From Verif.Correction Require Import Model Spec.
From Verif.Pipeline Require Import Model Spec Cluster ClusterSpec Correcting.
From Verif.Properties Require Import Segmentation Correction Scoring Geometry Front Crossings Pipeline ClusterPipeline Analysis Correcting.
From Verif.Analysis Require Import Model Spec Case Correcting CorrectingCase.
Import ListNotations.
Local Open Scope nat_scope.

(** Host [h] has started preprocessing, once, with these rows, extremes and number of rows. *)
Definition prepared {cell} (s : Collect.world cell) (h : nat) (data : list (list R)) (mins maxs : list R) (n : nat) : Prop :=
  preps (hosts s h) = 1 /\ hdata (hosts s h) = Some data /\ minmax (hosts s h) = Some (mins, maxs) /\ exists std, dev (hosts s h) = Some (std, n).
(** The file: [records] of [width] cells; the selected columns are [rows]. *)
Definition readable {cell} (parse : cell -> option R) (val : cell -> R) (fmax : R) (p : params) (width : nat) (records : list (list cell)) (rows : list (list R)) : Prop :=
  rows = map (selected p width val) records /\ Forall (fun r => length r = width) records /\ (Z.of_nat width < 2 ^ 64)%Z /\
  (forall r b, In r records -> In b r -> parse b = Some (val b)) /\
  (Z.of_nat (column_start p) <= column_limit width (column_end p) <= Z.of_nat width)%Z /\
  (forall j x, entry rows j x -> (- fmax <= x <= fmax)%R).
(** The number of selected columns. *)
Definition channels (p : params) (width : nat) : nat := Z.to_nat (column_limit width (column_end p)) - column_start p.
(** A complete execution of the statistics stage. *)
Definition collected {cell} (parse : cell -> option R) fmax p peers width (records : list (list cell)) (start s : Collect.world cell) : Prop :=
  (exists k, Collect.runs parse fmax p peers width records k start s) /\ forall s', ~ Collect.step parse fmax p peers width records s s'.

Lemma file_collected : forall cell (parse : cell -> option R) val fmax p peers width records rows mins maxs s,
  1 <= n_cluster_nodes p -> introduced (n_cluster_nodes p) peers -> 1 <= pattern_length p <= length rows / n_cluster_nodes p ->
  length rows mod n_cluster_nodes p <= pattern_length p - 1 -> 2 <= length rows -> readable parse val fmax p width records rows ->
  extremes (channels p width) rows mins maxs -> collected parse fmax p peers width records (file_start p) s ->
  forall h, h < n_cluster_nodes p -> prepared s h (partition_of (n_cluster_nodes p) (pattern_length p - 1) h rows) mins maxs (length rows).
Proof.
  intros cell parse val fmax p peers width records rows mins maxs s HN Hin HP Hm H2 (-> & HW & Hw & Hpa & Hl & Hb) Hx ((k & Hr) & Hn) h Hh.
  rewrite map_length in HP, Hm, H2.
  destruct (statistics_everywhere parse val fmax p peers width records HN Hin HP Hm H2 HW Hw Hpa Hl Hb) as (mn & mx & Ex & Hrun & _).
  destruct (extremes_unique _ _ _ _ _ _ Ex Hx) as (<- & <-).
  destruct (Hrun k s Hr) as (_ & _ & (std & Hs) & Hend). specialize (Hend Hn h Hh). destruct (Hs h Hh) as (_ & H). destruct (H Hend) as (A & B & C).
  split; [exact Hend|]. split; [exact A|]. split; [exact B|]. exists std. exact C.
Qed.

Lemma array_collected : forall cell (parse : cell -> option R) fmax p peers width (records : list (list cell)) dim rows mins maxs s,
  n_cluster_nodes p = 1 -> Forall (fun r => length r = dim) rows -> 2 <= length rows -> (forall j x, entry rows j x -> (- fmax <= x <= fmax)%R) ->
  extremes dim rows mins maxs -> collected parse fmax p peers width records (array_start rows) s -> prepared s 0 rows mins maxs (length rows).
Proof.
  intros cell parse fmax p peers width records dim rows mins maxs s HN HW H2 Hb Hx ((k & Hr) & Hn).
  destruct (array_alone parse fmax p peers width records rows dim HW H2 Hb HN) as (mn & mx & std & Ex & _ & _ & Hrun & _).
  destruct (extremes_unique _ _ _ _ _ _ Ex Hx) as (<- & <-).
  destruct (Hrun k s Hr) as (_ & _ & _ & H & Hend). specialize (Hend Hn). destruct (H Hend) as (A & B & C).
  split; [exact Hend|]. split; [exact A|]. split; [exact B|]. exists std. exact C.
Qed.

Lemma partition_whole : forall A o (rows : list A), partition_of 1 o 0 rows = rows.
Proof. intros A o rows. unfold partition_of. cbn [Nat.eqb Nat.mul]. unfold slice. cbn [skipn]. rewrite Nat.sub_0_r. apply firstn_all. Qed.

Lemma readable_widths : forall cell (parse : cell -> option R) val fmax p width records rows, readable parse val fmax p width records rows ->
  Forall (fun r => length r = channels p width) rows.
Proof.
  intros cell parse val fmax p width records rows (-> & HW & _ & _ & Hl & _). rewrite Forall_map. revert HW. apply Forall_impl. intros r Hr.
  unfold selected. rewrite map_length, slice_length, Hr. unfold channels. lia.
Qed.

(** On one machine, with the same file or with its numbers as an array. *)
Lemma alone_collected : forall cell (parse : cell -> option R) val fmax p one peers width records rows mins maxs s,
  n_cluster_nodes one = 1 -> column_start one = column_start p -> column_end one = column_end p -> introduced 1 peers ->
  1 <= pattern_length one <= length rows -> 2 <= length rows -> readable parse val fmax p width records rows -> extremes (channels p width) rows mins maxs ->
  collected parse fmax one peers width records (file_start one) s \/ collected parse fmax one peers width records (array_start rows) s ->
  prepared s 0 rows mins maxs (length rows).
Proof.
  intros cell parse val fmax p one peers width records rows mins maxs s H1 Ec Ee Hin HP H2 Hrd Hx [H|H].
  - assert (R1 : readable parse val fmax one width records rows) by (unfold readable, selected in *; now rewrite Ec, Ee).
    pose proof (file_collected cell parse val fmax one peers width records rows mins maxs s) as T. rewrite !H1, Nat.div_1_r, Nat.mod_1_r in T.
    specialize (T ltac:(lia) Hin HP ltac:(lia) H2 R1 ltac:(unfold channels in *; now rewrite Ec, Ee) H 0 ltac:(lia)). now rewrite partition_whole in T.
  - eapply array_collected; try eassumption; [|apply Hrd]. eapply readable_widths; eassumption.
Qed.

(** C94: one file, read by the main host of a cluster, and read (or its numbers handed over as an array) on one machine.  Whatever the order of the messages of the statistics, every host goes on with its rows, and
    the one machine with all rows; and under the conditions of C88 for these rows every complete execution from there on gives every host the scores that every complete execution gives on the one machine. *)
Theorem C94_file_to_scores_partial : forall cell (parse : cell -> option R) val fmax p peers peers' threads width records rows
    qr svd inv qr' svd' inv' mins maxs blocks windows pcs pcs' ms points s s',
  let N := n_cluster_nodes p in let dim := channels p width in let part := fun k => partition_of N (pattern_length p - 1) k rows in let one := alone threads p in
  let all := concat (map points (seq 0 N)) in
  readable parse val fmax p width records rows -> introduced N peers -> introduced 1 peers' ->
  latent p + 3 <= pattern_length p -> 2 <= N <= rate p -> pattern_length p <= length rows / N -> length rows mod N <= pattern_length p - 1 -> 1 <= dim -> 1 <= query_length p ->
  preserves_gram qr -> preserves_gram qr' -> inverse_correct (2 * dim) inv -> inverse_correct (2 * dim) inv' -> extremes dim rows mins maxs ->
  mapM (fun k => embed p dim (part k)) (seq 0 N) = Ok blocks -> all_analysed qr svd (pattern_length p - latent p) dim (concat blocks) pcs ->
  embed one dim rows = Ok windows -> all_analysed qr' svd' (pattern_length p - latent p) dim windows pcs' ->
  (forall c, c < dim -> determined (pattern_length p - latent p) (channel c windows)) ->
  alignment p mins maxs pcs = Ok ms -> (forall h, h < N -> host_points p dim (length rows) N h ms pcs (part h) = Ok (points h)) ->
  well_distributed p (length rows) (fun h => map as_pt (points h)) -> properly_crossed (rate p) all -> segments_spread dim (rate p) all -> NoDup (map fst (crossings_of (rate p) all)) ->
  1 <= threads <= length all - query_length p ->
  collected parse fmax p peers width records (file_start p) s ->
  collected parse fmax one peers' width records (file_start one) s' \/ collected parse fmax one peers' width records (array_start rows) s' ->
  (forall h, h < N -> prepared s h (part h) mins maxs (length rows)) /\ prepared s' 0 rows mins maxs (length rows) /\
  exists w0, machine_analysis inv' one dim mins maxs pcs' rows = Ok w0 /\
    (forall w, scoring_run (fun x => f_eq x f_zero) w0 w -> flying w <> [] -> exists w', scoring_step (fun x => f_eq x f_zero) w w') /\
    cluster_from_rows inv p dim (length rows) mins maxs pcs part (fun result =>
      forall h w, h < N -> scoring_run (fun x => f_eq x f_zero) w0 w -> flying w = [] -> local_results w = [result h]).
Proof.
  intros cell parse val fmax p peers peers' threads width records rows qr svd inv qr' svd' inv' mins maxs blocks windows pcs pcs' ms points s s' N dim part one all
    Hrd Hin Hin' HL HN Hpl Hmod Hdim Hq Hqr Hqr' Hi Hi' Hx Eb A Ew A' Det Ems Hpts W Hprop Hsp ND Hth Hs Hs'.
  assert (Hrows : pattern_length p <= length rows /\ 2 <= length rows).
  { assert (length rows / N <= length rows) by (apply Nat.div_le_upper_bound; nia). lia. }
  split; [|split].
  - intros h Hh. eapply file_collected; try eassumption; fold N; lia || assumption.
  - eapply (alone_collected cell parse val fmax p one peers'); try eassumption; try reflexivity; [|lia]. cbn [one alone pattern_length]. lia.
  - eapply (C88_cluster_as_one_machine_partial qr svd inv qr' svd' inv'); eassumption.
Qed.
Print Assumptions C94_file_to_scores_partial.

(** The same with self correction: the provisos of C90. *)
Theorem C94_file_to_scores_correcting_partial : forall cell (parse : cell -> option R) val fmax p peers peers' threads width records rows
    qr svd inv qr' svd' inv' mins maxs blocks windows pcs pcs' ms points turned order s s',
  let N := n_cluster_nodes p in let dim := channels p width in let part := fun k => partition_of N (pattern_length p - 1) k rows in let one := alone_too threads p in
  let series := map as_pt (concat (map points (seq 0 N))) in
  let turn := should_mirror p (fun h => map as_pt (points h)) in let final := if turn then turned else points in let all := concat (map final (seq 0 N)) in
  readable parse val fmax p width records rows -> introduced N peers -> introduced 1 peers' ->
  latent p + 3 <= pattern_length p -> 2 <= N <= rate p -> pattern_length p <= length rows / N -> length rows mod N <= pattern_length p - 1 -> 1 <= dim -> 1 <= query_length p ->
  self_correction p = true ->
  preserves_gram qr -> preserves_gram qr' -> inverse_correct (2 * dim) inv -> inverse_correct (2 * dim) inv' -> extremes dim rows mins maxs ->
  mapM (fun k => embed p dim (part k)) (seq 0 N) = Ok blocks -> all_analysed qr svd (pattern_length p - latent p) dim (concat blocks) pcs ->
  embed one dim rows = Ok windows -> all_analysed qr' svd' (pattern_length p - latent p) dim windows pcs' ->
  (forall c, c < dim -> determined (pattern_length p - latent p) (channel c windows)) ->
  alignment p mins maxs pcs = Ok ms -> (forall h, h < N -> host_points p dim (length rows) N h ms pcs (part h) = Ok (points h)) -> (forall h, h < N -> mirror_points (rate p) (points h) = Ok (turned h)) ->
  in_time p (fun h => map as_pt (points h)) order -> turn = (length (usable_pairs (rate p) series) <? length (filter (backwards (rate p)) (pairs series))) ->
  well_distributed p (length rows) (fun h => map as_pt (final h)) -> properly_crossed (rate p) all -> segments_spread dim (rate p) all -> NoDup (map fst (crossings_of (rate p) all)) ->
  1 <= threads <= length all - query_length p ->
  collected parse fmax p peers width records (file_start p) s ->
  collected parse fmax one peers' width records (file_start one) s' \/ collected parse fmax one peers' width records (array_start rows) s' ->
  (forall h, h < N -> prepared s h (part h) mins maxs (length rows)) /\ prepared s' 0 rows mins maxs (length rows) /\
  exists w0, machine_analysis inv' one dim mins maxs pcs' rows = Ok w0 /\
    (forall w, scoring_run (fun x => f_eq x f_zero) w0 w -> flying w <> [] -> exists w', scoring_step (fun x => f_eq x f_zero) w w') /\
    correcting_from_rows inv p dim (length rows) mins maxs pcs part order (fun result =>
      forall h w, h < N -> scoring_run (fun x => f_eq x f_zero) w0 w -> flying w = [] -> local_results w = [result h]).
Proof.
  intros cell parse val fmax p peers peers' threads width records rows qr svd inv qr' svd' inv' mins maxs blocks windows pcs pcs' ms points turned order s s' N dim part one series turn final all
    Hrd Hin Hin' HL HN Hpl Hmod Hdim Hq Hcor Hqr Hqr' Hi Hi' Hx Eb A Ew A' Det Ems Hpts Htur Hti Hturn W Hprop Hsp ND Hth Hs Hs'.
  assert (Hrows : pattern_length p <= length rows /\ 2 <= length rows).
  { assert (length rows / N <= length rows) by (apply Nat.div_le_upper_bound; nia). lia. }
  split; [|split].
  - intros h Hh. eapply file_collected; try eassumption; fold N; lia || assumption.
  - eapply (alone_collected cell parse val fmax p one peers'); try eassumption; try reflexivity; [|lia]. cbn [one alone_too pattern_length]. lia.
  - eapply (C90_cluster_as_one_machine_partial qr svd inv qr' svd' inv'); eassumption.
Qed.
Print Assumptions C94_file_to_scores_correcting_partial.

(** The series of C88 and C90 in a file with an index and a label column, on two hosts. *)
Definition c94_params (correct : bool) : params :=
  {| rate := 4; n_threads := 1; n_cluster_nodes := 2; pattern_length := 4; latent := 1; query_length := 1; column_start := 1; column_end := (-1)%Z; self_correction := correct |}.
Definition c94_peers (h : nat) : cluster_nodes nat := if h =? 0 then [(1, 1)] else [(0, 0)].
Definition c94_file (values : list Z) : list (list Z) := map (fun iv => [Z.of_nat (fst iv); snd iv; 0%Z]) (combine (seq 0 (length values)) values).
Definition c94_values : list Z := [1; -2; 2; 1; -1; -2; 2; -1; 0]%Z.
Definition c94_values_correcting : list Z := [1; 0; 1; 1; -1; -1; 0; -1; 0]%Z.

Lemma c94_readable : forall b values, Forall (fun v => (-10 <= v <= 10)%Z) values ->
  readable (fun z => Some (IZR z)) IZR 10 (c94_params b) 3 (c94_file values) (map (fun v => [IZR v]) values).
Proof.
  intros b values Hv. assert (E : map (fun v => [IZR v]) values = map (selected (c94_params b) 3 IZR) (c94_file values)).
  { unfold c94_file. rewrite map_map. clear Hv. assert (G : forall i, map (fun v => [IZR v]) values = map (fun x => selected (c94_params b) 3 IZR [Z.of_nat (fst x); snd x; 0%Z]) (combine (seq i (length values)) values)); [|exact (G 0)].
    induction values as [|v l IH]; intros i; [reflexivity|]. cbn [length seq combine map]. rewrite <- (IH (S i)). reflexivity. }
  unfold readable. split; [exact E|]. split.
  { unfold c94_file. rewrite Forall_map. apply Forall_forall. reflexivity. }
  split; [lia|]. split; [reflexivity|]. split; [cbn; lia|].
  intros j x (r & Hr & Hx). apply in_map_iff in Hr. destruct Hr as (v & <- & Hin). destruct j as [|j]; [|destruct j; discriminate]. injection Hx as <-.
  rewrite Forall_forall in Hv. destruct (Hv v Hin) as (A & B). apply IZR_le in A, B. lra.
Qed.

Example C94_case :
  readable (fun z => Some (IZR z)) IZR 10 (c94_params false) 3 (c94_file c94_values) c88_rows /\
  readable (fun z => Some (IZR z)) IZR 10 (c94_params true) 3 (c94_file c94_values_correcting) c90_rows /\
  introduced 2 c94_peers /\ introduced 1 (fun _ => []) /\ length c88_rows mod 2 <= 4 - 1 /\ channels (c94_params false) 3 = 1 /\
  (exists s, collected (fun z => Some (IZR z)) 10 (c94_params false) c94_peers 3 (c94_file c94_values) (file_start (c94_params false)) s) /\
  (exists s, collected (fun z => Some (IZR z)) 10 (alone 2 (c94_params false)) (fun _ => []) 3 (c94_file c94_values) (array_start c88_rows) s).
Proof.
  assert (R1 : readable (fun z => Some (IZR z)) IZR 10 (c94_params false) 3 (c94_file c94_values) c88_rows) by (apply (c94_readable false c94_values); repeat constructor; lia).
  assert (I2 : introduced 2 c94_peers).
  { intros h Hh. assert (h = 0 \/ h = 1) as [->| ->] by lia; (split;
      [unfold Topology.Spec.all_but; cbn; (split; [lia|]); (split; [repeat constructor; cbn; lia|]); intros j; lia
      |cbn; intros j a [E|[]]; injection E as <- <-; reflexivity]). }
  split; [exact R1|]. split; [apply (c94_readable true c94_values_correcting); repeat constructor; lia|]. split; [exact I2|]. split.
  { intros h Hh. replace h with 0 by lia. split; [|intros j a []]. unfold Topology.Spec.all_but. cbn. split; [lia|]. split; [constructor|]. intros j; lia. }
  split; [cbn; lia|]. split; [reflexivity|]. split.
  - destruct R1 as (E & HW & Hw & Hpa & Hl & Hb). rewrite E in Hb.
    destruct (statistics_everywhere (fun z => Some (IZR z)) IZR 10 (c94_params false) c94_peers 3 (c94_file c94_values)) as (_ & _ & _ & _ & (k & s & Hr & Hn)); try assumption; try (cbn; lia).
    exists s. split; [now exists k|exact Hn].
  - destruct (array_alone (fun z => Some (IZR z)) 10 (alone 2 (c94_params false)) (fun _ => []) 3 (c94_file c94_values) c88_rows 1) as (mn & mx & std & _ & _ & _ & Hrun & (s & Hr));
      [repeat constructor|cbn; lia|apply R1|reflexivity|].
    exists s. split; [now exists 5|]. intros s' St. destruct (Hrun 6 s') as (_ & B & _); [|lia]. eapply Collect.runs_step; eassumption.
Qed.

(** The remaining hypotheses are those of C88 and C90, which do not look at the columns: [C88_case], [C90_mirrored_rows_case]. *)
Example C94_rest_case : exists blocks windows pcs ms, let p := c94_params false in
  mapM (fun k => embed p 1 (partition_of 2 3 k c88_rows)) (seq 0 2) = Ok blocks /\ embed (alone 2 p) 1 c88_rows = Ok windows /\
  alignment p [(-2)%R] [2%R] pcs = Ok ms /\ (forall h, h < 2 -> host_points p 1 (length c88_rows) 2 h ms pcs (partition_of 2 3 h c88_rows) = Ok (c88_points h)) /\
  well_distributed p (length c88_rows) (fun h => map as_pt (c88_points h)).
Proof.
  destruct C88_case as (blocks & windows & pcs & ms & H). exists blocks, windows, pcs, ms. cbv zeta in H |- *.
  destruct H as (_ & _ & _ & _ & _ & _ & _ & Eb & _ & Ew & _ & _ & Ea & Hp & W & _). split; [exact Eb|]. split; [exact Ew|]. split; [exact Ea|]. split; [|exact W].
  intros h Hh. rewrite <- (Hp h Hh). destruct h as [|[|h]]; [reflexivity|reflexivity|lia].
Qed.
