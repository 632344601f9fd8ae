(** C89: the scores do not depend on the units of the measurements. *)
From Verif.Pca Require Import Model Spec Exec.
From Coq Require Import List Arith Bool Lia Permutation Reals Lra FunctionalExtensionality.
From Verif.Base Require Import Res Params ListX Float32.
From Verif.Stats Require Import Spec.
From Verif.Reader Require Import Spec Proofs.
From Verif.Pca Require Import GramSpec Components ComponentsSpec ComponentsProofs.
From Verif.PhaseSpace Require Import Model Spec Proofs.
From Verif.Segmentation Require Import Model Spec PathProofs.
From Verif.Geometry Require Import Model Spec Crossing.
From Verif.Front Require Import Model Spec Proofs.
From Verif.Intersections Require Import Real RealSpec.
From Verif.Kde Require Import Real RealSpec.
From Verif.Scoring Require Import Model Spec.
From Verif.Pipeline Require Import Model Spec Cluster ClusterSpec ClusterProofs.
From Verif.Properties Require Import Pca Components Crossings ClusterPipeline Analysis.
From Verif.Analysis Require Import Model Spec Units Case.
Import ListNotations.
Local Open Scope R_scope.

(** A series of [rows] on one machine, and the same series with every entry of channel [c] converted to [a * x + b c]; the libraries ([qr], [svd], [inv]) may differ.  If the components are determined (C84), the
    analysis of the converted series does exactly what the analysis of the series does: the same scores in every execution, or the same abort; self correction may be asked for. *)
Theorem C89_units : forall qr svd inv qr' svd' inv' p dim a b rows rows' mins maxs mins' maxs' windows windows' pcs pcs', let width := (pattern_length p - latent p)%nat in
  n_cluster_nodes p = 1%nat -> (1 <= rate p)%nat -> (1 <= n_threads p)%nat -> (latent p + 3 <= pattern_length p <= length rows)%nat -> (1 <= dim)%nat -> Forall (fun r => length r = dim) rows ->
  0 < a -> converted dim (fun _ => a) b rows rows' ->
  preserves_gram qr -> preserves_gram qr' -> inverse_correct (2 * dim) inv -> inverse_correct (2 * dim) inv' -> extremes dim rows mins maxs -> extremes dim rows' mins' maxs' ->
  embed p dim rows = Ok windows -> all_analysed qr svd width dim windows pcs -> embed p dim rows' = Ok windows' -> all_analysed qr' svd' width dim windows' pcs' ->
  (forall c, (c < dim)%nat -> determined width (channel c windows)) ->
  machine_analysis inv' p dim mins' maxs' pcs' rows' = machine_analysis inv p dim mins maxs pcs rows.
Proof.
  intros qr svd inv qr' svd' inv' p dim a b rows rows' mins maxs mins' maxs' windows windows' pcs pcs' width HN Hr Ht HL Hd Hrows Ha Hc Hqr Hqr' Hi Hi' Hx Hx' Ew A Ew' A' Det.
  eapply (analysis_scaled qr qr' svd svd' inv inv' p dim a b rows rows' mins maxs mins' maxs' windows windows' pcs pcs'); assumption.
Qed.
Print Assumptions C89_units.

Lemma converted_same : forall dim rows, Forall (fun r => length r = dim) rows -> converted dim (fun _ => 1) (fun _ => 0) rows rows.
Proof. intros dim rows F. unfold converted. induction F as [|r l Hr F IH]; constructor; [|exact IH]. split; [exact Hr|]. intros k _. ring. Qed.
(** Two machines with the same settings and the same series agree, whatever their numerical libraries and however their threads and hosts shared the work of the principal components. *)
Theorem C89_libraries : forall qr svd inv qr' svd' inv' p dim rows mins maxs mins' maxs' windows pcs pcs', let width := (pattern_length p - latent p)%nat in
  n_cluster_nodes p = 1%nat -> (1 <= rate p)%nat -> (1 <= n_threads p)%nat -> (latent p + 3 <= pattern_length p <= length rows)%nat -> (1 <= dim)%nat -> Forall (fun r => length r = dim) rows ->
  preserves_gram qr -> preserves_gram qr' -> inverse_correct (2 * dim) inv -> inverse_correct (2 * dim) inv' -> extremes dim rows mins maxs -> extremes dim rows mins' maxs' ->
  embed p dim rows = Ok windows -> all_analysed qr svd width dim windows pcs -> all_analysed qr' svd' width dim windows pcs' ->
  (forall c, (c < dim)%nat -> determined width (channel c windows)) ->
  machine_analysis inv' p dim mins' maxs' pcs' rows = machine_analysis inv p dim mins maxs pcs rows.
Proof.
  intros qr svd inv qr' svd' inv' p dim rows mins maxs mins' maxs' windows pcs pcs' width HN Hr Ht HL Hd Hrows Hqr Hqr' Hi Hi' Hx Hx' Ew A A' Det.
  apply (C89_units qr svd inv qr' svd' inv' p dim 1 (fun _ => 0) rows rows mins maxs mins' maxs' windows windows pcs pcs'); auto; [lra|now apply converted_same].
Qed.
Print Assumptions C89_libraries.

(** A cluster that is given the series in some units and one machine that is given it in others (hypotheses as in C88): the same scores. *)
Theorem C88_cluster_in_other_units_partial : forall qr svd inv qr1 svd1 qr' svd' inv' p threads dim a b rows rows' mins maxs mins1 maxs1 mins' maxs' blocks windows windows' pcs pcs1 pcs' ms points,
  let N := n_cluster_nodes p in let part := fun k => partition_of N (pattern_length p - 1) k rows in let width := (pattern_length p - latent p)%nat in let one := alone threads p in
  let all := concat (map points (seq 0 N)) in
  (latent p + 3 <= pattern_length p)%nat -> (2 <= N <= rate p)%nat -> (pattern_length p <= length rows / N)%nat -> (1 <= dim)%nat -> (1 <= query_length p)%nat -> Forall (fun r => length r = dim) rows ->
  0 < a -> converted dim (fun _ => a) b rows rows' ->
  preserves_gram qr -> preserves_gram qr1 -> preserves_gram qr' -> inverse_correct (2 * dim) inv -> inverse_correct (2 * dim) inv' ->
  extremes dim rows mins maxs -> extremes dim rows mins1 maxs1 -> extremes dim rows' mins' maxs' ->
  mapM (fun k => embed p dim (part k)) (seq 0 N) = Ok blocks -> all_analysed qr svd width dim (concat blocks) pcs ->
  embed one dim rows = Ok windows -> all_analysed qr1 svd1 width dim windows pcs1 -> embed one dim rows' = Ok windows' -> all_analysed qr' svd' width dim windows' pcs' ->
  (forall c, (c < dim)%nat -> determined width (channel c windows)) ->
  alignment p mins maxs pcs = Ok ms -> (forall h, (h < N)%nat -> host_points p dim (length rows) N h ms pcs (part h) = Ok (points h)) ->
  well_distributed p (length rows) (fun h => map as_pt (points h)) -> properly_crossed (rate p) all -> segments_spread dim (rate p) all -> NoDup (map fst (crossings_of (rate p) all)) ->
  (1 <= threads <= length all - query_length p)%nat ->
  exists w0, machine_analysis inv' one dim mins' maxs' pcs' rows' = Ok w0 /\
    (forall w, scoring_run (fun x => f_eq x f_zero) w0 w -> flying w <> [] -> exists w', scoring_step (fun x => f_eq x f_zero) w w') /\
    cluster_from_rows inv p dim (length rows) mins maxs pcs part (fun result =>
      forall h w, (h < N)%nat -> scoring_run (fun x => f_eq x f_zero) w0 w -> flying w = [] -> local_results w = [result h]).
Proof.
  intros qr svd inv qr1 svd1 qr' svd' inv' p threads dim a b rows rows' mins maxs mins1 maxs1 mins' maxs' blocks windows windows' pcs pcs1 pcs' ms points N part width one all
    HL HN Hpl Hd Hq Hrows Ha Hc Hqr Hqr1 Hqr' Hi Hi' Hx Hx1 Hx' Eb A Ew A1 Ew' A' Det Ems Hpts W Hprop Hsp ND Hth.
  destruct (C88_cluster_as_one_machine_partial qr svd inv qr1 svd1 inv p threads dim rows mins maxs mins1 maxs1 blocks windows pcs pcs1 ms points HL HN Hpl Hd Hq Hqr Hqr1 Hi Hi Hx Hx1 Eb A Ew A1 Det Ems Hpts W Hprop Hsp ND Hth) as (w0 & E & R & Q).
  exists w0. split; [|split; [exact R|exact Q]]. rewrite <- E.
  pose proof (Nat.mul_div_le (length rows) N ltac:(lia)) as Hdiv. assert (Hn : (1 * (length rows / N) <= N * (length rows / N))%nat) by (apply Nat.mul_le_mono_r; lia).
  eapply (C89_units qr1 svd1 inv qr' svd' inv' one dim a b rows rows' mins1 maxs1 mins' maxs' windows windows' pcs1 pcs'); try assumption; try reflexivity.
  - change (1 <= rate p)%nat. lia.
  - change (1 <= threads)%nat. lia.
  - change (latent p + 3 <= pattern_length p <= length rows)%nat. lia.
Qed.
Print Assumptions C88_cluster_in_other_units_partial.

(** The nine temperatures of C88 in degrees Celsius and in degrees Fahrenheit: all hypotheses are met, and the analysis does not abort. *)
Definition c89_rows : list (list R) := map (map (fun x => 9 / 5 * x + 32)) c88_rows.
Definition c89_windows : list (list (list R)) := map (fun w => match w with (x, y, z) => [[0 + (9 / 5 * x + 32)]; [0 + (9 / 5 * y + 32)]; [0 + (9 / 5 * z + 32)]] end)
  [(1, -2, 2); (-2, 2, 1); (2, 1, -1); (1, -1, -2); (-1, -2, 2); (-2, 2, -1)].
Lemma c89_channel : channel 0 c89_windows = in_units (9 / 5) (fun j => if (j <? 3)%nat then 32 else 0) c88_channel.
Proof.
  unfold c89_windows, c88_channel, c88_windows, in_units, channel. cbn [concat app map]. repeat (apply f_equal2; [apply functional_extensionality; intros j; unfold entries, Stats.Model.column; destruct j as [|[|[|j]]]; cbn [map flat_map nth_error app nth Nat.ltb Nat.leb]; try destruct j; lra|]). reflexivity.
Qed.
Lemma c89_analysed : analysed (fun M => M) (fun _ => c88_axes) 3 (channel 0 c89_windows) (column_mean (channel 0 c89_windows), c88_comps).
Proof.
  assert (X : exists means r, pca_of (fun M => M) (channel 0 c89_windows) means r).
  { do 2 eexists. apply (on_hosts _ _ (fun _ => channel 0 c89_windows) 1 true (run (hosts 1 false true 1) (starts 1 ++ drain 1 4)) ([0%nat], Own 0)); [lia|intros k _; discriminate|reflexivity|apply run_early; vm_compute; reflexivity|vm_compute; auto|reflexivity]. }
  destruct X as (means & r & H). assert (P : preserves_gram (fun M => M)) by (intros M a b; reflexivity). destruct (pca_of_scatter (fun M => M) _ means r P H) as (M & G). exists r. split.
  - replace (column_mean (channel 0 c89_windows)) with means by (apply functional_extensionality; exact M). exact H.
  - split; [reflexivity|]. exists (fun i => 9 / 5 * c88_values i). assert (D := c88_scatter). destruct D as (D1 & D2 & D3 & D4 & D5). unfold diagonalises. split; [exact D1|]. split; [exact D2|]. split; [intros i Hi; specialize (D3 i Hi); lra|]. split; [intros i k Hi Hk; specialize (D4 i k Hi Hk); lra|].
    intros i j Hi Hj. rewrite G, c89_channel, scatter_units, D5 by (discriminate || assumption). cbn [seq map Rsum fold_right]. ring.
Qed.
Example C89_case : exists windows windows' pcs pcs' w, let p := alone 2 c88_params in
  n_cluster_nodes p = 1%nat /\ (latent p + 3 <= pattern_length p <= length c88_rows)%nat /\ Forall (fun r => length r = 1%nat) c88_rows /\ converted 1 (fun _ => 9 / 5) (fun _ => 32) c88_rows c89_rows /\
  preserves_gram (fun M => M) /\ inverse_correct 2 Geometry.Crossing.inverse2 /\ extremes 1 c88_rows [-2] [2] /\ extremes 1 c89_rows [142 / 5] [178 / 5] /\
  embed p 1 c88_rows = Ok windows /\ all_analysed (fun M => M) (fun _ => c88_axes) 3 1 windows pcs /\ embed p 1 c89_rows = Ok windows' /\ all_analysed (fun M => M) (fun _ => c88_axes) 3 1 windows' pcs' /\
  (forall c, (c < 1)%nat -> determined 3 (channel c windows)) /\
  machine_analysis Geometry.Crossing.inverse2 p 1 [-2] [2] pcs c88_rows = Ok w /\ machine_analysis Geometry.Crossing.inverse2 p 1 [142 / 5] [178 / 5] pcs' c89_rows = Ok w.
Proof.
  pose proof C88_case as (blocks & windows & pcs & ms & C). cbv zeta in C. destruct C as (H1 & H2 & H3 & H4 & P & I & X & Eb & A0 & Ew & A & Det & Ea & Hp & W & Pr & Sp & ND & _ & Th).
  assert (A' : all_analysed (fun M => M) (fun _ => c88_axes) 3 1 c89_windows [(column_mean (channel 0 c89_windows), c88_comps)]) by (split; [reflexivity|]; intros c pc E; destruct c as [|[|c]]; try discriminate; injection E as <-; exact c89_analysed).
  assert (F : Forall (fun r : list R => length r = 1%nat) c88_rows) by (repeat constructor).
  assert (Cv : converted 1 (fun _ => 9 / 5) (fun _ => 32) c88_rows c89_rows).
  { unfold c89_rows, converted. clear -F. induction F as [|r l Hr F IH]; [constructor|]. cbn [map]. constructor; [|exact IH]. destruct r as [|x [|y r]]; try discriminate. split; [reflexivity|]. intros k Hk. assert (k = 0%nat) by lia. subst k. reflexivity. }
  assert (X' : extremes 1 c89_rows [142 / 5] [178 / 5]).
  { split; [reflexivity|]. split; [reflexivity|]. intros j Hj. assert (j = 0%nat) by lia. subst j. exists (142 / 5), (178 / 5). split; [reflexivity|]. split; [reflexivity|]. unfold c89_rows, c88_rows. cbn [map]. split.
    - split; [exists [9 / 5 * -2 + 32]; split; [cbn; tauto|cbn [nth_error]; f_equal; lra]|]. intros x (row & Hr & E). cbn in Hr. repeat (destruct Hr as [<-|Hr]; [cbn in E; injection E as <-; lra|]). destruct Hr.
    - split; [exists [9 / 5 * 2 + 32]; split; [cbn; tauto|cbn [nth_error]; f_equal; lra]|]. intros x (row & Hr & E). cbn in Hr. repeat (destruct Hr as [<-|Hr]; [cbn in E; injection E as <-; lra|]). destruct Hr. }
  assert (Ew' : embed (alone 2 c88_params) 1 c89_rows = Ok c89_windows) by reflexivity.
  destruct (C88_cluster_as_one_machine_partial (fun M => M) (fun _ => c88_axes) Geometry.Crossing.inverse2 (fun M => M) (fun _ => c88_axes) Geometry.Crossing.inverse2 c88_params 2 1 c88_rows [-2] [2] [-2] [2] blocks windows pcs pcs ms c88_points
    H1 H2 H3 (le_n 1) H4 P P I I X X Eb A0 Ew A Det Ea Hp W Pr Sp ND Th) as (w & E & _).
  exists windows, c89_windows, pcs, [(column_mean (channel 0 c89_windows), c88_comps)], w. cbv zeta. split; [reflexivity|]. split; [cbn; lia|]. repeat (split; [assumption|]). rewrite <- E.
  apply (C89_units (fun M => M) (fun _ => c88_axes) Geometry.Crossing.inverse2 (fun M => M) (fun _ => c88_axes) Geometry.Crossing.inverse2 (alone 2 c88_params) 1 (9 / 5) (fun _ => 32) c88_rows c89_rows [-2] [2] [142 / 5] [178 / 5] windows c89_windows);
    try assumption; try reflexivity; try lra; try (cbn; lia).
Qed.
