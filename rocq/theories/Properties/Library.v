(** C102: what the numerical libraries leave open, and what of it reaches the scores. *)
From Verif.Pca Require Import Model Spec.
From Coq Require Import List Arith Bool Lia Permutation Reals Lra ZArith.
From Flocq Require Import IEEE754.BinarySingleNaN.
From Verif.Base Require Import Res Params ListX Float32.
From Verif.Stats Require Import Spec.
From Verif.Reader Require Import Spec.
From Verif.Pca Require Import Gram GramSpec Components ComponentsSpec ComponentsProofs ComponentsExact.
From Verif.PhaseSpace Require Import Model.
From Verif.Segmentation Require Import Model Spec PathProofs.
From Verif.Geometry Require Import Model Spec Crossing.
From Verif.Front Require Import Model Spec.
From Verif.Nodes Require Import Model Spec.
From Verif.Intersections Require Import Real RealSpec.
From Verif.Kde Require Import Real RealSpec.
From Verif.Edges Require Import Model Spec.
From Verif.Scoring Require Import Model Spec.
From Verif.Normalize Require Import Model.
From Verif.Pipeline Require Import Model Spec.
From Verif.Properties Require Import Components Segmentation Edges Crossings Pipeline Analysis Units.
From Verif.Analysis Require Import Model Spec Proofs Case Library.
Import ListNotations.
Local Open Scope nat_scope.

(** ** Exactly when the components are the library's choice *)
(** For every series and every run of the analysis of a channel: all correct decompositions give the same components if and only if the three largest principal values are different from each other and from the others and
    none of their directions starts with 0. *)
Theorem C84_determined_exactly : forall qr d rows means r v s, preserves_gram qr -> 3 <= d -> pca_of qr rows means r -> diagonalises d (scatter_matrix rows) v s ->
  ((forall svd svd', svd_correct d svd r -> svd_correct d svd' r -> components svd d r = components svd' d r) <-> separated d s /\ forall i, i < 3 -> v i 0 <> 0%R).
Proof.
  intros qr d rows means r v s Hqr Hd Hp D0. destruct (pca_of_scatter qr rows means r Hqr Hp) as (_ & G).
  assert (D : diagonalises d (gram r) v s) by (apply (diagonalises_ext _ (scatter_matrix rows)); [intros; symmetry; apply G|exact D0]).
  assert (Row : forall svd svd' i, i < 3 -> components svd d r = components svd' d r -> normalize_row (map (svd r i) (seq 0 d)) = normalize_row (map (svd' r i) (seq 0 d))).
  { intros svd svd' i Hi E. unfold components in E. replace (d <? 3) with false in E by (symmetry; apply Nat.ltb_ge; lia). injection E as E0 E1 E2. destruct i as [|[|[|i]]]; try lia; assumption. }
  assert (Same : forall (u w : nat -> R) e e', (e = 1 \/ e = -1)%R -> (e' = 1 \/ e' = -1)%R -> (forall j, j < d -> (e * u j = e' * w j)%R) -> inner d u u = 1%R -> inner d u w <> 0%R).
  { intros u w e e' He He' E U Z. assert (X : (e * inner d u u = e' * inner d u w)%R) by (rewrite <- !inner_scal_r; apply inner_ext; auto). rewrite U, Z in X. destruct He as [->| ->]; lra. }
  pose proof D as (H1 & H2 & H3 & H4 & H5). split.
  - intros All. split.
    + intros i k Hi Hik Hk. destruct (Rlt_le_dec (s k) (s i)) as [L|L]; [exact L|exfalso]. assert (Es : s i = s k) by (apply Rle_antisym; [exact L|apply H4; lia]).
      assert (D' : diagonalises d (gram r) (fun j => v (exchanged i k j)) s) by (apply diagonalises_exchanged; [lia|exact Hk|exact Es|exact D]).
      pose proof (Row _ _ i Hi (All (fun _ => v) (fun _ j => v (exchanged i k j)) (ex_intro _ s D) (ex_intro _ s D'))) as E. cbv beta in E.
      assert (Ex : exchanged i k i = k) by (unfold exchanged; now rewrite Nat.eqb_refl). rewrite Ex in E.
      destruct (normalized_direction d (v i)) as (e & He & Ee). destruct (normalized_direction d (v k)) as (e' & He' & Ee').
      apply (Same (v i) (v k) e e' He He'); [intros j Hj; rewrite <- Ee, <- Ee' by assumption; now rewrite E|rewrite H1 by lia; apply delta_same|]. rewrite H1 by lia. apply delta_other. lia.
    + intros i Hi Z. pose proof (diagonalises_turned d (gram r) v s i D) as D'.
      pose proof (Row _ _ i Hi (All (fun _ => v) (fun _ => turned i v) (ex_intro _ s D) (ex_intro _ s D'))) as E. cbv beta in E.
      assert (Keep : forall u : nat -> R, u 0 = 0%R -> normalize_row (map u (seq 0 d)) = map u (seq 0 d)).
      { intros u Hu. destruct d as [|d']; [lia|]. cbn [seq map normalize_row]. rewrite Hu. destruct (Rge_dec 0 0) as [_|N]; [reflexivity|exfalso; apply N; lra]. }
      rewrite !Keep in E by (unfold turned; rewrite ?Z; ring || exact Z).
      assert (Tu : forall j, turned i v i j = (-1 * v i j)%R) by (intros j; unfold turned, turn; now rewrite Nat.eqb_refl).
      assert (Ev : forall j, j < d -> v i j = (-1 * v i j)%R).
      { intros j Hj. rewrite <- Tu. assert (N : forall u : nat -> R, nth j (map u (seq 0 d)) 0%R = u j) by (intros u; rewrite (nth_indep _ 0%R (u 0)) by (rewrite map_length, seq_length; exact Hj); rewrite map_nth, seq_nth by exact Hj; reflexivity). rewrite <- (N (v i)), E. apply N. }
      assert (Q : inner d (v i) (v i) = (-1 * inner d (v i) (v i))%R) by (rewrite <- inner_scal; apply inner_ext; auto). rewrite H1, delta_same in Q by lia. lra.
  - intros (Sep & Lead) svd svd' C C'. transitivity (components (fun _ => v) d r); [|symmetry]; apply (components_equal d (fun _ => v) _ r r (gram r) 1 s); auto; try lra; intros; ring.
Qed.
Print Assumptions C84_determined_exactly.

Lemma c102_extremes : extremes 1 c102_rows [-1]%R [1]%R.
Proof.
  split; [reflexivity|]. split; [reflexivity|]. intros j Hj. assert (j = 0) by lia. subst j. exists (-1)%R, 1%R. split; [reflexivity|]. split; [reflexivity|]. unfold c102_rows. split.
  - split; [exists [-1]%R; split; [cbn; tauto|reflexivity]|]. intros x (row & Hr & E). cbn in Hr. repeat (destruct Hr as [<-|Hr]; [cbn in E; injection E as <-; lra|]). destruct Hr.
  - split; [exists [1]%R; split; [cbn; tauto|reflexivity]|]. intros x (row & Hr & E). cbn in Hr. repeat (destruct Hr as [<-|Hr]; [cbn in E; injection E as <-; lra|]). destruct Hr.
Qed.
Lemma c102_all_analysed : forall up, (up * up = 1)%R -> all_analysed (fun M => M) (fun _ => c102_axes up) 3 1 c102_windows [c102_pc up].
Proof. intros up Hup. split; [reflexivity|]. intros c pc E. destruct c as [|[|c]]; try discriminate. injection E as <-. now apply c102_analysed. Qed.

Lemma c102_shape : forall up points ms, host_points c102_params 1 7 1 0 ms [c102_pc up] c102_rows = Ok points -> length ms = 1 ->
  Forall (fun q => length (p_coordinates q) = 2 * 1) points /\ Forall (fun q => segment_of (p_coordinates q) 4 = Some (p_segment q)) points.
Proof. intros up points ms H L. exact (host_points_shape c102_params 1 7 1 0 ms [c102_pc up] c102_rows points L eq_refl H). Qed.

Lemma f32_same : forall x y : f32, B2SF x = B2SF y -> x = y.
Proof. intros x y E. now apply B2SF_inj. Qed.
Lemma scores_same : forall (r : res (list f32)) l, match r with Ok l' => Some (map (@B2SF 24 128) l') | Panic _ => None end = Some (map (@B2SF 24 128) l) -> r = Ok l.
Proof.
  intros [l'|] l E; [|discriminate]. injection E as E. f_equal. revert l E. induction l' as [|x l' IH]; intros [|y l] E; try discriminate; [reflexivity|]. cbn [map] in E. injection E as Ex El. f_equal; [now apply f32_same|now apply IH].
Qed.
Lemma scores_up : let edges := pairs (map (labelled (fun _ _ => 0)) [(0, 2); (1, 3); (2, 0)]) in
  normalize_score (carry score_value f_zero (map (fun i => map (edge_term edges) (window_edges edges (query_length c102_params) i)) (seq 0 (4 - query_length c102_params)))) = Ok [f_of_nat 1; f_zero; f_zero].
Proof. cbv zeta. apply scores_same. vm_compute. reflexivity. Qed.
(** The scores with the second component pointing up: finite numbers. *)
Lemma c102_up_scores : forall inv, inverse_correct 2 inv -> exists w0, machine_analysis inv c102_params 1 [-1]%R [1]%R [c102_pc 1] c102_rows = Ok w0 /\
  forall w, scoring_run (fun x => f_eq x f_zero) w0 w -> (flying w <> [] -> exists w', scoring_step (fun x => f_eq x f_zero) w w') /\ (flying w = [] -> local_results w = [Ok [f_of_nat 1; f_zero; f_zero]]).
Proof.
  intros inv Hinv. destruct c102_up as (ms & Ea & Eh). destruct (c102_shape _ _ _ Eh) as (Hlen & Hseg); [now rewrite (aligned_length _ _ _ _ _ Ea)|]. unfold machine_analysis. rewrite Ea. cbn [bind]. change (length c102_rows) with 7. rewrite Eh. cbn [bind].
  set (all := c102_points 1 1 2 3 0) in *. assert (Hid : map p_id all = seq 0 (length all)) by reflexivity. change (rate c102_params) with 4.
  assert (Hpt : map as_pt all = [{| pid := 0; pseg := 1 |}; {| pid := 1; pseg := 2 |}; {| pid := 2; pseg := 3 |}; {| pid := 3; pseg := 0 |}]) by reflexivity.
  assert (Hcr : crossings_of 4 all = [(0, 2); (1, 3); (2, 0)]) by (unfold crossings_of, steps_of; rewrite Hpt; vm_compute; reflexivity).
  assert (Hts : transitions_of c102_params (r_sector 4) r_flip (map p_coordinates all) = steps_of 4 all) by (unfold transitions_of, followed; cbn [self_correction c102_params andb rate]; now rewrite points_at_stored by assumption).
  assert (Hprop : properly_crossed 4 all).
  { intros c Hc. rewrite Hcr in Hc. destruct c102_pos as (Px & Py).
    repeat (destruct Hc as [<-|Hc]; [cbn [fst snd]; match goal with |- offset _ _ ?u <> offset _ _ ?v => destruct (quarter_offset u) as (U0 & U1 & U2 & U3); destruct (quarter_offset v) as (V0 & V1 & V2 & V3) end;
      rewrite ?U0, ?U1, ?U2, ?U3, ?V0, ?V1, ?V2, ?V3; unfold coords_at, coords_fun, all, c102_points; cbn [map p_coordinates nth]; lra|]). destruct Hc. }
  destruct (C81_one_machine (r_sector 4) r_flip (real_cross inv 4) (r_cluster 1) c102_params 7 (map p_coordinates all) (position_of 1 4 all)) as (label & Hlab & Ho).
  - reflexivity.
  - cbn; lia.
  - intros k. apply (sector_bound 4). lia.
  - rewrite map_length. change (length all) with 4. cbn. lia.
  - cbn; lia.
  - rewrite map_length. change (length all) with 4. cbn. lia.
  - intros t c Ht Hc. unfold followed. cbn [self_correction c102_params andb]. rewrite Hts in *. apply (cross_ok 1 4 all Hid Hlen inv Hinv (le_n 1) Hprop); auto. apply incl_refl.
  - rewrite Hts. change (path (rate c102_params) (steps_of 4 all)) with (crossings_of 4 all). rewrite Hcr. intros s Hs H2. cbn [rate c102_params] in Hs. destruct s as [|[|[|[|s]]]]; cbn in H2; lia.
  - rewrite Hts. change (path (rate c102_params) (steps_of 4 all)) with (crossings_of 4 all). rewrite Hcr. intros (i & rest & E). discriminate.
  - rewrite Hts. unfold steps_of. rewrite Hpt. eexists. split; [vm_compute; right; left; reflexivity|discriminate].
  - rewrite Hts in Hlab, Ho. change (path (rate c102_params) (steps_of 4 all)) with (crossings_of 4 all) in Hlab. cbv zeta in Ho. destruct Ho as (_ & w0 & E0 & R). exists w0. split; [exact E0|]. intros w Hw. destruct (R w Hw) as (R1 & R2). split; [exact R1|]. intros Hf. rewrite (R2 Hf).
    rewrite Hcr in Hlab. destruct Hlab as (_ & L). pose proof (L 2 0 ltac:(cbn; lia) eq_refl) as L2. pose proof (L 3 1 ltac:(cbn; lia) eq_refl) as L3. pose proof (L 0 2 ltac:(cbn; lia) eq_refl) as L0.
    assert (Ew : walk label (rate c102_params) (steps_of 4 all) = map (labelled (fun _ _ => 0)) [(0, 2); (1, 3); (2, 0)]).
    { unfold walk. change (path (rate c102_params) (steps_of 4 all)) with (crossings_of 4 all). rewrite Hcr. cbn [map]. unfold labelled. cbn [fst snd]. now rewrite L0, L2, L3. }
    rewrite Ew, map_length. change (length all) with 4. f_equal. apply scores_up.
Qed.

(** The scores with the second component pointing down: no step can be followed, no number is delivered. *)
Lemma c102_down_scores : forall inv, exists w0, machine_analysis inv c102_params 1 [-1]%R [1]%R [c102_pc (-1)] c102_rows = Ok w0 /\
  forall w, scoring_run (fun x => f_eq x f_zero) w0 w -> (flying w <> [] -> exists w', scoring_step (fun x => f_eq x f_zero) w w') /\ (flying w = [] -> local_results w = [Ok [B754_nan; B754_nan; B754_nan]]).
Proof.
  intros inv. destruct c102_down as (ms & Ea & Eh). destruct (c102_shape _ _ _ Eh) as (Hlen & Hseg); [now rewrite (aligned_length _ _ _ _ _ Ea)|]. unfold machine_analysis. rewrite Ea. cbn [bind]. change (length c102_rows) with 7. rewrite Eh. cbn [bind].
  set (all := c102_points (-1) 2 1 0 3) in *. assert (Hid : map p_id all = seq 0 (length all)) by reflexivity. change (rate c102_params) with 4.
  assert (Hpt : map as_pt all = [{| pid := 0; pseg := 2 |}; {| pid := 1; pseg := 1 |}; {| pid := 2; pseg := 0 |}; {| pid := 3; pseg := 3 |}]) by reflexivity.
  assert (Hts : transitions_of c102_params (r_sector 4) r_flip (map p_coordinates all) = []) by (unfold transitions_of, followed; cbn [self_correction c102_params andb rate]; rewrite points_at_stored by assumption; rewrite Hpt; vm_compute; reflexivity).
  destruct (C81_quiet_series_is_nan (r_sector 4) r_flip (real_cross inv 4) (r_cluster 1) c102_params 7 (map p_coordinates all) (position_of 1 4 all)) as (w0 & E0 & R).
  - reflexivity.
  - cbn; lia.
  - intros k. apply (sector_bound 4). lia.
  - rewrite map_length. change (length all) with 4. cbn. lia.
  - cbn; lia.
  - rewrite map_length. change (length all) with 4. cbn. lia.
  - intros t c Ht Hc. rewrite Hts in Ht. destruct Ht.
  - rewrite Hts. intros s Hs H2. cbn in H2. lia.
  - rewrite Hts. intros (i & rest & E). discriminate.
  - rewrite Hts. intros t [].
  - rewrite Hts. cbn. lia.
  - exists w0. split; [exact E0|]. intros w Hw. destruct (R w Hw) as (R1 & R2). split; [exact R1|]. intros Hf. rewrite (R2 Hf), map_length. reflexivity.
Qed.

(** ** C102 *)
(** The library may turn the sign of a principal direction.  The sign is fixed afterwards by the first coordinate only; of this series (one swing up and down, three distinct principal values) the first coordinate of
    the second direction is 0.  With one choice the points go round counter-clockwise, with the other clockwise. *)
Theorem C102_points_refuted : exists p dim rows mins maxs windows svd svd' pcs pcs' ms ms' points points', let width := pattern_length p - latent p in
  latent p + 3 <= pattern_length p /\ extremes dim rows mins maxs /\ embed p dim rows = Ok windows /\
  (exists v s, diagonalises width (scatter_matrix (channel 0 windows)) v s /\ separated width s) /\
  all_analysed (fun M => M) svd width dim windows pcs /\ all_analysed (fun M => M) svd' width dim windows pcs' /\
  alignment p mins maxs pcs = Ok ms /\ alignment p mins maxs pcs' = Ok ms' /\
  host_points p dim (length rows) 1 0 ms pcs rows = Ok points /\ host_points p dim (length rows) 1 0 ms' pcs' rows = Ok points' /\
  map p_segment points = [1; 2; 3; 0] /\ map p_segment points' = [2; 1; 0; 3].
Proof.
  destruct c102_up as (ms & Ea & Eh). destruct c102_down as (ms' & Ea' & Eh').
  exists c102_params, 1, c102_rows, [-1]%R, [1]%R, c102_windows, (fun _ => c102_axes 1), (fun _ => c102_axes (-1)), [c102_pc 1], [c102_pc (-1)], ms, ms', (c102_points 1 1 2 3 0), (c102_points (-1) 2 1 0 3). cbv zeta.
  ssplit; try reflexivity; try assumption.
  - apply c102_extremes.
  - exists (c102_axes 1), c102_values. split; [apply c102_scatter; lra|exact c102_separated].
  - apply c102_all_analysed. lra.
  - apply c102_all_analysed. lra.
Qed.
(** The scores of the same series with the same settings: numbers with one choice, no number at all with the other, in every complete execution. *)
Theorem C102_scores_refuted : exists p dim rows mins maxs windows svd svd' pcs pcs', let width := pattern_length p - latent p in
  latent p + 3 <= pattern_length p /\ extremes dim rows mins maxs /\ embed p dim rows = Ok windows /\
  (exists v s, diagonalises width (scatter_matrix (channel 0 windows)) v s /\ separated width s) /\
  all_analysed (fun M => M) svd width dim windows pcs /\ all_analysed (fun M => M) svd' width dim windows pcs' /\
  forall inv, inverse_correct (2 * dim) inv -> exists w0 w0', machine_analysis inv p dim mins maxs pcs rows = Ok w0 /\ machine_analysis inv p dim mins maxs pcs' rows = Ok w0' /\
    (forall w, scoring_run (fun x => f_eq x f_zero) w0 w -> (flying w <> [] -> exists w', scoring_step (fun x => f_eq x f_zero) w w') /\ (flying w = [] -> local_results w = [Ok [f_of_nat 1; f_zero; f_zero]])) /\
    (forall w, scoring_run (fun x => f_eq x f_zero) w0' w -> (flying w <> [] -> exists w', scoring_step (fun x => f_eq x f_zero) w w') /\ (flying w = [] -> local_results w = [Ok [B754_nan; B754_nan; B754_nan]])).
Proof.
  exists c102_params, 1, c102_rows, [-1]%R, [1]%R, c102_windows, (fun _ => c102_axes 1), (fun _ => c102_axes (-1)), [c102_pc 1], [c102_pc (-1)]. cbv zeta.
  ssplit; try reflexivity; try assumption.
  - apply c102_extremes.
  - exists (c102_axes 1), c102_values. split; [apply c102_scatter; lra|exact c102_separated].
  - apply c102_all_analysed. lra.
  - apply c102_all_analysed. lra.
  - intros inv Hinv. destruct (c102_up_scores inv Hinv) as (w0 & E & R). destruct (c102_down_scores inv) as (w0' & E' & R'). exists w0, w0'. ssplit; assumption.
Qed.
Print Assumptions C102_points_refuted.
Print Assumptions C102_scores_refuted.
