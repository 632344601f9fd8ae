(** C106: the columns of a series with several channels. *)
From Verif.Pca Require Import Model Spec.
From Coq Require Import List Arith Bool Lia Permutation Reals Lra ZArith.
From Flocq Require Import IEEE754.BinarySingleNaN.
From Verif.Base Require Import Res Params ListX Float32.
From Verif.Stats Require Import Model Spec.
From Verif.Reader Require Import Spec.
From Verif.Pca Require Import Gram GramSpec Components ComponentsSpec ComponentsProofs ComponentsExact.
From Verif.PhaseSpace Require Import Model Spec Proofs.
From Verif.Segmentation Require Import Model Spec PathProofs.
From Verif.Geometry Require Import Model Spec Crossing.
From Verif.Front Require Import Model Spec Proofs.
From Verif.Nodes Require Import Model Spec.
From Verif.Intersections Require Import Real RealSpec.
From Verif.Kde Require Import Real RealSpec.
From Verif.Edges Require Import Model Spec.
From Verif.Scoring Require Import Model Spec.
From Verif.Normalize Require Import Model.
From Verif.Pipeline Require Import Model Spec.
From Verif.Properties Require Import Components Segmentation Edges Crossings Pipeline Analysis Units Library.
From Verif.Analysis Require Import Model Spec Proofs Case Library Columns.
Import Verif.Stats.Model.
Import ListNotations.
Local Open Scope nat_scope.


(** ** Two columns decide *)
Lemma column_firstn : forall A c (d d' : list (list A)), c < 2 -> map (firstn 2) d = map (firstn 2) d' -> column c d = column c d'.
Proof.
  intros A c. induction d as [|r d IH]; intros [|r' d'] Hc E; try discriminate; [reflexivity|]. cbn [map] in E. apply (f_equal (fun l => (hd [] l, tl l))) in E. cbn [hd tl] in E. apply pair_equal_spec in E. destruct E as (E1 & E2). unfold column. cbn [flat_map]. fold (column c d) (column c d'). rewrite (IH d' Hc E2). f_equal.
  assert (N : forall l : list A, nth_error l c = nth_error (firstn 2 l) c) by (intros l; rewrite nth_error_firstn; destruct (Nat.ltb_spec c 2); [reflexivity|lia]). now rewrite (N r), (N r'), E1.
Qed.
Lemma map_slice : forall A B (f : A -> B) a b l, map f (slice a b l) = slice a b (map f l).
Proof. intros A B f a b l. unfold slice. now rewrite <- firstn_map, <- skipn_map. Qed.
Lemma window_of_column : forall dim c P L rows i, c < dim -> column c (PhaseSpace.Spec.window (sum_axis dim) P L rows i) = map (fun j => fold_left Rplus (column c (slice (i + j) (i + j + L) rows)) 0%R) (seq 0 (P - L)).
Proof.
  intros dim c P L rows i Hc. unfold PhaseSpace.Spec.window, column at 1. induction (seq 0 (P - L)) as [|j l IH]; [reflexivity|]. cbn [map flat_map]. rewrite IH. unfold sum_axis. rewrite nth_error_map, (nth_error_nth' _ 0) by (rewrite seq_length; exact Hc).
  rewrite seq_nth by exact Hc. reflexivity.
Qed.
Lemma windows_agree : forall p dim dim' d d' windows windows', latent p < pattern_length p -> pattern_length p - 1 <= length d -> 2 <= dim -> 2 <= dim' -> map (firstn 2) d = map (firstn 2) d' ->
  embed p dim d = Ok windows -> embed p dim' d' = Ok windows' -> Forall2 (fun w w' => column 0 w = column 0 w' /\ column 1 w = column 1 w') windows windows'.
Proof.
  intros p dim dim' d d' windows windows' HL Hd H2 H2' E Ew Ew'. assert (Ld : length d = length d') by (rewrite <- (map_length (firstn 2) d), E; apply map_length).
  unfold embed in Ew, Ew'. rewrite phase_space_ok in Ew, Ew' by (auto; lia). injection Ew as <-. injection Ew' as <-. unfold PhaseSpace.Spec.embedding. rewrite <- Ld. induction (seq 0 (length d - (pattern_length p - 1))) as [|i l IH]; [constructor|]. cbn [map]. constructor; [|exact IH].
  split; rewrite !window_of_column by lia; apply map_ext; intros j; f_equal; apply column_firstn; try lia; now rewrite !map_slice, E.
Qed.
Lemma reduce_two : forall a b pcs w v, reduce_window (a :: b :: pcs) w = Ok v -> exists v0 v1 rest, v = v0 :: v1 :: rest /\ three (reduce_row (fst a) (snd a) (entries (column 0 w))) = Ok v0 /\ three (reduce_row (fst b) (snd b) (entries (column 1 w))) = Ok v1.
Proof.
  intros (ma & ca) (mb & cb) pcs w v H. unfold reduce_window in H. cbn [length seq combine mapM] in H. apply bind_ok_inv in H. destruct H as (v0 & E0 & H). apply bind_ok_inv in H. destruct H as (l & E1 & H). apply bind_ok_inv in E1. destruct E1 as (v1 & E1 & H1). apply bind_ok_inv in H1. destruct H1 as (rest & _ & H1).
  injection H1 as <-. injection H as <-. exists v0, v1, rest. cbn [fst snd]. auto.
Qed.
Lemma reduced_agree : forall a b pcs pcs' windows windows', Forall2 (fun w w' => column 0 w = column 0 w' /\ column 1 w = column 1 w') windows windows' -> forall red red', mapM (reduce_window (a :: b :: pcs)) windows = Ok red -> mapM (reduce_window (a :: b :: pcs')) windows' = Ok red' ->
  Forall2 (fun r r' => exists v0 v1 s s', r = v0 :: v1 :: s /\ r' = v0 :: v1 :: s') red red'.
Proof.
  intros a b pcs pcs' windows windows' F. induction F as [|w w' ws ws' (F0 & F1) F IH]; intros red red' E E'; cbn [mapM] in E, E'; [injection E as <-; injection E' as <-; constructor|].
  apply bind_ok_inv in E. destruct E as (v & Ev & E). apply bind_ok_inv in E. destruct E as (vs & Evs & E). injection E as <-. apply bind_ok_inv in E'. destruct E' as (v' & Ev' & E'). apply bind_ok_inv in E'. destruct E' as (vs' & Evs' & E'). injection E' as <-.
  constructor; [|now apply IH]. apply reduce_two in Ev. apply reduce_two in Ev'. destruct Ev as (v0 & v1 & s & -> & A0 & A1). destruct Ev' as (v0' & v1' & s' & -> & B0 & B1). rewrite <- F0 in B0. rewrite <- F1 in B1. rewrite A0 in B0. rewrite A1 in B1. injection B0 as ->. injection B1 as ->. eauto 6.
Qed.
Lemma added_agree : forall r l l' i ps ps', Forall2 (fun c c' => segment_of c r = segment_of c' r) l l' -> add_points i l r = Some ps -> add_points i l' r = Some ps' -> map as_pt ps = map as_pt ps'.
Proof.
  intros r l l' i ps ps' F. revert i ps ps'. induction F as [|c c' l l' E F IH]; intros i ps ps' H H'; cbn [add_points] in H, H'; [injection H as <-; injection H' as <-; reflexivity|].
  unfold new_point in H, H'. rewrite <- E in H'. destruct (segment_of c r) as [s|]; [|discriminate]. cbn [obind] in H, H'. destruct (add_points (S i) l r) as [q|] eqn:Eq; [|discriminate]. destruct (add_points (S i) l' r) as [q'|] eqn:Eq'; [|discriminate].
  cbn [obind] in H, H'. injection H as <-. injection H' as <-. cbn [map]. f_equal. now apply (IH (S i)).
Qed.

(** Only the first two columns decide in which segments the points lie, and so which steps of the series are followed: two series, with any numbers of columns, that agree in the first two columns (with the same components
    and rotations of these) have the same points in the same segments, whatever the other columns contain. *)
Theorem C106_two_columns_decide_refuted : forall p dim dim' n N k data data' a b pcs pcs' ma mb ms ms' points points', latent p < pattern_length p -> pattern_length p - 1 <= length data -> 2 <= dim -> 2 <= dim' ->
  map (firstn 2) data = map (firstn 2) data' -> host_points p dim n N k (ma :: mb :: ms) (a :: b :: pcs) data = Ok points -> host_points p dim' n N k (ma :: mb :: ms') (a :: b :: pcs') data' = Ok points' ->
  map as_pt points = map as_pt points' /\ steps_of (rate p) points = steps_of (rate p) points'.
Proof.
  intros p dim dim' n N k data data' a b pcs pcs' ma mb ms ms' points points' HL Hd H2 H2' E H H'.
  assert (G : map as_pt points = map as_pt points').
  { unfold host_points in H, H'. apply bind_ok_inv in H. destruct H as (ws & Ew & H). apply bind_ok_inv in H. destruct H as (red & Er & H). apply bind_ok_inv in H. destruct H as (o & Eo & H).
    apply bind_ok_inv in H'. destruct H' as (ws' & Ew' & H'). apply bind_ok_inv in H'. destruct H' as (red' & Er' & H'). rewrite Eo in H'. cbn [bind] in H'.
    pose proof (reduced_agree a b pcs pcs' ws ws' (windows_agree p dim dim' data data' ws ws' HL Hd H2 H2' E Ew Ew') red red' Er Er') as F.
    destruct (add_points _ (map _ red) _) as [ps|] eqn:E1; [|discriminate]. destruct (add_points _ (map _ red') _) as [ps'|] eqn:E2; [|discriminate]. injection H as <-. injection H' as <-. apply (added_agree (rate p) _ _ _ _ _) with (2 := E1) (3 := E2).
    clear -F. induction F as [|r r' red red' (v0 & v1 & s & s' & -> & ->) F IH]; [constructor|]. cbn [map]. constructor; [reflexivity|exact IH]. }
  split; [exact G|]. unfold steps_of. now rewrite G.
Qed.

(** ** Exchanged columns *)
Lemma c106_extremes : extremes 2 c106_rows [-1; -1]%R [1; 1]%R /\ extremes 2 (map (@rev R) c106_rows) [-1; -1]%R [1; 1]%R.
Proof.
  assert (G : forall rows, (rows = c106_rows \/ rows = map (@rev R) c106_rows) -> extremes 2 rows [-1; -1]%R [1; 1]%R).
  { intros rows Hr. split; [reflexivity|]. split; [reflexivity|]. intros j Hj. exists (-1)%R, 1%R. assert (Hj' : j = 0 \/ j = 1) by lia. split; [destruct Hj' as [->| ->]; reflexivity|]. split; [destruct Hj' as [->| ->]; reflexivity|].
    assert (B : forall x, entry rows j x -> x = (-1)%R \/ x = 1%R \/ x = 0%R).
    { intros x (row & Hin & E). destruct Hr as [->| ->]; cbn in Hin; repeat (destruct Hin as [<-|Hin]; [destruct Hj' as [->| ->]; cbn in E; injection E as <-; auto|]); destruct Hin. }
    split; (split; [|intros x Hx; destruct (B x Hx) as [->|[->| ->]]; lra]).
    - exists [-1; -1]%R. split; [|destruct Hj' as [->| ->]; reflexivity]. destruct Hr as [->| ->]; cbn; tauto.
    - exists [1; 1]%R. split; [|destruct Hj' as [->| ->]; reflexivity]. destruct Hr as [->| ->]; cbn; tauto. }
  split; apply G; auto.
Qed.
Lemma c106_all_analysed : forall up, (up * up = 1)%R -> all_analysed (fun M => M) (fun _ => c102_axes up) 3 2 (c106_windows c106_early c106_late) [c102_pc up; c106_pc up] /\
  all_analysed (fun M => M) (fun _ => c102_axes up) 3 2 (c106_windows c106_late c106_early) [c106_pc up; c102_pc up].
Proof.
  intros up Hup. destruct c106_channels as (C1 & C2 & C3). split; (split; [reflexivity|]); intros c pc E; destruct c as [|[|c]]; cbn in E; try discriminate; try (destruct c; discriminate); injection E as <-.
  - rewrite C1. now apply c102_analysed.
  - now apply c106_analysed.
  - rewrite C3. now apply c106_analysed.
  - rewrite C2. now apply c102_analysed.
Qed.
Lemma c106_shape : forall pcs rows points ms, host_points c102_params 2 7 1 0 ms pcs rows = Ok points -> length pcs = 2 -> length ms = 2 ->
  Forall (fun q => length (p_coordinates q) = 4) points /\ Forall (fun q => segment_of (p_coordinates q) 4 = Some (p_segment q)) points.
Proof. intros pcs rows points ms H Lp L. exact (host_points_shape c102_params 2 7 1 0 ms pcs rows points L Lp H). Qed.
Lemma c106_up_scores : forall inv up, inverse_correct 4 inv -> (up * up = 1)%R -> exists w0, machine_analysis inv c102_params 2 [-1; -1]%R [1; 1]%R [c102_pc up; c106_pc up] c106_rows = Ok w0 /\
  forall w, scoring_run (fun x => f_eq x f_zero) w0 w -> (flying w <> [] -> exists w', scoring_step (fun x => f_eq x f_zero) w w') /\ (flying w = [] -> local_results w = [Ok [f_of_nat 1; f_zero; f_zero]]).
Proof.
  intros inv up Hinv Hup. destruct (c106_host_points up Hup) as ((ms & Ea & Eh) & _). destruct (c106_shape _ _ _ _ Eh eq_refl) as (Hlen & Hseg); [now rewrite (aligned_length _ _ _ _ _ Ea)|]. unfold machine_analysis. rewrite Ea. cbn [bind]. change (length c106_rows) with 7. rewrite Eh. cbn [bind].
  set (all := c106_up up) in *. assert (Hid : map p_id all = seq 0 (length all)) by reflexivity. change (rate c102_params) with 4.
  assert (Hpt : map as_pt all = [{| pid := 0; pseg := 1 |}; {| pid := 1; pseg := 2 |}; {| pid := 2; pseg := 3 |}; {| pid := 3; pseg := 0 |}]) by reflexivity.
  assert (Hcr : crossings_of 4 all = [(0, 2); (1, 3); (2, 0)]) by (unfold crossings_of, steps_of; rewrite Hpt; vm_compute; reflexivity).
  assert (Hts : transitions_of c102_params (r_sector 4) r_flip (map p_coordinates all) = steps_of 4 all) by (unfold transitions_of, followed; cbn [self_correction c102_params andb rate]; now rewrite points_at_stored by assumption).
  assert (Hprop : properly_crossed 4 all).
  { intros c Hc. rewrite Hcr in Hc. destruct c102_pos as (Px & Py).
    repeat (destruct Hc as [<-|Hc]; [cbn [fst snd]; match goal with |- offset _ _ ?u <> offset _ _ ?v => destruct (quarter_offset u) as (U0 & U1 & U2 & U3); destruct (quarter_offset v) as (V0 & V1 & V2 & V3) end;
      rewrite ?U0, ?U1, ?U2, ?U3, ?V0, ?V1, ?V2, ?V3; unfold coords_at, coords_fun, all, c106_up, c106_point; cbn [map p_coordinates nth fst snd]; lra|]). destruct Hc. }
  destruct (C81_one_machine (r_sector 4) r_flip (real_cross inv 4) (r_cluster 1) c102_params 7 (map p_coordinates all) (position_of 2 4 all)) as (label & Hlab & Ho).
  - reflexivity.
  - cbn; lia.
  - intros k. apply (sector_bound 4). lia.
  - rewrite map_length. change (length all) with 4. cbn. lia.
  - cbn; lia.
  - rewrite map_length. change (length all) with 4. cbn. lia.
  - intros t c Ht Hc. unfold followed. cbn [self_correction c102_params andb]. rewrite Hts in *. apply (cross_ok 2 4 all Hid Hlen inv Hinv ltac:(lia) Hprop); auto. apply incl_refl.
  - rewrite Hts. change (path (rate c102_params) (steps_of 4 all)) with (crossings_of 4 all). rewrite Hcr. intros s Hs H2. cbn [rate c102_params] in Hs. destruct s as [|[|[|[|s]]]]; cbn in H2; lia.
  - rewrite Hts. change (path (rate c102_params) (steps_of 4 all)) with (crossings_of 4 all). rewrite Hcr. intros (i & rest & E). discriminate.
  - rewrite Hts. unfold steps_of. rewrite Hpt. eexists. split; [vm_compute; right; left; reflexivity|discriminate].
  - rewrite Hts in Hlab, Ho. change (path (rate c102_params) (steps_of 4 all)) with (crossings_of 4 all) in Hlab. cbv zeta in Ho. destruct Ho as (_ & w0 & E0 & R). exists w0. split; [exact E0|]. intros w Hw. destruct (R w Hw) as (R1 & R2). split; [exact R1|]. intros Hf. rewrite (R2 Hf).
    rewrite Hcr in Hlab. destruct Hlab as (_ & L). pose proof (L 2 0 ltac:(cbn; lia) eq_refl) as L2. pose proof (L 3 1 ltac:(cbn; lia) eq_refl) as L3. pose proof (L 0 2 ltac:(cbn; lia) eq_refl) as L0.
    assert (Ew : walk label (rate c102_params) (steps_of 4 all) = map (labelled (fun _ _ => 0)) [(0, 2); (1, 3); (2, 0)]).
    { unfold walk. change (path (rate c102_params) (steps_of 4 all)) with (crossings_of 4 all). rewrite Hcr. cbn [map]. unfold labelled. cbn [fst snd]. now rewrite L0, L2, L3. }
    rewrite Ew, map_length. change (length all) with 4. f_equal. apply scores_up.
Qed.
Lemma c106_down_scores : forall inv up, (up * up = 1)%R -> exists w0, machine_analysis inv c102_params 2 [-1; -1]%R [1; 1]%R [c106_pc up; c102_pc up] (map (@rev R) c106_rows) = Ok w0 /\
  forall w, scoring_run (fun x => f_eq x f_zero) w0 w -> (flying w <> [] -> exists w', scoring_step (fun x => f_eq x f_zero) w w') /\ (flying w = [] -> local_results w = [Ok [B754_nan; B754_nan; B754_nan]]).
Proof.
  intros inv up Hup. destruct (c106_host_points up Hup) as (_ & (ms & Ea & Eh)). destruct (c106_shape _ _ _ _ Eh eq_refl) as (Hlen & Hseg); [now rewrite (aligned_length _ _ _ _ _ Ea)|]. unfold machine_analysis. rewrite Ea. cbn [bind]. change (length (map (@rev R) c106_rows)) with 7. rewrite Eh. cbn [bind].
  set (all := c106_down up) in *. assert (Hid : map p_id all = seq 0 (length all)) by reflexivity. change (rate c102_params) with 4.
  assert (Hpt : map as_pt all = [{| pid := 0; pseg := 3 |}; {| pid := 1; pseg := 2 |}; {| pid := 2; pseg := 1 |}; {| pid := 3; pseg := 0 |}]) by reflexivity.
  assert (Hts : transitions_of c102_params (r_sector 4) r_flip (map p_coordinates all) = []) by (unfold transitions_of, followed; cbn [self_correction c102_params andb rate]; rewrite points_at_stored by assumption; rewrite Hpt; vm_compute; reflexivity).
  destruct (C81_quiet_series_is_nan (r_sector 4) r_flip (real_cross inv 4) (r_cluster 1) c102_params 7 (map p_coordinates all) (position_of 2 4 all)) as (w0 & E0 & R).
  - reflexivity.
  - cbn; lia.
  - intros k. apply (sector_bound 4). lia.
  - rewrite map_length. change (length all) with 4. cbn. lia.
  - cbn; lia.
  - rewrite map_length. change (length all) with 4. cbn. lia.
  - intros t c Ht Hc. rewrite Hts in Ht. destruct Ht.
  - rewrite Hts. intros s Hs H2. cbn in H2. lia.
  - rewrite Hts. intros (i & rest & E). discriminate.
  - rewrite Hts. intros t [].
  - rewrite Hts. cbn. lia.
  - exists w0. split; [exact E0|]. intros w Hw. destruct (R w Hw) as (R1 & R2). split; [exact R1|]. intros Hf. rewrite (R2 Hf), map_length. reflexivity.
Qed.

(** C106 is false: a series of two channels, the second of which lags behind, and the same series with its columns exchanged, with the same settings: numbers for one, no number at all for the other, in every complete execution.
    Both signs that the library may choose for the second component (C102) lead to the same. *)
Theorem C106_exchanged_columns_refuted : exists p rows mins maxs windows windows', let width := pattern_length p - latent p in let exchanged := map (@rev R) rows in
  (forall row, In row rows -> length row = 2) /\ latent p + 3 <= pattern_length p /\ extremes 2 rows mins maxs /\ extremes 2 exchanged mins maxs /\ embed p 2 rows = Ok windows /\ embed p 2 exchanged = Ok windows' /\
  (forall c, c < 2 -> exists v s, diagonalises width (scatter_matrix (channel c windows)) v s /\ separated width s) /\
  forall up, (up = 1 \/ up = -1)%R -> exists svd pc pc', all_analysed (fun M => M) svd width 2 windows [pc; pc'] /\ all_analysed (fun M => M) svd width 2 windows' [pc'; pc] /\ nth_error (snd pc) 1 = Some [0; up; 0]%R /\ nth_error (snd pc') 1 = Some [0; up; 0]%R /\
  forall inv, inverse_correct 4 inv -> exists w0 w0', machine_analysis inv p 2 mins maxs [pc; pc'] rows = Ok w0 /\ machine_analysis inv p 2 mins maxs [pc'; pc] exchanged = Ok w0' /\
    (forall w, scoring_run (fun x => f_eq x f_zero) w0 w -> (flying w <> [] -> exists w', scoring_step (fun x => f_eq x f_zero) w w') /\ (flying w = [] -> local_results w = [Ok [f_of_nat 1; f_zero; f_zero]])) /\
    (forall w, scoring_run (fun x => f_eq x f_zero) w0' w -> (flying w <> [] -> exists w', scoring_step (fun x => f_eq x f_zero) w w') /\ (flying w = [] -> local_results w = [Ok [B754_nan; B754_nan; B754_nan]])).
Proof.
  exists c102_params, c106_rows, [-1; -1]%R, [1; 1]%R, (c106_windows c106_early c106_late), (c106_windows c106_late c106_early). cbv zeta. destruct c106_extremes as (X1 & X2). destruct c106_embed as (E1 & E2). ssplit; try assumption; try reflexivity.
  - intros row H. cbn in H. repeat (destruct H as [<-|H]; [reflexivity|]). destruct H.
  - intros c Hc. exists (c102_axes 1), c102_values. split; [|exact c102_separated]. destruct c106_channels as (C1 & _). destruct c as [|[|c]]; [|apply c106_scatter; lra|lia]. change (pattern_length c102_params - latent c102_params) with 3. rewrite C1. apply c102_scatter. lra.
  - intros up Hup. assert (U : (up * up = 1)%R) by (destruct Hup as [->| ->]; lra). destruct (c106_all_analysed up U) as (A1 & A2). exists (fun _ => c102_axes up), (c102_pc up), (c106_pc up). ssplit; try assumption; try reflexivity.
    intros inv Hinv. destruct (c106_up_scores inv up Hinv U) as (w0 & M1 & R1). destruct (c106_down_scores inv up U) as (w0' & M2 & R2). exists w0, w0'. auto.
Qed.

(** The series of the theorem and any series with a third column besides these two, however it is analysed: the same points in the same segments. *)
Example C106_case : forall third pc mc, length third = 7 -> length (snd pc) = 3 -> exists ma mb points points', let rows' := map (fun rz => fst rz ++ [snd rz]) (combine c106_rows third) in
  host_points c102_params 2 7 1 0 [ma; mb] [c102_pc 1; c106_pc 1] c106_rows = Ok points /\ host_points c102_params 3 7 1 0 [ma; mb; mc] [c102_pc 1; c106_pc 1; pc] rows' = Ok points' /\
  map p_segment points = [1; 2; 3; 0] /\ map as_pt points = map as_pt points'.
Proof.
  intros third pc mc L3 Lc. destruct (c106_host_points 1 ltac:(lra)) as ((ms & Ea & Eh) & _). pose proof (aligned_length _ _ _ _ _ Ea) as Lm. destruct ms as [|ma [|mb [|mc' ms]]]; try discriminate Lm. exists ma, mb, (c106_up 1).
  set (rows' := map (fun rz => fst rz ++ [snd rz]) (combine c106_rows third)).
  assert (Lr : length rows' = 7) by (unfold rows'; rewrite map_length, combine_length, L3; reflexivity).
  assert (Ew : embed c102_params 3 rows' = Ok (PhaseSpace.Spec.embedding (sum_axis 3) 4 1 rows')) by (unfold embed; apply phase_space_ok; [cbn; lia|cbn [pattern_length c102_params]; lia]).
  destruct (add_points_ok 4 (map (fun w => point_coordinates [ma; mb; mc] (reduced [c102_pc 1; c106_pc 1; pc] w)) (PhaseSpace.Spec.embedding (sum_axis 3) 4 1 rows')) 0) as (points' & Ep).
  { apply Forall_forall. intros c Hc. apply in_map_iff in Hc. destruct Hc as (w & <- & _). rewrite point_coordinates_length, reduced_length. cbn. lia. }
  assert (Eh' : host_points c102_params 3 7 1 0 [ma; mb; mc] [c102_pc 1; c106_pc 1; pc] rows' = Ok points').
  { rewrite (host_points_ok c102_params 3 [c102_pc 1; c106_pc 1; pc] [ma; mb; mc] ltac:(cbn; lia) ltac:(repeat constructor; exact Lc) eq_refl ltac:(cbn; lia) 7 1 0 _ _ ltac:(lia) Ew). change (7 / 1 * 0) with 0. change (rate c102_params) with 4. rewrite Ep. reflexivity. }
  exists points'. cbv zeta. fold rows'. ssplit; try assumption; try reflexivity.
  apply (C106_two_columns_decide_refuted c102_params 2 3 7 1 0 c106_rows rows' (c102_pc 1) (c106_pc 1) [] [pc] ma mb [] [mc] (c106_up 1) points'); try assumption; try lia; try (cbn; lia).
  unfold rows'. destruct third as [|z0 [|z1 [|z2 [|z3 [|z4 [|z5 [|z6 [|z7 third]]]]]]]]; try discriminate L3. reflexivity.
Qed.
Print Assumptions C106_two_columns_decide_refuted.
Print Assumptions C106_exchanged_columns_refuted.
