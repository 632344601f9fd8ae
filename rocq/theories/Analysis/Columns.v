(** A series for C106: two channels, the swing of Analysis/Library.v and the same swing a quarter of its period later, seven rows, four segments, one machine. *)
From Verif.Pca Require Import Model Spec Exec.
From Coq Require Import List Arith Bool Lia Permutation ZArith Reals Lra FunctionalExtensionality.
From Verif.Base Require Import Res Params ListX Float32.
From Verif.Reader Require Import Spec Proofs.
From Verif.Stats Require Import Model Spec Proofs.
From Verif.PhaseSpace Require Import Model Spec Proofs.
From Verif.Pca Require Import Gram GramSpec GramProofs Components ComponentsSpec ComponentsProofs.
From Verif.Geometry Require Import Model Spec Proofs.
From Verif.Intersections Require Import Real RealSpec.
From Verif.Kde Require Import Real RealSpec.
From Verif.Segmentation Require Import Model Spec.
From Verif.Pipeline Require Import Spec.
From Verif.Properties Require Import Pca Components Geometry Pipeline Analysis.
From Verif.Front Require Import Model Spec Proofs.
From Verif.Scoring Require Import Model Spec.
From Verif.Pipeline Require Import Model Spec.
From Verif.Analysis Require Import Model Spec Proofs Case.
Import ListNotations.
Local Open Scope R_scope.
From Verif.Analysis Require Import Library.

(** The first columns and the second ones. *)
Definition c106_first : list R := [-1; -1; 1; 1; -1; -1; 0].
Definition c106_second : list R := [1; -1; -1; 1; 1; -1; 0].
Definition c106_rows : list (list R) := map (fun ab => [fst ab; snd ab]) (combine c106_first c106_second).
(** The windows, as pairs (x, y) for (x, y, -x). *)
Definition c106_early : list (R * R) := [(-1, -1); (-1, 1); (1, 1); (1, -1)].
Definition c106_late : list (R * R) := [(1, -1); (-1, -1); (-1, 1); (1, 1)].
Definition c106_window (a b : R * R) : list (list R) := [[0 + fst a; 0 + fst b]; [0 + snd a; 0 + snd b]; [0 + - fst a; 0 + - fst b]].
Definition c106_windows (a b : list (R * R)) : list (list (list R)) := map (fun ab => c106_window (fst ab) (snd ab)) (combine a b).
Lemma opp_opp : - -1 = 1. Proof. ring. Qed.
Lemma c106_embed : embed c102_params 2 c106_rows = Ok (c106_windows c106_early c106_late) /\ embed c102_params 2 (map (@rev R) c106_rows) = Ok (c106_windows c106_late c106_early).
Proof.
  split; unfold c106_windows, c106_window, c106_early, c106_late; cbn [combine map fst snd]; rewrite opp_opp; reflexivity.
Qed.

Definition c106_channel : list (nat -> R) := channel 1 (c106_windows c106_early c106_late).
Lemma c106_channels : channel 0 (c106_windows c106_early c106_late) = c102_channel /\ channel 1 (c106_windows c106_late c106_early) = c102_channel /\ channel 0 (c106_windows c106_late c106_early) = c106_channel.
Proof. unfold c102_channel, c106_channel, c102_windows, c106_windows, c106_window, c106_early, c106_late. cbn [combine map fst snd]. rewrite opp_opp. ssplit; reflexivity. Qed.
Lemma c106_scatter : forall up, up * up = 1 -> diagonalises 3 (scatter_matrix c106_channel) (c102_axes up) c102_values.
Proof.
  intros up Hup. apply (diagonalises_ext _ (scatter_matrix c102_channel)); [|now apply c102_scatter]. intros a b _ _. unfold scatter_matrix, column_mean, mean, c106_channel, c102_channel, channel, c102_windows, c106_windows, c106_window, c106_early, c106_late.
  cbn [concat app map length combine fst snd]. unfold entries, Stats.Model.column. cbn [flat_map nth_error app]. rewrite opp_opp. change (- (1)) with (-1). cbn [length map Rsum fold_right INR]. field.
Qed.
Definition c106_pc (up : R) : components_of := (column_mean c106_channel, c102_comps up).
Lemma c106_analysed : forall up, up * up = 1 -> analysed (fun M => M) (fun _ => c102_axes up) 3 c106_channel (c106_pc up).
Proof.
  intros up Hup. assert (X : exists means r, pca_of (fun M => M) c106_channel means r).
  { do 2 eexists. apply (on_hosts _ _ (fun _ => c106_channel) 1 true (run (hosts 1 false true 1) (starts 1 ++ drain 1 4)) ([0%nat], Own 0)); [lia|intros k _; discriminate|unfold all_rows; cbn [seq map concat]; now rewrite app_nil_r|apply run_early; vm_compute; reflexivity|vm_compute; auto|reflexivity]. }
  destruct X as (means & r & H). assert (Em : means = column_mean c106_channel) by (apply functional_extensionality; apply (pca_of_scatter (fun M => M) c106_channel means r); [intros M a b; reflexivity|exact H]). subst means.
  exists r. ssplit; [exact H| |].
  - assert (Q : 1 / sqrt 2 >= 0) by (pose proof (sqrt_lt_R0 2 ltac:(lra)) as P; left; apply Rdiv_lt_0_compat; lra).
    unfold components. cbn [Nat.ltb Nat.leb seq map c102_axes row3 normalize_row snd c106_pc]. destruct (Rge_dec (1 / sqrt 2) 0) as [_|X]; [|contradiction]. destruct (Rge_dec 0 0) as [_|X]; [reflexivity|exfalso; apply X; lra].
  - exists c102_values. apply (diagonalises_ext _ (scatter_matrix c106_channel)); [|now apply c106_scatter]. intros i j _ _. symmetry. apply (pca_of_scatter (fun M => M) c106_channel (column_mean c106_channel) r); [intros M a b; reflexivity|exact H].
Qed.
Lemma c106_means : forall j, (j < 3)%nat -> column_mean c106_channel j = 0 /\ column_mean c102_channel j = 0.
Proof.
  intros j Hj. unfold column_mean, mean, c106_channel, c102_channel, channel, c102_windows, c106_windows, c106_window, c106_early, c106_late. cbn [concat app map length combine fst snd]. unfold entries, Stats.Model.column. cbn [flat_map nth_error app].
  destruct j as [|[|[|j]]]; try lia; cbn [nth length Rsum fold_right INR]; split; field.
Qed.

(** Two channels with means 0 and the components of Analysis/Library.v: the first coordinates of the point are the first entries of the two windows. *)
Definition centred_pc (up : R) (pc : components_of) : Prop := snd pc = c102_comps up /\ forall j, (j < 3)%nat -> fst pc j = 0.
Lemma c106_reduced : forall up a b xa ya za xb yb zb, centred_pc up a -> centred_pc up b ->
  reduced [a; b] [[xa; xb]; [ya; yb]; [za; zb]] = [((xa - za) / sqrt 2, up * ya, (xa + za) / sqrt 2); ((xb - zb) / sqrt 2, up * yb, (xb + zb) / sqrt 2)].
Proof.
  intros up (ma & ca) (mb & cb) xa ya za xb yb zb (Ea & Ma) (Eb & Mb). cbn [fst snd] in *. subst ca cb. assert (P2 : 0 < sqrt 2) by (apply sqrt_lt_R0; lra).
  unfold reduced, c102_comps. cbn [length seq combine map fst snd reduce_row Rsum fold_right]. unfold entries, Stats.Model.column. cbn [flat_map app nth_error nth]. rewrite !Ma, !Mb by lia. cbn [vec_of].
  f_equal; [|f_equal]; apply triple_eq; field; lra.
Qed.
Lemma c106_alignment : forall up a b, up * up = 1 -> centred_pc up a -> centred_pc up b -> exists ma mb, alignment c102_params [-1; -1] [1; 1] [a; b] = Ok [ma; mb] /\
  forall wa wb, point_coordinates [ma; mb] (reduced [a; b] (c106_window wa wb)) = [fst wa * c102_x; fst wb * c102_x; - up * snd wa * c102_y; - up * snd wb * c102_y].
Proof.
  intros up a b Hup Ca Cb. assert (Hu : up <> 0) by (intros ->; lra). destruct (alignment_ok c102_params [-1; -1] [1; 1] [a; b]) as (ms & E & F); [cbn; lia|reflexivity| |].
  { repeat constructor; [rewrite (proj1 Ca)|rewrite (proj1 Cb)]; reflexivity. }
  unfold reference_row in F. cbn [map latent pattern_length c102_params INR repeat Nat.sub] in F. rewrite (c106_reduced up) in F by assumption.
  inversion F as [|ma u ms' us Hma Hms]; subst. inversion Hms as [|mb u' ms'' us' Hmb Hms']; subst. inversion Hms'; subst. exists ma, mb. split; [exact E|]. intros (xa & ya) (xb & yb). unfold c106_window. rewrite (c106_reduced up) by assumption. unfold point_coordinates. cbn [combine map app fst snd].
  assert (P2 : 0 < sqrt 2) by (apply sqrt_lt_R0; lra). assert (S2 : sqrt 2 * sqrt 2 = 2) by (apply sqrt_sqrt; lra).
  assert (Eu : ((1 * -1 - 1 * -1) / sqrt 2, up * (1 * -1), (1 * -1 + 1 * -1) / sqrt 2) = (0, - up, -2 / sqrt 2)) by (apply triple_eq; field; lra). rewrite Eu in Hma, Hmb.
  assert (Er : forall m, (forall r c, (r < 3)%nat -> (c < 3)%nat -> m r c = rmat (0, - up, -2 / sqrt 2) r c) -> forall r v, (r < 3)%nat -> mat_row m r v = mat_row (rmat (0, - up, -2 / sqrt 2)) r v) by (intros m Hm r ((v0 & v1) & v2) Hr; unfold mat_row; now rewrite !Hm by lia).
  assert (Erho : - up * - up + -2 / sqrt 2 * (-2 / sqrt 2) = 3) by (replace (- up * - up) with (up * up) by ring; rewrite Hup; replace (-2 / sqrt 2 * (-2 / sqrt 2)) with (4 / (sqrt 2 * sqrt 2)) by (field; lra); rewrite S2; lra).
  assert (C : forall x y, mat_row (rmat (0, - up, -2 / sqrt 2)) 0 ((0 + x - (0 + - x)) / sqrt 2, up * (0 + y), (0 + x + (0 + - x)) / sqrt 2) = x * c102_x /\
                          mat_row (rmat (0, - up, -2 / sqrt 2)) 1 ((0 + x - (0 + - x)) / sqrt 2, up * (0 + y), (0 + x + (0 + - x)) / sqrt 2) = - up * y * c102_y).
  { intros x y. destruct (aligned_rows (- up) (-2 / sqrt 2) ((0 + x - (0 + - x)) / sqrt 2) (up * (0 + y)) ((0 + x + (0 + - x)) / sqrt 2) ltac:(lra)) as (R0 & R1). rewrite Erho in R1. rewrite R0, R1. pose proof (sqrt_lt_R0 3 ltac:(lra)) as P3.
    split; [unfold c102_x|unfold c102_y]; field; lra. }
  rewrite !(Er ma Hma), !(Er mb Hmb) by lia. destruct (C xa ya) as (-> & ->). destruct (C xb yb) as (-> & ->). reflexivity.
Qed.
Definition c106_point (up : R) (i s : nat) (a b : R * R) : point := {| p_id := i; p_coordinates := [fst a * c102_x; fst b * c102_x; - up * snd a * c102_y; - up * snd b * c102_y]; p_segment := s |}.
Lemma c106_add : forall up i a b l s qs, get_segment_id (atan2 (fst b * c102_x) (fst a * c102_x)) 4 = s -> add_points (S i) l 4 = Some qs ->
  add_points i ([fst a * c102_x; fst b * c102_x; - up * snd a * c102_y; - up * snd b * c102_y] :: l) 4 = Some (c106_point up i s a b :: qs).
Proof. intros up i a b l s qs Hs Hl. cbn [add_points]. unfold new_point, segment_of. rewrite Hs, Hl. reflexivity. Qed.
Definition c106_up (up : R) : list point := [c106_point up 0 1 (-1, -1) (1, -1); c106_point up 1 2 (-1, 1) (-1, -1); c106_point up 2 3 (1, 1) (-1, 1); c106_point up 3 0 (1, -1) (1, 1)].
Definition c106_down (up : R) : list point := [c106_point up 0 3 (1, -1) (-1, -1); c106_point up 1 2 (-1, -1) (-1, 1); c106_point up 2 1 (-1, 1) (1, 1); c106_point up 3 0 (1, 1) (1, -1)].
Lemma c106_centred : forall up, centred_pc up (c102_pc up) /\ centred_pc up (c106_pc up).
Proof. intros up. split; (split; [reflexivity|intros j Hj; cbn [fst c102_pc c106_pc]; now apply c106_means]). Qed.
Lemma c106_host_points : forall up, up * up = 1 ->
  (exists ms, alignment c102_params [-1; -1] [1; 1] [c102_pc up; c106_pc up] = Ok ms /\ host_points c102_params 2 7 1 0 ms [c102_pc up; c106_pc up] c106_rows = Ok (c106_up up)) /\
  (exists ms, alignment c102_params [-1; -1] [1; 1] [c106_pc up; c102_pc up] = Ok ms /\ host_points c102_params 2 7 1 0 ms [c106_pc up; c102_pc up] (map (@rev R) c106_rows) = Ok (c106_down up)).
Proof.
  intros up Hup. destruct (c106_centred up) as (C1 & C2). destruct c106_embed as (E1 & E2). pose proof (proj1 c102_pos) as Px. split.
  - destruct (c106_alignment up _ _ Hup C1 C2) as (ma & mb & E & C). exists [ma; mb]. split; [exact E|].
    rewrite (host_points_ok c102_params 2 [c102_pc up; c106_pc up] [ma; mb] ltac:(cbn; lia) ltac:(repeat constructor) eq_refl ltac:(cbn; lia) 7 1 0 _ _ ltac:(lia) E1).
    unfold c106_windows, c106_early, c106_late. cbn [combine map fst snd]. rewrite !C. change (rate c102_params) with 4%nat. change (7 / 1 * 0)%nat with 0%nat. unfold c106_up.
    rewrite (c106_add up 0 (-1, -1) (1, -1) _ 1 (tl (c106_up up))); [reflexivity|apply quadrant_1; cbn [fst]; lra|]. cbn [tl c106_up].
    apply c106_add; [apply quadrant_2; cbn [fst]; lra|]. apply c106_add; [apply quadrant_3; cbn [fst]; lra|]. apply c106_add; [apply quadrant_0; cbn [fst]; lra|]. reflexivity.
  - destruct (c106_alignment up _ _ Hup C2 C1) as (ma & mb & E & C). exists [ma; mb]. split; [exact E|].
    rewrite (host_points_ok c102_params 2 [c106_pc up; c102_pc up] [ma; mb] ltac:(cbn; lia) ltac:(repeat constructor) eq_refl ltac:(cbn; lia) 7 1 0 _ _ ltac:(lia) E2).
    unfold c106_windows, c106_early, c106_late. cbn [combine map fst snd]. rewrite !C. change (rate c102_params) with 4%nat. change (7 / 1 * 0)%nat with 0%nat. unfold c106_down.
    rewrite (c106_add up 0 (1, -1) (-1, -1) _ 3 (tl (c106_down up))); [reflexivity|apply quadrant_3; cbn [fst]; lra|]. cbn [tl c106_down].
    apply c106_add; [apply quadrant_2; cbn [fst]; lra|]. apply c106_add; [apply quadrant_1; cbn [fst]; lra|]. apply c106_add; [apply quadrant_0; cbn [fst]; lra|]. reflexivity.
Qed.
