(** A series for C102: one swing up and down, seven rows of one channel, four segments, one machine; the sign of its second component is the library's choice. *)
From Verif.Pca Require Import Model Spec Exec.
From Coq Require Import List Arith Bool Lia Permutation ZArith Reals Lra FunctionalExtensionality.
From Verif.Base Require Import Res Params ListX Float32.
From Verif.Reader Require Import Spec Proofs.
From Verif.Stats Require Import Model Spec Proofs.
From Verif.PhaseSpace Require Import Model Spec Proofs.
From Verif.Pca Require Import Gram GramSpec GramProofs Components ComponentsSpec ComponentsProofs.
From Verif.Geometry Require Import Model Spec Proofs.
From Verif.Intersections Require Import Real RealSpec.
From Verif.Kde Require Import Real RealSpec.
From Verif.Segmentation Require Import Model Spec.
From Verif.Pipeline Require Import Spec.
From Verif.Properties Require Import Pca Components Geometry Pipeline Analysis.
From Verif.Front Require Import Model Spec Proofs.
From Verif.Scoring Require Import Model Spec.
From Verif.Pipeline Require Import Model Spec.
From Verif.Analysis Require Import Model Spec Proofs Case.
Import ListNotations.
Local Open Scope R_scope.

Definition c102_params : params := {| rate := 4; n_threads := 1; n_cluster_nodes := 1; pattern_length := 4; latent := 1; query_length := 1; column_start := 0; column_end := 0%Z; self_correction := false |}.
Definition c102_rows : list (list R) := [[-1]; [-1]; [1]; [1]; [-1]; [-1]; [0]].
Definition c102_windows : list (list (list R)) := map (fun w => match w with (x, y, z) => [[0 + x]; [0 + y]; [0 + z]] end) [(-1, -1, 1); (-1, 1, 1); (1, 1, -1); (1, -1, -1)].
Lemma c102_embed : embed c102_params 1 c102_rows = Ok c102_windows.
Proof. reflexivity. Qed.
Definition c102_channel : list (nat -> R) := channel 0 c102_windows.
(** Principal directions; [up] is the sign of the second one. *)
Definition c102_axes (up : R) (i : nat) : nat -> R := match i with 0%nat => row3 (1 / sqrt 2) 0 (- 1 / sqrt 2) | 1%nat => row3 0 up 0 | _ => row3 (1 / sqrt 2) 0 (1 / sqrt 2) end.
Definition c102_values (i : nat) : R := match i with 0%nat => sqrt 8 | 1%nat => 2 | _ => 0 end.
Lemma c102_gap : 2 < sqrt 8.
Proof. replace 2 with (sqrt (2 * 2)) at 1 by (apply sqrt_square; lra). apply sqrt_lt_1; lra. Qed.
Lemma c102_scatter : forall up, up * up = 1 -> diagonalises 3 (scatter_matrix c102_channel) (c102_axes up) c102_values.
Proof.
  intros up Hup. assert (S2 : sqrt 2 * sqrt 2 = 2) by (apply sqrt_sqrt; lra). assert (S8 : sqrt 8 * sqrt 8 = 8) by (apply sqrt_sqrt; lra). assert (P2 : 0 < sqrt 2) by (apply sqrt_lt_R0; lra). pose proof c102_gap as G.
  assert (F2 : forall x y, x / sqrt 2 * (y / sqrt 2) = x * y / 2) by (intros; rewrite <- S2 at 3; field; lra).
  unfold diagonalises. ssplit.
  - intros i k Hi Hk. destruct i as [|[|[|i]]]; try lia; destruct k as [|[|[|k]]]; try lia; unfold inner, delta; cbn [seq map Rsum fold_right c102_axes row3 Nat.eqb]; rewrite ?F2, ?Hup, ?Rmult_0_l, ?Rmult_0_r; lra.
  - intros i k Hi Hk. destruct i as [|[|[|i]]]; try lia; destruct k as [|[|[|k]]]; try lia; unfold inner, delta; cbn [seq map Rsum fold_right c102_axes row3 Nat.eqb]; rewrite ?F2, ?Hup, ?Rmult_0_l, ?Rmult_0_r; lra.
  - intros i Hi. destruct i as [|[|[|i]]]; try lia; cbn [c102_values]; lra.
  - intros i k Hi Hk. destruct i as [|[|[|i]]]; try lia; destruct k as [|[|[|k]]]; try lia; cbn [c102_values]; lra.
  - intros a b Ha Hb. unfold scatter_matrix, column_mean, mean. unfold c102_channel, channel, c102_windows. cbn [concat app map length].
    destruct a as [|[|[|a]]]; try lia; destruct b as [|[|[|b]]]; try lia; unfold c102_values, entries, Stats.Model.column; cbn [flat_map nth_error app nth length map Rsum fold_right seq c102_axes row3]; rewrite ?S8, ?F2, ?Hup, ?Rmult_0_l, ?Rmult_0_r; cbn [INR]; lra.
Qed.
Lemma c102_separated : separated 3 c102_values.
Proof. intros i k Hi Hk Hd. pose proof c102_gap. destruct i as [|[|[|i]]]; try lia; destruct k as [|[|[|k]]]; try lia; cbn [c102_values]; lra. Qed.

Definition c102_comps (up : R) : list (list R) := [[1 / sqrt 2; 0; - 1 / sqrt 2]; [0; up; 0]; [1 / sqrt 2; 0; 1 / sqrt 2]].
Definition c102_pc (up : R) : components_of := (column_mean c102_channel, c102_comps up).
Lemma c102_analysed : forall up, up * up = 1 -> analysed (fun M => M) (fun _ => c102_axes up) 3 c102_channel (c102_pc up).
Proof.
  intros up Hup. assert (X : exists means r, pca_of (fun M => M) c102_channel means r).
  { do 2 eexists. apply (on_hosts _ _ (fun _ => c102_channel) 1 true (run (hosts 1 false true 1) (starts 1 ++ drain 1 4)) ([0%nat], Own 0)); [lia|intros k _; discriminate|unfold all_rows; cbn [seq map concat]; now rewrite app_nil_r|apply run_early; vm_compute; reflexivity|vm_compute; auto|reflexivity]. }
  destruct X as (means & r & H). assert (Em : means = column_mean c102_channel) by (apply functional_extensionality; apply (pca_of_scatter (fun M => M) c102_channel means r); [intros M a b; reflexivity|exact H]). subst means.
  exists r. ssplit; [exact H| |].
  - assert (Q : 1 / sqrt 2 >= 0) by (pose proof (sqrt_lt_R0 2 ltac:(lra)) as P; left; apply Rdiv_lt_0_compat; lra).
    unfold components. cbn [Nat.ltb Nat.leb seq map c102_axes row3 normalize_row snd c102_pc]. destruct (Rge_dec (1 / sqrt 2) 0) as [_|X]; [|contradiction]. destruct (Rge_dec 0 0) as [_|X]; [reflexivity|exfalso; apply X; lra].
  - exists c102_values. apply (diagonalises_ext _ (scatter_matrix c102_channel)); [|now apply c102_scatter]. intros i j _ _. symmetry. apply (pca_of_scatter (fun M => M) c102_channel (column_mean c102_channel) r); [intros M a b; reflexivity|exact H].
Qed.
Lemma c102_means : column_mean c102_channel 0 = 0 /\ column_mean c102_channel 1 = 0 /\ column_mean c102_channel 2 = 0.
Proof. unfold column_mean, mean, c102_channel, channel, c102_windows, entries, Stats.Model.column. cbn [concat map app flat_map nth_error nth length Rsum fold_right INR]. ssplit; field. Qed.
Lemma c102_reduced : forall up x y z, reduced [c102_pc up] [[x]; [y]; [z]] = [((x - z) / sqrt 2, up * y, (x + z) / sqrt 2)].
Proof.
  intros up x y z. assert (P2 : 0 < sqrt 2) by (apply sqrt_lt_R0; lra). destruct c102_means as (M0 & M1 & M2).
  unfold reduced, c102_pc, c102_comps. cbn [length seq combine map fst snd reduce_row Rsum fold_right]. unfold entries, Stats.Model.column. cbn [flat_map app nth_error nth]. rewrite M0, M1, M2. cbn [vec_of].
  apply (f_equal (fun v => [v])). apply triple_eq; field; lra.
Qed.

(** The points: a rectangle, gone round counter-clockwise for one sign and clockwise for the other. *)
Definition c102_x : R := 2 / sqrt 2.
Definition c102_y : R := (2 / sqrt 2) / sqrt 3.
Lemma c102_pos : 0 < c102_x /\ 0 < c102_y.
Proof. pose proof (sqrt_lt_R0 2 ltac:(lra)). pose proof (sqrt_lt_R0 3 ltac:(lra)). unfold c102_x, c102_y. assert (0 < 2 / sqrt 2) by (apply Rdiv_lt_0_compat; lra). split; [assumption|]. now apply Rdiv_lt_0_compat. Qed.
Definition c102_points (up : R) (a b c d : nat) : list point :=
  [{| p_id := 0; p_coordinates := [-1 * c102_x; up * c102_y]; p_segment := a |}; {| p_id := 1; p_coordinates := [-1 * c102_x; - up * c102_y]; p_segment := b |};
   {| p_id := 2; p_coordinates := [1 * c102_x; - up * c102_y]; p_segment := c |}; {| p_id := 3; p_coordinates := [1 * c102_x; up * c102_y]; p_segment := d |}].
Lemma c102_alignment : forall up, up * up = 1 -> exists m, alignment c102_params [-1] [1] [c102_pc up] = Ok [m] /\
  forall x y, point_coordinates [m] (reduced [c102_pc up] [[0 + x]; [0 + y]; [0 + - x]]) = [x * c102_x; - up * y * c102_y].
Proof.
  intros up Hup. assert (Hu : up <> 0) by (intros ->; lra). destruct (alignment_ok c102_params [-1] [1] [c102_pc up]) as (ms & E & F); [cbn; lia|reflexivity|repeat constructor|]. unfold reference_row in F. cbn [map latent pattern_length c102_params INR repeat Nat.sub] in F. rewrite c102_reduced in F.
  inversion F as [|m u ms' us Hm Hms]; subst. inversion Hms; subst. exists m. split; [exact E|]. intros x y. rewrite c102_reduced. unfold point_coordinates. cbn [combine map app fst snd].
  assert (P2 : 0 < sqrt 2) by (apply sqrt_lt_R0; lra). assert (S2 : sqrt 2 * sqrt 2 = 2) by (apply sqrt_sqrt; lra).
  assert (Eu : ((1 * -1 - 1 * -1) / sqrt 2, up * (1 * -1), (1 * -1 + 1 * -1) / sqrt 2) = (0, - up, -2 / sqrt 2)) by (apply triple_eq; field; lra). rewrite Eu in Hm.
  assert (Er : forall r v, (r < 3)%nat -> mat_row m r v = mat_row (rmat (0, - up, -2 / sqrt 2)) r v) by (intros r ((v0 & v1) & v2) Hr; unfold mat_row; now rewrite !Hm by lia).
  destruct (aligned_rows (- up) (-2 / sqrt 2) ((0 + x - (0 + - x)) / sqrt 2) (up * (0 + y)) ((0 + x + (0 + - x)) / sqrt 2) ltac:(lra)) as (R0 & R1).
  assert (Erho : - up * - up + -2 / sqrt 2 * (-2 / sqrt 2) = 3) by (replace (- up * - up) with (up * up) by ring; rewrite Hup; replace (-2 / sqrt 2 * (-2 / sqrt 2)) with (4 / (sqrt 2 * sqrt 2)) by (field; lra); rewrite S2; lra). rewrite Erho in R1.
  pose proof (sqrt_lt_R0 3 ltac:(lra)) as P3. rewrite !Er by lia. rewrite R0, R1. apply pair_eq; [unfold c102_x; field; lra|]. unfold c102_y. field. lra.
Qed.
Lemma c102_host_points : forall up a b c d, up * up = 1 ->
  get_segment_id (atan2 (up * c102_y) (-1 * c102_x)) 4 = a -> get_segment_id (atan2 (- up * c102_y) (-1 * c102_x)) 4 = b ->
  get_segment_id (atan2 (- up * c102_y) (1 * c102_x)) 4 = c -> get_segment_id (atan2 (up * c102_y) (1 * c102_x)) 4 = d ->
  exists ms, alignment c102_params [-1] [1] [c102_pc up] = Ok ms /\ host_points c102_params 1 7 1 0 ms [c102_pc up] c102_rows = Ok (c102_points up a b c d).
Proof.
  intros up a b c d Hup Ha Hb Hc Hd. destruct (c102_alignment up Hup) as (m & E & C). exists [m]. split; [exact E|].
  rewrite (host_points_ok c102_params 1 [c102_pc up] [m] ltac:(cbn; lia) ltac:(repeat constructor) eq_refl ltac:(cbn; lia) 7 1 0 _ c102_windows) by (lia || reflexivity).
  unfold c102_windows. cbn [map]. pose proof (C (-1) (-1)) as C0. pose proof (C (-1) 1) as C1. pose proof (C 1 1) as C2. pose proof (C 1 (-1)) as C3. replace (- -1) with 1 in C0, C1 by ring. replace (- (1)) with (-1) in C2, C3 by ring.
  rewrite C0, C1, C2, C3. change (rate c102_params) with 4%nat. change (7 / 1 * 0)%nat with 0%nat. unfold c102_points.
  rewrite (c88_add 0 _ _ (-1 * c102_x) (up * c102_y) _ a (tl (c102_points up a b c d))); [reflexivity|ring|ring|exact Ha|].
  cbn [tl c102_points]. repeat (apply c88_add; [ring|ring|assumption|]). reflexivity.
Qed.
Lemma c102_up : exists ms, alignment c102_params [-1] [1] [c102_pc 1] = Ok ms /\ host_points c102_params 1 7 1 0 ms [c102_pc 1] c102_rows = Ok (c102_points 1 1 2 3 0).
Proof. destruct c102_pos. apply c102_host_points; [lra|apply quadrant_1; lra|apply quadrant_2; lra|apply quadrant_3; lra|apply quadrant_0; lra]. Qed.
Lemma c102_down : exists ms, alignment c102_params [-1] [1] [c102_pc (-1)] = Ok ms /\ host_points c102_params 1 7 1 0 ms [c102_pc (-1)] c102_rows = Ok (c102_points (-1) 2 1 0 3).
Proof. destruct c102_pos. apply c102_host_points; [lra|apply quadrant_2; lra|apply quadrant_1; lra|apply quadrant_0; lra|apply quadrant_3; lra]. Qed.
