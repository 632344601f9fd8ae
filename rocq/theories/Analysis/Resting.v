(** A series for C103: fifteen rows of one channel, four segments; the part of the second of three hosts rests. *)
From Verif.Pca Require Import Model Spec Exec.
From Coq Require Import List Arith Bool Lia Permutation ZArith Reals Lra FunctionalExtensionality.
From Verif.Base Require Import Res Params ListX Float32.
From Verif.Reader Require Import Spec Proofs.
From Verif.Stats Require Import Model Spec Proofs.
From Verif.PhaseSpace Require Import Model Spec Proofs.
From Verif.Pca Require Import Gram GramSpec GramProofs Components ComponentsSpec ComponentsProofs.
From Verif.Geometry Require Import Model Spec Proofs.
From Verif.Intersections Require Import Real RealSpec.
From Verif.Kde Require Import Real RealSpec.
From Verif.Segmentation Require Import Model Spec.
From Verif.Pipeline Require Import Spec.
From Verif.Properties Require Import Pca Components Geometry Pipeline Analysis.
From Verif.Front Require Import Model Spec Proofs.
From Verif.Scoring Require Import Model Spec.
From Verif.Pipeline Require Import Model Spec.
From Verif.Analysis Require Import Model Spec Proofs Case.
Import ListNotations.
Local Open Scope R_scope.

Lemma quadrant_3_border : forall y, y < 0 -> get_segment_id (atan2 y 0) 4 = 3%nat.
Proof.
  intros y Hy. apply segment_iff; [lia|lia|right; lra|]. exists (INR 3 * (PI / 2)). split; [pose proof PI_RGT_0; rewrite ?plus_INR; cbn [INR]; lra|]. exists (- y). replace (INR 3 * (PI / 2)) with (3 * (PI / 2)) by (cbn [INR]; field). rewrite cos_3PI2, sin_3PI2. repeat split; lra.
Qed.

Definition c103_params : params := {| rate := 4; n_threads := 1; n_cluster_nodes := 3; pattern_length := 4; latent := 1; query_length := 1; column_start := 0; column_end := 0%Z; self_correction := false |}.
Definition c103_rows : list (list R) := [[2]; [-1]; [-2]; [0]; [1]; [-1]; [-1]; [-1]; [-1]; [-1]; [-1]; [-1]; [-1]; [2]; [0]].
Definition c103_windows (k : nat) : list (list (list R)) := map (fun w => match w with (x, y, z) => [[0 + x]; [0 + y]; [0 + z]] end)
  match k with 0%nat => [(2, -1, -2); (-1, -2, 0); (-2, 0, 1); (0, 1, -1); (1, -1, -1)] | 1%nat => repeat (-1, -1, -1) 5 | _ => [(-1, -1, -1); (-1, -1, 2)] end.
Definition c103_all_windows : list (list (list R)) := concat [c103_windows 0; c103_windows 1; c103_windows 2].
Lemma c103_hosts : mapM (fun k => embed c103_params 1 (partition_of 3 3 k c103_rows)) (seq 0 3) = Ok [c103_windows 0; c103_windows 1; c103_windows 2].
Proof. reflexivity. Qed.
Lemma c103_one : embed c103_params 1 c103_rows = Ok c103_all_windows.
Proof. reflexivity. Qed.
(** The rows of the second host. *)
Lemma c103_rest : partition_of 3 3 1 c103_rows = repeat [-1] 8.
Proof. reflexivity. Qed.
Definition c103_axes (i : nat) : nat -> R := match i with 0%nat => row3 (1 / sqrt 2) 0 (- 1 / sqrt 2) | 1%nat => row3 (1 / sqrt 3) (1 / sqrt 3) (1 / sqrt 3) | _ => row3 (1 / sqrt 6) (-2 / sqrt 6) (1 / sqrt 6) end.
Definition c103_values (i : nat) : R := match i with 0%nat => sqrt 20 | 1%nat => sqrt 6 | _ => sqrt (11 / 2) end.
Definition c103_channel : list (nat -> R) := channel 0 c103_all_windows.
Lemma c103_gaps : 0 < sqrt (11 / 2) /\ sqrt (11 / 2) < sqrt 6 /\ sqrt 6 < sqrt 20.
Proof. ssplit; [apply sqrt_lt_R0; lra|apply sqrt_lt_1; lra|apply sqrt_lt_1; lra]. Qed.
Lemma c103_scatter : diagonalises 3 (scatter_matrix c103_channel) c103_axes c103_values.
Proof.
  assert (S2 : sqrt 2 * sqrt 2 = 2) by (apply sqrt_sqrt; lra). assert (S3 : sqrt 3 * sqrt 3 = 3) by (apply sqrt_sqrt; lra). assert (S6 : sqrt 6 * sqrt 6 = 6) by (apply sqrt_sqrt; lra).
  assert (S20 : sqrt 20 * sqrt 20 = 20) by (apply sqrt_sqrt; lra). assert (S11 : sqrt (11 / 2) * sqrt (11 / 2) = 11 / 2) by (apply sqrt_sqrt; lra).
  assert (P2 : 0 < sqrt 2) by (apply sqrt_lt_R0; lra). assert (P3 : 0 < sqrt 3) by (apply sqrt_lt_R0; lra). assert (P6 : 0 < sqrt 6) by (apply sqrt_lt_R0; lra). pose proof c103_gaps as G.
  assert (F2 : forall x y, x / sqrt 2 * (y / sqrt 2) = x * y / 2) by (intros; rewrite <- S2 at 3; field; lra).
  assert (F3 : forall x y, x / sqrt 3 * (y / sqrt 3) = x * y / 3) by (intros; rewrite <- S3 at 3; field; lra).
  assert (F6 : forall x y, x / sqrt 6 * (y / sqrt 6) = x * y / 6) by (intros; rewrite <- S6 at 3; field; lra).
  unfold diagonalises. ssplit.
  - intros i k Hi Hk. destruct i as [|[|[|i]]]; try lia; destruct k as [|[|[|k]]]; try lia; unfold inner, delta; cbn [seq map Rsum fold_right c103_axes row3 Nat.eqb]; rewrite ?F2, ?F3, ?F6, ?Rmult_0_l, ?Rmult_0_r; try lra; field; lra.
  - intros i k Hi Hk. destruct i as [|[|[|i]]]; try lia; destruct k as [|[|[|k]]]; try lia; unfold inner, delta; cbn [seq map Rsum fold_right c103_axes row3 Nat.eqb]; rewrite ?F2, ?F3, ?F6, ?Rmult_0_l, ?Rmult_0_r; try lra; field; lra.
  - intros i Hi. destruct i as [|[|[|i]]]; try lia; cbn [c103_values]; lra.
  - intros i k Hi Hk. destruct i as [|[|[|i]]]; try lia; destruct k as [|[|[|k]]]; try lia; cbn [c103_values]; lra.
  - intros a b Ha Hb. unfold scatter_matrix, column_mean, mean. unfold c103_channel, channel, c103_all_windows, c103_windows. cbn [concat app map length repeat].
    destruct a as [|[|[|a]]]; try lia; destruct b as [|[|[|b]]]; try lia; unfold c103_values, entries, Stats.Model.column; cbn [flat_map nth_error app nth length map Rsum fold_right seq c103_axes row3]; rewrite ?S20, ?S6, ?S11, ?F2, ?F3, ?F6, ?Rmult_0_l, ?Rmult_0_r; cbn [INR]; lra.
Qed.
Lemma c103_determined : determined 3 c103_channel.
Proof.
  exists c103_axes, c103_values. ssplit; [exact c103_scatter| |].
  - intros i k Hi Hk Hd. pose proof c103_gaps. destruct i as [|[|[|i]]]; try lia; destruct k as [|[|[|k]]]; try lia; cbn [c103_values]; lra.
  - assert (Q : forall y, 0 < y -> 1 / sqrt y <> 0) by (intros y Hy Z; pose proof (sqrt_lt_R0 y Hy) as P; apply (f_equal (fun t => t * sqrt y)) in Z; replace (1 / sqrt y * sqrt y) with 1 in Z by (field; lra); lra).
    intros i Hi. destruct i as [|[|[|i]]]; try lia; cbn [c103_axes row3]; apply Q; lra.
Qed.

(** ** Its components *)
Definition c103_comps : list (list R) := [[1 / sqrt 2; 0; - 1 / sqrt 2]; [1 / sqrt 3; 1 / sqrt 3; 1 / sqrt 3]; [1 / sqrt 6; -2 / sqrt 6; 1 / sqrt 6]].
Definition c103_pc : components_of := (column_mean c103_channel, c103_comps).
Lemma c103_pca : exists r, pca_of (fun M => M) c103_channel (column_mean c103_channel) r.
Proof.
  assert (X : exists means r, pca_of (fun M => M) c103_channel means r).
  { do 2 eexists. apply (on_hosts _ _ (fun _ => c103_channel) 1 true (run (hosts 1 false true 1) (starts 1 ++ drain 1 4)) ([0%nat], Own 0)); [lia|intros k _; discriminate|unfold all_rows; cbn [seq map concat]; now rewrite app_nil_r|apply run_early; vm_compute; reflexivity|vm_compute; auto|reflexivity]. }
  destruct X as (means & r & H). assert (Em : means = column_mean c103_channel) by (apply functional_extensionality; apply (pca_of_scatter (fun M => M) c103_channel means r); [intros M a b; reflexivity|exact H]). subst means. now exists r.
Qed.
Lemma c103_analysed : analysed (fun M => M) (fun _ => c103_axes) 3 c103_channel c103_pc.
Proof.
  destruct c103_pca as (r & H). exists r. ssplit; [exact H| |].
  - assert (Q : forall y, 0 < y -> 1 / sqrt y >= 0) by (intros y Hy; pose proof (sqrt_lt_R0 y Hy) as P; left; apply Rdiv_lt_0_compat; lra).
    unfold components. cbn [Nat.ltb Nat.leb seq map c103_axes row3 normalize_row snd c103_pc]. destruct (Rge_dec (1 / sqrt 2) 0) as [_|X]; [|exfalso; apply X, Q; lra]. destruct (Rge_dec (1 / sqrt 3) 0) as [_|X]; [|exfalso; apply X, Q; lra].
    destruct (Rge_dec (1 / sqrt 6) 0) as [_|X]; [|exfalso; apply X, Q; lra]. reflexivity.
  - exists c103_values. apply (diagonalises_ext _ (scatter_matrix c103_channel)); [|exact c103_scatter]. intros i j _ _. symmetry. apply (pca_of_scatter (fun M => M) c103_channel (column_mean c103_channel) r); [intros M a b; reflexivity|exact H].
Qed.
Lemma c103_means : column_mean c103_channel 0 = -7 / 12 /\ column_mean c103_channel 1 = -5 / 6 /\ column_mean c103_channel 2 = -7 / 12.
Proof. unfold column_mean, mean, c103_channel, channel, c103_all_windows, c103_windows, entries, Stats.Model.column. cbn [concat repeat map app flat_map nth_error nth length Rsum fold_right INR]. ssplit; field. Qed.
Lemma c103_reduced : forall x y z, reduced [c103_pc] [[x]; [y]; [z]] = [((x - z) / sqrt 2, (x + y + z + 2) / sqrt 3, (x - 2 * y + z - 1 / 2) / sqrt 6)].
Proof.
  intros x y z. assert (P2 : 0 < sqrt 2) by (apply sqrt_lt_R0; lra). assert (P3 : 0 < sqrt 3) by (apply sqrt_lt_R0; lra). assert (P6 : 0 < sqrt 6) by (apply sqrt_lt_R0; lra). destruct c103_means as (M0 & M1 & M2).
  unfold reduced, c103_pc, c103_comps. cbn [length seq combine map fst snd reduce_row Rsum fold_right]. unfold entries, Stats.Model.column. cbn [flat_map app nth_error nth]. rewrite M0, M1, M2. cbn [vec_of].
  apply (f_equal (fun v => [v])). apply triple_eq; field; lra.
Qed.

(** ** Its points *)
Definition c103_b : R := -4 / sqrt 3.
Definition c103_a : R := -1 / (2 * sqrt 6).
Definition c103_x : R := / sqrt 2.
Definition c103_y : R := / (2 * (sqrt 3 * sqrt 6) * sqrt (c103_b * c103_b + c103_a * c103_a)).
Definition c103_at (i : nat) (x y : R) (s : nat) : point := {| p_id := i; p_coordinates := [x * c103_x; y * c103_y]; p_segment := s |}.
Definition c103_points (h : nat) : list point := match h with
  | 0%nat => [c103_at 0 4 11 0; c103_at 1 (-1) 21 1; c103_at 2 (-3) (-13) 2; c103_at 3 1 (-30) 3; c103_at 4 2 11 0]
  | 1%nat => [c103_at 5 0 (-3) 3; c103_at 6 0 (-3) 3; c103_at 7 0 (-3) 3; c103_at 8 0 (-3) 3; c103_at 9 0 (-3) 3]
  | _ => [c103_at 10 0 (-3) 3; c103_at 11 (-3) 18 1]
  end.
Lemma c103_b_neg : c103_b < 0.
Proof. unfold c103_b. pose proof (sqrt_lt_R0 3 ltac:(lra)) as P. assert (0 < / sqrt 3) by now apply Rinv_0_lt_compat. unfold Rdiv. lra. Qed.
Lemma c103_x_pos : 0 < c103_x.
Proof. unfold c103_x. apply Rinv_0_lt_compat, sqrt_lt_R0. lra. Qed.
Lemma c103_rho : 0 < sqrt (c103_b * c103_b + c103_a * c103_a).
Proof. apply sqrt_lt_R0. pose proof c103_b_neg. nra. Qed.
Lemma c103_y_pos : 0 < c103_y.
Proof.
  unfold c103_y. apply Rinv_0_lt_compat. apply Rmult_lt_0_compat; [|exact c103_rho]. pose proof (sqrt_lt_R0 3 ltac:(lra)). pose proof (sqrt_lt_R0 6 ltac:(lra)). assert (0 < sqrt 3 * sqrt 6) by now apply Rmult_lt_0_compat. lra.
Qed.
Lemma c103_alignment : exists m, alignment c103_params [-2] [2] [c103_pc] = Ok [m] /\ forall x y z, point_coordinates [m] (reduced [c103_pc] [[x]; [y]; [z]]) = [(x - z) * c103_x; (7 * x - 17 * y + 7 * z - 6) * c103_y].
Proof.
  destruct (alignment_ok c103_params [-2] [2] [c103_pc]) as (ms & E & F); [cbn; lia|reflexivity|repeat constructor|]. unfold reference_row in F. cbn [map latent pattern_length c103_params INR repeat Nat.sub] in F. rewrite c103_reduced in F.
  inversion F as [|m u ms' us Hm Hms]; subst. inversion Hms; subst. exists m. split; [exact E|]. intros x y z. rewrite c103_reduced. unfold point_coordinates. cbn [combine map app fst snd].
  assert (P2 : 0 < sqrt 2) by (apply sqrt_lt_R0; lra). assert (P3 : 0 < sqrt 3) by (apply sqrt_lt_R0; lra). assert (P6 : 0 < sqrt 6) by (apply sqrt_lt_R0; lra).
  assert (Eu : ((1 * -2 - 1 * -2) / sqrt 2, (1 * -2 + 1 * -2 + 1 * -2 + 2) / sqrt 3, (1 * -2 - 2 * (1 * -2) + 1 * -2 - 1 / 2) / sqrt 6) = (0, c103_b, c103_a)) by (unfold c103_b, c103_a; apply triple_eq; field; lra). rewrite Eu in Hm.
  assert (Er : forall r v, (r < 3)%nat -> mat_row m r v = mat_row (rmat (0, c103_b, c103_a)) r v) by (intros r ((v0 & v1) & v2) Hr; unfold mat_row; now rewrite !Hm by lia).
  pose proof c103_b_neg as Pb. pose proof c103_rho as Pr. destruct (aligned_rows c103_b c103_a ((x - z) / sqrt 2) ((x + y + z + 2) / sqrt 3) ((x - 2 * y + z - 1 / 2) / sqrt 6) ltac:(lra)) as (R0 & R1).
  rewrite !Er by lia. rewrite R0, R1. apply pair_eq; [unfold c103_x; reflexivity|]. unfold c103_y. set (rho := sqrt (c103_b * c103_b + c103_a * c103_a)) in *. unfold c103_a, c103_b. field. lra.
Qed.
Lemma c103_add : forall i x y x' y' l s qs, x = x' * c103_x -> y = y' * c103_y -> get_segment_id (atan2 (y' * c103_y) (x' * c103_x)) 4 = s -> add_points (S i) l 4 = Some qs ->
  add_points i ([x; y] :: l) 4 = Some (c103_at i x' y' s :: qs).
Proof. intros i x y x' y' l s qs Hx Hy Hs Hl. unfold c103_at. now apply c88_add. Qed.
Lemma c103_quadrants : (forall x y, 0 < x -> 0 < y -> get_segment_id (atan2 (y * c103_y) (x * c103_x)) 4 = 0%nat) /\ (forall x y, x < 0 -> 0 < y -> get_segment_id (atan2 (y * c103_y) (x * c103_x)) 4 = 1%nat) /\
  (forall x y, x < 0 -> y < 0 -> get_segment_id (atan2 (y * c103_y) (x * c103_x)) 4 = 2%nat) /\ (forall x y, 0 <= x -> y < 0 -> get_segment_id (atan2 (y * c103_y) (x * c103_x)) 4 = 3%nat).
Proof.
  pose proof c103_x_pos as Px. pose proof c103_y_pos as Py. ssplit; intros x y Hx Hy; [apply quadrant_0; nra|apply quadrant_1; nra|apply quadrant_2; nra|].
  destruct (Rle_lt_or_eq_dec 0 x Hx) as [L|<-]; [apply quadrant_3; nra|]. rewrite Rmult_0_l. apply quadrant_3_border. nra.
Qed.
Lemma c103_host_points : exists ms, alignment c103_params [-2] [2] [c103_pc] = Ok ms /\ (forall h, (h < 3)%nat -> host_points c103_params 1 15 3 h ms [c103_pc] (partition_of 3 3 h c103_rows) = Ok (c103_points h)) /\
  host_points c103_params 1 15 1 0 ms [c103_pc] c103_rows = Ok (concat (map c103_points (seq 0 3))).
Proof.
  destruct c103_alignment as (m & E & C). exists [m]. split; [exact E|]. destruct c103_quadrants as (Q0 & Q1 & Q2 & Q3).
  assert (K : forall n hosts k data windows, (1 <= hosts)%nat -> embed c103_params 1 data = Ok windows -> host_points c103_params 1 n hosts k [m] [c103_pc] data = unwrap (add_points (n / hosts * k) (map (fun w => point_coordinates [m] (reduced [c103_pc] w)) windows) 4)).
  { intros n hosts k data windows Hh Ew. apply (host_points_ok c103_params 1 [c103_pc] [m] ltac:(cbn; lia) ltac:(repeat constructor) eq_refl ltac:(cbn; lia) n hosts k data windows Hh Ew). }
  split.
  - intros h Hh. rewrite (K 15%nat 3%nat h _ (c103_windows h)) by (lia || (destruct h as [|[|[|h]]]; [reflexivity|reflexivity|reflexivity|lia])).
    destruct h as [|[|[|h]]]; [| | |lia]; unfold c103_windows; cbn [map repeat]; rewrite !C; [change (15 / 3 * 0)%nat with 0%nat|change (15 / 3 * 1)%nat with 5%nat|change (15 / 3 * 2)%nat with 10%nat]; unfold c103_points.
    + erewrite (c103_add 0 _ _ 4 11); [reflexivity|ring|ring|apply Q0; lra|].
      apply c103_add; [ring|ring|apply Q1; lra|]. apply c103_add; [ring|ring|apply Q2; lra|]. apply c103_add; [ring|ring|apply Q3; lra|]. apply c103_add; [ring|ring|apply Q0; lra|]. reflexivity.
    + erewrite (c103_add 5 _ _ 0 (-3)); [reflexivity|ring|ring|apply Q3; lra|]. repeat (apply c103_add; [ring|ring|apply Q3; lra|]). reflexivity.
    + erewrite (c103_add 10 _ _ 0 (-3)); [reflexivity|ring|ring|apply Q3; lra|]. apply c103_add; [ring|ring|apply Q1; lra|]. reflexivity.
  - rewrite (K 15%nat 1%nat 0%nat _ c103_all_windows ltac:(lia) c103_one). unfold c103_all_windows, c103_windows. cbn [map repeat concat app]. rewrite !C. change (15 / 1 * 0)%nat with 0%nat. cbn [seq map concat app c103_points].
    erewrite (c103_add 0 _ _ 4 11); [reflexivity|ring|ring|apply Q0; lra|].
    apply c103_add; [ring|ring|apply Q1; lra|]. apply c103_add; [ring|ring|apply Q2; lra|]. apply c103_add; [ring|ring|apply Q3; lra|]. apply c103_add; [ring|ring|apply Q0; lra|].
    do 6 (apply c103_add; [ring|ring|apply Q3; lra|]). apply c103_add; [ring|ring|apply Q1; lra|]. reflexivity.
Qed.

(** ** Its crossings *)
Definition c103_all : list point := concat (map c103_points (seq 0 3)).
Lemma c103_crossings : crossings_of 4 c103_all = [(0, 1); (1, 2); (2, 3); (3, 0); (10, 0); (10, 1)]%nat.
Proof. unfold crossings_of, steps_of. vm_compute. reflexivity. Qed.
Lemma c103_proper : properly_crossed 4 c103_all.
Proof.
  intros c Hc. rewrite c103_crossings in Hc. pose proof c103_x_pos as Px. pose proof c103_y_pos as Py.
  repeat (destruct Hc as [<-|Hc]; [cbn [fst snd]; match goal with |- offset _ _ ?u <> offset _ _ ?v => destruct (quarter_offset u) as (U0 & U1 & U2 & U3); destruct (quarter_offset v) as (V0 & V1 & V2 & V3) end;
    rewrite ?U0, ?U1, ?U2, ?U3, ?V0, ?V1, ?V2, ?V3; unfold coords_at, coords_fun, c103_all, c103_points, c103_at; cbn [seq map concat app p_coordinates nth]; lra|]). destruct Hc.
Qed.
Lemma c103_positions_0 : map (position_of 1 4 c103_all) [(10, 0); (3, 0)]%nat = [[3 / 7 * c103_x]; [71 / 41 * c103_x]].
Proof.
  pose proof c103_x_pos as Px. pose proof c103_y_pos as Py. cbn [map]. unfold position_of, crossing_distances. cbn [seq map fst snd]. unfold crossing_point.
  assert (O : forall x, offset 4 0 x = - x 1%nat) by (intros x; apply quarter_offset). rewrite !O. unfold coords_at, coords_fun, c103_all, c103_points, c103_at. cbn [seq map concat app p_coordinates nth Nat.add].
  assert (L : forall x y z, (x = z \/ x = - z) -> y = 0 -> 0 <= z -> [sqrt (x * x + y * y)] = [z]) by (intros x y z [->| ->] -> Hz; f_equal; [replace (z * z + 0 * 0) with (z * z) by ring|replace (- z * - z + 0 * 0) with (z * z) by ring]; now apply sqrt_square).
  f_equal; [|f_equal]; apply L; try lra; try (field; lra); first [solve [left; field; lra]|solve [right; field; lra]].
Qed.
Lemma c103_positions_1 : map (position_of 1 4 c103_all) [(10, 1); (0, 1)]%nat = [[3 * c103_y]; [19 * c103_y]].
Proof.
  pose proof c103_x_pos as Px. pose proof c103_y_pos as Py. cbn [map]. unfold position_of, crossing_distances. cbn [seq map fst snd]. unfold crossing_point.
  assert (O : forall x, offset 4 1 x = x 0%nat) by (intros x; apply quarter_offset). rewrite !O. unfold coords_at, coords_fun, c103_all, c103_points, c103_at. cbn [seq map concat app p_coordinates nth Nat.add].
  assert (L : forall x y z, x = 0 -> (y = z \/ y = - z) -> 0 <= z -> [sqrt (x * x + y * y)] = [z]) by (intros x y z -> [->| ->] Hz; f_equal; [replace (0 * 0 + z * z) with (z * z) by ring|replace (0 * 0 + - z * - z) with (z * z) by ring]; now apply sqrt_square).
  f_equal; [|f_equal]; apply L; try lra; try (field; lra); first [solve [left; field; lra]|solve [right; field; lra]].
Qed.
Lemma c103_spread : segments_spread 1 4 c103_all.
Proof.
  intros s Hs H2. rewrite c103_crossings in *. pose proof c103_x_pos as Px. pose proof c103_y_pos as Py. destruct s as [|[|[|[|s]]]]; try (exfalso; cbn in H2; lia).
  - change (in_segment 0%nat [(0, 1); (1, 2); (2, 3); (3, 0); (10, 0); (10, 1)]%nat) with [(10, 0); (3, 0)]%nat. rewrite c103_positions_0.
    unfold spread_rows. ssplit; [lia|cbn; lia|repeat constructor|]. intros k Hk. replace k with 0%nat by lia. exists (3 / 7 * c103_x), (71 / 41 * c103_x). cbn [Kde.RealSpec.column map nth]. ssplit; [now left|right; now left|lra].
  - change (in_segment 1%nat [(0, 1); (1, 2); (2, 3); (3, 0); (10, 0); (10, 1)]%nat) with [(10, 1); (0, 1)]%nat. rewrite c103_positions_1.
    unfold spread_rows. ssplit; [lia|cbn; lia|repeat constructor|]. intros k Hk. replace k with 0%nat by lia. exists (3 * c103_y), (19 * c103_y). cbn [Kde.RealSpec.column map nth]. ssplit; [now left|right; now left|lra].
Qed.
