(** A series for C90: nine rows of one channel whose points turn clockwise, four segments, two hosts; and the series of C88 with self correction. *)
From Verif.Pca Require Import Model Spec Exec.
From Coq Require Import List Arith Bool Lia Permutation ZArith Reals Lra FunctionalExtensionality.
From Verif.Base Require Import Res Params ListX.
From Verif.Reader Require Import Spec Proofs.
From Verif.Stats Require Import Model Spec Proofs.
From Verif.PhaseSpace Require Import Model Spec Proofs.
From Verif.Pca Require Import Gram GramSpec GramProofs Components ComponentsSpec ComponentsProofs.
From Verif.Geometry Require Import Model Spec Proofs.
From Verif.Intersections Require Import RealSpec.
From Verif.Kde Require Import RealSpec.
From Verif.Segmentation Require Import Model Spec.
From Verif.Pipeline Require Import Spec.
From Verif.Properties Require Import Pca Components Geometry.
From Verif.Front Require Import Model Spec Proofs.
From Verif.Analysis Require Import Model Spec Case Correcting.
Import ListNotations.
Local Open Scope R_scope.

(** ** The alignment of a reference with third entry 0 *)
Lemma level_rows : forall a b x y z, a <> 0 -> let rho := sqrt (a * a + b * b) in
  mat_row (rmat (a, b, 0)) 0 (x, y, z) = (b * (b * x - a * y) / rho - a * z) / rho /\ mat_row (rmat (a, b, 0)) 1 (x, y, z) = (- a * (b * x - a * y) / rho - b * z) / rho.
Proof.
  intros a b x y z Ha rho. assert (Hr : 0 < rho) by (apply sqrt_lt_R0; nra). assert (En : norm3 (a, b, 0) = rho) by (unfold norm3, rho; f_equal; ring). assert (Hq : rho * rho = a * a + b * b) by (apply sqrt_sqrt; nra).
  unfold mat_row, rmat, unit3. rewrite En. cbn [cross3 e3 dot3]. set (u := a / rho). set (w := b / rho). assert (Hu : u * u + w * w = 1) by (unfold u, w; replace (a / rho * (a / rho) + b / rho * (b / rho)) with ((a * a + b * b) / (rho * rho)) by (field; lra); rewrite <- Hq; field; lra).
  rewrite norm_sq. replace ((w * 1 - 0 / rho * 0) * (w * 1 - 0 / rho * 0) + (0 / rho * 0 - u * 1) * (0 / rho * 0 - u * 1) + (u * 0 - w * 0) * (u * 0 - w * 0)) with (u * u + w * w) by (field; lra). rewrite Hu.
  replace ((b * (b * x - a * y) / rho - a * z) / rho) with (w * (w * x - u * y) - u * z) by (unfold u, w; field; lra). replace ((- a * (b * x - a * y) / rho - b * z) / rho) with (- u * (w * x - u * y) - w * z) by (unfold u, w; field; lra).
  cbn [Nat.eqb kmat fst3 snd3 thd3]. replace (0 / rho) with 0 by (field; lra). split.
  - transitivity ((1 - u * u) * x - u * w * y - u * z); [field|]. replace (1 - u * u) with (w * w) by lra. ring.
  - transitivity (- u * w * x + (1 - w * w) * y - w * z); [field|]. replace (1 - w * w) with (u * u) by lra. ring.
Qed.

(** ** The series *)
Definition c90_params : params := {| rate := 4; n_threads := 1; n_cluster_nodes := 2; pattern_length := 4; latent := 1; query_length := 1; column_start := 0; column_end := 0%Z; self_correction := true |}.
Definition c90_rows : list (list R) := [[1]; [0]; [1]; [1]; [-1]; [-1]; [0]; [-1]; [0]].
Definition c90_axes (i : nat) : nat -> R := match i with 0%nat => row3 (1 / sqrt 3) (1 / sqrt 3) (1 / sqrt 3) | 1%nat => row3 (1 / sqrt 2) 0 (- 1 / sqrt 2) | _ => row3 (1 / sqrt 6) (-2 / sqrt 6) (1 / sqrt 6) end.
Definition c90_values (i : nat) : R := match i with 0%nat => sqrt 6 | 1%nat => sqrt (14 / 3) | _ => sqrt 3 end.
Definition c90_windows (k : nat) : list (list (list R)) := map (fun w => match w with (x, y, z) => [[0 + x]; [0 + y]; [0 + z]] end)
  match k with 0%nat => [(1, 0, 1); (0, 1, 1); (1, 1, -1); (1, -1, -1)] | _ => [(-1, -1, 0); (-1, 0, -1)] end.
Lemma c90_hosts : mapM (fun k => embed c90_params 1 (partition_of 2 3 k c90_rows)) (seq 0 2) = Ok [c90_windows 0; c90_windows 1].
Proof. reflexivity. Qed.
Lemma c90_one : embed c90_params 1 c90_rows = Ok (concat [c90_windows 0; c90_windows 1]).
Proof. reflexivity. Qed.
Definition c90_channel : list (nat -> R) := channel 0 (concat [c90_windows 0; c90_windows 1]).
Lemma c90_gaps : 0 < sqrt 3 < sqrt (14 / 3) /\ sqrt (14 / 3) < sqrt 6.
Proof. ssplit; [apply sqrt_lt_R0; lra|apply sqrt_lt_1; lra|apply sqrt_lt_1; lra]. Qed.
Lemma c90_scatter : diagonalises 3 (scatter_matrix c90_channel) c90_axes c90_values.
Proof.
  assert (S2 : sqrt 2 * sqrt 2 = 2) by (apply sqrt_sqrt; lra). assert (S3 : sqrt 3 * sqrt 3 = 3) by (apply sqrt_sqrt; lra). assert (S6 : sqrt 6 * sqrt 6 = 6) by (apply sqrt_sqrt; lra).
  assert (S14 : sqrt (14 / 3) * sqrt (14 / 3) = 14 / 3) by (apply sqrt_sqrt; lra).
  assert (P2 : 0 < sqrt 2) by (apply sqrt_lt_R0; lra). assert (P3 : 0 < sqrt 3) by (apply sqrt_lt_R0; lra). assert (P6 : 0 < sqrt 6) by (apply sqrt_lt_R0; lra). pose proof c90_gaps as G.
  assert (F2 : forall x y, x / sqrt 2 * (y / sqrt 2) = x * y / 2) by (intros; rewrite <- S2 at 3; field; lra).
  assert (F3 : forall x y, x / sqrt 3 * (y / sqrt 3) = x * y / 3) by (intros; rewrite <- S3 at 3; field; lra).
  assert (F6 : forall x y, x / sqrt 6 * (y / sqrt 6) = x * y / 6) by (intros; rewrite <- S6 at 3; field; lra).
  unfold diagonalises. ssplit.
  - intros i k Hi Hk. destruct i as [|[|[|i]]]; try lia; destruct k as [|[|[|k]]]; try lia; unfold inner, delta; cbn [seq map Rsum fold_right c90_axes row3 Nat.eqb]; rewrite ?F2, ?F3, ?F6, ?Rmult_0_l, ?Rmult_0_r; try lra; field; lra.
  - intros i k Hi Hk. destruct i as [|[|[|i]]]; try lia; destruct k as [|[|[|k]]]; try lia; unfold inner, delta; cbn [seq map Rsum fold_right c90_axes row3 Nat.eqb]; rewrite ?F2, ?F3, ?F6, ?Rmult_0_l, ?Rmult_0_r; try lra; field; lra.
  - intros i Hi. destruct i as [|[|[|i]]]; try lia; cbn [c90_values]; lra.
  - intros i k Hi Hk. destruct i as [|[|[|i]]]; try lia; destruct k as [|[|[|k]]]; try lia; cbn [c90_values]; lra.
  - intros a b Ha Hb. unfold scatter_matrix, column_mean, mean. unfold c90_channel, channel, c90_windows. cbn [concat app map length].
    destruct a as [|[|[|a]]]; try lia; destruct b as [|[|[|b]]]; try lia; unfold c90_values, entries, Stats.Model.column; cbn [flat_map nth_error app nth length map Rsum fold_right seq c90_axes row3]; rewrite ?S3, ?S6, ?S14, ?F2, ?F3, ?F6, ?Rmult_0_l, ?Rmult_0_r; cbn [INR]; lra.
Qed.

(** ** Its components *)
Definition c90_comps : list (list R) := map (fun i => normalize_row (map (c90_axes i) (seq 0 3))) (seq 0 3).
Definition c90_pc : components_of := (column_mean c90_channel, c90_comps).
Lemma c90_pca : exists r, pca_of (fun M => M) c90_channel (column_mean c90_channel) r.
Proof.
  assert (X : exists means r, pca_of (fun M => M) c90_channel means r).
  { do 2 eexists. apply (on_hosts _ _ (fun k => channel 0 (c90_windows k)) 2 true (run (hosts 2 false true 1) (starts 2 ++ drain 2 8)) ([0%nat; 1%nat], Combine (Own 0) (Own 1))); [lia|intros [|k] _; discriminate|reflexivity|apply run_early; vm_compute; reflexivity|vm_compute; auto|reflexivity]. }
  destruct X as (means & r & H). assert (Em : means = column_mean c90_channel) by (apply functional_extensionality; apply (pca_of_scatter (fun M => M) c90_channel means r); [intros M a b; reflexivity|exact H]). subst means. now exists r.
Qed.
Lemma c90_analysed : analysed (fun M => M) (fun _ => c90_axes) 3 c90_channel c90_pc.
Proof.
  destruct c90_pca as (r & H). exists r. ssplit; [exact H|reflexivity|]. exists c90_values. apply (diagonalises_ext _ (scatter_matrix c90_channel)); [|exact c90_scatter].
  intros i j _ _. symmetry. apply (pca_of_scatter (fun M => M) c90_channel (column_mean c90_channel) r); [intros M a b; reflexivity|exact H].
Qed.
Lemma c90_determined : determined 3 c90_channel.
Proof.
  exists c90_axes, c90_values. ssplit; [exact c90_scatter| |].
  - intros i k Hi Hk Hd. pose proof c90_gaps. destruct i as [|[|[|i]]]; try lia; destruct k as [|[|[|k]]]; try lia; cbn [c90_values]; lra.
  - assert (Q : forall y, 0 < y -> 1 / sqrt y <> 0) by (intros y Hy Z; pose proof (sqrt_lt_R0 y Hy) as P; apply (f_equal (fun t => t * sqrt y)) in Z; replace (1 / sqrt y * sqrt y) with 1 in Z by (field; lra); lra).
    intros i Hi. destruct i as [|[|[|i]]]; try lia; cbn [c90_axes row3]; apply Q; lra.
Qed.
Lemma c90_comps_eq : c90_comps = [[1 / sqrt 3; 1 / sqrt 3; 1 / sqrt 3]; [1 / sqrt 2; 0; - 1 / sqrt 2]; [1 / sqrt 6; -2 / sqrt 6; 1 / sqrt 6]].
Proof.
  assert (Q : forall y, 0 < y -> 1 / sqrt y >= 0) by (intros y Hy; pose proof (sqrt_lt_R0 y Hy) as P; left; apply Rdiv_lt_0_compat; lra).
  unfold c90_comps. cbn [seq map c90_axes row3 normalize_row]. destruct (Rge_dec (1 / sqrt 3) 0) as [_|X]; [|exfalso; apply X, Q; lra]. destruct (Rge_dec (1 / sqrt 2) 0) as [_|X]; [|exfalso; apply X, Q; lra].
  destruct (Rge_dec (1 / sqrt 6) 0) as [_|X]; [|exfalso; apply X, Q; lra]. reflexivity.
Qed.
Lemma c90_means : column_mean c90_channel 0 = 1 / 6 /\ column_mean c90_channel 1 = 0 /\ column_mean c90_channel 2 = -1 / 6.
Proof. unfold column_mean, mean, c90_channel, channel, c90_windows, entries, Stats.Model.column. cbn [concat map app flat_map nth_error nth length Rsum fold_right INR]. ssplit; field. Qed.
Lemma c90_reduced : forall x y z, reduced [c90_pc] [[x]; [y]; [z]] = [((x + y + z) / sqrt 3, (x - z - 1 / 3) / sqrt 2, (x - 2 * y + z) / sqrt 6)].
Proof.
  intros x y z. assert (P2 : 0 < sqrt 2) by (apply sqrt_lt_R0; lra). assert (P3 : 0 < sqrt 3) by (apply sqrt_lt_R0; lra). assert (P6 : 0 < sqrt 6) by (apply sqrt_lt_R0; lra). destruct c90_means as (M0 & M1 & M2).
  unfold reduced, c90_pc. rewrite c90_comps_eq. cbn [length seq combine map fst snd reduce_row Rsum fold_right]. unfold entries, Stats.Model.column. cbn [flat_map app nth_error nth]. rewrite M0, M1, M2. cbn [vec_of].
  apply (f_equal (fun v => [v])). apply triple_eq; field; lra.
Qed.

(** ** Its points *)
Definition c90_w : R := sqrt 165.
Definition c90_x : R := / (3 * sqrt 6 * sqrt 55 * sqrt (55 / 18)).
Definition c90_y : R := / (18 * sqrt 55 * sqrt (55 / 18)).
Definition at_c90 (i : nat) (s t e : R) (g : nat) : point := {| p_id := i; p_coordinates := [(s * (3 * c90_w * t - e)) * c90_x; (18 * e + c90_w * t) * c90_y]; p_segment := g |}.
Definition c90_points (h : nat) : list point := match h with
  | 0%nat => [at_c90 0 1 2 (-5) 3; at_c90 1 1 (-1) (-14) 2; at_c90 2 1 (-2) 14 1; at_c90 3 1 2 16 0]
  | _ => [at_c90 4 1 1 (-10) 3; at_c90 5 1 (-2) (-1) 2]
  end.
Definition c90_turned (h : nat) : list point := match h with
  | 0%nat => [at_c90 0 (-1) 2 (-5) 2; at_c90 1 (-1) (-1) (-14) 3; at_c90 2 (-1) (-2) 14 0; at_c90 3 (-1) 2 16 1]
  | _ => [at_c90 4 (-1) 1 (-10) 2; at_c90 5 (-1) (-2) (-1) 3]
  end.
Lemma c90_x_pos : 0 < c90_x.
Proof. unfold c90_x. apply Rinv_0_lt_compat. repeat apply Rmult_lt_0_compat; try apply sqrt_lt_R0; lra. Qed.
Lemma c90_y_pos : 0 < c90_y.
Proof. unfold c90_y. apply Rinv_0_lt_compat. repeat apply Rmult_lt_0_compat; try apply sqrt_lt_R0; lra. Qed.
Lemma c90_w_range : 12 < c90_w < 13 /\ c90_w * c90_w = 165.
Proof.
  unfold c90_w. split; [|apply sqrt_sqrt; lra]. split; [replace 12 with (sqrt (12 * 12)) by (apply sqrt_square; lra)|replace 13 with (sqrt (13 * 13)) by (apply sqrt_square; lra)]; apply sqrt_lt_1; lra.
Qed.
Lemma c90_alignment : exists m, alignment c90_params [-1] [1] [c90_pc] = Ok [m] /\ forall x y z, let t := x - 2 * y + z in let e := 9 * (x - z) - 3 - (x + y + z) in
  point_coordinates [m] (reduced [c90_pc] [[x]; [y]; [z]]) = [(3 * c90_w * t - e) * c90_x; (18 * e + c90_w * t) * c90_y].
Proof.
  destruct (alignment_ok c90_params [-1] [1] [c90_pc]) as (ms & E & F); [cbn; lia|reflexivity|repeat constructor|]. unfold reference_row in F. cbn [map latent pattern_length c90_params INR repeat Nat.sub] in F. rewrite c90_reduced in F.
  inversion F as [|m u ms' us Hm Hms]; subst. inversion Hms; subst. exists m. split; [exact E|]. intros x y z t e. rewrite c90_reduced. unfold point_coordinates. cbn [combine map app fst snd].
  assert (P2 : 0 < sqrt 2) by (apply sqrt_lt_R0; lra). assert (P3 : 0 < sqrt 3) by (apply sqrt_lt_R0; lra). assert (P6 : 0 < sqrt 6) by (apply sqrt_lt_R0; lra). assert (P55 : 0 < sqrt 55) by (apply sqrt_lt_R0; lra).
  assert (S2 : sqrt 2 * sqrt 2 = 2) by (apply sqrt_sqrt; lra). assert (S3 : sqrt 3 * sqrt 3 = 3) by (apply sqrt_sqrt; lra). assert (S6 : sqrt 6 = sqrt 2 * sqrt 3) by (rewrite <- sqrt_mult by lra; f_equal; lra).
  assert (S165 : c90_w = sqrt 3 * sqrt 55) by (unfold c90_w; rewrite <- sqrt_mult by lra; f_equal; lra). assert (Sr : sqrt (55 / 18) = sqrt 55 / (3 * sqrt 2)).
  { apply sqrt_lem_1; [lra|apply Rlt_le, Rdiv_lt_0_compat; lra|]. replace (sqrt 55 / (3 * sqrt 2) * (sqrt 55 / (3 * sqrt 2))) with (sqrt 55 * sqrt 55 / (9 * (sqrt 2 * sqrt 2))) by (field; lra). rewrite S2, sqrt_sqrt by lra. lra. }
  set (b := -1 / (3 * sqrt 2)). set (a := - sqrt 3).
  assert (Eu : ((1 * -1 + 1 * -1 + 1 * -1) / sqrt 3, (1 * -1 - 1 * -1 - 1 / 3) / sqrt 2, (1 * -1 - 2 * (1 * -1) + 1 * -1) / sqrt 6) = (a, b, 0)).
  { unfold a, b. apply triple_eq; [|field; lra|field; lra]. replace (- sqrt 3) with (- (sqrt 3 * sqrt 3) / sqrt 3) by (field; lra). rewrite S3. field. lra. }
  rewrite Eu in Hm.
  assert (Er : forall r v, (r < 3)%nat -> mat_row m r v = mat_row (rmat (a, b, 0)) r v) by (intros r ((v0 & v1) & v2) Hr; unfold mat_row; now rewrite !Hm by lia).
  assert (Na : a <> 0) by (unfold a; lra). assert (Erho : a * a + b * b = 55 / 18).
  { unfold a, b. replace (- sqrt 3 * - sqrt 3 + -1 / (3 * sqrt 2) * (-1 / (3 * sqrt 2))) with (sqrt 3 * sqrt 3 + 1 / (9 * (sqrt 2 * sqrt 2))) by (field; lra). rewrite S2, S3. field. }
  destruct (level_rows a b ((x + y + z) / sqrt 3) ((x - z - 1 / 3) / sqrt 2) ((x - 2 * y + z) / sqrt 6) Na) as (R0 & R1). rewrite !Er by lia. rewrite R0, R1, Erho, S165. unfold c90_x, c90_y. rewrite Sr, S6. fold t. clear Er R0 R1.
  assert (K : b * ((x + y + z) / sqrt 3) - a * ((x - z - 1 / 3) / sqrt 2) = e / (3 * sqrt 2 * sqrt 3)).
  { unfold a, b. transitivity ((sqrt 3 * sqrt 3 * (3 * (x - z) - 1) - (x + y + z)) / (3 * sqrt 2 * sqrt 3)); [field; lra|]. rewrite S3. unfold e. f_equal. ring. }
  rewrite K. clear K. clearbody t e. apply pair_eq; unfold a, b.
  - field. lra.
  - transitivity ((18 * e + 6 / (sqrt 2 * sqrt 2 * (sqrt 3 * sqrt 3)) * (sqrt 3 * sqrt 55) * t) / (18 * sqrt 55 * (sqrt 55 / (3 * sqrt 2)))); [field; lra|]. rewrite S2, S3. field. lra.
Qed.
Lemma c90_unwrap : forall o (l : list point), o = Some l -> unwrap o = Ok l.
Proof. now intros o l ->. Qed.
Lemma c90_quadrants : forall x y, let s := get_segment_id (atan2 (y * c90_y) (x * c90_x)) 4 in (0 < x -> 0 < y -> s = 0%nat) /\ (x < 0 -> 0 < y -> s = 1%nat) /\ (x < 0 -> y < 0 -> s = 2%nat) /\ (0 < x -> y < 0 -> s = 3%nat).
Proof. intros x y. pose proof c90_x_pos as Px. pose proof c90_y_pos as Py. cbv zeta. ssplit; intros; [apply quadrant_0|apply quadrant_1|apply quadrant_2|apply quadrant_3]; nra. Qed.
Lemma c90_host_points : exists ms, alignment c90_params [-1] [1] [c90_pc] = Ok ms /\ forall h, (h < 2)%nat -> host_points c90_params 1 9 2 h ms [c90_pc] (partition_of 2 3 h c90_rows) = Ok (c90_points h).
Proof.
  destruct c90_alignment as (m & E & C). exists [m]. split; [exact E|]. intros h Hh. pose proof c90_x_pos as Px. pose proof c90_y_pos as Py. pose proof c90_w_range as (Pw & _).
  rewrite (host_points_ok c90_params 1 [c90_pc] [m] ltac:(cbn; lia) ltac:(repeat constructor) eq_refl ltac:(cbn; lia) 9 2 h _ (c90_windows h)) by (lia || (destruct h as [|[|h]]; [reflexivity|reflexivity|lia])).
  destruct h as [|[|h]]; [| |lia]; unfold c90_windows; cbn [map]; rewrite !C; change (rate c90_params) with 4%nat; apply c90_unwrap.
  - change (9 / 2 * 0)%nat with 0%nat. unfold c90_points, at_c90. repeat (apply c88_add; [ring|ring|apply c90_quadrants; lra|]). reflexivity.
  - change (9 / 2 * 1)%nat with 4%nat. unfold c90_points, at_c90. repeat (apply c88_add; [ring|ring|apply c90_quadrants; lra|]). reflexivity.
Qed.
Lemma c90_mirror : forall i t e g g', get_segment_id (atan2 ((18 * e + c90_w * t) * c90_y) ((-1 * (3 * c90_w * t - e)) * c90_x)) 4 = g' -> unwrap (mirror (at_c90 i 1 t e g) 4) = Ok (at_c90 i (-1) t e g').
Proof.
  intros i t e g g' H. unfold mirror, at_c90. cbn [p_coordinates p_id]. replace (1 * (3 * c90_w * t - e) * c90_x * -1) with (-1 * (3 * c90_w * t - e) * c90_x) by ring. rewrite (c88_segment _ _ _ H). reflexivity.
Qed.
Lemma c90_mirrored : forall h, (h < 2)%nat -> mirror_points 4 (c90_points h) = Ok (c90_turned h).
Proof.
  intros h Hh. pose proof c90_w_range as (Pw & _).
  destruct h as [|[|h]]; [| |lia]; unfold mirror_points, c90_points, c90_turned; cbn [mapM].
  - rewrite (c90_mirror 0 2 (-5) 3 2), (c90_mirror 1 (-1) (-14) 2 3), (c90_mirror 2 (-2) 14 1 0), (c90_mirror 3 2 16 0 1) by (apply c90_quadrants; lra). reflexivity.
  - rewrite (c90_mirror 4 1 (-10) 3 2), (c90_mirror 5 (-2) (-1) 2 3) by (apply c90_quadrants; lra). reflexivity.
Qed.

(** ** The crossings of the mirrored points *)
Definition c90_all : list point := concat (map c90_turned (seq 0 2)).
Lemma c90_crossings : crossings_of 4 c90_all = [(0, 3); (1, 0); (2, 1); (3, 2); (4, 3)]%nat.
Proof. reflexivity. Qed.
Lemma c90_proper : properly_crossed 4 c90_all.
Proof.
  intros c Hc. rewrite c90_crossings in Hc. pose proof c90_x_pos as Px. pose proof c90_y_pos as Py. pose proof c90_w_range as (Pw & _).
  repeat (destruct Hc as [<-|Hc]; [cbn [fst snd]; match goal with |- offset _ _ ?u <> offset _ _ ?v => destruct (quarter_offset u) as (U0 & U1 & U2 & U3); destruct (quarter_offset v) as (V0 & V1 & V2 & V3) end;
    rewrite ?U0, ?U1, ?U2, ?U3, ?V0, ?V1, ?V2, ?V3; unfold coords_at, coords_fun, c90_all, c90_turned, at_c90; cbn [seq map concat app p_coordinates nth]; nra|]). destruct Hc.
Qed.
Lemma c90_positions : exists near far, map (position_of 1 4 c90_all) [(4, 3); (0, 3)]%nat = [[near * c90_y]; [far * c90_y]] /\ near < 200 < far.
Proof.
  pose proof c90_x_pos as Px. pose proof c90_y_pos as Py. pose proof c90_w_range as (Pw & Sw). cbn [map]. unfold position_of, crossing_distances. cbn [seq map fst snd]. unfold crossing_point.
  assert (O : forall x, offset 4 3 x = - x 0%nat) by (intros x; apply quarter_offset). rewrite !O. unfold coords_at, coords_fun, c90_all, c90_turned, at_c90. cbn [seq map concat app p_coordinates nth Nat.add].
  assert (L : forall x y z, x = 0 -> y = - (z * c90_y) -> 0 <= z -> [sqrt (x * x + y * y)] = [z * c90_y]).
  { intros x y z -> -> Hz. f_equal. replace (0 * 0 + - (z * c90_y) * - (z * c90_y)) with (z * c90_y * (z * c90_y)) by ring. apply sqrt_square. nra. }
  exists (180 - c90_w - (3 * c90_w + 10) * (162 - 3 * c90_w) / (9 * c90_w + 9)), (90 - 2 * c90_w + (6 * c90_w + 5) * (162 + 3 * c90_w) / (9 * c90_w - 9)).
  assert (I : 0 < / (9 * c90_w + 9) /\ (9 * c90_w + 9) * / (9 * c90_w + 9) = 1) by (split; [apply Rinv_0_lt_compat; lra|field; lra]). assert (J : 0 < / (9 * c90_w - 9) /\ (9 * c90_w - 9) * / (9 * c90_w - 9) = 1) by (split; [apply Rinv_0_lt_compat; lra|field; lra]).
  assert (Nd : c90_x * (9 * c90_w + 9) <> 0) by nra. assert (Nd' : c90_x * (9 * c90_w - 9) <> 0) by nra.
  assert (B1 : 0 <= (3 * c90_w + 10) * (162 - 3 * c90_w) / (9 * c90_w + 9) <= 180 - c90_w).
  { split; [apply Rmult_le_pos; [nra|lra]|]. apply (Rmult_le_reg_r (9 * c90_w + 9)); [lra|]. unfold Rdiv. rewrite Rmult_assoc, (Rmult_comm (/ _)). rewrite (proj2 I). nra. }
  assert (B2 : 110 + 2 * c90_w < (6 * c90_w + 5) * (162 + 3 * c90_w) / (9 * c90_w - 9)).
  { apply (Rmult_lt_reg_r (9 * c90_w - 9)); [lra|]. unfold Rdiv. rewrite Rmult_assoc, (Rmult_comm (/ _)). rewrite (proj2 J). nra. }
  split; [|lra]. f_equal; [|f_equal]; apply L; try lra; field; nra.
Qed.
Lemma c90_spread : segments_spread 1 4 c90_all.
Proof.
  intros s Hs H2. rewrite c90_crossings in *. destruct s as [|[|[|[|s]]]]; try (exfalso; cbn in H2; lia). change (in_segment 3%nat [(0, 3); (1, 0); (2, 1); (3, 2); (4, 3)]%nat) with [(4, 3); (0, 3)]%nat. destruct c90_positions as (near & far & -> & B). pose proof c90_y_pos as Py.
  unfold spread_rows. ssplit; [lia|cbn; lia|repeat constructor|]. intros k Hk. replace k with 0%nat by lia. exists (near * c90_y), (far * c90_y). cbn [Kde.RealSpec.column map nth]. ssplit; [now left|right; now left|nra].
Qed.
