(** A series for C88: nine rows of one channel, four segments, two hosts. *)
From Verif.Pca Require Import Model Spec Exec.
From Coq Require Import List Arith Bool Lia Permutation ZArith Reals Lra FunctionalExtensionality.
From Verif.Base Require Import Res Params ListX.
From Verif.Reader Require Import Spec Proofs.
From Verif.Stats Require Import Model Spec Proofs.
From Verif.PhaseSpace Require Import Model Spec Proofs.
From Verif.Pca Require Import Gram GramSpec GramProofs Components ComponentsSpec ComponentsProofs.
From Verif.Geometry Require Import Model Spec Proofs.
From Verif.Intersections Require Import RealSpec.
From Verif.Kde Require Import RealSpec.
From Verif.Segmentation Require Import Model Spec.
From Verif.Pipeline Require Import Spec.
From Verif.Properties Require Import Pca Components Geometry.
From Verif.Front Require Import Model Spec Proofs.
From Verif.Analysis Require Import Model Spec.
Import ListNotations.
Local Open Scope R_scope.

(** ** Quadrants *)
Lemma direction_quarter : forall x y phi, direction x y phi -> direction (- y) x (phi + PI / 2).
Proof. intros x y phi (r & Hr & -> & ->). exists r. rewrite cos_plus, sin_plus, cos_PI2, sin_PI2. ssplit; [exact Hr|ring|ring]. Qed.
Lemma first_quadrant : forall x y, 0 < x -> 0 < y -> exists phi, 0 < phi < PI / 2 /\ direction x y phi.
Proof.
  intros x y Hx Hy. exists (atan (y / x)). split; [|now apply direction_atan]. split; [|apply atan_bound]. rewrite <- atan_0. apply atan_increasing. now apply Rdiv_lt_0_compat.
Qed.
Lemma quadrant : forall k x y phi, (k < 4)%nat -> direction x y (phi + INR k * (PI / 2)) -> 0 < phi < PI / 2 -> get_segment_id (atan2 y x) 4 = k.
Proof.
  intros k x y phi Hk D (H1 & H2). apply segment_iff; [lia|exact Hk| |].
  - destruct D as (r & Hr & -> & ->). set (t := phi + INR k * (PI / 2)). destruct (Req_dec (cos t) 0) as [C|C]; [right|left; apply Rmult_integral_contrapositive_currified; lra].
    intros Z. apply Rmult_integral in Z. destruct Z as [Z|Z]; [lra|]. pose proof (sin2_cos2 t) as Q. unfold Rsqr in Q. rewrite C, Z in Q. lra.
  - exists (phi + INR k * (PI / 2)). split; [|exact D]. rewrite plus_INR. cbn [INR]. lra.
Qed.
Lemma quadrant_0 : forall x y, 0 < x -> 0 < y -> get_segment_id (atan2 y x) 4 = 0%nat.
Proof. intros x y Hx Hy. destruct (first_quadrant x y Hx Hy) as (phi & H & D). apply (quadrant 0 x y phi); [lia| |exact H]. cbn [INR]. now rewrite Rmult_0_l, Rplus_0_r. Qed.
Lemma quadrant_1 : forall x y, x < 0 -> 0 < y -> get_segment_id (atan2 y x) 4 = 1%nat.
Proof.
  intros x y Hx Hy. destruct (first_quadrant y (- x) Hy ltac:(lra)) as (phi & H & D). apply (quadrant 1 x y phi); [lia| |exact H]. apply direction_quarter in D. rewrite Ropp_involutive in D. cbn [INR]. now rewrite Rmult_1_l.
Qed.
Lemma quadrant_2 : forall x y, x < 0 -> y < 0 -> get_segment_id (atan2 y x) 4 = 2%nat.
Proof.
  intros x y Hx Hy. destruct (first_quadrant (- x) (- y) ltac:(lra) ltac:(lra)) as (phi & H & D). apply (quadrant 2 x y phi); [lia| |exact H]. apply direction_quarter, direction_quarter in D. rewrite !Ropp_involutive in D.
  replace (phi + INR 2 * (PI / 2)) with (phi + PI / 2 + PI / 2) by (cbn [INR]; field). exact D.
Qed.
Lemma quadrant_3 : forall x y, 0 < x -> y < 0 -> get_segment_id (atan2 y x) 4 = 3%nat.
Proof.
  intros x y Hx Hy. destruct (first_quadrant (- y) x ltac:(lra) ltac:(lra)) as (phi & H & D). apply (quadrant 3 x y phi); [lia| |exact H]. apply direction_quarter, direction_quarter, direction_quarter in D. rewrite !Ropp_involutive in D.
  replace (phi + INR 3 * (PI / 2)) with (phi + PI / 2 + PI / 2 + PI / 2) by (cbn [INR]; field). exact D.
Qed.
Lemma quarter_offset : forall x, offset 4 0 x = - x 1%nat /\ offset 4 1 x = x 0%nat /\ offset 4 2 x = x 1%nat /\ offset 4 3 x = - x 0%nat.
Proof.
  intros x. unfold offset. replace (2 * PI * INR 0 / INR 4) with 0 by (cbn [INR]; field). replace (2 * PI * INR 1 / INR 4) with (PI / 2) by (cbn [INR]; field). replace (2 * PI * INR 2 / INR 4) with PI by (cbn [INR]; field).
  replace (2 * PI * INR 3 / INR 4) with (3 * (PI / 2)) by (cbn [INR]; field). rewrite sin_0, cos_0, sin_PI2, cos_PI2, sin_PI, cos_PI, sin_3PI2, cos_3PI2. ssplit; ring.
Qed.

(** ** The alignment of a reference with first entry 0 *)
Lemma aligned_rows : forall b a x y z, b <> 0 -> let rho := sqrt (b * b + a * a) in
  mat_row (rmat (0, b, a)) 0 (x, y, z) = x /\ mat_row (rmat (0, b, a)) 1 (x, y, z) = (a * y - b * z) / rho.
Proof.
  intros b a x y z Hb rho. assert (Hr : 0 < rho) by (apply sqrt_lt_R0; nra). assert (En : norm3 (0, b, a) = rho) by (unfold norm3, rho; f_equal; ring). assert (Hq : b / rho <> 0) by (apply Rmult_integral_contrapositive_currified; [exact Hb|apply Rinv_neq_0_compat; lra]).
  unfold mat_row, rmat, unit3. rewrite En. cbn [cross3 e3 dot3]. set (u := b / rho) in *. set (w := a / rho). rewrite norm_sq.
  assert (Eu : (u * 1 - w * 0) * (u * 1 - w * 0) + (w * 0 - 0 / rho * 1) * (w * 0 - 0 / rho * 1) + (0 / rho * 0 - u * 0) * (0 / rho * 0 - u * 0) = u * u) by (field; lra). rewrite Eu.
  replace ((a * y - b * z) / rho) with (w * y - u * z) by (unfold u, w; field; lra). clearbody u w. cbn [Nat.eqb kmat fst3 snd3 thd3]. split; field; split; (exact Hq || lra).
Qed.

(** ** The series *)
Definition c88_params : params := {| rate := 4; n_threads := 1; n_cluster_nodes := 2; pattern_length := 4; latent := 1; query_length := 1; column_start := 0; column_end := 0%Z; self_correction := false |}.
Definition c88_rows : list (list R) := [[1]; [-2]; [2]; [1]; [-1]; [-2]; [2]; [-1]; [0]].
Definition c88_axes (i : nat) : nat -> R := match i with 0%nat => row3 (1 / sqrt 6) (-2 / sqrt 6) (1 / sqrt 6) | 1%nat => row3 (1 / sqrt 2) 0 (- 1 / sqrt 2) | _ => row3 (1 / sqrt 3) (1 / sqrt 3) (1 / sqrt 3) end.
Definition c88_values (i : nat) : R := match i with 0%nat => 5 | 1%nat => sqrt (56 / 3) | _ => 2 end.
Definition c88_windows (k : nat) : list (list (list R)) := map (fun w => match w with (x, y, z) => [[0 + x]; [0 + y]; [0 + z]] end)
  match k with 0%nat => [(1, -2, 2); (-2, 2, 1); (2, 1, -1); (1, -1, -2)] | _ => [(-1, -2, 2); (-2, 2, -1)] end.
Lemma c88_hosts : mapM (fun k => embed c88_params 1 (partition_of 2 3 k c88_rows)) (seq 0 2) = Ok [c88_windows 0; c88_windows 1].
Proof. reflexivity. Qed.
Lemma c88_one : embed c88_params 1 c88_rows = Ok (concat [c88_windows 0; c88_windows 1]).
Proof. reflexivity. Qed.
Definition c88_channel : list (nat -> R) := channel 0 (concat [c88_windows 0; c88_windows 1]).
Lemma c88_gaps : 2 < sqrt (56 / 3) < 5.
Proof. split; [replace 2 with (sqrt (2 * 2)) at 1 by (apply sqrt_square; lra)|replace 5 with (sqrt (5 * 5)) by (apply sqrt_square; lra)]; apply sqrt_lt_1; lra. Qed.
Lemma c88_scatter : diagonalises 3 (scatter_matrix c88_channel) c88_axes c88_values.
Proof.
  assert (S2 : sqrt 2 * sqrt 2 = 2) by (apply sqrt_sqrt; lra). assert (S3 : sqrt 3 * sqrt 3 = 3) by (apply sqrt_sqrt; lra). assert (S6 : sqrt 6 * sqrt 6 = 6) by (apply sqrt_sqrt; lra).
  assert (S56 : sqrt (56 / 3) * sqrt (56 / 3) = 56 / 3) by (apply sqrt_sqrt; lra).
  assert (P2 : 0 < sqrt 2) by (apply sqrt_lt_R0; lra). assert (P3 : 0 < sqrt 3) by (apply sqrt_lt_R0; lra). assert (P6 : 0 < sqrt 6) by (apply sqrt_lt_R0; lra). pose proof c88_gaps as G.
  assert (F2 : forall x y, x / sqrt 2 * (y / sqrt 2) = x * y / 2) by (intros; rewrite <- S2 at 3; field; lra).
  assert (F3 : forall x y, x / sqrt 3 * (y / sqrt 3) = x * y / 3) by (intros; rewrite <- S3 at 3; field; lra).
  assert (F6 : forall x y, x / sqrt 6 * (y / sqrt 6) = x * y / 6) by (intros; rewrite <- S6 at 3; field; lra).
  unfold diagonalises. ssplit.
  - intros i k Hi Hk. destruct i as [|[|[|i]]]; try lia; destruct k as [|[|[|k]]]; try lia; unfold inner, delta; cbn [seq map Rsum fold_right c88_axes row3 Nat.eqb]; rewrite ?F2, ?F3, ?F6, ?Rmult_0_l, ?Rmult_0_r; try lra; field; lra.
  - intros i k Hi Hk. destruct i as [|[|[|i]]]; try lia; destruct k as [|[|[|k]]]; try lia; unfold inner, delta; cbn [seq map Rsum fold_right c88_axes row3 Nat.eqb]; rewrite ?F2, ?F3, ?F6, ?Rmult_0_l, ?Rmult_0_r; try lra; field; lra.
  - intros i Hi. destruct i as [|[|[|i]]]; try lia; cbn [c88_values]; lra.
  - intros i k Hi Hk. destruct i as [|[|[|i]]]; try lia; destruct k as [|[|[|k]]]; try lia; cbn [c88_values]; lra.
  - intros a b Ha Hb. unfold scatter_matrix, column_mean, mean. unfold c88_channel, channel, c88_windows. cbn [concat app map length].
    destruct a as [|[|[|a]]]; try lia; destruct b as [|[|[|b]]]; try lia; unfold c88_values, entries, Stats.Model.column; cbn [flat_map nth_error app nth length map Rsum fold_right seq c88_axes row3]; rewrite ?S56, ?F2, ?F3, ?F6, ?Rmult_0_l, ?Rmult_0_r; cbn [INR]; lra.
Qed.

(** ** Its components *)
Definition c88_comps : list (list R) := map (fun i => normalize_row (map (c88_axes i) (seq 0 3))) (seq 0 3).
Definition c88_pc : components_of := (column_mean c88_channel, c88_comps).
Lemma c88_pca : forall data n, (forall k, (k < n)%nat -> data k <> []) -> all_rows data n = c88_channel -> (n = 1%nat \/ n = 2%nat) -> exists r, pca_of (fun M => M) c88_channel (column_mean c88_channel) r.
Proof.
  intros data n Hne E Hn. assert (X : exists means r, pca_of (fun M => M) c88_channel means r).
  { destruct Hn as [->| ->].
    - do 2 eexists. apply (on_hosts _ _ data 1 true (run (hosts 1 false true 1) (starts 1 ++ drain 1 4)) ([0%nat], Own 0)); [lia|exact Hne|now symmetry|apply run_early; vm_compute; reflexivity|vm_compute; auto|reflexivity].
    - do 2 eexists. apply (on_hosts _ _ data 2 true (run (hosts 2 false true 1) (starts 2 ++ drain 2 8)) ([0%nat; 1%nat], Combine (Own 0) (Own 1))); [lia|exact Hne|now symmetry|apply run_early; vm_compute; reflexivity|vm_compute; auto|reflexivity]. }
  destruct X as (means & r & H). assert (Em : means = column_mean c88_channel) by (apply functional_extensionality; apply (pca_of_scatter (fun M => M) c88_channel means r); [intros M a b; reflexivity|exact H]). subst means. now exists r.
Qed.
Lemma c88_analysed : analysed (fun M => M) (fun _ => c88_axes) 3 c88_channel c88_pc.
Proof.
  destruct (c88_pca (fun k => channel 0 (c88_windows k)) 2) as (r & H); [intros [|k] _; discriminate|reflexivity|auto|]. exists r. ssplit; [exact H|reflexivity|]. exists c88_values. apply (diagonalises_ext _ (scatter_matrix c88_channel)); [|exact c88_scatter].
  intros i j _ _. symmetry. apply (pca_of_scatter (fun M => M) c88_channel (column_mean c88_channel) r); [intros M a b; reflexivity|exact H].
Qed.
Lemma c88_determined : determined 3 c88_channel.
Proof.
  exists c88_axes, c88_values. ssplit; [exact c88_scatter| |].
  - intros i k Hi Hk Hd. pose proof c88_gaps. destruct i as [|[|[|i]]]; try lia; destruct k as [|[|[|k]]]; try lia; cbn [c88_values]; lra.
  - assert (Q : forall y, 0 < y -> 1 / sqrt y <> 0) by (intros y Hy Z; pose proof (sqrt_lt_R0 y Hy) as P; apply (f_equal (fun t => t * sqrt y)) in Z; replace (1 / sqrt y * sqrt y) with 1 in Z by (field; lra); lra).
    intros i Hi. destruct i as [|[|[|i]]]; try lia; cbn [c88_axes row3]; apply Q; lra.
Qed.
Lemma c88_comps_eq : c88_comps = [[1 / sqrt 6; -2 / sqrt 6; 1 / sqrt 6]; [1 / sqrt 2; 0; - 1 / sqrt 2]; [1 / sqrt 3; 1 / sqrt 3; 1 / sqrt 3]].
Proof.
  assert (Q : forall y, 0 < y -> 1 / sqrt y >= 0) by (intros y Hy; pose proof (sqrt_lt_R0 y Hy) as P; left; apply Rdiv_lt_0_compat; lra).
  unfold c88_comps. cbn [seq map c88_axes row3 normalize_row]. destruct (Rge_dec (1 / sqrt 6) 0) as [_|X]; [|exfalso; apply X, Q; lra]. destruct (Rge_dec (1 / sqrt 2) 0) as [_|X]; [|exfalso; apply X, Q; lra].
  destruct (Rge_dec (1 / sqrt 3) 0) as [_|X]; [|exfalso; apply X, Q; lra]. reflexivity.
Qed.
Lemma c88_means : column_mean c88_channel 0 = -1 / 6 /\ column_mean c88_channel 1 = 0 /\ column_mean c88_channel 2 = 1 / 6.
Proof. unfold column_mean, mean, c88_channel, channel, c88_windows, entries, Stats.Model.column. cbn [concat map app flat_map nth_error nth length Rsum fold_right INR]. ssplit; field. Qed.
Lemma triple_eq : forall x y z x' y' z' : R, x = x' -> y = y' -> z = z' -> (x, y, z) = (x', y', z').
Proof. now intros x y z x' y' z' -> -> ->. Qed.
Lemma pair_eq : forall x y x' y' : R, x = x' -> y = y' -> [x; y] = [x'; y'].
Proof. now intros x y x' y' -> ->. Qed.
Lemma c88_reduced : forall x y z, reduced [c88_pc] [[x]; [y]; [z]] = [((x - 2 * y + z) / sqrt 6, (x - z + 1 / 3) / sqrt 2, (x + y + z) / sqrt 3)].
Proof.
  intros x y z. assert (P2 : 0 < sqrt 2) by (apply sqrt_lt_R0; lra). assert (P3 : 0 < sqrt 3) by (apply sqrt_lt_R0; lra). assert (P6 : 0 < sqrt 6) by (apply sqrt_lt_R0; lra). destruct c88_means as (M0 & M1 & M2).
  unfold reduced, c88_pc. rewrite c88_comps_eq. cbn [length seq combine map fst snd reduce_row Rsum fold_right]. unfold entries, Stats.Model.column. cbn [flat_map app nth_error nth]. rewrite M0, M1, M2. cbn [vec_of].
  apply (f_equal (fun v => [v])). apply triple_eq; field; lra.
Qed.

(** ** Its points *)
Definition c88_b : R := 1 / (3 * sqrt 2).
Definition c88_a : R := - 6 / sqrt 3.
Definition c88_x : R := / sqrt 6.
Definition c88_y : R := / (3 * (sqrt 2 * sqrt 3) * sqrt (c88_b * c88_b + c88_a * c88_a)).
Definition c88_points (h : nat) : list point := match h with
  | 0%nat => [{| p_id := 0; p_coordinates := [7 * c88_x; 11 * c88_y]; p_segment := 0 |}; {| p_id := 1; p_coordinates := [-5 * c88_x; 47 * c88_y]; p_segment := 1 |};
              {| p_id := 2; p_coordinates := [-1 * c88_x; -62 * c88_y]; p_segment := 2 |}; {| p_id := 3; p_coordinates := [1 * c88_x; -58 * c88_y]; p_segment := 3 |}]
  | _ => [{| p_id := 4; p_coordinates := [5 * c88_x; 49 * c88_y]; p_segment := 0 |}; {| p_id := 5; p_coordinates := [-7 * c88_x; 13 * c88_y]; p_segment := 1 |}]
  end.
Lemma c88_b_pos : 0 < c88_b.
Proof. unfold c88_b. apply Rdiv_lt_0_compat; [lra|]. pose proof (sqrt_lt_R0 2 ltac:(lra)). lra. Qed.
Lemma c88_x_pos : 0 < c88_x.
Proof. unfold c88_x. apply Rinv_0_lt_compat, sqrt_lt_R0. lra. Qed.
Lemma c88_rho : 0 < sqrt (c88_b * c88_b + c88_a * c88_a).
Proof. apply sqrt_lt_R0. pose proof c88_b_pos. nra. Qed.
Lemma c88_y_pos : 0 < c88_y.
Proof.
  unfold c88_y. apply Rinv_0_lt_compat. apply Rmult_lt_0_compat; [|exact c88_rho]. pose proof (sqrt_lt_R0 2 ltac:(lra)). pose proof (sqrt_lt_R0 3 ltac:(lra)). assert (0 < sqrt 2 * sqrt 3) by now apply Rmult_lt_0_compat. lra.
Qed.
Lemma c88_alignment : exists m, alignment c88_params [-2] [2] [c88_pc] = Ok [m] /\ forall x y z, point_coordinates [m] (reduced [c88_pc] [[x]; [y]; [z]]) = [(x - 2 * y + z) * c88_x; - (18 * (x - z) + 6 + (x + y + z)) * c88_y].
Proof.
  destruct (alignment_ok c88_params [-2] [2] [c88_pc]) as (ms & E & F); [cbn; lia|reflexivity|repeat constructor|]. unfold reference_row in F. cbn [map latent pattern_length c88_params INR repeat Nat.sub] in F. rewrite c88_reduced in F.
  inversion F as [|m u ms' us Hm Hms]; subst. inversion Hms; subst. exists m. split; [exact E|]. intros x y z. rewrite c88_reduced. unfold point_coordinates. cbn [combine map app fst snd].
  assert (P2 : 0 < sqrt 2) by (apply sqrt_lt_R0; lra). assert (P3 : 0 < sqrt 3) by (apply sqrt_lt_R0; lra). assert (P6 : 0 < sqrt 6) by (apply sqrt_lt_R0; lra).
  assert (Eu : ((1 * -2 - 2 * (1 * -2) + 1 * -2) / sqrt 6, (1 * -2 - 1 * -2 + 1 / 3) / sqrt 2, (1 * -2 + 1 * -2 + 1 * -2) / sqrt 3) = (0, c88_b, c88_a)) by (unfold c88_b, c88_a; apply triple_eq; field; lra). rewrite Eu in Hm.
  assert (Er : forall r v, (r < 3)%nat -> mat_row m r v = mat_row (rmat (0, c88_b, c88_a)) r v) by (intros r ((v0 & v1) & v2) Hr; unfold mat_row; now rewrite !Hm by lia).
  pose proof c88_b_pos as Pb. pose proof c88_rho as Pr. destruct (aligned_rows c88_b c88_a ((x - 2 * y + z) / sqrt 6) ((x - z + 1 / 3) / sqrt 2) ((x + y + z) / sqrt 3) ltac:(lra)) as (R0 & R1).
  rewrite !Er by lia. rewrite R0, R1. apply pair_eq; [unfold c88_x; reflexivity|]. unfold c88_y. set (rho := sqrt (c88_b * c88_b + c88_a * c88_a)) in *. unfold c88_a, c88_b. field. lra.
Qed.
Lemma c88_segment : forall x y s, get_segment_id (atan2 y x) 4 = s -> segment_of [x; y] 4 = Some s.
Proof. intros x y s <-. reflexivity. Qed.
Lemma c88_add : forall i x y x' y' l s qs, x = x' -> y = y' -> get_segment_id (atan2 y' x') 4 = s -> add_points (S i) l 4 = Some qs ->
  add_points i ([x; y] :: l) 4 = Some ({| p_id := i; p_coordinates := [x'; y']; p_segment := s |} :: qs).
Proof. intros i x y x' y' l s qs -> -> Hs Hl. cbn [add_points]. unfold new_point. rewrite (c88_segment _ _ _ Hs), Hl. reflexivity. Qed.
Lemma c88_host_points : exists ms, alignment c88_params [-2] [2] [c88_pc] = Ok ms /\ forall h, (h < 2)%nat -> host_points c88_params 1 9 2 h ms [c88_pc] (partition_of 2 3 h c88_rows) = Ok (c88_points h).
Proof.
  destruct c88_alignment as (m & E & C). exists [m]. split; [exact E|]. intros h Hh. pose proof c88_x_pos as Px. pose proof c88_y_pos as Py.
  rewrite (host_points_ok c88_params 1 [c88_pc] [m] ltac:(cbn; lia) ltac:(repeat constructor) eq_refl ltac:(cbn; lia) 9 2 h _ (c88_windows h)) by (lia || (destruct h as [|[|h]]; [reflexivity|reflexivity|lia])).
  assert (Q : forall x y, (0 < x -> 0 < y -> get_segment_id (atan2 y x) 4 = 0%nat) /\ (x < 0 -> 0 < y -> get_segment_id (atan2 y x) 4 = 1%nat) /\ (x < 0 -> y < 0 -> get_segment_id (atan2 y x) 4 = 2%nat) /\ (0 < x -> y < 0 -> get_segment_id (atan2 y x) 4 = 3%nat))
    by (intros x y; ssplit; [apply quadrant_0|apply quadrant_1|apply quadrant_2|apply quadrant_3]).
  destruct h as [|[|h]]; [| |lia]; unfold c88_windows; cbn [map]; rewrite !C; change (rate c88_params) with 4%nat.
  - change (9 / 2 * 0)%nat with 0%nat. unfold c88_points. rewrite (c88_add 0 _ _ (7 * c88_x) (11 * c88_y) _ 0 [{| p_id := 1; p_coordinates := [-5 * c88_x; 47 * c88_y]; p_segment := 1 |};
              {| p_id := 2; p_coordinates := [-1 * c88_x; -62 * c88_y]; p_segment := 2 |}; {| p_id := 3; p_coordinates := [1 * c88_x; -58 * c88_y]; p_segment := 3 |}]); [reflexivity|ring|ring|apply Q; lra|].
    repeat (apply c88_add; [ring|ring|apply Q; lra|]). reflexivity.
  - change (9 / 2 * 1)%nat with 4%nat. unfold c88_points. rewrite (c88_add 4 _ _ (5 * c88_x) (49 * c88_y) _ 0 [{| p_id := 5; p_coordinates := [-7 * c88_x; 13 * c88_y]; p_segment := 1 |}]); [reflexivity|ring|ring|apply Q; lra|].
    repeat (apply c88_add; [ring|ring|apply Q; lra|]). reflexivity.
Qed.

(** ** Its crossings *)
Definition c88_all : list point := concat (map c88_points (seq 0 2)).
Lemma c88_pts : map as_pt c88_all = [{| pid := 0; pseg := 0 |}; {| pid := 1; pseg := 1 |}; {| pid := 2; pseg := 2 |}; {| pid := 3; pseg := 3 |}; {| pid := 4; pseg := 0 |}; {| pid := 5; pseg := 1 |}].
Proof. reflexivity. Qed.
Lemma c88_crossings : crossings_of 4 c88_all = [(0, 1); (1, 2); (2, 3); (3, 0); (4, 1)]%nat.
Proof. unfold crossings_of, steps_of. rewrite c88_pts. vm_compute. reflexivity. Qed.
Lemma c88_proper : properly_crossed 4 c88_all.
Proof.
  intros c Hc. rewrite c88_crossings in Hc. pose proof c88_x_pos as Px. pose proof c88_y_pos as Py.
  repeat (destruct Hc as [<-|Hc]; [cbn [fst snd]; match goal with |- offset _ _ ?u <> offset _ _ ?v => destruct (quarter_offset u) as (U0 & U1 & U2 & U3); destruct (quarter_offset v) as (V0 & V1 & V2 & V3) end;
    rewrite ?U0, ?U1, ?U2, ?U3, ?V0, ?V1, ?V2, ?V3; unfold coords_at, coords_fun, c88_all, c88_points; cbn [seq map concat app p_coordinates nth]; lra|]). destruct Hc.
Qed.
Lemma c88_positions : map (position_of 1 4 c88_all) [(4, 1); (0, 1)]%nat = [[34 * c88_y]; [32 * c88_y]].
Proof.
  pose proof c88_x_pos as Px. pose proof c88_y_pos as Py. cbn [map]. unfold position_of, crossing_distances. cbn [seq map fst snd]. unfold crossing_point.
  assert (O : forall x, offset 4 1 x = x 0%nat) by (intros x; apply quarter_offset). rewrite !O. unfold coords_at, coords_fun, c88_all, c88_points. cbn [seq map concat app p_coordinates nth Nat.add].
  assert (L : forall x y z, x = 0 -> y = z -> 0 <= z -> [sqrt (x * x + y * y)] = [z]) by (intros x y z -> -> Hz; f_equal; rewrite Rmult_0_l, Rplus_0_l; now apply sqrt_square).
  f_equal; [|f_equal]; apply L; try lra; field; lra.
Qed.
Lemma c88_spread : segments_spread 1 4 c88_all.
Proof.
  intros s Hs H2. rewrite c88_crossings in *. destruct s as [|[|[|[|s]]]]; try (exfalso; cbn in H2; lia). change (in_segment 1%nat [(0, 1); (1, 2); (2, 3); (3, 0); (4, 1)]%nat) with [(4, 1); (0, 1)]%nat. rewrite c88_positions. pose proof c88_y_pos as Py.
  unfold spread_rows. ssplit; [lia|cbn; lia|repeat constructor|]. intros k Hk. replace k with 0%nat by lia. exists (34 * c88_y), (32 * c88_y). cbn [Kde.RealSpec.column map nth]. ssplit; [now left|right; now left|lra].
Qed.
