(** C105: every measurement enters the analysis. *)
From Verif.Pca Require Import Model Spec.
From Coq Require Import List Arith Bool Lia Reals Lra.
From Verif.Base Require Import Res Params ListX Float32.
From Verif.Stats Require Import Model Spec.
From Verif.Reader Require Import Spec.
From Verif.PhaseSpace Require Import Model Spec Proofs.
From Verif.Scoring Require Import Model.
From Verif.Pipeline Require Import Model Spec Cluster ClusterSpec.
From Verif.Front Require Import Model Spec Proofs SingleProofs.
From Verif.Analysis Require Import Model Spec Case Correcting.
From Verif.Properties Require Import Analysis.
Import ListNotations.
Local Open Scope nat_scope.

(** Specification: every entry of the row lies between two values of its column, so that a series that ends with the row has the same extremes. *)
Definition in_range (dim : nat) (rows : list (list R)) (a : list R) : Prop :=
  forall c x, c < dim -> nth_error a c = Some x -> exists lo hi, entry rows c lo /\ entry rows c hi /\ (lo <= x <= hi)%R.
(** ... one machine reads the series and gets to scoring, with the world [w]: the extremes are those of the series, and the components those of its windows. *)
Definition one_machine qr svd inv (p : params) (dim : nat) (rows : list (list R)) (w : scoring_world f32) : Prop :=
  exists mins maxs windows pcs, extremes dim rows mins maxs /\ embed p dim rows = Ok windows /\ all_analysed qr svd (pattern_length p - latent p) dim windows pcs /\
    machine_analysis inv p dim mins maxs pcs rows = Ok w.
(** ... and the same for a cluster, without and with self correction: [k] holds for what the hosts deliver. *)
Definition cluster_on qr svd inv (p : params) (dim : nat) (rows : list (list R)) (k : (nat -> res (list f32)) -> Prop) : Prop :=
  exists mins maxs blocks pcs, let N := n_cluster_nodes p in let part := fun h => partition_of N (pattern_length p - 1) h rows in
    extremes dim rows mins maxs /\ mapM (fun h => embed p dim (part h)) (seq 0 N) = Ok blocks /\ all_analysed qr svd (pattern_length p - latent p) dim (concat blocks) pcs /\
    cluster_from_rows inv p dim (length rows) mins maxs pcs part k.
Definition correcting_cluster_on qr svd inv (p : params) (dim : nat) (rows : list (list R)) order (k : (nat -> res (list f32)) -> Prop) : Prop :=
  exists mins maxs blocks pcs, let N := n_cluster_nodes p in let part := fun h => partition_of N (pattern_length p - 1) h rows in
    extremes dim rows mins maxs /\ mapM (fun h => embed p dim (part h)) (seq 0 N) = Ok blocks /\ all_analysed qr svd (pattern_length p - latent p) dim (concat blocks) pcs /\
    correcting_from_rows inv p dim (length rows) mins maxs pcs part order k.

(** No window contains the last row: whatever it holds, every host has the same windows. *)
Theorem C105_no_window_has_it_refuted : forall V (rowsum : list V -> V) p N rows a b h, latent p < pattern_length p -> 1 <= N -> h < N -> pattern_length p <= (length rows + 1) / N ->
  phase_space rowsum p (partition_of N (pattern_length p - 1) h (rows ++ [a])) = phase_space rowsum p (partition_of N (pattern_length p - 1) h (rows ++ [b])).
Proof.
  intros V rowsum p N rows a b h HL HN Hh HP.
  assert (La : forall x, length (rows ++ [x]) = length rows + 1) by (intros x; now rewrite app_length).
  assert (Sz : forall x, pattern_length p - 1 <= length (partition_of N (pattern_length p - 1) h (rows ++ [x]))).
  { intros x. destruct (partition_bounds rowsum N (pattern_length p) (rows ++ [x]) h HN Hh ltac:(lia) ltac:(rewrite La; exact HP)) as (e & -> & He & Hb & _). rewrite slice_length. lia. }
  rewrite !phase_space_ok by auto. f_equal. rewrite !partition_embedding by (rewrite ?La; auto). rewrite !La. apply map_ext_in. intros i Hi. apply in_seq in Hi.
  assert (Bi : i + pattern_length p <= length rows + 1).
  { revert Hi HP. set (w := (length rows + 1) / N). intros Hi HP. pose proof (Nat.mul_div_le (length rows + 1) N ltac:(lia)) as D. fold w in D.
    destruct (Nat.eqb_spec (S h) N) as [E|E]; [nia|]. assert ((S h + 1) * w <= N * w) by (apply Nat.mul_le_mono_r; lia). nia. }
  unfold PhaseSpace.Spec.window. apply map_ext_in. intros j Hj. apply in_seq in Hj. f_equal. apply nth_error_ext. intros k. rewrite !nth_error_slice.
  destruct (Nat.ltb_spec k (i + j + latent p - (i + j))); [|reflexivity]. now rewrite !nth_error_app1 by lia.
Qed.

Lemma partition_one : forall A ov (rows : list A), partition_of 1 ov 0 rows = rows.
Proof. intros A ov rows. unfold partition_of. cbn. now apply slice_full. Qed.
Lemma entry_snoc : forall rows a c x, entry (rows ++ [a]) c x <-> entry rows c x \/ nth_error a c = Some x.
Proof.
  intros rows a c x. unfold entry. split.
  - intros (r & Hr & E). apply in_app_or in Hr. destruct Hr as [Hr|[<-|[]]]; eauto.
  - intros [(r & Hr & E)|E]; [exists r|exists a]; (split; [apply in_or_app; cbn; auto|exact E]).
Qed.
Lemma extremes_snoc : forall dim rows a mins maxs, in_range dim rows a -> extremes dim (rows ++ [a]) mins maxs <-> extremes dim rows mins maxs.
Proof.
  intros dim rows a mins maxs Hr. unfold extremes, column_minimum, column_maximum. split; intros (L1 & L2 & H); (split; [exact L1|]; split; [exact L2|]); intros j Hj; destruct (H j Hj) as (lo & hi & E1 & E2 & (M1 & M2) & (X1 & X2));
    exists lo, hi; ssplit; auto.
  - apply entry_snoc in M1. destruct M1 as [M1|M1]; [exact M1|]. destruct (Hr j lo Hj M1) as (l & u & El & _ & B). replace lo with l; [exact El|]. apply Rle_antisym; [apply B|]. apply M2, entry_snoc. now left.
  - intros x Hx. apply M2, entry_snoc. now left.
  - apply entry_snoc in X1. destruct X1 as [X1|X1]; [exact X1|]. destruct (Hr j hi Hj X1) as (l & u & _ & Eu & B). replace hi with u; [exact Eu|]. apply Rle_antisym; [|apply B]. apply X2, entry_snoc. now left.
  - intros x Hx. apply X2, entry_snoc. now left.
  - apply entry_snoc. now left.
  - intros x Hx. apply entry_snoc in Hx. destruct Hx as [Hx|Hx]; [auto|]. destruct (Hr j x Hj Hx) as (l & u & El & _ & B). apply (Rle_trans _ l); [auto|apply B].
  - apply entry_snoc. now left.
  - intros x Hx. apply entry_snoc in Hx. destruct Hx as [Hx|Hx]; [auto|]. destruct (Hr j x Hj Hx) as (l & u & _ & Eu & B). apply (Rle_trans _ u); [apply B|auto].
Qed.
Lemma each_host_ext : forall A N (f g : nat -> res A) (k : (nat -> A) -> Prop), (forall h, h < N -> f h = g h) -> each_host N f k -> each_host N g k.
Proof. intros A N f g k E (H1 & H2). split; [intros h Hh; rewrite <- E by exact Hh; auto|]. intros r Hr. apply H2. intros h Hh. rewrite E by exact Hh. auto. Qed.
Lemma host_points_ext : forall p dim n N h ms pcs d d', embed p dim d = embed p dim d' -> host_points p dim n N h ms pcs d = host_points p dim n N h ms pcs d'.
Proof. intros. unfold host_points. now rewrite H. Qed.

(** C105 is false: a series that ends with one value and a series that ends with any other give the same scores, as long as both values occur between others; so an anomaly in the last measurement cannot be
    found.  One machine ... *)
Theorem C105_one_machine_refuted : forall qr svd inv p dim rows a b w, latent p < pattern_length p -> pattern_length p <= length rows + 1 -> in_range dim rows a -> in_range dim rows b ->
  one_machine qr svd inv p dim (rows ++ [a]) w -> one_machine qr svd inv p dim (rows ++ [b]) w.
Proof.
  intros qr svd inv p dim rows a b w HL HP Ha Hb (mins & maxs & windows & pcs & He & Hw & Hc & Hm). exists mins, maxs, windows, pcs.
  assert (E : embed p dim (rows ++ [a]) = embed p dim (rows ++ [b])).
  { pose proof (C105_no_window_has_it_refuted _ (sum_axis dim) p 1 rows a b 0 HL ltac:(lia) ltac:(lia) ltac:(rewrite Nat.div_1_r; exact HP)) as E. now rewrite !partition_one in E. }
  ssplit; [apply (extremes_snoc _ _ _ _ _ Hb), (extremes_snoc _ _ _ _ _ Ha), He|now rewrite <- E|exact Hc|]. rewrite <- Hm. unfold machine_analysis. rewrite !app_length. cbn [length].
  destruct (alignment p mins maxs pcs) as [ms|r]; [|reflexivity]. cbn [bind]. now rewrite (host_points_ext _ _ _ _ _ _ _ _ _ E).
Qed.
(** ... and a cluster. *)
Theorem C105_cluster_refuted : forall qr svd inv p dim rows a b k, latent p < pattern_length p -> 1 <= n_cluster_nodes p -> pattern_length p <= (length rows + 1) / n_cluster_nodes p ->
  in_range dim rows a -> in_range dim rows b -> cluster_on qr svd inv p dim (rows ++ [a]) k -> cluster_on qr svd inv p dim (rows ++ [b]) k.
Proof.
  intros qr svd inv p dim rows a b k HL HN HP Ha Hb (mins & maxs & blocks & pcs & He & Hw & Hc & Hk). exists mins, maxs, blocks, pcs. cbv zeta.
  assert (E : forall h, h < n_cluster_nodes p -> embed p dim (partition_of (n_cluster_nodes p) (pattern_length p - 1) h (rows ++ [a])) = embed p dim (partition_of (n_cluster_nodes p) (pattern_length p - 1) h (rows ++ [b])))
    by (intros h Hh; now apply C105_no_window_has_it_refuted).
  ssplit; [apply (extremes_snoc _ _ _ _ _ Hb), (extremes_snoc _ _ _ _ _ Ha), He| |exact Hc|].
  - rewrite <- Hw. apply mapM_ext_in. intros h Hh. apply in_seq in Hh. symmetry. apply E. lia.
  - revert Hk. rewrite !app_length. cbn [length]. unfold cluster_from_rows. destruct (alignment p mins maxs pcs) as [ms|r]; [|tauto]. apply each_host_ext. intros h Hh. now apply host_points_ext, E.
Qed.
Theorem C105_correcting_cluster_refuted : forall qr svd inv p dim rows a b order k, latent p < pattern_length p -> 1 <= n_cluster_nodes p -> pattern_length p <= (length rows + 1) / n_cluster_nodes p ->
  in_range dim rows a -> in_range dim rows b -> correcting_cluster_on qr svd inv p dim (rows ++ [a]) order k -> correcting_cluster_on qr svd inv p dim (rows ++ [b]) order k.
Proof.
  intros qr svd inv p dim rows a b order k HL HN HP Ha Hb (mins & maxs & blocks & pcs & He & Hw & Hc & Hk). exists mins, maxs, blocks, pcs. cbv zeta.
  assert (E : forall h, h < n_cluster_nodes p -> embed p dim (partition_of (n_cluster_nodes p) (pattern_length p - 1) h (rows ++ [a])) = embed p dim (partition_of (n_cluster_nodes p) (pattern_length p - 1) h (rows ++ [b])))
    by (intros h Hh; now apply C105_no_window_has_it_refuted).
  ssplit; [apply (extremes_snoc _ _ _ _ _ Hb), (extremes_snoc _ _ _ _ _ Ha), He| |exact Hc|].
  - rewrite <- Hw. apply mapM_ext_in. intros h Hh. apply in_seq in Hh. symmetry. apply E. lia.
  - revert Hk. rewrite !app_length. cbn [length]. unfold correcting_from_rows. destruct (alignment p mins maxs pcs) as [ms|r]; [|tauto]. apply each_host_ext. intros h Hh. now apply host_points_ext, E.
Qed.

Lemma column_app : forall A c (l l' : list (list A)), column c (l ++ l') = column c l ++ column c l'. Proof. intros. apply flat_map_app. Qed.
Lemma column_cons : forall A c (r : list A) l x, nth_error r c = Some x -> column c (r :: l) = x :: column c l. Proof. intros A c r l x E. unfold column. cbn [flat_map]. now rewrite E. Qed.
Lemma fold_plus_shift : forall l (a b : R), fold_left Rplus l (a + b)%R = (a + fold_left Rplus l b)%R.
Proof. induction l as [|x l IH]; intros a b; cbn; [reflexivity|]. rewrite <- IH. f_equal. ring. Qed.
Lemma slice_around : forall A (before after : list A) x a b, a <= length before < b -> slice a b (before ++ x :: after) = slice a (length before) before ++ x :: firstn (b - S (length before)) after.
Proof.
  intros A before after x a b H. apply nth_error_ext. intros i. rewrite nth_error_slice. destruct (Nat.lt_ge_cases i (length before - a)) as [Hi|Hi].
  - destruct (Nat.ltb_spec i (b - a)); [|lia]. rewrite !nth_error_app1 by (rewrite ?slice_length; lia). rewrite nth_error_slice. destruct (Nat.ltb_spec i (length before - a)); [reflexivity|lia].
  - rewrite (nth_error_app2 (slice _ _ _)) by (rewrite slice_length; lia). rewrite slice_length. replace (Nat.min _ _) with (length before - a) by lia.
    destruct (Nat.ltb_spec i (b - a)) as [Hb|Hb].
    + rewrite nth_error_app2 by lia. replace (a + i - length before) with (i - (length before - a)) by lia. destruct (i - (length before - a)) as [|k] eqn:Ek; [reflexivity|]. cbn [nth_error]. rewrite nth_error_firstn. destruct (Nat.ltb_spec k (b - S (length before))); [reflexivity|lia].
    + destruct (i - (length before - a)) as [|k] eqn:Ek; [lia|]. cbn [nth_error]. rewrite nth_error_firstn. destruct (Nat.ltb_spec k (b - S (length before))); [lia|reflexivity].
Qed.

(** What holds is that every other row counts: if two series differ in the value of one row that is not the last, their windows differ. *)
Theorem C105_every_other_row_partial : forall p dim before row row' after c x x', 1 <= latent p < pattern_length p -> pattern_length p <= length (before ++ row :: after) -> after <> [] -> c < dim ->
  nth_error row c = Some x -> nth_error row' c = Some x' -> x <> x' -> embed p dim (before ++ row :: after) <> embed p dim (before ++ row' :: after).
Proof.
  intros p dim before row row' after c x x' HL HP Ha Hc Ex Ex' Nx E.
  assert (Lr : forall r, length (before ++ r :: after) = length before + S (length after)) by (intros r; now rewrite app_length). rewrite Lr in HP. assert (1 <= length after) by (destruct after; [easy|cbn; lia]).
  destruct (row_covered (pattern_length p) (latent p) (length before + S (length after)) (length before) HL HP ltac:(lia)) as (i & j & Hi & Hj & Hij).
  unfold embed in E. rewrite !phase_space_ok in E by (rewrite ?Lr; lia). injection E as E. unfold PhaseSpace.Spec.embedding in E. rewrite !Lr in E.
  apply (f_equal (fun l => nth_error l i)) in E. rewrite !nth_error_map, (nth_error_nth' _ 0) in E by (rewrite seq_length; lia). rewrite seq_nth in E by lia. cbn in E. injection E as E.
  unfold PhaseSpace.Spec.window in E. apply (f_equal (fun l => nth_error l j)) in E. rewrite !nth_error_map, (nth_error_nth' _ 0) in E by (rewrite seq_length; lia). rewrite seq_nth in E by lia. cbn [option_map Nat.add] in E. injection E as E.
  unfold sum_axis in E. apply (f_equal (fun l => nth_error l c)) in E. rewrite !nth_error_map, (nth_error_nth' _ 0) in E by (rewrite seq_length; lia). rewrite seq_nth in E by lia. cbn [option_map Nat.add] in E. injection E as E.
  rewrite !slice_around in E by lia. rewrite !column_app, !fold_left_app in E. rewrite (column_cons _ c row _ _ Ex), (column_cons _ c row' _ _ Ex') in E. cbn [fold_left] in E.
  set (s := fold_left Rplus _ 0%R) in E. apply Nx. rewrite (Rplus_comm s x), (Rplus_comm s x') in E. rewrite !fold_plus_shift in E. lra.
Qed.

(** ** A case *)
Lemma c88_range : forall x, (-2 <= x <= 2)%R -> in_range 1 (firstn 8 c88_rows) [x].
Proof.
  intros x Hx c y Hc E. replace c with 0 in * by lia. cbn in E. injection E as <-. exists (-2)%R, 2%R. split; [exists [(-2)%R]; split; [cbn; tauto|reflexivity]|]. split; [exists [2%R]; split; [cbn; tauto|reflexivity]|exact Hx].
Qed.
(** The nine measurements 1, -2, 2, 1, -1, -2, 2, -1, x: one machine ends with one outcome, a cluster of two hosts with its scores on every host, whatever x is between -2 and 2. *)
Example C105_case : exists w0, forall x, (-2 <= x <= 2)%R -> let rows := firstn 8 c88_rows ++ [[x]] in
  one_machine (fun M => M) (fun _ => c88_axes) Geometry.Crossing.inverse2 (alone 2 c88_params) 1 rows w0 /\
  cluster_on (fun M => M) (fun _ => c88_axes) Geometry.Crossing.inverse2 c88_params 1 rows (fun result => forall h w, h < 2 -> scoring_run (fun x => f_eq x f_zero) w0 w -> flying w = [] -> local_results w = [result h]).
Proof.
  pose proof C88_case as (blocks & windows & pcs & ms & C). cbv zeta in C. destruct C as (H1 & H2 & H3 & H4 & P & I & X & Eb & A0 & Ew & A & Det & Ea & Hp & W & Pr & Sp & ND & _ & Th).
  destruct (C88_cluster_as_one_machine_partial (fun M => M) (fun _ => c88_axes) Geometry.Crossing.inverse2 (fun M => M) (fun _ => c88_axes) Geometry.Crossing.inverse2 c88_params 2 1 c88_rows [(-2)%R] [2%R] [(-2)%R] [2%R] blocks windows pcs pcs ms c88_points
    H1 H2 H3 ltac:(lia) H4 P P I I X X Eb A0 Ew A Det Ea Hp W Pr Sp ND Th) as (w0 & E0 & _ & K). exists w0. intros x Hx rows.
  assert (E9 : c88_rows = firstn 8 c88_rows ++ [[0%R]]) by reflexivity. assert (R0 : in_range 1 (firstn 8 c88_rows) [0%R]) by (apply c88_range; lra). split.
  - apply (C105_one_machine_refuted _ _ _ _ _ _ [0%R]); [cbn; lia|cbn; lia|exact R0|now apply c88_range|]. rewrite <- E9. exists [(-2)%R], [2%R], windows, pcs. ssplit; [exact X|exact Ew|exact A|exact E0].
  - apply (C105_cluster_refuted _ _ _ _ _ _ [0%R]); [cbn; lia|cbn; lia|cbn; lia|exact R0|now apply c88_range|]. rewrite <- E9. exists [(-2)%R], [2%R], blocks, pcs. cbv zeta. ssplit; [exact X|exact Eb|exact A0|exact K].
Qed.
Print Assumptions C105_no_window_has_it_refuted.
Print Assumptions C105_one_machine_refuted.
Print Assumptions C105_cluster_refuted.
Print Assumptions C105_correcting_cluster_refuted.
Print Assumptions C105_every_other_row_partial.
