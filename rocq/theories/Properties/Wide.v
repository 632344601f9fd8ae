(** C108: values that are numbers, but far apart. *)
From Verif.Pca Require Import Model Spec.
From Coq Require Import List Arith Bool Lia Permutation ZArith Reals Lra.
From Flocq Require Import IEEE754.BinarySingleNaN Core.
From Verif.Base Require Import Res Params ListX Float32 Float32Proofs.
From Verif.Stats Require Import Model Proofs Single SingleSpec SingleProofs.
From Verif.Reader Require Import Spec.
From Verif.Pca Require Import Single SingleSpec.
From Verif.PhaseSpace Require Import Model Spec Proofs.
From Verif.Topology Require Import Model Proofs.
From Verif.Transition Require Import Spec.
From Verif.Protocol Require Import Model Exchange ExchangeProofs.
From Verif.Segmentation Require Import Model Spec Proofs Handover.
From Verif.Scoring Require Import Model Spec.
From Verif.Pipeline Require Import Model Spec Cluster.
From Verif.Properties Require Import Segmentation Intersections Pipeline PcaSingle Resting Missing StatsSingle Silent.
From Verif.Front Require Import Single SingleSpec SingleProofs SingleAlign SilentSpec SilentProofs.
Import ListNotations.
Import Verif.Stats.Model.
Local Open Scope nat_scope.

(** C108 is false: if a channel contains two finite values whose difference is at least 2^128, for instance the largest and the smallest value of single precision, both coordinates that it contributes to a point are no
    numbers, for every point of every host: whatever the other values, the numbers of hosts and threads, the order of their messages and the components.  (The step of the reference data set overflows, and infinity times
    zero is no number.)  If it is one of the first two channels, every point gets segment 0. *)
Theorem C108_finite_series_refuted : forall p dim N rows c windows threads orders order arrival comps ms h coords q,
  let means := channel_means (pattern_length p - latent p) windows threads orders order in
  1 <= latent p < pattern_length p -> 1 <= N -> pattern_length p <= length rows / N -> wide rows c -> c < dim ->
  centred_by p dim N rows windows threads orders order -> components_and_matrices dim (pattern_length p - latent p) comps ms -> aligned_by p dim N rows arrival means comps ms ->
  h < N -> host_coordinates means comps ms (windows h) coords -> In q coords ->
  length q = dim + dim /\ (exists x, nth_error q c = Some x /\ f_nan x = true) /\ (exists y, nth_error q (dim + c) = Some y /\ f_nan y = true) /\
  forall atan2, keeps_nan atan2 -> c < 2 -> 1 <= rate p -> f_segment_of atan2 q (rate p) = Ok 0.
Proof.
  intros p dim N rows c windows threads orders order arrival comps ms h coords q means HL HN HP (row & row' & x & y & Hrow & Hrow' & Ex & Ey & Fx & Fy & Hd) Hc Hcb (Lc & Lm & Sc & _) (Pa & _ & mins & maxs & Hmm & Al) Hh Hco Hq.
  destruct (nth_error_some _ comps c ltac:(lia)) as (comp & Ecomp). destruct (nth_error_some _ ms c ltac:(lia)) as (m & Em).
  destruct (Al c comp m Ecomp Em) as (mn & mx & Emn & Emx & v0 & Rv0 & Av0).
  destruct (collected_extremes p dim N rows arrival mins maxs c HN Pa Hc Hmm) as (mn' & mx' & Emn' & Emx' & Nn & Nx & Q). rewrite Emn in Emn'. injection Emn' as <-. rewrite Emx in Emx'. injection Emx' as <-.
  destruct (Q x) as (_ & _ & Q1 & _); [now exists row|exact Fx|]. destruct (Q y) as (_ & _ & _ & Q2); [now exists row'|exact Fy|].
  assert (Px : place x = f_real x) by (destruct x; try discriminate; reflexivity). assert (Py : place y = f_real y) by (destruct y; try discriminate; reflexivity). rewrite Px in Q1. rewrite Py in Q2.
  destruct (wide_reference p (mn, mx) ltac:(lia)) as (Lr & Nr).
  { apply wide_linspace; cbn [fst snd]; auto. rewrite <- (IZR_Zpower radix2 128) by lia. change (radix2 ^ 128)%Z with (2 ^ 128)%Z. lra. }
  assert (Lmean : length (means c) = pattern_length p - latent p) by (unfold means, channel_means; now rewrite map_length, seq_length).
  assert (Nm : length m = 3 /\ Forall (fun row => length row = 3 /\ Forall (fun x => isnan x) row) m).
  { apply (alignment_nan v0 m Av0). apply (reduced_nought (means c) comp (f_reference p (mn, mx))); [|exact Rv0]. rewrite <- Lmean in Lr. revert Lr Nr. generalize (f_reference p (mn, mx)) (means c). clear.
    induction l as [|a l IH]; intros [|b l'] L Nr; try discriminate; constructor; [apply nan_nought, nan_sub_l, Nr; now left|]. apply IH; [now injection L|]. intros x Hx. apply Nr. now right. }
  destruct (spoiled_point dim (pattern_length p - latent p) means comps ms (windows h) coords c comp m q Hc Lc Lm Sc Ecomp Em Nm Hco Hq) as (A & B & C & D). ssplit; auto.
Qed.

(** So a cluster never finishes. *)
Theorem C108_cluster_waits_refuted : forall atan2 p dim rows c windows threads orders order arrival comps ms coords points early hw, let N := n_cluster_nodes p in
  let means := channel_means (pattern_length p - latent p) windows threads orders order in
  1 <= latent p < pattern_length p -> 2 <= N <= rate p -> pattern_length p <= length rows / N -> wide rows c -> c < dim -> c < 2 -> keeps_nan atan2 ->
  centred_by p dim N rows windows threads orders order -> components_and_matrices dim (pattern_length p - latent p) comps ms -> aligned_by p dim N rows arrival means comps ms ->
  (forall h, h < N -> host_coordinates means comps ms (windows h) (coords h)) ->
  (forall h, h < N -> stored_points atan2 (rate p) (length rows / N * h) (coords h) (points h)) ->
  hreachable p points early hw ->
  (forall k g m, k + 1 < N -> phase_of hw k <> Distributing g m) /\
  forall x, reachable (transition_exchange p hw) x -> (forall k, k + 1 < N -> entered (state x k) = false) -> forall j, j < N -> left (state x j) = 0.
Proof.
  intros atan2 p dim rows c windows threads orders order arrival comps ms coords points early hw N means HL HN HP Hw Hc H2 K Hcb Hcm Hal Hco Hst R.
  assert (Z : forall h x, h < N -> In x (points h) -> pseg x = 0).
  { intros h x Hh Hx. apply (stored_zero atan2 (rate p) (length rows / N * h) (coords h) (points h)); auto. intros q Hq.
    destruct (C108_finite_series_refuted p dim N rows c windows threads orders order arrival comps ms h (coords h) q HL ltac:(lia) HP Hw Hc Hcb Hcm Hal Hh (Hco h Hh) Hq) as (_ & _ & _ & S). apply S; auto. lia. }
  now apply (zero_waits p points early hw).
Qed.

(** One machine, with or without self correction, delivers nothing but values that are no numbers, one for every window. *)
Theorem C108_one_machine_refuted : forall atan2 (sector : list f32 -> nat) (cross : list (list f32) -> list transition -> transition -> nat -> res (list f32)) cluster p dim rows c windows threads orders order arrival comps ms coords,
  let means := channel_means (pattern_length p - latent p) (fun _ => windows) threads orders order in
  1 <= latent p < pattern_length p -> n_cluster_nodes p = 1 -> pattern_length p <= length rows -> wide rows c -> c < dim -> c < 2 -> keeps_nan atan2 -> 1 <= rate p ->
  (forall q s, f_segment_of atan2 q (rate p) = Ok s -> sector q = s) -> (forall q, sector q < rate p) ->
  centred_by p dim 1 rows (fun _ => windows) threads orders order -> components_and_matrices dim (pattern_length p - latent p) comps ms -> aligned_by p dim 1 rows arrival means comps ms ->
  host_coordinates means comps ms windows coords ->
  1 <= query_length p -> 1 <= n_threads p <= length coords - query_length p ->
  exists w0, local_scoring sector f_mirror cross cluster p (length rows) coords = Ok w0 /\ forall w, scoring_run (fun x => f_eq x f_zero) w0 w ->
    (flying w <> [] -> exists w', scoring_step (fun x => f_eq x f_zero) w w') /\
    (flying w = [] -> local_results w = [Ok (repeat B754_nan (length coords - query_length p))]).
Proof.
  intros atan2 sector cross cluster p dim rows c windows threads orders order arrival comps ms coords means HL HN1 HP Hw Hc H2 K Hrate Hsec Hsb Hcb Hcm Hal Hco Hq Hth.
  assert (HP1 : pattern_length p <= length rows / 1) by now rewrite Nat.div_1_r.
  assert (A : forall q, In q coords -> sector q = 0 /\ sector (f_mirror q) = 0).
  { intros q Hin. destruct (C108_finite_series_refuted p dim 1 rows c (fun _ => windows) threads orders order arrival comps ms 0 coords q HL ltac:(lia) HP1 Hw Hc Hcb Hcm Hal ltac:(lia) Hco Hin) as (Lq & (x & Ex & Nx) & _ & S).
    split; [apply Hsec, S; auto|]. apply Hsec. destruct (mirror_nan q c x Ex Nx) as (y & Ey & Ny). apply (segment_nan atan2 (rate p) (f_mirror q) c y); auto. rewrite mirror_length. lia. }
  now apply (zero_is_nan sector cross cluster p dim rows windows coords threads orders order means comps ms).
Qed.

(** What holds: if the difference between the largest and the smallest value of a channel is a single precision number, the reference starts with the smallest value, exactly. *)
Theorem C108_reference_partial : forall s e, f_finite s = true -> f_finite e = true -> f_finite (f_sub e s) = true -> f_finite (f_linspace s e 0) = true /\ f_real (f_linspace s e 0) = f_real s.
Proof.
  intros s e Fs Fe Fd. unfold f_linspace. set (d := f_sub e s) in *.
  assert (D : f_finite (f_div d (f_of_nat 99)) = true).
  { destruct (is_nat 99 ltac:(unfold bound; lia)) as (F99 & R99). apply f_div_ok; [exact Fd|rewrite R99; apply not_0_IZR; discriminate|]. rewrite R99.
    apply Rle_lt_trans with (Rabs (f_real d)); [|apply f_real_lt]. apply Rabs_le. assert (Fa : format (Rabs (f_real d))) by (apply generic_format_abs, f_real_format). assert (Fo : format (- Rabs (f_real d))) by now apply generic_format_opp.
    assert (Q : (- Rabs (f_real d) <= f_real d / IZR (Z.of_nat 99) <= Rabs (f_real d))%R).
    { change (IZR (Z.of_nat 99)) with 99%R. pose proof (Rle_abs (f_real d)). pose proof (Rle_abs (- f_real d)) as N. rewrite Rabs_Ropp in N. split; lra. }
    split; [rewrite <- (rnd_format _ Fo)|rewrite <- (rnd_format _ Fa)]; now apply rnd_mono. }
  assert (M : is (f_mul (f_div d (f_of_nat 99)) (f_of_nat 0)) 0).
  { change (f_of_nat 0) with f_zero. destruct (f_div d (f_of_nat 99)); try discriminate; (split; reflexivity). }
  destruct M as (Fm & Rm). destruct (f_add_ok s _ Fs Fm) as (A & B); rewrite Rm, Rplus_0_r, (rnd_format (f_real s) (f_real_format s)) in *; [apply f_real_lt|auto].
Qed.

(** ** A case: twelve rows on two hosts; the first channel contains the largest and the smallest value of single precision. *)
Definition c108_rows : list (list f32) := [[f_of_nat 1; f_of_nat 4]; [f_largest; f_of_nat 5]; [f_lowest; f_of_nat 2]] ++ map (fun n => [f_of_nat n; f_of_nat 3]) [8; 7; 3; 9; 4; 4; 7; 1; 6].
Example C108_case : wide c108_rows 0 /\ chain c108_rows.
Proof.
  split; [|now apply chain_exists]. exists [f_lowest; f_of_nat 2], [f_largest; f_of_nat 5], f_lowest, f_largest. ssplit; try reflexivity; [cbn; auto|cbn; auto|].
  assert (E : B2SF f_largest = SpecFloat.S754_finite false 16777215 104) by (vm_compute; reflexivity).
  assert (R : f_real f_largest = IZR (16777215 * 2 ^ 104)) by (unfold f_real; rewrite <- SF2R_B2SF, E; cbn [SF2R SpecFloat.cond_Zopp]; unfold F2R; cbn [Fnum Fexp]; rewrite mult_IZR; f_equal).
  assert (R' : f_real f_lowest = (- IZR (16777215 * 2 ^ 104))%R) by (unfold f_lowest, f_real, f_neg; rewrite B2R_Bopp; now rewrite <- R).
  rewrite R, R'. rewrite <- opp_IZR, <- minus_IZR. apply Rle_ge, IZR_le. lia.
Qed.

Print Assumptions C108_finite_series_refuted.
Print Assumptions C108_cluster_waits_refuted.
Print Assumptions C108_one_machine_refuted.
Print Assumptions C108_reference_partial.
