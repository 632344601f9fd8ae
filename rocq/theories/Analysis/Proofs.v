(** The parts of the analysis fit together. *)
From Coq Require Import List Arith Bool Lia Permutation Reals Lra.
From Verif.Base Require Import Res Params ListX.
From Verif.Transition Require Import Spec.
From Verif.Segmentation Require Import Model Spec PathProofs.
From Verif.Geometry Require Import Model Spec Proofs Crossing.
From Verif.Intersections Require Import Real RealSpec RealProofs.
From Verif.Kde Require Import Real RealSpec RealProofs.
From Verif.Pipeline Require Import Spec Proofs ClusterSpec.
From Verif.Properties Require Import KdeReal Crossings Pipeline.
From Verif.Analysis Require Import Model Spec.
Import ListNotations.
Local Open Scope nat_scope.

Lemma sector_bound : forall rate c, 1 <= rate -> r_sector rate c < rate.
Proof. intros rate c Hr. unfold r_sector. destruct c as [|x [|y c]]; [lia|lia|]. apply segment_range. lia. Qed.
Lemma numbered_pair : forall (l : list pt) a b i, map pid l = seq i (length l) -> In (a, b) (pairs l) -> pid b = S (pid a) /\ i <= pid a /\ pid b < i + length l.
Proof.
  induction l as [|x l IH]; [intros ? ? ? ? []|]. intros a b i H Hin. cbn [map length seq] in H. injection H as Hx Hl. destruct l as [|y l]; [destruct Hin|]. destruct Hin as [E|Hin].
  - injection E as <- <-. cbn [map length seq] in Hl. injection Hl as Hy _. cbn [length]. lia.
  - specialize (IH a b (S i) Hl Hin). cbn [length] in *. lia.
Qed.

Section Points.
Variables (dim rate : nat) (points : list point).
Hypothesis Hid : map p_id points = seq 0 (length points).
Hypothesis Hlen : Forall (fun q => length (p_coordinates q) = 2 * dim) points.

Lemma series_ids : map pid (map as_pt points) = seq 0 (length (map as_pt points)).
Proof. rewrite map_map, map_length. exact Hid. Qed.
Lemma step_ends : forall t, In t (steps_of rate points) -> pid (snd t) = S (pid (fst t)) /\ S (pid (fst t)) < length points.
Proof.
  intros (a & b) Ht. unfold steps_of, usable_pairs in Ht. apply filter_In in Ht. destruct Ht as (Ht & _). pose proof (numbered_pair _ _ _ _ series_ids Ht) as (E & _ & B). rewrite map_length in B. cbn [fst snd]. lia.
Qed.
Lemma coords_ends : forall t, In t (steps_of rate points) ->
  ends_at (map p_coordinates points) t (nth (pid (fst t)) (map p_coordinates points) []) (nth (S (pid (fst t))) (map p_coordinates points) []).
Proof. intros t Ht. destruct (step_ends t Ht) as (E & B). split; [|rewrite E]; apply nth_error_nth'; rewrite map_length; lia. Qed.
Lemma held_ok : forall held, incl held (steps_of rate points) -> held_points dim (map p_coordinates points) held.
Proof. intros held H. split; [apply Forall_map; exact Hlen|]. intros t Ht. do 2 eexists. apply coords_ends. now apply H. Qed.

Variable inv : (nat -> nat -> R) -> option (nat -> nat -> R).
Hypothesis Hinv : inverse_correct (2 * dim) inv.
Hypothesis Hdim : 1 <= dim.
Hypothesis Hprop : properly_crossed rate points.
Lemma cross_ok : forall held t c, incl held (steps_of rate points) -> In t held -> In c (visits rate t) ->
  real_cross inv rate (map p_coordinates points) held t (snd c) = Ok (position_of dim rate points c).
Proof.
  intros held t c Hh Ht Hc. pose proof (coords_ends t (Hh t Ht)) as E. assert (Ef : fst c = pid (fst t)) by (unfold visits in Hc; apply in_map_iff in Hc; destruct Hc as (lag & <- & _); reflexivity).
  assert (Hin : In c (crossings_of rate points)) by (unfold crossings_of, path; apply in_concat; exists (visits rate t); split; [apply in_map; now apply Hh|exact Hc]).
  specialize (Hprop c Hin). rewrite Ef in Hprop. destruct (C87_crossing dim inv rate _ held t (snd c) _ _ Hdim Hinv (held_ok held Hh) Ht E) as (A & _). unfold position_of. rewrite Ef. apply A. exact Hprop.
Qed.
End Points.

(** ** Grouping *)
Lemma cluster_threads : forall threads threads' d rows, 1 <= threads -> 1 <= threads' -> spread_rows d rows -> r_cluster threads rows = r_cluster threads' rows.
Proof.
  intros threads threads' d rows Ht Ht' H. destruct (cluster_ok threads d rows Ht H) as (labels & E & L & Nu & G). destruct (cluster_ok threads' d rows Ht' H) as (labels' & E' & L' & Nu' & G'). rewrite E, E'. f_equal.
  apply numbering_unique; auto; [lia|]. intros i j x y x' y' A1 A2 B1 B2.
  assert (Hi : i < length rows) by (rewrite <- L; apply nth_error_Some; congruence). assert (Hj : j < length rows) by (rewrite <- L; apply nth_error_Some; congruence).
  destruct (nth_error rows i) as [r|] eqn:Er; [|apply nth_error_None in Er; lia]. destruct (nth_error rows j) as [s|] eqn:Es; [|apply nth_error_None in Es; lia].
  rewrite (G i j r s x y Er Es A1 A2), (G' i j r s x' y' Er Es B1 B2). tauto.
Qed.
Lemma grouped : forall threads dim p points, 1 <= threads -> segments_spread dim (rate p) points ->
  grouped_in_every_order (r_cluster threads) p (crossings_of (rate p) points) (position_of dim (rate p) points)
    (fun c c' => same_centres dim (map (position_of dim (rate p) points) (in_segment (snd c) (crossings_of (rate p) points))) (position_of dim (rate p) points c) (position_of dim (rate p) points c')).
Proof.
  intros threads dim p points Ht Hsp s rows Hs P H2. set (pos := position_of dim (rate p) points) in *. set (all := in_segment s (crossings_of (rate p) points)) in *.
  assert (S0 : spread_rows dim (map pos all)) by (apply Hsp; [exact Hs|]; fold all; now rewrite <- (Permutation_length P)).
  assert (P' : Permutation (map pos all) (map pos rows)) by (apply Permutation_map; now symmetry).
  destruct (cluster_ok threads dim (map pos rows) Ht (spread_perm dim _ _ P' S0)) as (labels & E & L & _ & G). exists labels. rewrite map_length in L. ssplit; auto.
  intros a b c c' l l' Ha Hb Hl Hl'. rewrite (G a b (pos c) (pos c') l l' (map_nth_error pos _ _ Ha) (map_nth_error pos _ _ Hb) Hl Hl').
  assert (Ec : snd c = s) by (apply nth_error_In in Ha; apply (Permutation_in _ P) in Ha; apply filter_In in Ha; destruct Ha as (_ & Ha); now apply Nat.eqb_eq in Ha). rewrite Ec. fold all.
  split; intros X; [apply (same_centres_perm dim (map pos rows)); [now symmetry|exact X]|now apply (same_centres_perm dim (map pos all))].
Qed.
