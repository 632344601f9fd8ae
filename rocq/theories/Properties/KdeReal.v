(** C86: crossings are grouped by the nearest peaks of the kernel density. *)
From Coq Require Import List Arith Bool Lia Permutation Reals Lra.
From Verif.Base Require Import Res ListX.
From Verif.Stats Require Import Spec.
From Verif.Kde Require Import Model System SystemProofs Real RealSpec RealProofs TwoPoints.
From Verif.Properties Require Import Kde.
Import ListNotations.
Local Open Scope R_scope.

(** At least two crossings with [d] distances each, no distance the same for all: they are labelled without abort, in the order of appearance, and two of them get the same label exactly if their nearest peaks
    of the density coincide in every column. *)
Theorem C86_groups : forall threads d rows, (1 <= threads)%nat -> spread_rows d rows ->
  exists labels, r_cluster threads rows = Ok labels /\ length labels = length rows /\ numbered_by_appearance labels /\
    forall i j r r' l l', nth_error rows i = Some r -> nth_error rows j = Some r' -> nth_error labels i = Some l -> nth_error labels j = Some l' -> (l = l' <-> same_centres d rows r r').
Proof. exact cluster_ok. Qed.
(** The same in any order of messages between the actors of the clustering: when nothing is under way the answer has been sent, and it has these labels. *)
Theorem C86_any_schedule : forall threads d rows columns labels, (1 <= threads)%nat -> spread_rows d rows -> stack_columns rows = Ok columns -> r_cluster threads rows = Ok labels ->
  forall schedule, exists s, run r_gt r_cmp r_dist r_eq (fun _ => true) 0 Rplus (r_grid 250) 1 (r_parts 250 threads) columns schedule = Ok s /\
    (mail s = [] -> exists centres, result s = Some (labels, centres)) /\ (mail s <> [] -> result s = None).
Proof.
  intros threads d rows columns labels Ht H Ec El schedule. unfold r_cluster in El. rewrite Ec in El. cbn [bind] in El. apply bind_ok_inv in El. destruct El as ((l & cs) & E & El). injection El as ->.
  destruct (C50_any_schedule _ _ r_gt r_cmp r_dist r_eq (fun _ => true) 0 Rplus (r_grid 250) 1 (r_parts 250 threads) threads 250 columns (labels, cs) Rplus_comm Rplus_assoc Ht) with (schedule := schedule) as (s & Es & H1 & H2 & _); [|exact E|].
  - intros c ps _ Hp. unfold r_parts in Hp. apply bind_ok_inv in Hp. destruct Hp as (g & Eg & Hp). apply bind_ok_inv in Hp. destruct Hp as (pr & _ & Hp). apply bind_ok_inv in Hp. destruct Hp as (w & _ & Hp). apply bind_ok_inv in Hp. destruct Hp as (rs & Er & Hp). injection Hp as <-.
    destruct (C50_ranges threads (length c) Ht) as (rs' & Er' & L & _). rewrite Er in Er'. injection Er' as <-. split; [now rewrite map_length|]. apply Forall_map, Forall_forall. intros r _. apply part_length. intros i.
    assert (Lg : length g = 250%nat). { unfold r_grid in Eg. apply bind_ok_inv in Eg. destruct Eg as (lo & _ & Eg). apply bind_ok_inv in Eg. destruct Eg as (hi & _ & Eg). injection Eg as <-. unfold r_linspace. now rewrite map_length, seq_length. }
    destruct (nth_error c i); [unfold r_kernel; now rewrite map_length|reflexivity].
  - exists s. ssplit; auto. intros Hm. exists cs. auto.
Qed.
(** The grouping does not depend on the order of the crossings nor on the number of threads. *)
Theorem C86_order : forall threads threads' d rows rows', (1 <= threads)%nat -> (1 <= threads')%nat -> spread_rows d rows -> Permutation rows rows' ->
  exists labels labels', r_cluster threads rows = Ok labels /\ r_cluster threads' rows' = Ok labels' /\ same_groups rows rows' labels labels'.
Proof.
  intros threads threads' d rows rows' Ht Ht' H P. destruct (cluster_ok threads d rows Ht H) as (labels & E & _ & _ & G). destruct (cluster_ok threads' d rows' Ht' (spread_perm d rows rows' P H)) as (labels' & E' & _ & _ & G').
  exists labels, labels'. ssplit; auto. intros i j i' j' r r' l m l' m' A1 A2 A3 A4 B1 B2 B3 B4. rewrite (G i j r r' l m A1 A2 B1 B2), (G' i' j' r r' l' m' A3 A4 B3 B4). split; intros X; [now apply (same_centres_perm d rows)|apply (same_centres_perm d rows'); [now symmetry|exact X]].
Qed.
(** Nor do the labels depend on the units: every column may have a positive factor and an offset of its own. *)
Theorem C86_units : forall threads threads' d a b rows rows', (1 <= threads)%nat -> (1 <= threads')%nat -> spread_rows d rows -> (forall k, (k < d)%nat -> 0 < a k) -> converted d a b rows rows' ->
  exists labels, r_cluster threads rows = Ok labels /\ r_cluster threads' rows' = Ok labels.
Proof.
  intros threads threads' d a b rows rows' Ht Ht' H Ha C. destruct (cluster_ok threads d rows Ht H) as (labels & E & L & N & G). destruct (cluster_ok threads' d rows' Ht' (converted_spread d a b rows rows' Ha C H)) as (labels' & E' & L' & N' & G').
  exists labels. split; [exact E|]. rewrite E'. f_equal. assert (Lr : length rows = length rows') by (clear -C; induction C; cbn; lia). apply numbering_unique; auto; [lia|]. intros i j x y x' y' A1 A2 B1 B2.
  assert (Hi : (i < length rows')%nat) by (rewrite <- L'; apply nth_error_Some; congruence). assert (Hj : (j < length rows')%nat) by (rewrite <- L'; apply nth_error_Some; congruence).
  destruct (nth_error rows i) as [r|] eqn:Er; [|apply nth_error_None in Er; lia]. destruct (nth_error rows j) as [s|] eqn:Es; [|apply nth_error_None in Es; lia].
  destruct (nth_error rows' i) as [r'|] eqn:Er'; [|apply nth_error_None in Er'; lia]. destruct (nth_error rows' j) as [s'|] eqn:Es'; [|apply nth_error_None in Es'; lia].
  rewrite (G' i j r' s' x y Er' Es' A1 A2), (G i j r s x' y' Er Es B1 B2). symmetry. apply (converted_centres d a b rows rows' i j); auto.
Qed.
(** Never aborts: refuted, by any column with a single value, and by nothing else. *)
Theorem C86_aborts_iff_constant_refuted : forall threads d rows, (1 <= threads)%nat -> (1 <= d)%nat -> (2 <= length rows)%nat -> Forall (fun r => length r = d) rows ->
  r_cluster threads rows = Panic UnwrapNone <-> exists k x, (k < d)%nat /\ forall y, In y (column k rows) -> y = x.
Proof.
  intros threads d rows Ht Hd L2 Hl. split; [|intros (k & x & Hk & Hx); now apply (cluster_aborts threads d rows k x)]. intros E.
  assert (Hne : rows <> []) by (intros ->; cbn in L2; lia).
  assert (D : forall m, (m <= d)%nat -> (exists k x, (k < m)%nat /\ forall y, In y (column k rows) -> y = x) \/ forall k, (k < m)%nat -> spread (column k rows)).
  { induction m as [|m IH]; intros Hm; [right; lia|]. destruct IH as [(k & x & Hk & Hx)|S]; [lia|left; exists k, x; split; [lia|exact Hx]|]. destruct (constant_or_spread (column m rows)) as [S'|(x & Hx)].
    - unfold column. intros Z. apply map_eq_nil in Z. contradiction.
    - right. intros k Hk. destruct (Nat.eq_dec k m) as [->|N]; [exact S'|apply S; lia].
    - left. exists m, x. split; [lia|exact Hx]. }
  destruct (D d (le_n d)) as [X|S]; [exact X|]. destruct (cluster_ok threads d rows Ht) as (labels & E' & _); [unfold spread_rows; now ssplit|]. rewrite E in E'. discriminate.
Qed.
(** Every crossing gets a peak of the density as its centre: refuted.  With two crossings the density, evaluated at an even number of symmetrical positions, has no position denser than both neighbours;
    the centre is 0 for both, and they always share a label. *)
Theorem C86_two_crossings_no_peak_refuted : forall threads d r r', (1 <= threads)%nat -> (1 <= d)%nat -> length r = d -> length r' = d -> (forall k, (k < d)%nat -> nth k r 0 <> nth k r' 0) ->
  r_cluster threads [r; r'] = Ok [0; 0]%nat /\ forall k g, (k < d)%nat -> ~ density_peak (column k [r; r']) g /\ centre (column k [r; r']) (nth k r 0) 0.
Proof.
  intros threads d r r' Ht Hd L L' N.
  assert (NP : forall k g, (k < d)%nat -> ~ density_peak (column k [r; r']) g).
  { intros k g Hk P. unfold column in P. cbn [map] in P. destruct (Rdichotomy _ _ (N k Hk)) as [A|A]; [exact (no_peak_two _ _ g A P)|]. apply (no_peak_two _ _ g A). apply (peak_perm _ _ g (perm_swap _ _ _) P). }
  assert (Sp : spread_rows d [r; r']).
  { unfold spread_rows. ssplit; [exact Hd|cbn; lia|repeat constructor; assumption|]. intros k Hk. exists (nth k r 0), (nth k r' 0). cbn. ssplit; auto. }
  assert (C : forall k x, (k < d)%nat -> centre (column k [r; r']) x 0) by (intros k x Hk; right; split; [intros g; now apply NP|reflexivity]).
  split; [|intros k g Hk; split; auto]. destruct (cluster_ok threads d [r; r'] Ht Sp) as (labels & E & Ll & Nu & G). rewrite E. f_equal. destruct labels as [|l [|m [|? ?]]]; cbn in Ll; try lia.
  assert (l = 0)%nat. { destruct l as [|l]; [reflexivity|]. destruct (Nu 0%nat (S l) l eq_refl ltac:(lia)) as (j & Hj & _). lia. } subst l.
  assert (0 = m)%nat by (apply (G 0 1 r r' 0 m)%nat; auto; intros k Hk; exists 0; auto). now subst m.
Qed.
(** Five crossings with two distances each meet the hypotheses; in other units; in another order; two crossings. *)
Definition c86_rows : list (list R) := [[1; 2]; [3; 2]; [1; 5]; [2; 2]; [4; 7]].
Example C86_case : spread_rows 2 c86_rows /\ converted 2 (fun k => match k with O => 100 | _ => 3 end) (fun k => match k with O => -1 | _ => 0 end) c86_rows [[99; 6]; [299; 6]; [99; 15]; [199; 6]; [399; 21]] /\
  spread_rows 2 [[1; 2]; [3; 5]] /\ r_cluster 3 [[1; 2]; [3; 5]] = Ok [0; 0]%nat /\ r_cluster 3 [[1; 2]; [3; 2]; [4; 2]] = Panic UnwrapNone.
Proof.
  assert (K : forall k, (k < 2)%nat -> k = 0%nat \/ k = 1%nat) by lia. ssplit.
  - unfold spread_rows. ssplit; [lia|cbn; lia|repeat constructor|]. intros k Hk. destruct (K k Hk) as [->| ->]; cbn; [exists 1, 3|exists 2, 5]; ssplit; auto; lra.
  - unfold converted, c86_rows. repeat (constructor; [split; [reflexivity|]; intros k Hk; destruct (K k Hk) as [->| ->]; cbn [nth]; lra|]). constructor.
  - unfold spread_rows. ssplit; [lia|cbn; lia|repeat constructor|]. intros k Hk. destruct (K k Hk) as [->| ->]; cbn; [exists 1, 3|exists 2, 5]; ssplit; auto; lra.
  - apply (C86_two_crossings_no_peak_refuted 3 2); try reflexivity; try lia. intros k Hk. destruct (K k Hk) as [->| ->]; cbn [nth]; lra.
  - apply (C86_aborts_iff_constant_refuted 3 2); try lia; [cbn; lia|repeat constructor|]. exists 1%nat, 2. split; [lia|]. cbn. intros y Hy. intuition auto.
Qed.
Print Assumptions C86_groups. Print Assumptions C86_any_schedule. Print Assumptions C86_order. Print Assumptions C86_units. Print Assumptions C86_aborts_iff_constant_refuted. Print Assumptions C86_two_crossings_no_peak_refuted.
