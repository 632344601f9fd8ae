(** C103: a part of the series that rests, on a cluster. *)
From Verif.Pca Require Import Model Spec.
From Coq Require Import List Arith Bool Lia Permutation Reals Lra ZArith.
From Verif.Base Require Import Res Params ListX Float32.
From Verif.Stats Require Import Spec.
From Verif.Reader Require Import Spec.
From Verif.Pca Require Import Gram GramSpec Components ComponentsSpec.
From Verif.PhaseSpace Require Import Model Spec Proofs.
From Verif.Topology Require Import Model Proofs.
From Verif.Transition Require Import Spec.
From Verif.Protocol Require Import Model Exchange ExchangeProofs.
From Verif.Segmentation Require Import Model Spec Proofs PathProofs Handover HandoverProofs HandoverExact.
From Verif.Geometry Require Import Model Spec Proofs Crossing.
From Verif.Front Require Import Model Spec Proofs.
From Verif.Intersections Require Import Real RealSpec.
From Verif.Kde Require Import Real RealSpec.
From Verif.Scoring Require Import Model Spec.
From Verif.Pipeline Require Import Model Spec Cluster RunProofs.
From Verif.Properties Require Import Segmentation Intersections Geometry Crossings Pipeline Analysis.
From Verif.Analysis Require Import Model Spec Proofs Case Resting.
Import ListNotations.
Local Open Scope nat_scope.

(** ** The points of a part that rests *)
Lemma all_equal_repeat : forall A (x : A) l, (forall y, In y l -> y = x) -> l = repeat x (length l).
Proof. intros A x. induction l as [|y l IH]; intros H; [reflexivity|]. cbn [length repeat]. f_equal; [apply H; now left|]. apply IH. intros z Hz. apply H. now right. Qed.
Lemma usable_same_segment : forall rate s l, 1 <= rate -> s < rate -> (forall x, In x l -> pseg x = s) -> usable_pairs rate l = [].
Proof.
  intros rate s l Hr Hs. unfold usable_pairs. induction l as [|a l IH]; intros H; [reflexivity|]. destruct l as [|b l]; [reflexivity|]. cbn [pairs filter].
  assert (U : usable rate (a, b) = false).
  { unfold usable. cbn [fst snd]. rewrite (H a), (H b) by (cbn; tauto). unfold ccw. assert (E : (s + (rate - s)) mod rate = 0) by (replace (s + (rate - s)) with rate by lia; apply Nat.mod_same; lia). rewrite E. reflexivity. }
  rewrite U. apply IH. intros x Hx. apply H. now right.
Qed.
Lemma windows_of_rest : forall p dim row data windows, latent p < pattern_length p -> (forall r, In r data -> r = row) -> embed p dim data = Ok windows -> exists w, forall v, In v windows -> v = w.
Proof.
  intros p dim row data windows HL H E. assert (Hl : pattern_length p - 1 <= length data).
  { unfold embed, phase_space in E. apply bind_ok_inv in E. destruct E as (o & Eo & E). apply bind_ok_inv in E. destruct E as (c & Ec & _). unfold usub in Eo, Ec. destruct (Nat.ltb_spec (pattern_length p) 1); [discriminate|]. injection Eo as <-. destruct (Nat.ltb_spec (length data) (pattern_length p - 1)); [discriminate|assumption]. }
  unfold embed in E. rewrite phase_space_ok in E by assumption. injection E as <-. exists (PhaseSpace.Spec.window (sum_axis dim) (pattern_length p) (latent p) data 0). intros v Hv. unfold PhaseSpace.Spec.embedding in Hv. apply in_map_iff in Hv. destruct Hv as (i & <- & Hi). apply in_seq in Hi.
  rewrite (all_equal_repeat _ row data H) in *. rewrite repeat_length in *. unfold PhaseSpace.Spec.window. apply map_ext_in. intros j Hj. apply in_seq in Hj. f_equal. rewrite !slice_repeat by lia. f_equal. lia.
Qed.
Lemma add_points_same : forall x rate l i ps, (forall y, In y l -> y = x) -> add_points i l rate = Some ps -> exists s, forall q, In q ps -> segment_of x rate = Some s /\ p_segment q = s.
Proof.
  intros x rate l i ps H E. destruct (C61_points_numbered _ _ _ _ E) as (_ & Ec & Fs). destruct ps as [|q0 ps']; [exists 0; intros q []|]. exists (p_segment q0).
  assert (G : forall q, In q (q0 :: ps') -> segment_of x rate = Some (p_segment q)).
  { intros q Hq. rewrite <- (H (p_coordinates q)); [now apply (proj1 (Forall_forall _ _) Fs)|]. rewrite <- Ec. now apply in_map. }
  intros q Hq. split; [apply G; now left|]. pose proof (G q Hq) as A. rewrite (G q0 (or_introl eq_refl)) in A. now injection A.
Qed.
Lemma points_of_rest : forall p dim n hosts k ms pcs row data points, 1 <= rate p -> latent p < pattern_length p -> (forall r, In r data -> r = row) -> host_points p dim n hosts k ms pcs data = Ok points ->
  usable_pairs (rate p) (map as_pt points) = [].
Proof.
  intros p dim n hosts k ms pcs row data points Hr HL H E. unfold host_points in E. apply bind_ok_inv in E. destruct E as (windows & Ew & E). apply bind_ok_inv in E. destruct E as (red & Er & E). apply bind_ok_inv in E. destruct E as (m & _ & E).
  destruct (windows_of_rest p dim row data windows HL H Ew) as (w & Hw). destruct (add_points _ _ (rate p)) as [ps|] eqn:Ea; [|discriminate]. cbn [unwrap] in E. injection E as <-.
  assert (Hred : forall v, In v red -> reduce_window pcs w = Ok v).
  { clear -Er Hw. revert red Er. induction windows as [|x windows IH]; intros red Er v Hv; cbn [mapM] in Er; [injection Er as <-; destruct Hv|]. apply bind_ok_inv in Er. destruct Er as (y & Ey & Er). apply bind_ok_inv in Er. destruct Er as (r & Er & E). injection E as <-.
    destruct Hv as [<-|Hv]; [rewrite <- (Hw x) by (now left); exact Ey|]. apply (IH (fun u Hu => Hw u (or_intror Hu)) r Er v Hv). }
  destruct red as [|v0 red']. { cbn [map add_points] in Ea. injection Ea as <-. reflexivity. }
  destruct (add_points_same (point_coordinates ms v0) (rate p) _ _ _ ltac:(intros y Hy; apply in_map_iff in Hy; destruct Hy as (v & <- & Hv); pose proof (Hred v Hv) as A; rewrite (Hred v0 (or_introl eq_refl)) in A; injection A as <-; reflexivity) Ea) as (s & Hs).
  destruct ps as [|q0 ps']; [reflexivity|]. destruct (Hs q0 (or_introl eq_refl)) as (S0 & _).
  apply (usable_same_segment (rate p) s); [exact Hr| |].
  - unfold segment_of in S0. destruct (point_coordinates ms v0) as [|a [|b c]]; try discriminate. injection S0 as <-. apply segment_range. lia.
  - intros x Hx. apply in_map_iff in Hx. destruct Hx as (q & <- & Hq). apply (Hs q Hq).
Qed.

Lemma host_segments : forall p dim n hosts k ms pcs data points, 1 <= rate p -> host_points p dim n hosts k ms pcs data = Ok points -> segments_ok p (map as_pt points).
Proof.
  intros p dim n hosts k ms pcs data points Hr E. unfold host_points in E. apply bind_ok_inv in E. destruct E as (windows & Ew & E). apply bind_ok_inv in E. destruct E as (red & Er & E). apply bind_ok_inv in E. destruct E as (m & _ & E).
  destruct (add_points _ _ (rate p)) as [ps|] eqn:Ea; [|discriminate]. cbn [unwrap] in E. injection E as <-. destruct (C61_points_numbered _ _ _ _ Ea) as (_ & _ & Fs).
  intros x Hx. apply in_map_iff in Hx. destruct Hx as (q & <- & Hq). pose proof (proj1 (Forall_forall _ _) Fs q Hq) as S0. cbn [as_pt pseg]. unfold segment_of in S0. destruct (p_coordinates q) as [|a [|b c]]; try discriminate. injection S0 as <-. apply segment_range. lia.
Qed.

(** ** What the hosts before it do *)
(** Whatever the order of events, also if first points may arrive before a host has segmented its own points: no first point is ever under way to the host before a part without usable steps, and it never distributes. *)
Lemma never_distributes : forall p part early k hw, 1 <= n_cluster_nodes p <= rate p -> (forall i, i < n_cluster_nodes p -> segments_ok p (part i)) -> k + 1 < n_cluster_nodes p ->
  usable_pairs (rate p) (part (k + 1)) = [] -> hreachable p part early hw ->
  (forall a t, ~ In (k, (a, t)) (first_points hw)) /\ match phase_of hw k with Before | Waiting _ _ => True | _ => False end.
Proof.
  intros p part early k hw HN Hf Hk Hu R. induction R as [|w w' R (I1 & I2) St]; [cbn; tauto|]. destruct St as [w j Hj Hb|w j a t l r En _]; cbn [phase_of first_points].
  - destruct (segments_any p part HN Hf j Hj) as (g & m & Es & _). rewrite Es. cbn [fst snd]. split.
    + intros a t Hin. apply in_app_iff in Hin. destruct Hin as [Hin|Hin]; [now apply (I1 a t)|]. destruct (Nat.eqb_spec j 0) as [->|J0]; [destruct Hin|].
      destruct (message_shape p part j) as [(Em & _)|(a' & t' & Em & _ & _ & Hne)]; rewrite Em in Hin; [destruct Hin|]. destruct Hin as [E|[]]. injection E as E _ _. assert (j = k + 1) by lia. subst j. contradiction.
    + destruct (Nat.eq_dec k j) as [<-|Hne]; [|now rewrite set_other]. rewrite set_same. destruct (Nat.eqb_spec k (n_cluster_nodes p - 1)); [lia|exact I].
  - assert (Hne : k <> j) by (intros <-; apply (I1 a t); rewrite En; apply in_elt). split; [|now rewrite set_other].
    intros a' t' Hin. apply (I1 a' t'). rewrite En. apply in_app_iff in Hin. apply in_app_iff. destruct Hin; [now left|right; now right].
Qed.
(** In an all-to-all exchange in which one host does not take part, no other host gets to the end. *)
Lemma nobody_leaves : forall T (x : exchange T) w k j, reachable x w -> k < hosts x -> entered (state w k) = false -> j < hosts x -> left (state w j) = 0.
Proof.
  intros T x w k j R Hk Ek Hj. destruct (inv_reachable x w R) as (_ & I). destruct (I j Hj) as (Out & In_ & P). destruct (entered (state w j)) eqn:Ej; [|now apply Out].
  destruct (In_ eq_refl) as (_ & ->). assert (Hkj : k <> j) by congruence.
  assert (L : length (incoming x w j) < length (addressees x j)).
  { unfold incoming, addressees. rewrite map_length. assert (G : forall l, length (filter (fun q => entered (state w q) && (to_self x || negb (q =? j))) l) + (if existsb (Nat.eqb k) l then 1 else 0) <= length (filter (fun q => to_self x || negb (q =? j)) l)).
    { induction l as [|q l IH]; [reflexivity|]. cbn [filter existsb]. destruct (Nat.eqb_spec k q) as [<-|Hne].
      - rewrite Ek. cbn [andb orb]. replace (k =? j) with false by (symmetry; now apply Nat.eqb_neq). cbn [negb]. rewrite orb_true_r. cbn [length]. destruct (existsb (Nat.eqb k) l); lia.
      - cbn [orb]. destruct (to_self x || negb (q =? j)); [rewrite andb_true_r; destruct (entered (state w q)); cbn [length]; lia|rewrite andb_false_r; exact IH]. }
    specialize (G (seq 0 (hosts x))). assert (E : existsb (Nat.eqb k) (seq 0 (hosts x)) = true) by (apply existsb_exists; exists k; split; [apply in_seq; lia|apply Nat.eqb_refl]). rewrite E in G. lia. }
  apply Permutation_length in P. rewrite !app_length in P. destruct (Nat.leb_spec (length (addressees x j)) (length (processed (state w j)))); [lia|]. now rewrite andb_false_r.
Qed.

(** ** The series of Analysis/Resting.v on one machine *)
Lemma c103_extremes : extremes 1 c103_rows [(-2)%R] [2%R].
Proof.
  split; [reflexivity|]. split; [reflexivity|]. intros j Hj. assert (j = 0) by lia. subst j. exists (-2)%R, 2%R. split; [reflexivity|]. split; [reflexivity|]. unfold c103_rows. split.
  - split; [exists [-2]%R; split; [cbn; tauto|reflexivity]|]. intros x (row & Hr & E). cbn in Hr. repeat (destruct Hr as [<-|Hr]; [cbn in E; injection E as <-; lra|]). destruct Hr.
  - split; [exists [2]%R; split; [cbn; tauto|reflexivity]|]. intros x (row & Hr & E). cbn in Hr. repeat (destruct Hr as [<-|Hr]; [cbn in E; injection E as <-; lra|]). destruct Hr.
Qed.
Lemma c103_machine : forall inv threads ms, inverse_correct 2 inv -> alignment c103_params [(-2)%R] [2%R] [c103_pc] = Ok ms -> host_points c103_params 1 15 1 0 ms [c103_pc] c103_rows = Ok c103_all -> 1 <= threads <= 11 ->
  exists w0, machine_analysis inv (alone threads c103_params) 1 [(-2)%R] [2%R] [c103_pc] c103_rows = Ok w0 /\ forall w, scoring_run (fun x => f_eq x f_zero) w0 w ->
    (flying w <> [] -> exists w', scoring_step (fun x => f_eq x f_zero) w w') /\ (flying w = [] -> exists out, local_results w = [Ok out] /\ length out = 11).
Proof.
  intros inv threads ms Hinv Ea Eh Hth. destruct (host_points_shape _ _ _ _ _ _ _ _ _ (eq_trans (aligned_length _ _ _ _ _ Ea) eq_refl) eq_refl Eh) as (Hlen & Hseg).
  unfold machine_analysis. rewrite alignment_alone, Ea. cbn [bind]. change (length c103_rows) with 15. rewrite host_points_alone, Eh. cbn [bind].
  set (one := alone threads c103_params) in *. assert (Hid : map p_id c103_all = seq 0 (length c103_all)) by reflexivity. change (rate one) with 4. change (n_threads one) with threads.
  assert (Hts : transitions_of one (r_sector 4) r_flip (map p_coordinates c103_all) = steps_of 4 c103_all) by (unfold transitions_of, followed; cbn [self_correction one alone andb rate]; now rewrite points_at_stored by assumption).
  assert (Hcr : path (rate one) (steps_of 4 c103_all) = crossings_of 4 c103_all) by reflexivity. assert (Lall : length (map p_coordinates c103_all) = 12) by reflexivity.
  assert (Hx : crossings_computed (r_sector 4) r_flip (real_cross inv 4) one (map p_coordinates c103_all) (position_of 1 4 c103_all)).
  { intros t c Ht Hc. unfold followed. cbn [self_correction one alone andb]. rewrite Hts in *. apply (cross_ok 1 4 c103_all Hid Hlen inv Hinv (le_n 1) c103_proper); auto. apply incl_refl. }
  assert (Hcl : clusterings_computed (r_cluster threads) one (path (rate one) (transitions_of one (r_sector 4) r_flip (map p_coordinates c103_all))) (position_of 1 4 c103_all)).
  { rewrite Hts, Hcr. intros s Hs H2. destruct (grouped threads 1 c103_params c103_all ltac:(lia) c103_spread s _ Hs (Permutation_refl _) H2) as (labels & E & L & _). eauto. }
  assert (Hfa : ~ first_across (rate one) (path (rate one) (transitions_of one (r_sector 4) r_flip (map p_coordinates c103_all)))) by (rewrite Hts, Hcr, c103_crossings; intros (i & rest & E); discriminate).
  assert (Hlate : exists t, In t (transitions_of one (r_sector 4) r_flip (map p_coordinates c103_all)) /\ from_id t <> 0) by (rewrite Hts; eexists; split; [vm_compute; right; left; reflexivity|discriminate]).
  destruct (C81_one_machine (r_sector 4) r_flip (real_cross inv 4) (r_cluster threads) one 15 (map p_coordinates c103_all) (position_of 1 4 c103_all) eq_refl ltac:(cbn; lia) ltac:(intros k; apply (sector_bound 4); lia) ltac:(rewrite Lall; lia) ltac:(cbn; lia) ltac:(rewrite Lall; cbn; lia) Hx Hcl Hfa Hlate) as (label & _ & Ho).
  cbv zeta in Ho. destruct Ho as (_ & w0 & E0 & R).
  destruct (C81_delivered (r_sector 4) r_flip (real_cross inv 4) (r_cluster threads) one 15 (map p_coordinates c103_all) (position_of 1 4 c103_all) eq_refl ltac:(cbn; lia) ltac:(intros k; apply (sector_bound 4); lia) ltac:(rewrite Lall; lia) ltac:(cbn; lia) ltac:(rewrite Lall; cbn; lia) Hx Hcl Hfa Hlate ltac:(rewrite Hts, Hcr, c103_crossings; cbn; lia)) as (w1 & E1 & R').
  rewrite E0 in E1. injection E1 as <-. exists w0. split; [exact E0|]. intros w Hw. split; [apply (R w Hw)|]. intros Hf. destruct (R' w Hw Hf) as (out & E & L & _). exists out. split; [exact E|]. rewrite L, Lall. reflexivity.
Qed.

(** ** C103 *)
(** [points h]: the rotated points of host [h] of [N], from its rows [part h].  If the rows of host [k + 1] are all equal, then whatever the order of events, host [k] never comes to distribute its transitions
    (it waits for a first point that is never sent), and as long as it does not, no host gets through the exchange of transitions. *)
Theorem C103_no_host_goes_on : forall p dim n ms pcs part points k row early hw, let N := n_cluster_nodes p in
  2 <= N <= rate p -> latent p < pattern_length p -> (forall h, h < N -> host_points p dim n N h ms pcs (part h) = Ok (points h)) ->
  k + 1 < N -> (forall r, In r (part (k + 1)) -> r = row) ->
  hreachable p (fun h => map as_pt (points h)) early hw ->
  (forall g m, phase_of hw k <> Distributing g m) /\
  forall x, reachable (transition_exchange p hw) x -> entered (state x k) = false -> forall j, j < N -> left (state x j) = 0.
Proof.
  intros p dim n ms pcs part points k row early hw N HN HL Hp Hk Hrow R. assert (Hu : usable_pairs (rate p) (map as_pt (points (k + 1))) = []) by (apply (points_of_rest p dim n N (k + 1) ms pcs row (part (k + 1))); [lia|exact HL|exact Hrow|now apply Hp]).
  assert (Hf : forall i, i < N -> segments_ok p (map as_pt (points i))) by (intros i Hi; apply (host_segments p dim n N i ms pcs (part i)); [lia|now apply Hp]).
  destruct (never_distributes p (fun h => map as_pt (points h)) early k hw ltac:(lia) Hf Hk Hu R) as (_ & Q). split.
  - intros g m E. now rewrite E in Q.
  - intros x Rx Ex j Hj. apply (nobody_leaves _ _ x k j Rx); [cbn; lia|exact Ex|exact Hj].
Qed.
(** So such an analysis does not come to its end. *)
Theorem C103_resting_part_never_finishes : forall inv p dim n mins maxs pcs part k row, let N := n_cluster_nodes p in
  2 <= N <= rate p -> latent p < pattern_length p -> k + 1 < N -> (forall r, In r (part (k + 1)) -> r = row) ->
  ~ cluster_from_rows inv p dim n mins maxs pcs part (fun _ => True).
Proof.
  intros inv p dim n mins maxs pcs part k row N HN HL Hk Hrow H. unfold cluster_from_rows in H. destruct (alignment p mins maxs pcs) as [ms|]; [|exact H]. destruct H as (Ex & H). fold N in Ex, H.
  set (points := fun h => match host_points p dim n N h ms pcs (part h) with Ok l => l | Panic _ => [] end).
  assert (Hp : forall h, h < N -> host_points p dim n N h ms pcs (part h) = Ok (points h)) by (intros h Hh; destruct (Ex h Hh) as (l & E); unfold points; now rewrite E).
  specialize (H points Hp). destruct (handover_completes p (fun h => map as_pt (points h))) as (hw & Rh & Sh). destruct (H hw Rh Sh) as (D & _). destruct (D k) as (g & m & E); [fold N; lia|].
  destruct (C103_no_host_goes_on p dim n ms pcs part points k row false hw HN HL Hp Hk Hrow Rh) as (Q & _). exact (Q g m E).
Qed.
(** One machine finishes with numbers, a cluster of three hosts does not finish: fifteen rows, the components determined, no border run along, no segment crossed at one distance only. *)
Theorem C103_cluster_finishes_refuted : exists p dim rows mins maxs blocks windows svd pcs, let N := n_cluster_nodes p in let part := fun h => partition_of N (pattern_length p - 1) h rows in
  latent p + 3 <= pattern_length p /\ 2 <= N <= rate p /\ pattern_length p <= length rows / N /\ extremes dim rows mins maxs /\
  mapM (fun h => embed p dim (part h)) (seq 0 N) = Ok blocks /\ all_analysed (fun M => M) svd (pattern_length p - latent p) dim (concat blocks) pcs /\
  embed p dim rows = Ok windows /\ windows = concat blocks /\ (forall c, c < dim -> determined (pattern_length p - latent p) (channel c windows)) /\
  (exists ms points, alignment p mins maxs pcs = Ok ms /\ (forall h, h < N -> host_points p dim (length rows) N h ms pcs (part h) = Ok (points h)) /\
     properly_crossed (rate p) (concat (map points (seq 0 N))) /\ segments_spread dim (rate p) (concat (map points (seq 0 N)))) /\
  forall inv, inverse_correct (2 * dim) inv ->
    (exists w0, machine_analysis inv (alone 2 p) dim mins maxs pcs rows = Ok w0 /\ forall w, scoring_run (fun x => f_eq x f_zero) w0 w ->
       (flying w <> [] -> exists w', scoring_step (fun x => f_eq x f_zero) w w') /\ (flying w = [] -> exists out, local_results w = [Ok out] /\ length out = length windows - query_length p)) /\
    ~ cluster_from_rows inv p dim (length rows) mins maxs pcs part (fun _ => True).
Proof.
  destruct c103_host_points as (ms & Ea & Eh & Eo). exists c103_params, 1, c103_rows, [(-2)%R], [2%R], [c103_windows 0; c103_windows 1; c103_windows 2], c103_all_windows, (fun _ => c103_axes), [c103_pc]. cbv zeta. ssplit.
  - cbn; lia.
  - cbn; lia.
  - cbn; lia.
  - cbn; lia.
  - exact c103_extremes.
  - exact c103_hosts.
  - split; [reflexivity|]. intros c pc E. destruct c as [|[|c]]; try discriminate. injection E as <-. exact c103_analysed.
  - exact c103_one.
  - reflexivity.
  - intros c Hc. replace c with 0 by lia. exact c103_determined.
  - exists ms, c103_points. ssplit; [exact Ea|exact Eh|exact c103_proper|exact c103_spread].
  - intros inv Hinv. split.
    + destruct (c103_machine inv 2 ms Hinv Ea Eo ltac:(lia)) as (w0 & E0 & R). exists w0. split; [exact E0|]. intros w Hw. destruct (R w Hw) as (R1 & R2). split; [exact R1|]. intros Hf. destruct (R2 Hf) as (out & E & L). exists out. split; [exact E|exact L].
    + apply (C103_resting_part_never_finishes inv c103_params 1 15 [(-2)%R] [2%R] [c103_pc] _ 0 [(-1)%R]); [cbn; lia|cbn; lia|cbn; lia|].
      intros r Hr. change (partition_of (n_cluster_nodes c103_params) (pattern_length c103_params - 1) (0 + 1) c103_rows) with (repeat [(-1)%R] 8) in Hr. now apply repeat_spec in Hr.
Qed.
Print Assumptions C103_no_host_goes_on.
Print Assumptions C103_resting_part_never_finishes.
Print Assumptions C103_cluster_finishes_refuted.
