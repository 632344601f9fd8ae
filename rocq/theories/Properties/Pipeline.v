(** C81: the analysis of one machine, from the rotated points to the delivered scores. *)
From Coq Require Import List Arith Bool Lia Permutation Sorting.Sorted Reals ZArith.
From Flocq Require Import IEEE754.BinarySingleNaN.
From Verif.Base Require Import Res Params ListX Float32.
From Verif.Segmentation Require Import Model Spec PathProofs.
From Verif.Intersections Require Import Model Proofs.
From Verif.Nodes Require Import Model Spec.
From Verif.Edges Require Import Model Spec.
From Verif.Transposition Require Import Spec.
From Verif.Scoring Require Import Model Spec WeightProofs AssembleProofs.
From Verif.Normalize Require Import Model.
From Verif.Pipeline Require Import Model Spec Proofs.
From Verif.Properties Require Import Segmentation Edges Intersections Nodes Scoring Normalize.
Import ListNotations.
Local Open Scope nat_scope.

Section OneMachine.
Context {K C : Type}.
Variables (sector : K -> nat) (flip : K -> K) (cross : list K -> list transition -> transition -> nat -> res C) (cluster : list C -> res (list nat)).

(** The computation of every crossing that is needed succeeds: [pos c] is where the series crosses into segment [snd c] after point [fst c]. *)
Definition crossings_computed (p : params) (coords : list K) (pos : nat * nat -> C) : Prop :=
  let ts := transitions_of p sector flip coords in
  forall t c, In t ts -> In c (visits (rate p) t) -> cross (followed p sector flip coords) ts t (snd c) = Ok (pos c).
(** The clustering of the crossings of every segment with at least two of them gives one label per crossing. *)
Definition clusterings_computed (p : params) (crossed : list (nat * nat)) (pos : nat * nat -> C) : Prop :=
  forall s, s < rate p -> 2 <= length (in_segment s crossed) -> exists labels, cluster (map pos (in_segment s crossed)) = Ok labels /\ length labels = length (in_segment s crossed).
(** [label] is what the clustering says; alone in its segment a crossing has label 0. *)
Definition labelled_by_clustering (p : params) (crossed : list (nat * nat)) (pos : nat * nat -> C) (label : nat -> nat -> nat) : Prop :=
  (forall s, s < rate p -> 2 <= length (in_segment s crossed) -> cluster (map pos (in_segment s crossed)) = Ok (map (fun c => label (fst c) s) (in_segment s crossed))) /\
  (forall s i, s < rate p -> in_segment s crossed = [(i, s)] -> label i s = 0).

Lemma local_nodes : forall p coords pos, n_cluster_nodes p = 1 -> 1 <= rate p -> (forall k, sector k < rate p) ->
  let ts := transitions_of p sector flip coords in let crossed := path (rate p) ts in
  crossings_computed p coords pos -> clusterings_computed p crossed pos ->
  exists label store nodes, labelled_by_clustering p crossed pos label /\ start_stage (cross (followed p sector flip coords)) p 0 [] ts = Ok (store, []) /\
    create_nodes cluster p 0 store = Ok nodes /\ stored_by_segment p 0 (walk label (rate p) ts) nodes.
Proof.
  intros p coords pos HN Hr Hs ts crossed Hx Hcl. set (f := followed p sector flip coords) in *. assert (HN' : 1 <= n_cluster_nodes p <= rate p) by lia.
  pose proof (points_segments K sector p f Hs) as Hok. unfold transitions_of in ts. fold f in ts.
  destruct (C80_one_machine C (cross f) p (points_at sector f) HN Hr Hok) as (store & Est & Ekeys & Hsrc).
  { intros t s Ht Hv. exists (pos (from_id t, s)). exact (Hx t (from_id t, s) Ht Hv). }
  fold ts in Est, Ekeys, Hsrc. fold crossed in Ekeys.
  assert (Hpos : forall c, In c store -> c_coordinates c = pos (c_id c, c_segment c)).
  { intros c Hc. destruct (Hsrc c Hc) as (t & Ht & _ & Hv & E). pose proof (Hx t _ Ht Hv) as E'. unfold transitions_of in E'. fold f in E'. fold ts in E'. cbn [snd] in E'. rewrite E in E'. now injection E'. }
  assert (Hu : forall t, In t ts -> usable (rate p) t = true) by (intros t Ht; unfold ts, usable_pairs in Ht; now apply filter_In in Ht).
  assert (ND : NoDup crossed).
  { apply (path_nodup p HN'); [exact Hu|]. apply (pairs_ids_nodup p). rewrite points_ids. apply seq_NoDup. }
  assert (Hb : forall c, In c crossed -> snd c < rate p).
  { intros c Hc. apply path_source in Hc. destruct Hc as (t & _ & Hc). unfold visits in Hc. apply in_map_iff in Hc. destruct Hc as (lag & <- & _). cbn [snd]. apply Nat.mod_upper_bound. lia. }
  assert (Own : forall s, owner p s = 0) by (intros s; unfold owner; rewrite HN; now rewrite Nat.min_0_r).
  assert (Hrows : forall s, map (fun c => (c_id c, c_segment c)) (filter (fun c => c_segment c =? s) store) = in_segment s crossed).
  { intros s. unfold in_segment. rewrite <- Ekeys. clear. induction store as [|c l IH]; [reflexivity|]. cbn [filter map snd]. destruct (c_segment c =? s); cbn [map]; now rewrite IH. }
  assert (Hcoord : forall s, map c_coordinates (filter (fun c => c_segment c =? s) store) = map pos (in_segment s crossed)).
  { intros s. rewrite <- Hrows, map_map. apply map_ext_in. intros c Hc. apply filter_In in Hc. now apply Hpos. }
  assert (Hlen : forall s, length (filter (fun c => c_segment c =? s) store) = length (in_segment s crossed)) by (intros s; rewrite <- Hrows; now rewrite map_length).
  destruct (C68_one_node_per_crossing C cluster p crossed (fun _ => store) HN' ND Hb) as (label & Hn & Hlab & Hone).
  - intros h Hh. unfold holds_crossings. rewrite Ekeys. replace h with 0 by lia. rewrite filter_all_true by (intros c _; now rewrite Own). symmetry. apply Permutation_rev.
  - intros s Hlt H2. rewrite Hlen in H2. destruct (Hcl s Hlt H2) as (labels & El & Ll). exists labels. rewrite Hlen, Hcoord. now split.
  - destruct (Hn 0 ltac:(lia)) as (nodes & En & Hst & _). exists label, store, nodes. ssplit; [|exact Est|exact En|exact Hst]. split.
    + intros s Hlt H2. specialize (Hlab s Hlt). rewrite Hlen, Hcoord in Hlab. specialize (Hlab H2). rewrite Hlab. f_equal. rewrite <- Hrows, map_map. reflexivity.
    + intros s i Hlt E. pose proof (Hrows s) as R. rewrite E in R. destruct (filter (fun c => c_segment c =? s) store) as [|c [|c' l]] eqn:Ef; try discriminate. cbn [map] in R. injection R as Ei Ec. rewrite <- Ei. apply (Hone s c Hlt Ef).
Qed.

Lemma starts_first_across : forall label r ts, starts_across r (walk label r ts) <-> first_across r (path r ts).
Proof.
  intros label r ts. unfold walk, starts_across, first_across. generalize (path r ts). intros l. split.
  - intros (x & y & rest & E & Hx & Hy & Hf). destruct l as [|[i s] [|[j u] l]]; try discriminate. cbn [map] in E. injection E as Ex Ey Er. subst x y. cbn in *. subst. eauto.
  - intros (i & rest & ->). cbn [map]. do 3 eexists. ssplit; reflexivity.
Qed.

(** ** C81 *)
(** The edges are the steps of the walk through the labelled crossings; the scores are those of its windows, whatever the number of threads and the order of their answers. *)
Theorem C81_one_machine : forall p n coords pos, n_cluster_nodes p = 1 -> 1 <= rate p -> (forall k, sector k < rate p) -> length coords <= n ->
  1 <= query_length p -> 1 <= n_threads p <= length coords - query_length p ->
  let ts := transitions_of p sector flip coords in let crossed := path (rate p) ts in
  crossings_computed p coords pos -> clusterings_computed p crossed pos ->
  ~ first_across (rate p) crossed -> (exists t, In t ts /\ from_id t <> 0) ->
  exists label, labelled_by_clustering p crossed pos label /\
    let edges := pairs (walk label (rate p) ts) in
    let windows := map (fun i => map (edge_term edges) (window_edges edges (query_length p) i)) (seq 0 (length coords - query_length p)) in
    local_edges sector flip cross cluster p n coords = Ok edges /\
    exists w0, local_scoring sector flip cross cluster p n coords = Ok w0 /\ forall w, scoring_run (fun x => f_eq x f_zero) w0 w ->
      (flying w <> [] -> exists w', scoring_step (fun x => f_eq x f_zero) w w') /\
      (flying w = [] -> local_results w = [normalize_score (carry score_value f_zero windows)]).
Proof.
  intros p n coords pos HN Hr Hs Hn Hq Hth ts crossed Hx Hcl Hfa Hlate.
  destruct (local_nodes p coords pos HN Hr Hs Hx Hcl) as (label & store & nodes & Hl & Est & En & Hst). fold ts in Est, Hst. exists label. split; [exact Hl|]. cbv zeta.
  set (f := followed p sector flip coords) in *. assert (Lf : length f = length coords) by apply followed_length.
  pose proof (points_segments K sector p f Hs) as Hok. pose proof (points_numbered K sector n f ltac:(lia)) as Hnum.
  assert (Hts : ts = usable_pairs (rate p) (points_at sector f)) by reflexivity. rewrite Hts in Hst.
  destruct (C36_aborts_exactly_if p label n _ nodes HN Hr Hok Hnum Hst) as (_ & (_ & Ha)). rewrite <- Hts in *. 
  destruct Ha as (edges & Ee); [intros Sa; apply Hfa; now apply starts_first_across in Sa|].
  pose proof Hst as Hst'. rewrite Hts in Hst'. destruct (C37_single_machine_walk p label n _ nodes edges HN Hr Hok Hnum Hst' Ee) as (E & _). rewrite <- Hts in E. subst edges.
  destruct (numbered_pairs p n _ Hnum) as (Sorted & _). rewrite <- Hts in Sorted.
  assert (EL : local_edges sector flip cross cluster p n coords = Ok (pairs (walk label (rate p) ts))).
  { unfold local_edges. rewrite local_segmentation_ok by assumption. cbn [bind]. fold f ts. rewrite Est. cbn [bind]. rewrite En. cbn [bind]. exact Ee. }
  split; [exact EL|]. set (edges := pairs (walk label (rate p) ts)) in *.
  assert (Hasc : ascending edges) by now apply walk_ascending.
  assert (Hto : forall e, In e edges -> to_id e < length coords - 1).
  { intros e He. apply edge_id_source in He. destruct He as (t & Ht & ->). rewrite Hts in Ht. apply from_id_bound in Ht. lia. }
  assert (Hpos : edges <> [] -> exists e, In e edges /\ to_id e <> 0).
  { apply later_edge; [exact Sorted| |exact Hlate]. intros t Ht. rewrite Hts in Ht. unfold usable_pairs in Ht. now apply filter_In in Ht. }
  destruct (C42_no_abort edges (length coords) (query_length p) Hasc Hto Hpos Hq ltac:(lia) ltac:(lia)) as (g & Eg & _ & _).
  destruct (C43_independent_of_threads f32 f_zero (fun x => f_eq x f_zero) score_value edges (length coords) (query_length p) (n_threads p) g eq_refl Hasc Hto Hpos Hq ltac:(lia) ltac:(lia) Eg) as (w0 & E0 & R).
  exists w0. split; [unfold local_scoring; rewrite EL; cbn [bind]; rewrite Eg; cbn [bind]; exact E0|].
  intros w Hw. destruct (R w Hw) as (_ & _ & R1 & R2). split; [exact R1|]. intros Hf. specialize (R2 Hf). unfold local_results.
  destruct (c_delivered (collecting w)) as [|[raw flag] [|? ?]]; try discriminate. cbn [map] in *. injection R2 as ->. reflexivity.
Qed.

(** The analysis aborts exactly if the first followed transition crosses into the last segment and then into segment 0. *)
Theorem C81_aborts_if_first_across : forall p n coords pos, n_cluster_nodes p = 1 -> 1 <= rate p -> (forall k, sector k < rate p) -> length coords <= n ->
  let ts := transitions_of p sector flip coords in let crossed := path (rate p) ts in
  crossings_computed p coords pos -> clusterings_computed p crossed pos ->
  first_across (rate p) crossed -> local_scoring sector flip cross cluster p n coords = Panic UnwrapNone.
Proof.
  intros p n coords pos HN Hr Hs Hn ts crossed Hx Hcl Hfa.
  destruct (local_nodes p coords pos HN Hr Hs Hx Hcl) as (label & store & nodes & Hl & Est & En & Hst). fold ts in Est, Hst.
  set (f := followed p sector flip coords) in *. assert (Lf : length f = length coords) by apply followed_length.
  pose proof (points_segments K sector p f Hs) as Hok. pose proof (points_numbered K sector n f ltac:(lia)) as Hnum.
  assert (Hts : ts = usable_pairs (rate p) (points_at sector f)) by reflexivity. rewrite Hts in Hst.
  destruct (C36_aborts_exactly_if p label n _ nodes HN Hr Hok Hnum Hst) as ((_ & Ha) & _). rewrite <- Hts in *. rewrite starts_first_across in Ha. specialize (Ha Hfa).
  unfold local_scoring, local_edges. rewrite local_segmentation_ok by assumption. cbn [bind]. fold f ts. rewrite Est. cbn [bind]. rewrite En. cbn [bind]. rewrite Ha. reflexivity.
Qed.

(** The normalized scores of the windows of a graph. *)
Lemma delivered_range : forall edges q m, (Z.of_nat (length edges) <= 2 ^ 24)%Z -> 1 <= m ->
  exists out, normalize_score (carry score_value f_zero (map (fun i => map (edge_term edges) (window_edges edges q i)) (seq 0 m))) = Ok out /\ length out = m /\
    ((forall y, In y out -> f_finite y = true /\ (0 <= f_real y <= 1)%R) \/ (forall y, In y out -> y = B754_nan)).
Proof.
  intros edges q m HE Hm. set (windows := map _ (seq 0 m)). set (raw := carry score_value f_zero windows).
  assert (Lraw : length raw = m) by (unfold raw; rewrite Scoring.CollectProofs.carry_length; unfold windows; now rewrite map_length, seq_length).
  assert (B : forall x, In x raw -> f_finite x = true /\ (f_real x <= 0)%R).
  { apply (carry_all (fun x => f_finite x = true /\ (f_real x <= 0)%R)).
    - split; [reflexivity|]. cbn. apply Rle_refl.
    - intros ws Hin Hne. apply in_map_iff in Hin. destruct Hin as (i & <- & _). apply C72_not_positive.
      + rewrite map_length. pose proof (window_length edges (q) i). destruct (window_edges edges (q) i); [exfalso; apply Hne; reflexivity|]. cbn [length] in *. unfold edge in *. lia.
      + intros x Hin. apply in_map_iff in Hin. destruct Hin as (e & <- & _). now apply edge_term_bound. }
  assert (Dec : (exists x y, In x raw /\ In y raw /\ f_real x <> f_real y) \/ (forall x y, In x raw -> In y raw -> f_real x = f_real y)).
  { clear. assert (G : forall a l, (exists y, In y l /\ f_real a <> f_real y) \/ (forall y, In y l -> f_real a = f_real y)).
    { intros a. induction l as [|y l IH]; [right; intros ? []|]. destruct (Req_dec (f_real a) (f_real y)) as [E|E]; [|left; exists y; split; [now left|exact E]].
      destruct IH as [(z & Hz & Nz)|A]; [left; exists z; split; [now right|exact Nz]|]. right. intros z [<-|Hz]; auto. }
    destruct raw as [|a l]; [right; intros ? ? []|]. destruct (G a (a :: l)) as [(y & Hy & Ny)|A]; [left; exists a, y; ssplit; auto; now left|]. right. intros x y Hx Hy. rewrite <- (A x Hx). now apply A. }
  destruct Dec as [Hd|He].
  - destruct (C46_normalized raw) as (g & En & P).
    + intros x Hin. now apply B.
    + exact Hd.
    + intros x y Hin Hin'. apply C46_no_overflow; now apply B.
    + exists (map g raw). rewrite En. ssplit; [reflexivity|now rewrite map_length|]. left. intros y Hy. apply in_map_iff in Hy. destruct Hy as (x & <- & Hin). destruct (P x Hin) as (F & I & _). now split.
  - exists (repeat B754_nan (length raw)). assert (Hne : raw <> []) by (intros E; rewrite E in Lraw; cbn in Lraw; lia).
    rewrite (C46_equal_scores_are_nan_refuted raw Hne (fun x Hin => proj1 (B x Hin)) He). ssplit; [reflexivity|now rewrite repeat_length|]. right. intros y Hy. now apply repeat_spec in Hy.
Qed.

(** What is delivered has one entry per window; all are numbers from 0 to 1, or, if all raw scores are equal, all are NaN. *)
Theorem C81_delivered : forall p n coords pos, n_cluster_nodes p = 1 -> 1 <= rate p -> (forall k, sector k < rate p) -> length coords <= n ->
  1 <= query_length p -> 1 <= n_threads p <= length coords - query_length p ->
  let ts := transitions_of p sector flip coords in let crossed := path (rate p) ts in
  crossings_computed p coords pos -> clusterings_computed p crossed pos ->
  ~ first_across (rate p) crossed -> (exists t, In t ts /\ from_id t <> 0) -> (Z.of_nat (length crossed) <= 2 ^ 24)%Z ->
  exists w0, local_scoring sector flip cross cluster p n coords = Ok w0 /\ forall w, scoring_run (fun x => f_eq x f_zero) w0 w -> flying w = [] ->
    exists out, local_results w = [Ok out] /\ length out = length coords - query_length p /\
      ((forall y, In y out -> f_finite y = true /\ (0 <= f_real y <= 1)%R) \/ (forall y, In y out -> y = B754_nan)).
Proof.
  intros p n coords pos HN Hr Hs Hn Hq Hth ts crossed Hx Hcl Hfa Hlate Hsz.
  destruct (C81_one_machine p n coords pos HN Hr Hs Hn Hq Hth Hx Hcl Hfa Hlate) as (label & _ & H). fold ts crossed in H. cbv zeta in H. destruct H as (_ & w0 & E0 & R). exists w0. split; [exact E0|].
  intros w Hw Hf. destruct (R w Hw) as (_ & R2). rewrite (R2 Hf). clear R R2 E0.
  set (edges := pairs (walk label (rate p) ts)) in *.
  destruct (delivered_range edges (query_length p) (length coords - query_length p)) as (out & E & Lo & R); [|lia|].
  - assert (L : length edges <= length crossed). { unfold edges. rewrite <- (map_length snd), pairs_snd_tl. unfold walk. fold crossed. pose proof (map_length (labelled label) crossed) as L. destruct (map (labelled label) crossed); cbn [tl length] in *; lia. } unfold edge in *. lia.
  - exists out. rewrite E. ssplit; auto.
Qed.

Lemma only_zero : forall label r ts, (forall t, In t ts -> from_id t = 0) -> forall e, In e (pairs (walk label r ts)) -> to_id e = 0.
Proof. intros label r ts H e He. apply edge_id_source in He. destruct He as (t & Ht & ->). now apply H. Qed.

(** No transition that can be used, or only one at the first point: all delivered entries are NaN. *)
Theorem C81_quiet_series_is_nan : forall p n coords pos, n_cluster_nodes p = 1 -> 1 <= rate p -> (forall k, sector k < rate p) -> length coords <= n ->
  1 <= query_length p -> 1 <= n_threads p <= length coords - query_length p ->
  let ts := transitions_of p sector flip coords in let crossed := path (rate p) ts in
  crossings_computed p coords pos -> clusterings_computed p crossed pos ->
  ~ first_across (rate p) crossed -> (forall t, In t ts -> from_id t = 0) -> (Z.of_nat (length crossed) <= 2 ^ 24)%Z ->
  exists w0, local_scoring sector flip cross cluster p n coords = Ok w0 /\ forall w, scoring_run (fun x => f_eq x f_zero) w0 w ->
    (flying w <> [] -> exists w', scoring_step (fun x => f_eq x f_zero) w w') /\
    (flying w = [] -> local_results w = [Ok (repeat B754_nan (length coords - query_length p))]).
Proof.
  intros p n coords pos HN Hr Hs Hn Hq Hth ts crossed Hx Hcl Hfa Hzero Hsz.
  destruct (local_nodes p coords pos HN Hr Hs Hx Hcl) as (label & store & nodes & _ & Est & En & Hst). fold ts in Est, Hst.
  set (f := followed p sector flip coords) in *. assert (Lf : length f = length coords) by apply followed_length.
  pose proof (points_segments K sector p f Hs) as Hok. pose proof (points_numbered K sector n f ltac:(lia)) as Hnum.
  assert (Hts : ts = usable_pairs (rate p) (points_at sector f)) by reflexivity. rewrite Hts in Hst.
  destruct (C36_aborts_exactly_if p label n _ nodes HN Hr Hok Hnum Hst) as (_ & (_ & Ha)). rewrite <- Hts in *.
  destruct Ha as (edges & Ee); [intros Sa; apply Hfa; now apply starts_first_across in Sa|].
  pose proof Hst as Hst'. rewrite Hts in Hst'. destruct (C37_single_machine_walk p label n _ nodes edges HN Hr Hok Hnum Hst' Ee) as (E & _). rewrite <- Hts in E. subst edges.
  assert (EL : local_edges sector flip cross cluster p n coords = Ok (pairs (walk label (rate p) ts))).
  { unfold local_edges. rewrite local_segmentation_ok by assumption. cbn [bind]. fold f ts. rewrite Est. cbn [bind]. rewrite En. cbn [bind]. exact Ee. }
  assert (Hid : forall e, In e (pairs (walk label (rate p) ts)) -> to_id e = 0) by now apply only_zero.
  assert (HE : (Z.of_nat (length (pairs (walk label (rate p) ts))) <= 2 ^ 24)%Z).
  { assert (L : length (pairs (walk label (rate p) ts)) <= length crossed). { rewrite <- (map_length snd), pairs_snd_tl. unfold walk. fold crossed. pose proof (map_length (labelled label) crossed) as L. destruct (map (labelled label) crossed); cbn [tl length] in *; lia. } lia. }
  set (edges := pairs (walk label (rate p) ts)) in *. set (m := length coords) in *. set (q := query_length p) in *.
  set (g := {| g_edges := edges; g_index := repeat 0 (m - 1); g_weight := edge_weight edges; g_degree := node_degrees edges; g_query := q |}).
  assert (Eg : single_graph edges m q = Ok g). { unfold single_graph. rewrite (Scoring.IndexProofs.count_zero edges m true Hid) by (intros; lia). reflexivity. }
  assert (Hterm : forall e, In e edges -> summand g e = Ok (edge_term edges e)).
  { intros e He. pose proof (multiplicity_positive edges e He). pose proof (source_degree_positive edges e He). apply summand_ok; [| |assumption]; unfold g; cbn [g_weight g_degree].
    - rewrite edge_weight_lookup. unfold positive. destruct (Nat.eqb_spec (multiplicity edges e) 0); [lia|reflexivity].
    - rewrite node_degrees_lookup. unfold positive. destruct (Nat.eqb_spec (degree edges (fst e)) 0); [lia|reflexivity]. }
  set (one := match edges with [] => [] | e :: _ => [edge_term edges e] end).
  assert (Hsum : forall i, i < m - q -> summands g i = Ok one).
  { intros i Hi. unfold summands, window, g. cbn [g_index g_query g_edges]. unfold get. assert (Nth : forall k a, a < k -> nth_error (repeat 0 k) a = Some 0) by (induction k as [|k IH]; intros [|a] Ha; try lia; [reflexivity|]; cbn; apply IH; lia).
    rewrite Nth by lia. cbn [bind]. rewrite usub_ok by lia. cbn [bind]. rewrite Nth by lia. cbn [bind]. unfold get_slice. fold g.
    unfold one. destruct edges as [|e l] eqn:Eed; [reflexivity|]. cbn [length Nat.add Nat.min Nat.leb andb bind slice]. unfold slice. cbn [skipn Nat.sub firstn mapM].
    rewrite (Hterm e (or_introl eq_refl)). reflexivity. }
  destruct (Scoring.AssembleProofs.collected f32 f_zero (fun x => f_eq x f_zero) score_value g (repeat one (m - q)) (n_threads p) eq_refl) as (w0 & E0 & R).
  - intros i w Hi. assert (Hlt : i < m - q) by (rewrite <- (repeat_length one (m - q)); apply nth_error_Some; congruence). apply nth_error_In, repeat_spec in Hi. subst w. now apply Hsum.
  - intros a b Eab w Hw. assert (One : one = []) by (symmetry; apply (repeat_spec (m - q)); rewrite Eab; apply in_or_app; right; now left).
    assert (Hin : In w (repeat one (m - q))) by (rewrite Eab; apply in_or_app; right; now right). apply repeat_spec in Hin. congruence.
  - rewrite repeat_length. lia.
  - rewrite repeat_length. unfold score_length, g. cbn [g_query g_index]. rewrite usub_ok by lia. cbn [bind]. rewrite repeat_length. destruct (Nat.ltb_spec (m - 1) (q - 1)); [lia|]. f_equal. lia.
  - exists w0. split; [unfold local_scoring; rewrite EL; cbn [bind]; fold m q; rewrite Eg; cbn [bind]; exact E0|].
    intros w Hw. destruct (R w Hw) as (_ & R1 & R2). split; [exact R1|]. intros Hf. unfold local_results. rewrite (R2 Hf). cbn [map]. f_equal.
    set (v := match one with [] => f_zero | _ => score_value one end).
    assert (Ec : forall k, carry score_value f_zero (repeat one k) = repeat v k).
    { assert (G : forall k b, b = f_zero \/ b = v -> carry score_value b (repeat one k) = repeat v k).
      { induction k as [|k IH]; intros b Hb; [reflexivity|]. cbn [repeat carry]. assert (Ev : match one with [] => b | _ => score_value one end = v) by (unfold v in *; destruct one; [destruct Hb; congruence|reflexivity]). rewrite Ev. f_equal. apply IH. now right. }
      intros k. apply G. now left. }
    rewrite Ec. assert (Hv : f_finite v = true).
    { unfold v, one. destruct edges as [|e l] eqn:Eed; [reflexivity|]. apply C72_not_positive; [cbn; lia|]. intros x [<-|[]]. rewrite <- Eed. apply edge_term_bound. rewrite Eed. exact HE. }
    destruct (m - q) as [|k] eqn:Emq; [lia|]. now apply C46_constant_is_nan_refuted.
Qed.
End OneMachine.

(** ** A case *)
(** Six segments; the coordinate of a point is its sector; mirrored, sector [k] is sector [5 - k].  The series runs backwards, so it is mirrored. *)
Definition c81_params : params := {| rate := 6; n_threads := 2; n_cluster_nodes := 1; pattern_length := 50; latent := 16; query_length := 3; column_start := 0; column_end := 0%Z; self_correction := true |}.
Definition c81_sector (k : nat) : nat := k mod 6.
Definition c81_flip (k : nat) : nat := 5 - k.
Definition c81_cross (coords : list nat) (ts : list transition) (t : transition) (s : nat) : res nat := match nth_error coords (from_id t) with Some k => Ok (k + s) | None => Panic OutOfBounds end.
Definition c81_cluster (l : list nat) : res (list nat) := Ok (map (fun x => x mod 2) l).
Definition c81_coords : list nat := [5; 3; 2; 0; 4; 4; 3; 1; 0; 5; 4; 2].
Definition c81_pos (c : nat * nat) : nat := nth (fst c) [0; 2; 3; 5; 1; 1; 2; 4; 5; 0; 1; 3] 0 + snd c.
Example C81_case : let p := c81_params in
  let ts := transitions_of p c81_sector c81_flip c81_coords in let crossed := path (rate p) ts in
  followed p c81_sector c81_flip c81_coords = [0; 2; 3; 5; 1; 1; 2; 4; 5; 0; 1; 3] /\
  (forall k, c81_sector k < rate p) /\ 1 <= n_threads p <= length c81_coords - query_length p /\
  crossings_computed c81_sector c81_flip c81_cross p c81_coords c81_pos /\ clusterings_computed c81_cluster p crossed c81_pos /\
  ~ first_across (rate p) crossed /\ (exists t, In t ts /\ from_id t <> 0) /\
  crossed = [(0, 1); (0, 2); (1, 3); (2, 4); (2, 5); (3, 0); (3, 1); (5, 2); (6, 3); (6, 4); (7, 5); (8, 0); (9, 1); (10, 2); (10, 3)] /\
  (let! edges := local_edges c81_sector c81_flip c81_cross c81_cluster p 12 c81_coords in Ok (length edges, map (fun e => n_cluster (fst e)) edges)) = Ok (14, [1; 0; 1; 1; 0; 1; 0; 1; 1; 0; 1; 1; 1; 1]).
Proof.
  cbv zeta. ssplit; try (vm_compute; reflexivity); try (cbn; lia).
  - intros k. unfold c81_sector. apply Nat.mod_upper_bound. discriminate.
  - intros t c Ht Hc. vm_compute in Ht. repeat (destruct Ht as [<-|Ht]; [vm_compute in Hc; repeat (destruct Hc as [<-|Hc]; [vm_compute; reflexivity|]); destruct Hc|]). destruct Ht.
  - intros s _ _. eexists. split; [reflexivity|]. now rewrite !map_length.
  - intros (i & rest & E). vm_compute in E. discriminate.
  - eexists. split; [vm_compute; right; left; reflexivity|discriminate].
Qed.

Print Assumptions C81_one_machine.
Print Assumptions C81_aborts_if_first_across.
Print Assumptions C81_delivered.
Print Assumptions C81_quiet_series_is_nan.
