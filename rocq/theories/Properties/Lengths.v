(** C109: which pattern length, latent, query length and number of threads can be used with a series. *)
From Coq Require Import List Arith Bool Lia Permutation Sorting.Sorted Reals ZArith.
From Verif.Base Require Import Res Params ListX Assoc Float32.
From Verif.PhaseSpace Require Model Spec Proofs.
From Verif.Pca Require Components Gram.
From Verif.Geometry Require Import Model.
From Verif.Front Require Import Model.
From Verif.Segmentation Require Import Model Spec PathProofs.
From Verif.Edges Require Import Model Spec.
From Verif.Transposition Require Import Spec.
From Verif.Protocol Require Import Model.
From Verif.Scoring Require Import Model Spec WeightProofs AssembleProofs CollectProofs.
From Verif.Normalize Require Import Model.
From Verif.Pipeline Require Import Model Spec Proofs.
From Verif.Analysis Require Import Model.
From Verif.Properties Require Import Segmentation Edges Nodes Scoring Normalize Pipeline PhaseSpace.
Import ListNotations.
Local Open Scope nat_scope.

(** ** Pattern length and latent *)
(** The series has an embedding with at least one window exactly if the pattern is not longer than the series and latent is shorter than the pattern (equal only if there is just one window). *)
Theorem C109_embeds_exactly_if : forall V (rowsum : list V -> V) p (data : list V),
  (exists ws, PhaseSpace.Model.phase_space rowsum p data = Ok ws /\ ws <> []) <->
  1 <= pattern_length p <= length data /\ (latent p < pattern_length p \/ (latent p = pattern_length p /\ length data = pattern_length p)).
Proof.
  intros V rowsum p data. split.
  - intros (ws & E & Hne). unfold PhaseSpace.Model.phase_space in E. apply bind_ok_inv in E. destruct E as (o & E1 & E). apply bind_ok_inv in E. destruct E as (count & E2 & E). apply bind_ok_inv in E. destruct E as (width & E3 & E).
    unfold usub in E1, E2, E3. destruct (Nat.ltb_spec (pattern_length p) 1); [discriminate|]. injection E1 as <-. destruct (Nat.ltb_spec (length data) (pattern_length p - 1)); [discriminate|]. injection E2 as <-.
    destruct (Nat.ltb_spec (pattern_length p) (latent p)); [discriminate|]. injection E3 as <-.
    remember (length data - (pattern_length p - 1)) as count eqn:Ec. destruct count as [|[|count]]; cbn [PhaseSpace.Model.windows] in E.
    + injection E as <-. now elim Hne.
    + split; [lia|]. lia.
    + split; [lia|]. left. destruct (Nat.eq_dec (latent p) (pattern_length p)) as [El|]; [|lia]. exfalso. apply bind_ok_inv in E. destruct E as (w & _ & E). apply bind_ok_inv in E. destruct E as (r & E & _). apply bind_ok_inv in E. destruct E as (w' & E & _).
      unfold PhaseSpace.Model.next_window in E. rewrite El, Nat.sub_diag in E. discriminate.
  - intros (HP & [Hl|(Hl & HD)]).
    + exists (PhaseSpace.Spec.embedding rowsum (pattern_length p) (latent p) data). split; [apply C15_embedding; lia|]. unfold PhaseSpace.Spec.embedding. intros E. apply (f_equal (@length _)) in E. rewrite map_length, seq_length in E. cbn in E. lia.
    + exists [[]]. split; [|discriminate]. unfold PhaseSpace.Model.phase_space. rewrite usub_ok by lia. cbn [bind]. rewrite usub_ok by lia. cbn [bind]. rewrite usub_ok by lia. cbn [bind].
      replace (length data - (pattern_length p - 1)) with 1 by lia. replace (pattern_length p - latent p) with 0 by lia. reflexivity.
Qed.

Lemma embedded : forall V (rowsum : list V -> V) p (data : list V), latent p < pattern_length p <= length data ->
  exists ws, PhaseSpace.Model.phase_space rowsum p data = Ok ws /\ length ws = length data + 1 - pattern_length p /\ forall w, In w ws -> length w = pattern_length p - latent p.
Proof.
  intros V rowsum p data H. exists (PhaseSpace.Spec.embedding rowsum (pattern_length p) (latent p) data). ssplit; [apply C15_embedding; lia|unfold PhaseSpace.Spec.embedding; rewrite map_length, seq_length; lia|].
  intros w Hw. unfold PhaseSpace.Spec.embedding in Hw. apply in_map_iff in Hw. destruct Hw as (i & <- & _). unfold PhaseSpace.Spec.window. now rewrite map_length, seq_length.
Qed.

(** A window of fewer than three sums is accepted by the embedding, then there are no three components, whatever the series and the singular value decomposition. *)
Theorem C109_narrow_window_refuted : forall V (rowsum : list V -> V) p (data : list V), latent p < pattern_length p <= length data -> pattern_length p < latent p + 3 ->
  (exists ws, PhaseSpace.Model.phase_space rowsum p data = Ok ws /\ length ws = length data + 1 - pattern_length p /\ forall w, In w ws -> length w = pattern_length p - latent p) /\
  forall svd r, Components.components svd (pattern_length p - latent p) r = Panic OutOfBounds.
Proof.
  intros V rowsum p data H Hn. split; [now apply embedded|]. intros svd r. unfold Components.components. destruct (Nat.ltb_spec (pattern_length p - latent p) 3); [reflexivity|lia].
Qed.
(** With at least three sums per window there are three components with one entry per sum. *)
Theorem C109_window_partial : forall V (rowsum : list V -> V) p (data : list V), latent p + 3 <= pattern_length p <= length data ->
  (exists ws, PhaseSpace.Model.phase_space rowsum p data = Ok ws /\ length ws = length data + 1 - pattern_length p /\ forall w, In w ws -> length w = pattern_length p - latent p) /\
  forall svd r, exists cs, Components.components svd (pattern_length p - latent p) r = Ok cs /\ length cs = 3 /\ forall c, In c cs -> length c = pattern_length p - latent p.
Proof.
  intros V rowsum p data H. split; [apply embedded; lia|]. intros svd r. unfold Components.components. destruct (Nat.ltb_spec (pattern_length p - latent p) 3); [lia|]. eexists. ssplit; [reflexivity|reflexivity|].
  intros c Hc. apply in_map_iff in Hc. destruct Hc as (i & <- & _). assert (L : forall v, length (Gram.normalize_row v) = length v) by (intros [|x v]; [reflexivity|]; unfold Gram.normalize_row; destruct (Rge_dec x 0); [reflexivity|now rewrite map_length]).
  now rewrite L, map_length, seq_length.
Qed.

(** Latent zero is accepted: then nothing of the analysis depends on the measurements, all series of one length get the same windows and the same scores. *)
Theorem C109_latent_zero_refuted : forall p, latent p = 0 ->
  (forall V (rowsum : list V -> V) (data data' : list V), length data = length data' -> pattern_length p <= length data -> 1 <= pattern_length p ->
     exists ws, PhaseSpace.Model.phase_space rowsum p data = Ok ws /\ PhaseSpace.Model.phase_space rowsum p data' = Ok ws /\ length ws = length data + 1 - pattern_length p) /\
  (forall inv dim mins maxs mins' maxs' pcs rows rows', length rows = length rows' -> length mins = length mins' -> length maxs = length maxs' -> 1 <= pattern_length p <= length rows ->
     machine_analysis inv p dim mins maxs pcs rows = machine_analysis inv p dim mins' maxs' pcs rows').
Proof.
  intros p Hl.
  assert (E : forall V (rowsum : list V -> V) (data data' : list V), length data = length data' -> pattern_length p <= length data -> 1 <= pattern_length p ->
     PhaseSpace.Spec.embedding rowsum (pattern_length p) (latent p) data = PhaseSpace.Spec.embedding rowsum (pattern_length p) (latent p) data').
  { intros V rowsum data data' HL _ _. unfold PhaseSpace.Spec.embedding. rewrite HL. apply map_ext. intros i. unfold PhaseSpace.Spec.window. apply map_ext. intros j. f_equal. rewrite Hl. unfold slice. now rewrite Nat.add_0_r, Nat.sub_diag. }
  split.
  - intros V rowsum data data' HL HP H1. exists (PhaseSpace.Spec.embedding rowsum (pattern_length p) (latent p) data). ssplit.
    + apply C15_embedding; lia.
    + rewrite (E V rowsum data data' HL HP H1). apply C15_embedding; lia.
    + unfold PhaseSpace.Spec.embedding. rewrite map_length, seq_length. lia.
  - intros inv dim mins maxs mins' maxs' pcs rows rows' HL Hm HM HP. unfold machine_analysis.
    assert (Ha : alignment p mins maxs pcs = alignment p mins' maxs' pcs).
    { unfold alignment. assert (Er : PhaseSpace.Model.reference_dataset p mins maxs = PhaseSpace.Model.reference_dataset p mins' maxs'); [|now rewrite Er].
      unfold PhaseSpace.Model.reference_dataset. cbv zeta. generalize 100. intros hundred. rewrite Hm, HM. destruct (usub (pattern_length p) (latent p)) as [width|]; [|reflexivity]. cbn [bind]. destruct (negb _); [reflexivity|].
      match goal with |- mapM ?f _ = mapM ?g _ => generalize (seq 0 hundred); intros l; assert (K : forall i, f i = g i) end.
      { intros i. match goal with |- mapM ?f _ = mapM ?g _ => generalize (seq 0 width); intros l'; assert (K : forall j, f j = g j) end.
        { intros j. rewrite Hl, Nat.add_0_r. unfold PhaseSpace.Model.slice_rows. rewrite !repeat_length. destruct ((j <=? j) && (j <=? pattern_length p)); [|reflexivity]. cbn [bind]. unfold slice. rewrite Nat.sub_diag. reflexivity. }
        induction l' as [|j l' IH]; [reflexivity|]. cbn [mapM]. rewrite K, IH. reflexivity. }
      induction l as [|i l IH]; [reflexivity|]. cbn [mapM]. rewrite K, IH. reflexivity. }
    rewrite Ha. destruct (alignment p mins' maxs' pcs) as [ms|]; [|reflexivity]. cbn [bind]. unfold host_points, embed.
    rewrite !C15_embedding by lia. rewrite (E _ (sum_axis dim) rows rows') by lia. now rewrite HL.
Qed.

(** ** Query length and threads *)
Section OneMachine.
Context {K C : Type}.
Variables (sector : K -> nat) (flip : K -> K) (cross : list K -> list transition -> transition -> nat -> res C) (cluster : list C -> res (list nat)).

(** The stages before the scores succeed: the hypotheses of C81 that do not concern the query length and the threads. *)
Definition gets_edges (p : params) (n : nat) (coords : list K) : Prop :=
  n_cluster_nodes p = 1 /\ 1 <= rate p /\ (forall k, sector k < rate p) /\ length coords <= n /\
  (exists pos, crossings_computed sector flip cross p coords pos /\ clusterings_computed cluster p (path (rate p) (transitions_of p sector flip coords)) pos) /\
  ~ first_across (rate p) (path (rate p) (transitions_of p sector flip coords)) /\ exists t, In t (transitions_of p sector flip coords) /\ from_id t <> 0.

Lemma edges_there : forall p n coords, gets_edges p n coords -> exists edges, local_edges sector flip cross cluster p n coords = Ok edges /\ ascending edges /\
  (forall e, In e edges -> to_id e < length coords - 1) /\ (edges <> [] -> exists e, In e edges /\ to_id e <> 0) /\ 1 <= length coords.
Proof.
  intros p n coords (HN & Hr & Hs & Hn & (pos & Hx & Hcl) & Hfa & Hlate).
  destruct (local_nodes sector flip cross cluster p coords pos HN Hr Hs Hx Hcl) as (label & store & nodes & Hl & Est & En & Hst). set (ts := transitions_of p sector flip coords) in *.
  set (f := followed p sector flip coords) in *. assert (Lf : length f = length coords) by apply followed_length.
  pose proof (points_segments K sector p f Hs) as Hok. pose proof (points_numbered K sector n f ltac:(lia)) as Hnum.
  assert (Hts : ts = usable_pairs (rate p) (points_at sector f)) by reflexivity. rewrite Hts in Hst.
  destruct (C36_aborts_exactly_if p label n _ nodes HN Hr Hok Hnum Hst) as (_ & (_ & Ha)). rewrite <- Hts in *.
  destruct Ha as (edges & Ee); [intros Sa; apply Hfa; now apply starts_first_across in Sa|].
  pose proof Hst as Hst'. rewrite Hts in Hst'. destruct (C37_single_machine_walk p label n _ nodes edges HN Hr Hok Hnum Hst' Ee) as (E & _). rewrite <- Hts in E. subst edges.
  destruct (numbered_pairs p n _ Hnum) as (Hsorted & _). rewrite <- Hts in Hsorted.
  exists (pairs (walk label (rate p) ts)). ssplit.
  - unfold local_edges. rewrite local_segmentation_ok by assumption. cbn [bind]. fold f ts. rewrite Est. cbn [bind]. rewrite En. cbn [bind]. exact Ee.
  - now apply walk_ascending.
  - intros e He. apply edge_id_source in He. destruct He as (t & Ht & ->). rewrite Hts in Ht. apply from_id_bound in Ht. lia.
  - apply later_edge; [exact Hsorted| |exact Hlate]. intros t Ht. rewrite Hts in Ht. unfold usable_pairs in Ht. now apply filter_In in Ht.
  - destruct Hlate as (t & Ht & _). rewrite Hts in Ht. apply from_id_bound in Ht. lia.
Qed.

(** A run in which every helper thread answers with no score at all. *)
Lemma empty_answers : forall threads w, 1 <= threads ->
  scoring_run (fun x => f_eq x f_zero) {| collecting := new_collector threads; flying := repeat {| r_start := 0; r_scores := []; r_first_empty := false |} threads |} w ->
  exists k, k <= threads /\ flying w = repeat {| r_start := 0; r_scores := []; r_first_empty := false |} k /\
    collecting w = {| c_pool := {| h_total := threads; h_sent := k; h_received := threads - k |}; c_scores := []; c_first_empty := false; c_buffer := []; c_delivered := if k =? 0 then [([], false)] else [] |}.
Proof.
  intros threads w Ht Hw. induction Hw as [|w w' Hw IH Hst].
  - exists threads. ssplit; [lia|reflexivity|]. unfold new_collector. rewrite iter_sent, Nat.add_0_r, Nat.sub_diag. destruct (Nat.eqb_spec threads 0); [lia|reflexivity].
  - destruct IH as (k & Hk & Hf & Hc). inversion Hst as [w1 l r rest c again Hfl Hcol]. subst w1. rewrite Hf in Hfl. rewrite Hc in Hcol.
    destruct k as [|k]; [destruct l; discriminate|]. assert (Hr : r = {| r_start := 0; r_scores := []; r_first_empty := false |}) by (apply (repeat_spec (S k)); rewrite Hfl; apply in_or_app; right; now left). subst r.
    assert (Hlr : l ++ rest = repeat {| r_start := 0; r_scores := []; r_first_empty := false |} k).
    { assert (G : forall A (z : A) m l rest, repeat z (S m) = l ++ z :: rest -> l ++ rest = repeat z m).
      { clear. intros A z m. induction m as [|m IH]; intros [|x l] rest E; cbn [repeat app] in *.
        - now injection E as <-.
        - injection E as <- E. destruct l; discriminate.
        - now injection E as <-.
        - injection E as <- E. f_equal. now apply IH. }
      now apply G. }
    exists k. unfold collect in Hcol. cbn [c_scores length r_start Nat.eqb negb c_pool] in Hcol. unfold h_received_one in Hcol. cbn [h_sent h_total h_received] in Hcol. rewrite usub_ok in Hcol by lia. cbn [bind r_first_empty r_scores app c_first_empty c_buffer c_delivered] in Hcol.
    unfold h_running in Hcol. cbn [h_received h_total] in Hcol. replace (S k - 1) with k in Hcol by lia. replace (S (threads - S k)) with (threads - k) in Hcol by lia.
    destruct (Nat.ltb_spec (threads - k) threads) as [Hlt|Hge]; cbn [negb lookup] in Hcol; injection Hcol as <- <-; (ssplit; [lia|cbn [flying]; now rewrite app_nil_r|]); cbn [collecting]; destruct (Nat.eqb_spec k 0); try lia; reflexivity.
Qed.

Lemma no_windows : forall g threads, score_length g = Ok 0 -> 1 <= threads -> exists w0, start_scoring f_zero score_value g threads = Ok w0 /\ forall w, scoring_run (fun x => f_eq x f_zero) w0 w ->
  (flying w <> [] -> exists w', scoring_step (fun x => f_eq x f_zero) w w') /\ (flying w = [] -> local_results w = [Panic EmptyInput]).
Proof.
  intros g threads Hg Ht. set (z := {| r_start := 0; r_scores := []; r_first_empty := false |} : response f32).
  exists {| collecting := new_collector threads; flying := repeat z threads |}. split.
  - unfold start_scoring. rewrite Hg. cbn [bind]. unfold instructions. rewrite udiv_ok, umod_ok by lia. cbn [bind]. rewrite Nat.div_0_l, Nat.mod_0_l by lia.
    assert (G : forall l, mapM (respond f_zero score_value g) (map (fun i => (i * 0, 0 + (if i =? threads - 1 then 0 else 0))) l) = Ok (repeat z (length l))).
    { induction l as [|i l IH]; [reflexivity|]. cbn [map mapM length repeat]. rewrite IH, Nat.mul_0_r. destruct (i =? threads - 1); reflexivity. }
    rewrite G, seq_length. reflexivity.
  - intros w Hw. destruct (empty_answers threads w Ht Hw) as (k & Hk & Hf & Hc). split.
    + intros Hne. destruct k as [|k]; [rewrite Hf in Hne; now elim Hne|].
      assert (X : exists c again, collect (fun x => f_eq x f_zero) z (collecting w) = Ok (c, again)).
      { rewrite Hc. unfold collect. cbn [c_scores length r_start z Nat.eqb negb c_pool]. unfold h_received_one. cbn [h_sent]. rewrite usub_ok by lia. cbn [bind r_first_empty z]. destruct (negb _); [eauto|]. cbn [c_buffer lookup]. eauto. }
      destruct X as (c & again & X). eexists. apply (handles _ w [] z (repeat z k) c again); [exact Hf|exact X].
    + intros Hnil. rewrite Hf in Hnil. destruct k; [|discriminate]. unfold local_results. rewrite Hc. reflexivity.
Qed.

Lemma scoring_starts : forall g threads n, score_length g = Ok n -> 1 <= threads -> (forall i, i < n -> exists xs, summands g i = Ok xs) -> exists w0, start_scoring f_zero score_value g threads = Ok w0.
Proof.
  intros g threads n Hn Ht Hs. unfold start_scoring. rewrite Hn. cbn [bind]. unfold instructions. rewrite udiv_ok, umod_ok by lia. cbn [bind].
  assert (F : forall l st, (forall i, In i l -> i < n) -> exists st', foldM (score_step f_zero score_value g) l st = Ok st').
  { induction l as [|i l IH]; intros [sc fe] Hl; [eexists; reflexivity|]. cbn [foldM]. unfold score_step at 1. destruct (Hs i (Hl i (or_introl eq_refl))) as (xs & ->). cbn [bind].
    assert (Hl' : forall j, In j l -> j < n) by (intros j Hj; apply Hl; now right).
    destruct xs; [destruct (nth_error sc (length sc - 1))|]; cbn [bind]; now apply IH. }
  assert (Hdm : n = threads * (n / threads) + n mod threads) by (apply Nat.div_mod; lia).
  assert (G : forall l, (forall i, In i l -> i < threads) -> exists rs, mapM (respond f_zero score_value g) (map (fun i => (i * (n / threads), n / threads + (if i =? threads - 1 then n mod threads else 0))) l) = Ok rs).
  { induction l as [|i l IH]; intros Hl; [eexists; reflexivity|]. cbn [map mapM]. destruct IH as (rs & IH); [intros j Hj; apply Hl; now right|]. rewrite IH. unfold respond at 1.
    pose proof (Hl i (or_introl eq_refl)) as Hi.
    destruct (F (seq (i * (n / threads)) (n / threads + (if i =? threads - 1 then n mod threads else 0))) ([], false)) as ([sc fe] & E).
    { intros j Hj. apply in_seq in Hj. set (d := n / threads) in *. destruct (Nat.eqb_spec i (threads - 1)) as [->|Hne].
      - assert ((threads - 1) * d + d = threads * d) by (replace threads with (S (threads - 1)) at 2 by lia; cbn [Nat.mul]; lia). lia.
      - assert ((i + 1) * d <= threads * d) by (apply Nat.mul_le_mono_r; lia). lia. }
    rewrite E. cbn [bind]. eexists. reflexivity. }
  destruct (G (seq 0 threads)) as (rs & E); [intros i Hi; apply in_seq in Hi; lia|]. rewrite E. eexists. reflexivity.
Qed.

(** What becomes of the analysis depends on the number of points, the query length and the number of threads: too few points are refused with a reason; as many as the query length end in an abort without one;
    with fewer windows than threads some order of the answers leaves the caller without a result; otherwise every order gives one score per window. *)
Theorem C109_by_length_refuted : forall p n coords, gets_edges p n coords -> 1 <= query_length p -> 1 <= n_threads p ->
  (length coords < query_length p -> local_scoring sector flip cross cluster p n coords = Panic Explicit) /\
  (length coords = query_length p -> exists w0, local_scoring sector flip cross cluster p n coords = Ok w0 /\ forall w, scoring_run (fun x => f_eq x f_zero) w0 w ->
     (flying w <> [] -> exists w', scoring_step (fun x => f_eq x f_zero) w w') /\ (flying w = [] -> local_results w = [Panic EmptyInput])) /\
  (query_length p < length coords < query_length p + n_threads p -> exists w0, local_scoring sector flip cross cluster p n coords = Ok w0 /\
     exists w, scoring_run (fun x => f_eq x f_zero) w0 w /\ flying w = [] /\ local_results w = []) /\
  (query_length p + n_threads p <= length coords -> exists w0, local_scoring sector flip cross cluster p n coords = Ok w0 /\ forall w, scoring_run (fun x => f_eq x f_zero) w0 w ->
     (flying w <> [] -> exists w', scoring_step (fun x => f_eq x f_zero) w w') /\ (flying w = [] -> exists raw, local_results w = [normalize_score raw] /\ length raw = length coords - query_length p)).
Proof.
  intros p n coords Hg Hq Ht. destruct (edges_there p n coords Hg) as (edges & EL & Hasc & Hto & Hpos & Hc1). unfold local_scoring. rewrite EL. cbn [bind].
  ssplit.
  - intros Hlt. destruct (C42_no_abort edges (length coords) 1 Hasc Hto Hpos ltac:(lia) ltac:(lia) ltac:(lia)) as (g1 & Eg1 & _ & _). unfold single_graph in *. apply bind_ok_inv in Eg1. destruct Eg1 as (index & Ei & _). rewrite Ei. cbn [bind].
    unfold start_scoring. rewrite C42_query_too_long_aborts; [reflexivity|exact Hq|]. cbn [g_index g_query].
    rewrite (C41_time_index 0 edges (length coords) true Hasc) in Ei; [injection Ei as <-; rewrite map_length, seq_length; lia|intros e He; pose proof (Hto e He); lia|intros; exact Hc1|exact Hpos].
  - intros E. destruct (C42_no_abort edges (length coords) (query_length p) Hasc Hto Hpos Hq ltac:(lia) ltac:(lia)) as (g & Eg & Es & _). rewrite Eg. cbn [bind]. apply no_windows; [rewrite Es; f_equal; lia|exact Ht].
  - intros Hb. destruct (C42_no_abort edges (length coords) (query_length p) Hasc Hto Hpos Hq ltac:(lia) ltac:(lia)) as (g & Eg & Es & Hsum). rewrite Eg. cbn [bind].
    assert (Hw0 : exists w0, start_scoring f_zero score_value g (n_threads p) = Ok w0) by (apply (scoring_starts g (n_threads p) _ Es Ht Hsum)). destruct Hw0 as (w0 & E0). exists w0. split; [exact E0|].
    destruct (C44_fewer_windows_than_threads_refuted f32 f_zero (fun x => f_eq x f_zero) score_value g (n_threads p) _ w0 Es ltac:(lia) E0) as (w & Hw & Hf & Hd). exists w. ssplit; [exact Hw|exact Hf|]. unfold local_results. now rewrite Hd.
  - intros Hle. destruct (C42_no_abort edges (length coords) (query_length p) Hasc Hto Hpos Hq ltac:(lia) ltac:(lia)) as (g & Eg & _ & _). rewrite Eg. cbn [bind].
    destruct (C43_independent_of_threads f32 f_zero (fun x => f_eq x f_zero) score_value edges (length coords) (query_length p) (n_threads p) g eq_refl Hasc Hto Hpos Hq ltac:(lia) ltac:(lia) Eg) as (w0 & E0 & R).
    exists w0. split; [exact E0|]. intros w Hw. destruct (R w Hw) as (_ & _ & R1 & R2). split; [exact R1|]. intros Hf. specialize (R2 Hf). unfold local_results.
    destruct (c_delivered (collecting w)) as [|[raw flag] [|? ?]]; try discriminate. cbn [map fst] in *. injection R2 as ->. eexists. split; [reflexivity|]. now rewrite carry_length, map_length, seq_length.
Qed.
End OneMachine.

(** ** Cases *)
(** The series of C81 with its twelve points, two threads and any query length. *)
Definition c109_params (q : nat) : params := {| rate := 6; n_threads := 2; n_cluster_nodes := 1; pattern_length := 50; latent := 16; query_length := q; column_start := 0; column_end := 0%Z; self_correction := true |}.
Example C109_case : forall q, 1 <= q -> gets_edges c81_sector c81_flip c81_cross c81_cluster (c109_params q) 12 c81_coords /\
  let scored w0 := local_scoring c81_sector c81_flip c81_cross c81_cluster (c109_params q) 12 c81_coords = Ok w0 in
  (13 <= q -> local_scoring c81_sector c81_flip c81_cross c81_cluster (c109_params q) 12 c81_coords = Panic Explicit) /\
  (q = 12 -> exists w0, scored w0 /\ forall w, scoring_run (fun x => f_eq x f_zero) w0 w -> flying w = [] -> local_results w = [Panic EmptyInput]) /\
  (q = 11 -> exists w0, scored w0 /\ exists w, scoring_run (fun x => f_eq x f_zero) w0 w /\ flying w = [] /\ local_results w = []) /\
  (q <= 10 -> exists w0, scored w0 /\ forall w, scoring_run (fun x => f_eq x f_zero) w0 w -> flying w = [] -> exists raw, local_results w = [normalize_score raw] /\ length raw = 12 - q).
Proof.
  intros q Hq. assert (G : gets_edges c81_sector c81_flip c81_cross c81_cluster (c109_params q) 12 c81_coords).
  { destruct C81_case as (_ & H1 & _ & H2 & H3 & H4 & H5 & _). unfold gets_edges. ssplit; [reflexivity|cbn; lia|exact H1|cbn; lia|exists c81_pos; split; [exact H2|exact H3]|exact H4|exact H5]. }
  split; [exact G|]. cbv zeta. destruct (C109_by_length_refuted c81_sector c81_flip c81_cross c81_cluster (c109_params q) 12 c81_coords G Hq ltac:(cbn; lia)) as (A & B & D & E).
  change (query_length (c109_params q)) with q in *. change (length c81_coords) with 12 in *. change (n_threads (c109_params q)) with 2 in *. ssplit.
  - intros H. apply A. lia.
  - intros H. destruct (B (eq_sym H)) as (w0 & E0 & R). exists w0. split; [exact E0|]. intros w Hw. now apply R.
  - intros H. apply D. lia.
  - intros H. destruct (E ltac:(lia)) as (w0 & E0 & R). exists w0. split; [exact E0|]. intros w Hw. now apply R.
Qed.
(** A pattern of 18 rows with latent 16 and a series of 30 rows; latent 0. *)
Definition c109_narrow (l : nat) : params := {| rate := 100; n_threads := 8; n_cluster_nodes := 1; pattern_length := 18; latent := l; query_length := 75; column_start := 0; column_end := 0%Z; self_correction := false |}.
Example C109_narrow_case : latent (c109_narrow 16) < pattern_length (c109_narrow 16) <= length (seq 0 30) /\ pattern_length (c109_narrow 16) < latent (c109_narrow 16) + 3 /\
  (let! ws := PhaseSpace.Model.phase_space (fun l => fold_left Nat.add l 0) (c109_narrow 16) (seq 0 30) in Ok (length ws, firstn 2 ws)) = Ok (13, [[120; 136]; [136; 152]]) /\
  (let! ws := PhaseSpace.Model.phase_space (fun l => fold_left Nat.add l 0) (c109_narrow 0) (seq 0 30) in Ok (concat ws)) = Ok (repeat 0 (13 * 18)).
Proof. ssplit; [cbn; lia|cbn; lia|cbn; lia|vm_compute; reflexivity|vm_compute; reflexivity]. Qed.

Print Assumptions C109_embeds_exactly_if.
Print Assumptions C109_narrow_window_refuted.
Print Assumptions C109_window_partial.
Print Assumptions C109_latent_zero_refuted.
Print Assumptions C109_by_length_refuted.
