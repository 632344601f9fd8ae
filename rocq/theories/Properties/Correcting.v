(** C90: the analysis with self correction on a cluster, from the points and from the rows to the scores. *)
From Verif.Pca Require Import Model Spec.
From Coq Require Import List Arith Bool Lia Permutation Sorting.Sorted ZArith Reals Lra.
From Flocq Require Import IEEE754.BinarySingleNaN.
From Verif.Base Require Import Res Params ListX Float32.
From Verif.Stats Require Import Spec.
From Verif.Reader Require Import Spec Proofs.
From Verif.Pca Require Import GramSpec Components ComponentsSpec.
From Verif.Transition Require Import Spec.
From Verif.Segmentation Require Import Model Spec PathProofs.
From Verif.Geometry Require Import Model Spec Crossing.
From Verif.Front Require Import Model Spec Proofs.
From Verif.Nodes Require Import Spec.
From Verif.Edges Require Import Model Spec.
From Verif.Protocol Require Import Model Exchange ExchangeExec Ring.
From Verif.Transposition Require Import Spec.
From Verif.Intersections Require Import Real RealSpec.
From Verif.Kde Require Import Real RealSpec.
From Verif.Scoring Require Import Model Spec.
From Verif.Normalize Require Import Model.
From Verif.Correction Require Import Model Spec.
From Verif.Pipeline Require Import Model Spec Proofs Cluster ClusterSpec ClusterProofs RunProofs Correcting CorrectingProofs.
From Verif.Properties Require Import Segmentation Correction Scoring Geometry Front Crossings Pipeline ClusterPipeline Analysis.
From Verif.Analysis Require Import Model Spec Proofs Case Correcting CorrectingCase.
Import ListNotations.
Local Open Scope nat_scope.

(** ** From the points to the scores *)
Section FromPoints.
Context {C : Type}.
Variables (cross : bool -> list transition -> transition -> nat -> res C) (cluster : list C -> res (list nat)) (p : params) (n : nat) (part mirrored : nat -> list pt) (order : delivery).
Local Notation N := (n_cluster_nodes p).
Local Notation q := (query_length p).
(** What the hosts decide together, and the points they go on with. *)
Local Notation turn := (should_mirror p part).
Local Notation final := (if should_mirror p part then mirrored else part).
Local Notation ts := (usable_pairs (rate p) (whole_series N final)).
Local Notation crossed := (path (rate p) ts).

(** First points reach only hosts that have decided; this need not be asked if the points are kept, or of two hosts whose messages arrive in order (C82). *)
Definition in_time : Prop := turn = false \/ order = After_decision \/ (N = 2 /\ order = In_order).
(** The points of the hosts and their mirror images, and what C83 asks of the points the hosts go on with. *)
Definition well_corrected : Prop :=
  (forall k, k < N -> segments_ok p (part k)) /\ (forall k, k < N -> length (mirrored k) = length (part k)) /\ well_distributed p n final.

Lemma correcting : forall k, 2 <= N <= rate p -> self_correction p = true -> in_time -> well_corrected -> cluster_analysis (cross turn) cluster p n final k -> correcting_analysis cross cluster p n part mirrored order k.
Proof.
  intros k HN Hc Ht (Hp & Hl & W) H. apply correcting_as_chosen; auto. intros j Hj. change (chosen p part mirrored) with final. destruct W as (_ & Hs & Hu & _). split; [|now apply Hu].
  intros x Hx. apply Hs. unfold whole_series. apply in_concat. exists (final j). split; [|exact Hx]. apply (in_map final). apply in_seq. lia.
Qed.

Lemma chosen_ok : well_corrected -> forall j, j < N -> segments_ok p (final j) /\ usable_pairs (rate p) (final j) <> [].
Proof.
  intros (_ & _ & W) j Hj. destruct W as (_ & Hs & Hu & _). split; [|now apply Hu]. intros x Hx. apply Hs. unfold whole_series. apply in_concat. exists (final j). split; [|exact Hx]. apply (in_map final). apply in_seq. lia.
Qed.

(** In every execution all hosts decide alike, distribute their transitions once and do not abort; all end with the same result, computed from one graph whose edges are the steps of the walk of the whole series,
    mirrored if more pairs turn clockwise than are counted as usable. *)
Theorem C90_corrected_partial : forall pos, 2 <= N <= rate p -> 1 <= q -> self_correction p = true -> in_time -> well_corrected ->
  crossings_computed_on (cross turn) p ts pos -> clusterings_computed_on cluster p crossed pos ->
  correcting_analysis cross cluster p n part mirrored order (fun result => exists label edges, labelled_in_some_order cluster p crossed pos label /\
    Permutation edges (pairs (walk label (rate p) ts)) /\ ascending edges /\
    forall h, h < N -> result h = normalize_score (carry score_value f_zero (map (fun i => map (edge_term edges) (window_edges edges q i)) (seq 0 (length (whole_series N final) - q))))).
Proof. intros pos HN Hq Hc Ht W Hx Hcl. apply correcting; auto. destruct W as (_ & _ & W). now apply C83_cluster_partial. Qed.

(** The scores are numbers from 0 to 1, or all NaN; one per window. *)
Theorem C90_delivered : forall pos, 2 <= N <= rate p -> 1 <= q -> self_correction p = true -> in_time -> well_corrected ->
  crossings_computed_on (cross turn) p ts pos -> clusterings_computed_on cluster p crossed pos -> (Z.of_nat (length crossed) <= 2 ^ 24)%Z ->
  correcting_analysis cross cluster p n part mirrored order (fun result => exists out, (forall h, h < N -> result h = Ok out) /\ length out = length (whole_series N final) - q /\
    ((forall y, In y out -> f_finite y = true /\ (0 <= f_real y <= 1)%R) \/ (forall y, In y out -> y = B754_nan))).
Proof. intros pos HN Hq Hc Ht W Hx Hcl Hsz. apply correcting; auto. destruct W as (_ & _ & W). now apply (C83_delivered (cross turn) cluster p n final pos). Qed.

(** Nothing keeps the analysis from coming to its end. *)
Theorem C90_some_execution : forall pos k, 2 <= N <= rate p -> 1 <= q -> self_correction p = true -> in_time -> well_corrected ->
  crossings_computed_on (cross turn) p ts pos -> clusterings_computed_on cluster p crossed pos -> correcting_analysis cross cluster p n part mirrored order k -> exists result, k result.
Proof.
  intros pos k HN Hq Hc Ht Wc Hx Hcl H. pose proof (chosen_ok Wc) as Hch. destruct Wc as (Hp & Hl & W).
  destruct (correction_completes p part mirrored order HN Hc Hp) as (w & Rw & Sw). destruct (exchange_completes _ (correction_exchange p w)) as (x & Rx & Sx).
  destruct (H w Rw Sw) as (_ & t & Hturn & K). specialize (K x Rx Sx). destruct (ends_as p part mirrored order HN Hc Hp Ht Hch w Rw Sw) as (h & R & S0 & E). unfold chosen in R, S0.
  assert (Et : t = turn) by (rewrite <- (Hturn 0 ltac:(lia)); apply (decided_alike p part mirrored order HN Hc Hp Hch w Rw); [intros j Hj; apply (E j Hj)|lia]). rewrite Et in K.
  assert (EB : forall i j, i < N -> bucket (correction_exchange p w) i j = bucket (transition_exchange p h) i j).
  { intros i j Hi. cbn [correction_exchange transition_exchange bucket]. destruct (E i Hi) as (_ & _ & _ & ->). cbn [map concat]. apply app_nil_r. }
  apply (reachable_ext _ _ (transition_exchange p h)) in Rx; [|reflexivity|reflexivity|exact EB]. apply (stuck_ext _ _ (transition_exchange p h)) in Sx; [|reflexivity|reflexivity|exact EB].
  destruct (stage1 p n final HN Hq W (fun qs held => questions_cover p crossed qs /\ forall h, h < N -> Permutation (held h) (filter (fun t => owner p (pseg (fst t)) =? h) ts)) (fun _ _ A B => conj A B) h R S0) as (_ & HS). destruct (HS x Rx Sx) as (Hqs & Hheld).
  destruct (from_transitions (cross turn) cluster p n final pos (fun edges => transposition_stage p n edges (fun start E => weight_stage p final edges start E (fun g => scoring_stage p g k))) _ _ HN Hq W Hx Hcl Hqs Hheld) as (label & edges & _ & He & H').
  - revert K. apply crossing_stage_ext. { intros j Hj. unfold stored, transitions_at. destruct (E j Hj) as (_ & -> & _). reflexivity. }
    intros crossings. apply node_stage_ext. { intros j Hj. destruct (E j Hj) as (_ & _ & -> & _). reflexivity. }
    intros stores foreign. apply edge_stage_ext. intros edges. apply transposition_stage_ext. intros start Ed. apply weight_stage_ext. intros j Hj. destruct turn; [symmetry; auto|reflexivity].
  - exact (from_edges (cross turn) p n final label edges k HN Hq W He H').
Qed.
End FromPoints.
Print Assumptions C90_corrected_partial.
Print Assumptions C90_delivered.
Print Assumptions C90_some_execution.

(** ** From the rows to the scores *)
Lemma embed_alone_too : forall threads p dim data, embed (alone_too threads p) dim data = embed p dim data.
Proof. intros threads p dim data. rewrite <- (embed_alone threads). change (alone threads (alone_too threads p)) with (alone threads p). apply embed_alone. Qed.
Lemma host_points_alone_too : forall threads p dim n hosts k ms pcs data, host_points (alone_too threads p) dim n hosts k ms pcs data = host_points p dim n hosts k ms pcs data.
Proof. intros. unfold host_points. now rewrite embed_alone_too. Qed.
Lemma mirror_points_shape : forall rate points turned, mirror_points rate points = Ok turned ->
  map p_id turned = map p_id points /\ map p_coordinates turned = map r_flip (map p_coordinates points) /\ Forall (fun q => segment_of (p_coordinates q) rate = Some (p_segment q)) turned.
Proof.
  intros rate. induction points as [|q l IH]; intros turned E; cbn [mirror_points mapM] in E; [injection E as <-; ssplit; constructor|].
  apply bind_ok_inv in E. destruct E as (x & Ex & E). apply bind_ok_inv in E. destruct E as (r & Er & E). injection E as <-. destruct (IH r Er) as (A & B & C). unfold mirror in Ex. 
  change (match p_coordinates q with [] => [] | x :: t => (x * -1)%R :: t end) with (r_flip (p_coordinates q)) in Ex. destruct (segment_of (r_flip (p_coordinates q)) rate) as [s|] eqn:Es; [|discriminate]. cbn in Ex. injection Ex as <-. cbn [map p_id p_coordinates]. ssplit; [now rewrite A|now rewrite B|]. constructor; [exact Es|exact C].
Qed.

(** As C88, with self correction on the cluster and on the one machine: if both decide alike (they need not, C53), and what C88 asks of the points holds for the points that are then followed, mirrored or not, then
    neither aborts and every complete execution on the cluster gives every host exactly the scores that every complete execution on the one machine gives. *)
Theorem C90_cluster_as_one_machine_partial : forall qr svd inv qr' svd' inv' p threads dim rows mins maxs mins' maxs' blocks windows pcs pcs' ms points turned order,
  let N := n_cluster_nodes p in let part := fun k => partition_of N (pattern_length p - 1) k rows in let width := pattern_length p - latent p in let one := alone_too threads p in
  let series := map as_pt (concat (map points (seq 0 N))) in
  let turn := should_mirror p (fun h => map as_pt (points h)) in let final := if turn then turned else points in let all := concat (map final (seq 0 N)) in
  latent p + 3 <= pattern_length p -> 2 <= N <= rate p -> pattern_length p <= length rows / N -> 1 <= dim -> 1 <= query_length p -> self_correction p = true ->
  preserves_gram qr -> preserves_gram qr' -> inverse_correct (2 * dim) inv -> inverse_correct (2 * dim) inv' -> extremes dim rows mins maxs -> extremes dim rows mins' maxs' ->
  mapM (fun k => embed p dim (part k)) (seq 0 N) = Ok blocks -> all_analysed qr svd width dim (concat blocks) pcs ->
  embed one dim rows = Ok windows -> all_analysed qr' svd' width dim windows pcs' ->
  (forall c, c < dim -> determined width (channel c windows)) ->
  alignment p mins maxs pcs = Ok ms -> (forall h, h < N -> host_points p dim (length rows) N h ms pcs (part h) = Ok (points h)) -> (forall h, h < N -> mirror_points (rate p) (points h) = Ok (turned h)) ->
  in_time p (fun h => map as_pt (points h)) order -> turn = (length (usable_pairs (rate p) series) <? length (filter (backwards (rate p)) (pairs series))) ->
  well_distributed p (length rows) (fun h => map as_pt (final h)) -> properly_crossed (rate p) all -> segments_spread dim (rate p) all -> NoDup (map fst (crossings_of (rate p) all)) ->
  1 <= threads <= length all - query_length p ->
  exists w0, machine_analysis inv' one dim mins' maxs' pcs' rows = Ok w0 /\
    (forall w, scoring_run (fun x => f_eq x f_zero) w0 w -> flying w <> [] -> exists w', scoring_step (fun x => f_eq x f_zero) w w') /\
    correcting_from_rows inv p dim (length rows) mins maxs pcs part order (fun result =>
      forall h w, h < N -> scoring_run (fun x => f_eq x f_zero) w0 w -> flying w = [] -> local_results w = [result h]).
Proof.
  intros qr svd inv qr' svd' inv' p threads dim rows mins maxs mins' maxs' blocks windows pcs pcs' ms points turned order N part width one series turn final all HL HN Hpl Hdim Hq Hc Hqr Hqr' Hi Hi' Hx Hx' Eb A Ew A' Det Ems Hpts Htur Hin Hdec W Hprop Hsp ND Hth. unfold one in Ew. rewrite embed_alone_too in Ew.
  destruct (C85_points_as_one_machine_partial qr svd qr' svd' p dim rows N mins maxs mins' maxs' blocks windows pcs pcs' HL ltac:(lia) Hpl Hdim Hqr Hqr' Hx Hx' Eb A Ew A' Det) as (ms0 & ms' & pl & E1 & E2 & E3 & E4 & E5).
  fold part in E3. rewrite Ems in E1. injection E1 as <-.
  assert (Lpl : length pl = N) by (apply mapM_length in E3; now rewrite seq_length in E3).
  assert (Epts : forall h, h < N -> points h = nth h pl []) by (intros h Hh; pose proof (mapM_seq_nth _ _ _ _ _ E3 h Hh) as E; change (host_points p dim (length rows) N h ms pcs (part h) = Ok (nth h pl [])) in E; rewrite (Hpts h Hh) in E; now injection E).
  set (before := concat (map points (seq 0 N))) in *.
  assert (Eall : before = concat pl) by (apply concat_nth_seq; assumption). rewrite <- Eall in E4, E5.
  assert (Lms' : length ms' = dim) by (rewrite (aligned_length _ _ _ _ _ E2); apply A').
  destruct (host_points_shape p dim (length rows) 1 0 ms' pcs' rows before Lms' (proj1 A') E4) as (Hlen & Hseg).
  assert (Hid : map p_id before = seq 0 (length before)) by (rewrite E5; f_equal; rewrite <- (map_length p_id), E5; now rewrite seq_length).
  assert (Lbef : length before <= length rows) by (rewrite <- (map_length p_id), E5, seq_length; lia).
  (* the points that are followed *)
  assert (Hf : map p_id all = map p_id before /\ map p_coordinates all = (if turn then map r_flip (map p_coordinates before) else map p_coordinates before) /\ Forall (fun q => segment_of (p_coordinates q) (rate p) = Some (p_segment q)) all).
  { unfold all, final. destruct turn; [|ssplit; try reflexivity; exact Hseg]. unfold before. clear -Htur. assert (G : forall h, In h (seq 0 N) -> mirror_points (rate p) (points h) = Ok (turned h)) by (intros h Hh; apply in_seq in Hh; apply Htur; lia). revert G. generalize (seq 0 N) as l. clear Htur.
    induction l as [|h l IH]; intros G; [ssplit; try reflexivity; constructor|]. destruct (IH (fun x Hx => G x (or_intror Hx))) as (I1 & I2 & I3). destruct (mirror_points_shape _ _ _ (G h (or_introl eq_refl))) as (J1 & J2 & J3). cbn [map concat]. rewrite !map_app, I1, I2, J1, J2. ssplit; try reflexivity. apply Forall_app. now split. }
  destruct Hf as (Fid & Fco & Fseg).
  assert (Lall : length all = length before) by (rewrite <- (map_length p_id all), Fid; apply map_length).
  assert (Hid' : map p_id all = seq 0 (length all)) by (rewrite Fid, Lall; exact Hid).
  assert (Hlen' : Forall (fun q => length (p_coordinates q) = 2 * dim) all).
  { apply (Forall_map p_coordinates (fun c => length c = 2 * dim)). rewrite Fco. apply (Forall_map p_coordinates (fun c => length c = 2 * dim)) in Hlen. destruct turn; [|exact Hlen]. apply Forall_map. revert Hlen. apply Forall_impl. intros c Lc. rewrite <- Lc. now destruct c. }
  assert (Hfo : followed one (r_sector (rate p)) r_flip (map p_coordinates before) = map p_coordinates all).
  { unfold followed. rewrite points_at_stored by assumption. cbn [one alone_too self_correction rate]. rewrite Hc. cbn [andb]. fold series. rewrite <- Hdec. symmetry. exact Fco. }
  assert (HC : forall pts, (forall h, h < N -> pts h = map as_pt (final h)) -> whole_series N pts = map as_pt all) by (intros pts Hp; unfold whole_series, all; rewrite concat_map, map_map; f_equal; apply map_ext_in; intros h Hh; apply in_seq in Hh; apply Hp; lia).
  destruct (points_as_one_machine inv inv' p one dim (length rows) (map p_coordinates before) all (fun h => map as_pt (final h))) as (w0 & Es & R & _); try assumption; try reflexivity; [now rewrite map_length|lia|now apply HC|].
  exists w0. ssplit.
  - unfold machine_analysis. change (alignment one mins' maxs' pcs') with (alignment p mins' maxs' pcs'). rewrite E2. cbn [bind]. unfold one at 1. rewrite host_points_alone_too, E4. cbn [bind]. exact Es.
  - exact R.
  - unfold correcting_from_rows. rewrite Ems. split; [intros h Hh; eexists; now apply Hpts|]. intros r Hr. cbv beta in Hr. fold N in Hr |- *.
    assert (Er : forall h, h < N -> r h = points h) by (intros h Hh; specialize (Hr h Hh); fold part in Hr; change (host_points p dim (length rows) N h ms pcs (part h) = Ok (r h)) in Hr; rewrite (Hpts h Hh) in Hr; now injection Hr). clear Hr.
    split; [intros h Hh; rewrite (Er h Hh); eexists; now apply Htur|]. intros t Ht. cbv beta in Ht.
    assert (Et : forall h, h < N -> t h = turned h) by (intros h Hh; specialize (Ht h Hh); cbv beta in Ht; rewrite (Er h Hh), (Htur h Hh) in Ht; now injection Ht). clear Ht.
    assert (Em : should_mirror p (fun h => map as_pt (r h)) = turn).
    { unfold turn, should_mirror, usable_count, back_count. fold N. f_equal; f_equal; apply map_ext_in; intros h Hh; apply in_seq in Hh; now rewrite Er by lia. }
    assert (Ef : forall h, h < N -> (if turn then (fun h => map as_pt (t h)) else fun h => map as_pt (r h)) h = map as_pt (final h)) by (intros h Hh; unfold final; destruct turn; [now rewrite Et|now rewrite Er]).
    assert (W' : well_distributed p (length rows) (if turn then (fun h => map as_pt (t h)) else fun h => map as_pt (r h))) by (apply (well_distributed_ext p (length rows) (fun h => map as_pt (final h))); [fold N; lia| |exact W]; intros h Hh; symmetry; now apply Ef).
    apply correcting; try assumption.
    + unfold in_time. rewrite Em. exact Hin.
    + unfold well_corrected. ssplit.
      * intros h Hh x Hxi. fold N in Hh. rewrite (Er h Hh) in Hxi. apply in_map_iff in Hxi. destruct Hxi as (q & <- & Hq'). cbn [as_pt pseg]. 
        assert (Hb : In q before) by (unfold before; apply in_concat; exists (points h); split; [apply in_map, in_seq; lia|exact Hq']). rewrite Forall_forall in Hseg. rewrite <- (sector_stored _ _ (Hseg q Hb)). apply sector_bound. lia.
      * intros h Hh. fold N in Hh. rewrite !map_length, (Er h Hh), (Et h Hh). destruct (mirror_points_shape _ _ _ (Htur h Hh)) as (J & _). rewrite <- (map_length p_id (turned h)), J. apply map_length.
      * rewrite Em. exact W'.
    + rewrite Em. assert (Ea : concat (map (if turn then t else r) (seq 0 N)) = all) by (unfold all, final; f_equal; apply map_ext_in; intros h Hh; apply in_seq in Hh; destruct turn; [apply Et|apply Er]; lia). rewrite Ea.
      destruct (points_as_one_machine inv inv' p one dim (length rows) (map p_coordinates before) all (if turn then (fun h => map as_pt (t h)) else fun h => map as_pt (r h))) as (w1 & Es1 & _ & K1); try assumption; try reflexivity; [now rewrite map_length|lia|now apply HC|]. rewrite Es in Es1. injection Es1 as <-. exact K1.
Qed.
Print Assumptions C90_cluster_as_one_machine_partial.

(** Nine rows whose points turn clockwise: both two hosts and one machine mirror them; mirrored, segment 3 is crossed twice, at different distances. *)
Example C90_mirrored_rows_case : exists blocks windows pcs ms, let p := c90_params in let all := concat (map c90_turned (seq 0 2)) in let series := map as_pt (concat (map c90_points (seq 0 2))) in
  latent p + 3 <= pattern_length p /\ 2 <= n_cluster_nodes p <= rate p /\ pattern_length p <= length c90_rows / 2 /\ 1 <= query_length p /\ self_correction p = true /\
  preserves_gram (fun M => M) /\ inverse_correct 2 Geometry.Crossing.inverse2 /\ extremes 1 c90_rows [(-1)%R] [1%R] /\
  mapM (fun k => embed p 1 (partition_of 2 3 k c90_rows)) (seq 0 2) = Ok blocks /\ all_analysed (fun M => M) (fun _ => c90_axes) 3 1 (concat blocks) pcs /\
  embed (alone_too 2 p) 1 c90_rows = Ok windows /\ all_analysed (fun M => M) (fun _ => c90_axes) 3 1 windows pcs /\ (forall c, c < 1 -> determined 3 (channel c windows)) /\
  alignment p [(-1)%R] [1%R] pcs = Ok ms /\ (forall h, h < 2 -> host_points p 1 (length c90_rows) 2 h ms pcs (partition_of 2 3 h c90_rows) = Ok (c90_points h)) /\
  (forall h, h < 2 -> mirror_points 4 (c90_points h) = Ok (c90_turned h)) /\
  should_mirror p (fun h => map as_pt (c90_points h)) = true /\ (length (usable_pairs 4 series) <? length (filter (backwards 4) (pairs series))) = true /\ in_time p (fun h => map as_pt (c90_points h)) In_order /\
  well_distributed p (length c90_rows) (fun h => map as_pt (c90_turned h)) /\ properly_crossed 4 all /\ segments_spread 1 4 all /\ NoDup (map fst (crossings_of 4 all)) /\
  crossings_of 4 all = [(0, 3); (1, 0); (2, 1); (3, 2); (4, 3)] /\ 1 <= 2 <= length all - query_length p.
Proof.
  destruct c90_host_points as (ms & Ea & Hp). exists [c90_windows 0; c90_windows 1], (concat [c90_windows 0; c90_windows 1]), [c90_pc], ms. cbv zeta.
  assert (A : all_analysed (fun M => M) (fun _ => c90_axes) 3 1 (concat [c90_windows 0; c90_windows 1]) [c90_pc]) by (split; [reflexivity|]; intros c pc E; destruct c as [|[|c]]; try discriminate; injection E as <-; exact c90_analysed).
  set (part := fun h : nat => match h with 0 => [{| pid := 0; pseg := 2 |}; {| pid := 1; pseg := 3 |}; {| pid := 2; pseg := 0 |}; {| pid := 3; pseg := 1 |}] | _ => [{| pid := 4; pseg := 2 |}; {| pid := 5; pseg := 3 |}] end).
  assert (W : well_distributed c90_params 9 part).
  { unfold well_distributed. ssplit.
    - split; [reflexivity|]. split; [vm_compute; lia|]. intros k Hk. change (S k < 2) in Hk. now replace k with 0 by lia.
    - intros x Hx. vm_compute in Hx. repeat (destruct Hx as [<-|Hx]; [vm_compute; lia|]). destruct Hx.
    - intros k Hk. change (k < 2) in Hk. destruct k as [|[|k]]; [vm_compute; discriminate|vm_compute; discriminate|lia].
    - intros k Hk a t Et Et'. change (k + 1 < 2) in Hk. replace k with 0 in * by lia. cbn in Et. injection Et as <-. vm_compute in Et'. injection Et' as <-. left. vm_compute. reflexivity.
    - intros k Hk. change (S k < 2) in Hk. replace k with 0 by lia. exists ({| pid := 4; pseg := 2 |}, {| pid := 5; pseg := 3 |}). split; [vm_compute; tauto|reflexivity].
    - exists ({| pid := 1; pseg := 3 |}, {| pid := 2; pseg := 0 |}). split; [vm_compute; tauto|vm_compute; lia].
    - vm_compute. lia.
    - vm_compute. lia.
    - vm_compute. lia. }
  change (concat (map c90_turned (seq 0 2))) with c90_all. ssplit; try (cbn; lia).
  - intros M a b. reflexivity.
  - split; [exact Geometry.Crossing.inverse2_ok|exact Geometry.Crossing.inverse2_complete].
  - split; [reflexivity|]. split; [reflexivity|]. intros j Hj. assert (j = 0) by lia. subst j. exists (-1)%R, 1%R. ssplit; try reflexivity.
    + split; [exists [(-1)%R]; split; [cbn; tauto|reflexivity]|]. intros x (row & Hr & E). cbn in Hr. repeat (destruct Hr as [<-|Hr]; [cbn in E; injection E as <-; lra|]). destruct Hr.
    + split; [exists [1%R]; split; [cbn; tauto|reflexivity]|]. intros x (row & Hr & E). cbn in Hr. repeat (destruct Hr as [<-|Hr]; [cbn in E; injection E as <-; lra|]). destruct Hr.
  - exact c90_hosts.
  - exact A.
  - rewrite embed_alone_too. exact c90_one.
  - exact A.
  - intros c Hc. replace c with 0 by lia. exact c90_determined.
  - exact Ea.
  - exact Hp.
  - exact c90_mirrored.
  - right. right. now split.
  - apply (well_distributed_ext c90_params 9 part); [cbn; lia| |exact W]. intros k Hk. destruct k as [|[|k]]; [reflexivity|reflexivity|cbn in Hk; lia].
  - exact c90_proper.
  - exact c90_spread.
  - rewrite c90_crossings. cbn. repeat (constructor; [intros H; repeat (destruct H as [H|H]; [discriminate|]); destruct H|]). constructor.
  - exact c90_crossings.
Qed.

(** The points of [C83_case], with self correction: they are kept; and mirror images of them, which are mirrored back. *)
Definition c90p_params : params := {| rate := 6; n_threads := 2; n_cluster_nodes := 2; pattern_length := 2; latent := 1; query_length := 2; column_start := 0; column_end := 0%Z; self_correction := true |}.
Definition c90p_part (backwards : bool) (k : nat) : list pt := if backwards then numbered (7 * k) (mirror6 (map pseg (c83_part k))) else c83_part k.
Example C90_points_case : forall backwards order, order = After_decision \/ order = In_order -> let p := c90p_params in let part := c90p_part backwards in let mirrored := c90p_part (negb backwards) in
  should_mirror p part = backwards /\ in_time p part order /\ well_corrected p 14 part mirrored /\
  let ts := usable_pairs 6 (whole_series 2 (if should_mirror p part then mirrored else part)) in
  crossings_computed_on c83_cross p ts (fun c => c) /\ clusterings_computed_on c83_cluster p (path 6 ts) (fun c => c).
Proof.
  intros backwards order Ho p part mirrored. destruct C83_case as (W & Hx & Hcl & _).
  assert (Et : should_mirror p part = backwards) by (destruct backwards; vm_compute; reflexivity). rewrite Et.
  assert (Ef : (if backwards then mirrored else part) = c83_part) by (unfold mirrored, part, c90p_part; destruct backwards; reflexivity).
  cbv zeta. rewrite Ef. ssplit; [reflexivity| | |exact Hx|exact Hcl].
  - right. destruct Ho as [->| ->]; [now left|right; now split].
  - unfold well_corrected. rewrite Et. ssplit; [| |rewrite Ef; exact W].
    + intros k Hk x Hi. change (k < 2) in Hk. destruct backwards; destruct k as [|[|k]]; try lia; vm_compute in Hi; repeat (destruct Hi as [<-|Hi]; [vm_compute; lia|]); destruct Hi.
    + intros k Hk. change (k < 2) in Hk. destruct backwards; destruct k as [|[|k]]; try lia; reflexivity.
Qed.
