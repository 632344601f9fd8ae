(** C88: from the rows of the series to the scores. *)
From Verif.Pca Require Import Model Spec.
From Coq Require Import List Arith Bool Lia Permutation Reals Lra.
From Verif.Base Require Import Res Params ListX Float32.
From Verif.Stats Require Import Spec.
From Verif.Reader Require Import Spec Proofs.
From Verif.Pca Require Import GramSpec Components ComponentsSpec.
From Verif.PhaseSpace Require Import Model.
From Verif.Segmentation Require Import Model Spec PathProofs.
From Verif.Geometry Require Import Model Spec Crossing.
From Verif.Front Require Import Model Spec Proofs.
From Verif.Nodes Require Import Spec.
From Verif.Intersections Require Import Real RealSpec.
From Verif.Kde Require Import Real RealSpec.
From Verif.Scoring Require Import Model Spec.
From Verif.Normalize Require Import Model.
From Verif.Pipeline Require Import Model Spec Cluster ClusterSpec ClusterProofs.
From Verif.Properties Require Import Geometry Front Crossings Pipeline ClusterPipeline.
From Verif.Geometry Require Crossing.
From Verif.Analysis Require Import Model Spec Proofs Case.
Import ListNotations.
Local Open Scope nat_scope.

Lemma well_distributed_ext : forall p n part part', 1 <= n_cluster_nodes p -> (forall k, k < n_cluster_nodes p -> part k = part' k) -> well_distributed p n part -> well_distributed p n part'.
Proof.
  intros p n part part' HN E W. assert (Ew : whole_series (n_cluster_nodes p) part = whole_series (n_cluster_nodes p) part') by (unfold whole_series; f_equal; apply map_ext_in; intros k Hk; apply in_seq in Hk; apply E; lia).
  unfold well_distributed, cut in *. rewrite <- Ew. destruct W as ((A1 & A2 & A3) & B & C & D & F & G & H & I). ssplit; auto; try apply H.
  - intros k Hk. rewrite <- E by lia. now apply A3.
  - intros k Hk. rewrite <- E by lia. now apply C.
  - intros k Hk. specialize (D k Hk). unfold border_asked in *. rewrite <- !E by lia. exact D.
  - rewrite <- E by lia. exact I.
Qed.

(** ** The points of a host *)
Lemma aligned_length : forall p mins maxs pcs ms, alignment p mins maxs pcs = Ok ms -> length ms = length pcs.
Proof.
  intros p mins maxs pcs ms H. unfold alignment in H. apply bind_ok_inv in H. destruct H as (reference & _ & H). apply bind_ok_inv in H. destruct H as (first & _ & H). apply bind_ok_inv in H. destruct H as (refs & Er & H).
  apply mapM_length in H. rewrite seq_length in H. unfold reduce_window in Er. apply mapM_length in Er. rewrite combine_length, seq_length in Er. lia.
Qed.
Lemma host_points_shape : forall p dim n hosts k ms pcs data points, length ms = dim -> length pcs = dim -> host_points p dim n hosts k ms pcs data = Ok points ->
  Forall (fun q => length (p_coordinates q) = 2 * dim) points /\ Forall (fun q => segment_of (p_coordinates q) (rate p) = Some (p_segment q)) points.
Proof.
  intros p dim n hosts k ms pcs data points Lm Lp H. unfold host_points in H. apply bind_ok_inv in H. destruct H as (windows & _ & H). apply bind_ok_inv in H. destruct H as (red & Er & H). apply bind_ok_inv in H. destruct H as (w & _ & H).
  destruct (add_points _ _ (rate p)) as [ps|] eqn:Ea; [|discriminate]. cbn [unwrap] in H. injection H as <-. destruct (C61_points_numbered _ _ _ _ Ea) as (_ & Ec & Fs). split; [|exact Fs].
  assert (Fr : Forall (fun x : list vec3 => length x = dim) red).
  { clear -Er Lp. revert red Er. induction windows as [|w windows IH]; intros red Er; cbn [mapM] in Er; [injection Er as <-; constructor|]. apply bind_ok_inv in Er. destruct Er as (x & Ex & Er). apply bind_ok_inv in Er. destruct Er as (r & Er & E). injection E as <-. constructor; [|now apply IH].
    unfold reduce_window in Ex. apply mapM_length in Ex. rewrite combine_length, seq_length in Ex. lia. }
  assert (Fc : Forall (fun c => length c = 2 * dim) (map p_coordinates ps)).
  { rewrite Ec. apply Forall_map. revert Fr. apply Forall_impl. intros x Lx. rewrite point_coordinates_length. lia. }
  now apply Forall_map in Fc.
Qed.
Lemma sector_stored : forall rate q, segment_of (p_coordinates q) rate = Some (p_segment q) -> r_sector rate (p_coordinates q) = p_segment q.
Proof. intros rate q H. unfold segment_of in H. unfold r_sector. destruct (p_coordinates q) as [|x [|y c]]; try discriminate. now injection H. Qed.
Lemma points_at_stored : forall rate points, map p_id points = seq 0 (length points) -> Forall (fun q => segment_of (p_coordinates q) rate = Some (p_segment q)) points ->
  points_at (r_sector rate) (map p_coordinates points) = map as_pt points.
Proof.
  intros rate points Hid Hs. unfold points_at. rewrite map_length. revert Hid. generalize 0. induction Hs as [|q l Hq Hl IH]; intros i Hid; [reflexivity|]. cbn [map length seq] in Hid. injection Hid as Hi Hid. cbn [map length seq combine]. f_equal; [|now apply IH].
  unfold as_pt. cbn [fst snd]. now rewrite sector_stored, Hi.
Qed.
Lemma mapM_seq_nth : forall A (f : nat -> res (list A)) n i l, mapM f (seq i n) = Ok l -> forall h, h < n -> f (i + h) = Ok (nth h l []).
Proof.
  intros A f. induction n as [|n IH]; intros i l H h Hh; [lia|]. cbn [seq mapM] in H. apply bind_ok_inv in H. destruct H as (x & Ex & H). apply bind_ok_inv in H. destruct H as (r & Er & E). injection E as <-.
  destruct h as [|h]; [now rewrite Nat.add_0_r|]. cbn [nth]. rewrite <- Nat.add_succ_comm. apply (IH (S i)); [exact Er|lia].
Qed.
Lemma concat_nth_seq : forall A (l : list (list A)) n (f : nat -> list A), length l = n -> (forall h, h < n -> f h = nth h l []) -> concat (map f (seq 0 n)) = concat l.
Proof.
  intros A l n f L H. f_equal. subst n. transitivity (map (fun h => nth h l []) (seq 0 (length l))); [apply map_ext_in; intros h Hh; apply in_seq in Hh; apply H; lia|]. clear.
  induction l as [|x l IH]; [reflexivity|]. cbn [length seq map nth]. f_equal. rewrite <- seq_shift, map_map. exact IH.
Qed.

Lemma windows_alone : forall threads p V (rowsum : list V -> V) width count i current data, windows rowsum (alone threads p) width i count current data = windows rowsum p width i count current data.
Proof.
  intros threads p V rowsum width. induction count as [|count IH]; intros i current data; [reflexivity|]. cbn [windows]. 
  change (PhaseSpace.Model.first_window rowsum (alone threads p) width i data) with (PhaseSpace.Model.first_window rowsum p width i data). destruct current as [c|].
  - change (PhaseSpace.Model.next_window rowsum (alone threads p) width i c data) with (PhaseSpace.Model.next_window rowsum p width i c data). destruct (PhaseSpace.Model.next_window rowsum p width i c data) as [w|]; [|reflexivity]. cbn [bind]. now rewrite IH.
  - destruct (PhaseSpace.Model.first_window rowsum p width i data) as [w|]; [|reflexivity]. cbn [bind]. now rewrite IH.
Qed.
Lemma embed_alone : forall threads p dim data, embed (alone threads p) dim data = embed p dim data.
Proof.
  intros threads p dim data. unfold embed, phase_space. cbn [alone pattern_length latent]. destruct (usub (pattern_length p) 1) as [o|]; [|reflexivity]. cbn [bind]. destruct (usub (length data) o) as [k|]; [|reflexivity]. cbn [bind].
  destruct (usub (pattern_length p) (latent p)) as [w|]; [|reflexivity]. cbn [bind]. apply windows_alone.
Qed.
Lemma alignment_alone : forall threads p mins maxs pcs, alignment (alone threads p) mins maxs pcs = alignment p mins maxs pcs.
Proof. reflexivity. Qed.
Lemma host_points_alone : forall threads p dim n hosts k ms pcs data, host_points (alone threads p) dim n hosts k ms pcs data = host_points p dim n hosts k ms pcs data.
Proof. intros. unfold host_points. now rewrite embed_alone. Qed.

(** ** From the points on *)
(** [coords]: the points before a decision to mirror them, [all]: the points that are followed. *)
Lemma points_as_one_machine : forall inv inv' p one dim n coords all part,
  n_cluster_nodes one = 1 -> rate one = rate p -> query_length one = query_length p -> 2 <= n_cluster_nodes p <= rate p -> 1 <= dim -> 1 <= query_length p ->
  inverse_correct (2 * dim) inv -> inverse_correct (2 * dim) inv' ->
  map p_id all = seq 0 (length all) -> Forall (fun q => length (p_coordinates q) = 2 * dim) all -> Forall (fun q => segment_of (p_coordinates q) (rate p) = Some (p_segment q)) all ->
  followed one (r_sector (rate p)) r_flip coords = map p_coordinates all -> length coords = length all -> length all <= n ->
  whole_series (n_cluster_nodes p) part = map as_pt all -> well_distributed p n part -> properly_crossed (rate p) all -> segments_spread dim (rate p) all -> NoDup (map fst (crossings_of (rate p) all)) ->
  1 <= n_threads one <= length all - query_length p ->
  exists w0, local_scoring (r_sector (rate p)) r_flip (real_cross inv' (rate p)) (r_cluster (n_threads one)) one n coords = Ok w0 /\
    (forall w, scoring_run (fun x => f_eq x f_zero) w0 w -> flying w <> [] -> exists w', scoring_step (fun x => f_eq x f_zero) w w') /\
    cluster_analysis (real_cross inv (rate p) (map p_coordinates all)) (r_cluster (n_threads p)) p n part (fun result =>
      forall h w, h < n_cluster_nodes p -> scoring_run (fun x => f_eq x f_zero) w0 w -> flying w = [] -> local_results w = [result h]).
Proof.
  intros inv inv' p one dim n coords all part H1 Hrate Hqo HN Hdim Hq Hi Hi' Hid Hlen Hseg Hfo Lco Lall Hwhole W Hprop Hsp ND Hth. set (N := n_cluster_nodes p) in *. set (threads := n_threads one) in *.
  assert (Hth1 : 1 <= n_threads p) by (destruct W as (_ & _ & _ & _ & _ & _ & T & _); lia).
  set (pos := position_of dim (rate p) all). set (crossed := crossings_of (rate p) all) in *.
  assert (Hts : transitions_of one (r_sector (rate p)) r_flip coords = steps_of (rate p) all).
  { unfold transitions_of. rewrite Hfo, Hrate. rewrite points_at_stored by assumption. reflexivity. }
  assert (Hcl1 : clusterings_computed (r_cluster threads) one crossed pos).
  { intros s Hs H2. rewrite Hrate in Hs. destruct (grouped threads dim p all ltac:(lia) Hsp s _ Hs (Permutation_refl _) H2) as (labels & E & L & _). eauto. }
  assert (Hcr : path (rate one) (steps_of (rate p) all) = crossed) by (now rewrite Hrate).
  destruct (C81_one_machine (r_sector (rate p)) r_flip (real_cross inv' (rate p)) (r_cluster threads) one n coords pos) as (label & Hlab & Ho).
  - exact H1.
  - rewrite Hrate. lia.
  - intros k. rewrite Hrate. apply sector_bound. lia.
  - now rewrite Lco.
  - now rewrite Hqo.
  - now rewrite Lco, Hqo.
  - intros t c Ht Hc. rewrite Hfo. rewrite Hts in *. rewrite Hrate in Hc. apply (cross_ok dim (rate p) all Hid Hlen inv' Hi' Hdim Hprop); auto. apply incl_refl.
  - rewrite Hts, Hcr. exact Hcl1.
  - rewrite Hts, Hcr. intros (i & rest & E). rewrite E in ND. cbn [map fst] in ND. inversion ND as [|x l Nx _]. apply Nx. now left.
  - rewrite Hts. destruct W as (_ & _ & _ & _ & _ & (t & Ht & B) & _). unfold steps_of. fold N in Ht. rewrite Hwhole in Ht. exists t. split; [exact Ht|]. clear -B. lia.
  - rewrite Hts in Hlab, Ho. cbn zeta in Ho. rewrite Hcr in Hlab. destruct Ho as (_ & w0 & Es & R). exists w0. ssplit.
    + exact Es.
    + intros w Hw Hf. now apply (R w Hw).
    + assert (Hsome : labelled_in_some_order (r_cluster (n_threads p)) p crossed pos label).
      { intros s Hs. split; [|intros i E; apply (proj2 Hlab s i); [now rewrite Hrate|exact E]]. intros H2. exists (in_segment s crossed). split; [apply Permutation_refl|]. rewrite (cluster_threads (n_threads p) threads dim); [apply (proj1 Hlab s); [now rewrite Hrate|exact H2]|exact Hth1|lia|now apply Hsp]. }
      pose proof (C83_grouped_as_one_machine_partial (real_cross inv (rate p) (map p_coordinates all)) (r_cluster (n_threads p)) p n part pos) as T. fold N in T. rewrite Hwhole in T.
      eapply analysis_mono; [|refine (T _ HN Hq W _ (grouped (n_threads p) dim p all Hth1 Hsp) ND label Hsome)].
      * intros result HR h w Hh Hw Hf. cbv zeta in HR. rewrite (HR h Hh). destruct (R w Hw) as (_ & R2). rewrite (R2 Hf), Hrate, Hqo, Lco, map_length. reflexivity.
      * intros h held t c Hh P Ht Hc. change (usable_pairs (rate p) (map as_pt all)) with (steps_of (rate p) all) in P. apply (cross_ok dim (rate p) all Hid Hlen inv Hi Hdim Hprop); auto. intros u Hu. apply (Permutation_in _ P) in Hu. now apply filter_In in Hu.
Qed.

(** ** C88 *)
(** A series of [rows] on a cluster of [N] hosts with any number of threads, and on one machine with [threads] threads; the libraries ([qr], [svd], [inv]) may differ.  If the components are determined (C84),
    the points of the hosts are as C83 asks, no step is parallel to a border it crosses (below half a turn none is: C87), no segment is crossed repeatedly at one distance only (C86) and every step crosses into
    one segment, then neither aborts, and every complete execution on the cluster gives every host exactly the scores that every complete execution on the one machine gives. *)
Theorem C88_cluster_as_one_machine_partial : forall qr svd inv qr' svd' inv' p threads dim rows mins maxs mins' maxs' blocks windows pcs pcs' ms points,
  let N := n_cluster_nodes p in let part := fun k => partition_of N (pattern_length p - 1) k rows in let width := pattern_length p - latent p in let one := alone threads p in
  let all := concat (map points (seq 0 N)) in
  latent p + 3 <= pattern_length p -> 2 <= N <= rate p -> pattern_length p <= length rows / N -> 1 <= dim -> 1 <= query_length p ->
  preserves_gram qr -> preserves_gram qr' -> inverse_correct (2 * dim) inv -> inverse_correct (2 * dim) inv' -> extremes dim rows mins maxs -> extremes dim rows mins' maxs' ->
  mapM (fun k => embed p dim (part k)) (seq 0 N) = Ok blocks -> all_analysed qr svd width dim (concat blocks) pcs ->
  embed one dim rows = Ok windows -> all_analysed qr' svd' width dim windows pcs' ->
  (forall c, c < dim -> determined width (channel c windows)) ->
  alignment p mins maxs pcs = Ok ms -> (forall h, h < N -> host_points p dim (length rows) N h ms pcs (part h) = Ok (points h)) ->
  well_distributed p (length rows) (fun h => map as_pt (points h)) -> properly_crossed (rate p) all -> segments_spread dim (rate p) all -> NoDup (map fst (crossings_of (rate p) all)) ->
  1 <= threads <= length all - query_length p ->
  exists w0, machine_analysis inv' one dim mins' maxs' pcs' rows = Ok w0 /\
    (forall w, scoring_run (fun x => f_eq x f_zero) w0 w -> flying w <> [] -> exists w', scoring_step (fun x => f_eq x f_zero) w w') /\
    cluster_from_rows inv p dim (length rows) mins maxs pcs part (fun result =>
      forall h w, h < N -> scoring_run (fun x => f_eq x f_zero) w0 w -> flying w = [] -> local_results w = [result h]).
Proof.
  intros qr svd inv qr' svd' inv' p threads dim rows mins maxs mins' maxs' blocks windows pcs pcs' ms points N part width one all HL HN Hpl Hdim Hq Hqr Hqr' Hi Hi' Hx Hx' Eb A Ew A' Det Ems Hpts W Hprop Hsp ND Hth. unfold one in Ew. rewrite embed_alone in Ew.
  destruct (C85_points_as_one_machine_partial qr svd qr' svd' p dim rows N mins maxs mins' maxs' blocks windows pcs pcs' HL ltac:(lia) Hpl Hdim Hqr Hqr' Hx Hx' Eb A Ew A' Det) as (ms0 & ms' & pl & E1 & E2 & E3 & E4 & E5).
  fold part in E3. rewrite Ems in E1. injection E1 as <-.
  assert (Lpl : length pl = N) by (apply mapM_length in E3; now rewrite seq_length in E3).
  assert (Epts : forall h, h < N -> points h = nth h pl []) by (intros h Hh; pose proof (mapM_seq_nth _ _ _ _ _ E3 h Hh) as E; change (host_points p dim (length rows) N h ms pcs (part h) = Ok (nth h pl [])) in E; rewrite (Hpts h Hh) in E; now injection E).
  assert (Eall : all = concat pl) by (apply concat_nth_seq; assumption). rewrite <- Eall in E4, E5.
  assert (Lms' : length ms' = dim) by (rewrite (aligned_length _ _ _ _ _ E2); apply A').
  destruct (host_points_shape p dim (length rows) 1 0 ms' pcs' rows all Lms' (proj1 A') E4) as (Hlen & Hseg).
  assert (Hid : map p_id all = seq 0 (length all)) by (rewrite E5; f_equal; rewrite <- (map_length p_id), E5; now rewrite seq_length).
  assert (Lall : length all <= length rows) by (rewrite <- (map_length p_id), E5, seq_length; lia).
  assert (Hwhole : whole_series N (fun h => map as_pt (points h)) = map as_pt all) by (unfold whole_series, all; rewrite <- (map_map points (map as_pt)); now rewrite concat_map).
  destruct (points_as_one_machine inv inv' p one dim (length rows) (map p_coordinates all) all (fun h => map as_pt (points h))) as (w0 & Es & R & K); try assumption; try reflexivity; [now rewrite map_length|].
  exists w0. ssplit.
  - unfold machine_analysis. unfold one at 1. rewrite alignment_alone, E2. cbn [bind]. unfold one at 1. rewrite host_points_alone, E4. cbn [bind]. exact Es.
  - exact R.
  - unfold cluster_from_rows. rewrite Ems. split; [intros h Hh; eexists; now apply Hpts|]. intros r Hr. cbv beta in Hr.
    assert (Er : forall h, h < N -> r h = points h) by (intros h Hh; specialize (Hr h Hh); fold N part in Hr; change (host_points p dim (length rows) N h ms pcs (part h) = Ok (r h)) in Hr; rewrite (Hpts h Hh) in Hr; now injection Hr).
    assert (Ea : concat (map r (seq 0 N)) = all) by (unfold all; f_equal; apply map_ext_in; intros h Hh; apply in_seq in Hh; apply Er; lia). fold N. rewrite Ea.
    assert (W' : well_distributed p (length rows) (fun h => map as_pt (r h))) by (apply (well_distributed_ext p (length rows) (fun h => map as_pt (points h))); [fold N; lia| |exact W]; intros h Hh; now rewrite Er).
    assert (Hwhole' : whole_series N (fun h => map as_pt (r h)) = map as_pt all) by (unfold whole_series; rewrite <- (map_map r (map as_pt)), <- concat_map; now rewrite Ea).
    destruct (points_as_one_machine inv inv' p one dim (length rows) (map p_coordinates all) all (fun h => map as_pt (r h))) as (w1 & Es1 & _ & K1); try assumption; try reflexivity; [now rewrite map_length|]. rewrite Es in Es1. injection Es1 as <-. exact K1.
Qed.
Print Assumptions C88_cluster_as_one_machine_partial.

(** Nine rows on two hosts with one thread, and on one machine with two threads; segment 1 is crossed twice, at different distances. *)
Example C88_case : exists blocks windows pcs ms, let p := c88_params in let all := concat (map c88_points (seq 0 2)) in
  latent p + 3 <= pattern_length p /\ 2 <= n_cluster_nodes p <= rate p /\ pattern_length p <= length c88_rows / 2 /\ 1 <= query_length p /\
  preserves_gram (fun M => M) /\ inverse_correct 2 Geometry.Crossing.inverse2 /\ extremes 1 c88_rows [(-2)%R] [2%R] /\
  mapM (fun k => embed p 1 (partition_of 2 3 k c88_rows)) (seq 0 2) = Ok blocks /\ all_analysed (fun M => M) (fun _ => c88_axes) 3 1 (concat blocks) pcs /\
  embed (alone 2 p) 1 c88_rows = Ok windows /\ all_analysed (fun M => M) (fun _ => c88_axes) 3 1 windows pcs /\ (forall c, c < 1 -> determined 3 (channel c windows)) /\
  alignment p [(-2)%R] [2%R] pcs = Ok ms /\ (forall h, h < 2 -> host_points p 1 (length c88_rows) 2 h ms pcs (partition_of 2 3 h c88_rows) = Ok (c88_points h)) /\
  well_distributed p (length c88_rows) (fun h => map as_pt (c88_points h)) /\ properly_crossed 4 all /\ segments_spread 1 4 all /\ NoDup (map fst (crossings_of 4 all)) /\
  crossings_of 4 all = [(0, 1); (1, 2); (2, 3); (3, 0); (4, 1)] /\ 1 <= 2 <= length all - query_length p.
Proof.
  destruct c88_host_points as (ms & Ea & Hp). exists [c88_windows 0; c88_windows 1], (concat [c88_windows 0; c88_windows 1]), [c88_pc], ms. cbv zeta.
  assert (A : all_analysed (fun M => M) (fun _ => c88_axes) 3 1 (concat [c88_windows 0; c88_windows 1]) [c88_pc]) by (split; [reflexivity|]; intros c pc E; destruct c as [|[|c]]; try discriminate; injection E as <-; exact c88_analysed).
  set (part := fun h : nat => match h with 0 => [{| pid := 0; pseg := 0 |}; {| pid := 1; pseg := 1 |}; {| pid := 2; pseg := 2 |}; {| pid := 3; pseg := 3 |}] | _ => [{| pid := 4; pseg := 0 |}; {| pid := 5; pseg := 1 |}] end).
  assert (W : well_distributed c88_params 9 part).
  { unfold well_distributed. ssplit.
    - split; [reflexivity|]. split; [vm_compute; lia|]. intros k Hk. change (S k < 2) in Hk. now replace k with 0 by lia.
    - intros x Hx. vm_compute in Hx. repeat (destruct Hx as [<-|Hx]; [vm_compute; lia|]). destruct Hx.
    - intros k Hk. change (k < 2) in Hk. destruct k as [|[|k]]; [vm_compute; discriminate|vm_compute; discriminate|lia].
    - intros k Hk a t Et Et'. change (k + 1 < 2) in Hk. replace k with 0 in * by lia. cbn in Et. injection Et as <-. vm_compute in Et'. injection Et' as <-. left. vm_compute. reflexivity.
    - intros k Hk. change (S k < 2) in Hk. replace k with 0 by lia. exists ({| pid := 4; pseg := 0 |}, {| pid := 5; pseg := 1 |}). split; [vm_compute; tauto|reflexivity].
    - exists ({| pid := 1; pseg := 1 |}, {| pid := 2; pseg := 2 |}). split; [vm_compute; tauto|vm_compute; lia].
    - vm_compute. lia.
    - vm_compute. lia.
    - vm_compute. lia. }
  change (concat (map c88_points (seq 0 2))) with c88_all. ssplit; try (cbn; lia).
  - intros M a b. reflexivity.
  - split; [exact Geometry.Crossing.inverse2_ok|exact Geometry.Crossing.inverse2_complete].
  - split; [reflexivity|]. split; [reflexivity|]. intros j Hj. assert (j = 0) by lia. subst j. exists (-2)%R, 2%R. ssplit; try reflexivity.
    + split; [exists [(-2)%R]; split; [cbn; tauto|reflexivity]|]. intros x (row & Hr & E). cbn in Hr. repeat (destruct Hr as [<-|Hr]; [cbn in E; injection E as <-; lra|]). destruct Hr.
    + split; [exists [2%R]; split; [cbn; tauto|reflexivity]|]. intros x (row & Hr & E). cbn in Hr. repeat (destruct Hr as [<-|Hr]; [cbn in E; injection E as <-; lra|]). destruct Hr.
  - exact c88_hosts.
  - exact A.
  - rewrite embed_alone. exact c88_one.
  - exact A.
  - intros c Hc. replace c with 0 by lia. exact c88_determined.
  - exact Ea.
  - exact Hp.
  - apply (well_distributed_ext c88_params 9 part); [cbn; lia| |exact W]. intros k Hk. destruct k as [|[|k]]; [reflexivity|reflexivity|cbn in Hk; lia].
  - exact c88_proper.
  - exact c88_spread.
  - rewrite c88_crossings. cbn. repeat (constructor; [intros H; repeat (destruct H as [H|H]; [discriminate|]); destruct H|]). constructor.
  - exact c88_crossings.
Qed.
