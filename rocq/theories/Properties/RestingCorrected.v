(** C103, C104, C107, C108 and C112 with self correction: parts of a series without usable steps on a cluster that may mirror its points. *)
From Verif.Pca Require Import Model Spec.
From Coq Require Import List Arith Bool Lia Permutation Reals ZArith.
From Verif.Base Require Import Res Params ListX Float32.
From Verif.Stats Require Import Model Single SingleSpec.
From Verif.Reader Require Import Spec.
From Verif.Pca Require Import Single SingleSpec.
From Verif.PhaseSpace Require Import Model Spec.
From Verif.Transition Require Import Spec.
From Verif.Topology Require Import Model.
From Verif.Protocol Require Import Model Exchange ExchangeProofs Ring.
From Verif.Segmentation Require Import Model Spec Blocks Proofs PathProofs Handover HandoverProofs.
From Verif.Geometry Require Import Model Spec Proofs.
From Verif.Front Require Import Model Spec Proofs.
From Verif.Correction Require Import Model Spec Proofs.
From Verif.Pipeline Require Import Model Spec Cluster Correcting CorrectingProofs.
From Verif.Properties Require Import Segmentation Geometry Correction Correcting Resting Missing Silent Wide Infinite Analysis.
From Verif.Analysis Require Import Model Correcting Resting.
From Verif.Front Require Import Single SingleSpec SingleProofs SingleAlign SilentSpec.
Import ListNotations.
Import Verif.Stats.Model.
Local Open Scope nat_scope.

Local Notation set_same := HandoverProofs.set_same.
Local Notation set_other := HandoverProofs.set_other.

(** Whatever the order of events and wherever first points may be handled: if host [k + 1] has no usable pair, mirrored or not, no first point is ever under way to host [k], and it never distributes its transitions. *)
Lemma corrected_never_distributes : forall p part mirrored order k w, 2 <= n_cluster_nodes p <= rate p -> k + 1 < n_cluster_nodes p ->
  segments_ok p (part (k + 1)) -> segments_ok p (mirrored (k + 1)) -> usable_pairs (rate p) (part (k + 1)) = [] -> usable_pairs (rate p) (mirrored (k + 1)) = [] ->
  creachable p part mirrored order w ->
  (forall m, ~ In (k, m) (points_sent w)) /\ c_sent (host_of w k) = [] /\ send_transition (c_seg (host_of w (k + 1))) = None.
Proof.
  intros p part mirrored order k w HN Hk Hf Hfm Hu Hum R. assert (HN1 : 1 <= n_cluster_nodes p <= rate p) by lia.
  assert (Prev : forall j, j < n_cluster_nodes p -> Handover.previous (n_cluster_nodes p) j = k -> j = k + 1).
  { intros j Hj. unfold Handover.previous. destruct (Nat.eq_dec j 0) as [->|J]; [rewrite Nat.mod_small by lia; lia|].
    replace (j + (n_cluster_nodes p - 1)) with (j - 1 + 1 * n_cluster_nodes p) by lia. rewrite Nat.mod_add by lia. rewrite Nat.mod_small by lia. lia. }
  assert (Silent : forall j g m, j < n_cluster_nodes p -> (j = k + 1 -> send_transition g = None) -> ~ In (k, m) (first_of p j g)).
  { intros j g m Hj Hs Hin. unfold first_of in Hin. destruct (send_point g) as [a|]; [|destruct Hin]. destruct (send_transition g) as [t|] eqn:E; [|destruct Hin]. destruct Hin as [X|[]]. injection X as X _. apply (Prev j Hj) in X. specialize (Hs X). discriminate. }
  induction R as [|w w' R (I1 & I2 & I3) St]; [cbn; tauto|].
  assert (Hlow : forall q, k = q \/ k <> q) by (intros q; lia).
  destruct St as [w j Hj Hm Hno|w j m r Hj Ht|w j m r Hj Ha Hm e d|w j a t l r En Ha He]; cbn [counts host_of points_sent].
  - split; [exact I1|]. split.
    + destruct (Hlow j) as [<-|Hne]; [|now rewrite set_other by lia]. rewrite set_same. unfold segment. destruct (build_segments _ _ _ _) as [(g, f)|]; exact I2.
    + destruct (Nat.eq_dec (k + 1) j) as [<-|Hne]; [|now rewrite set_other by lia]. rewrite set_same. unfold segment. rewrite build_ok by (exact HN1 || exact Hf). unfold built. cbn [c_seg send_transition]. now rewrite Hu.
  - auto.
  - assert (D : (forall m, ~ In (k, m) (snd d)) /\ (j = k -> c_sent (fst d) = []) /\ (j = k + 1 -> send_transition (c_seg (fst d)) = None)).
    { unfold d. destruct (_ <? _); [|cbn [fst snd]; ssplit; [intros ? []|intros ->; exact I2|intros ->; exact I3]]. unfold decide. destruct (mirrors _ _).
      - destruct (build_segments p j (mirrored j) _) as [(g, f)|] eqn:E; cbn [fst snd]; [|ssplit; [intros ? []|intros ->; exact I2|intros ->; exact I3]]. ssplit.
        + intros x. apply Silent; [exact Hj|]. intros ->. destruct (build_cleared p HN (k + 1) (mirrored (k + 1)) (snd (add_up (report p (k + 1) (part (k + 1))) (taken (fst e)))) Hfm) as (g' & E' & _ & _ & S). rewrite E in E'. injection E' as <- _. rewrite S. unfold built. cbn [fst send_transition]. now rewrite Hum.
        + intros ->. unfold hand_on. destruct (Nat.eqb_spec k (n_cluster_nodes p - 1)); [lia|exact I2].
        + intros ->. unfold hand_on. now destruct (_ =? _).
      - cbn [fst snd]. ssplit.
        + intros x. apply Silent; [exact Hj|]. intros ->. exact I3.
        + intros ->. unfold hand_on. destruct (Nat.eqb_spec k (n_cluster_nodes p - 1)); [lia|exact I2].
        + intros ->. unfold hand_on. now destruct (_ =? _). }
    destruct D as (D1 & D2 & D3). ssplit.
    + intros x Hin. apply in_app_iff in Hin. destruct Hin as [Hin|Hin]; [exact (I1 x Hin)|exact (D1 x Hin)].
    + destruct (Hlow j) as [<-|Hne]; [rewrite set_same; now apply D2|now rewrite set_other by lia].
    + destruct (Nat.eq_dec (k + 1) j) as [<-|Hne]; [rewrite set_same; now apply D3|now rewrite set_other by lia].
  - assert (Hne : k <> j) by (intros <-; apply (I1 (a, t)); rewrite En; apply in_elt). ssplit.
    + intros x Hin. apply (I1 x). rewrite En. apply in_app_iff in Hin. apply in_app_iff. destruct Hin; [now left|right; now right].
    + now rewrite set_other by lia.
    + destruct (Nat.eq_dec (k + 1) j) as [<-|Hn]; [|now rewrite set_other by lia]. rewrite set_same. unfold gets_first_point. destruct (first_point _ _ _ _ _ _) as [(g, f)|] eqn:E; [|exact I3]. cbn [c_seg].
      unfold first_point in E. apply bind_ok_inv in E. destruct E as (la & _ & E). apply bind_ok_inv in E. destruct E as (lt & _ & E). destruct (is_usable _ _).
      * do 4 (apply bind_ok_inv in E; destruct E as (? & _ & E)). injection E as <- _. exact I3.
      * do 3 (apply bind_ok_inv in E; destruct E as (? & _ & E)). injection E as <- _. exact I3.
Qed.

Lemma mirror_of_rest : forall p dim n hosts k ms pcs row data points turned, 1 <= rate p -> latent p < pattern_length p -> (forall r, In r data -> r = row) -> host_points p dim n hosts k ms pcs data = Ok points ->
  mirror_points (rate p) points = Ok turned -> usable_pairs (rate p) (map as_pt turned) = [].
Proof.
  intros p dim n hosts k ms pcs row data points turned Hr HL H E Em. destruct (mirror_points_shape _ _ _ Em) as (_ & Ec & Fs).
  assert (Same : exists c, forall q, In q points -> p_coordinates q = c).
  { unfold host_points in E. apply bind_ok_inv in E. destruct E as (windows & Ew & E). apply bind_ok_inv in E. destruct E as (red & Er & E). apply bind_ok_inv in E. destruct E as (m & _ & E).
    destruct (windows_of_rest p dim row data windows HL H Ew) as (w & Hw). destruct (add_points _ _ (rate p)) as [ps|] eqn:Ea; [|discriminate]. cbn [unwrap] in E. injection E as <-.
    assert (Hred : forall v, In v red -> reduce_window pcs w = Ok v).
    { clear -Er Hw. revert red Er. induction windows as [|x windows IH]; intros red Er v Hv; cbn [mapM] in Er; [injection Er as <-; destruct Hv|]. apply bind_ok_inv in Er. destruct Er as (y & Ey & Er). apply bind_ok_inv in Er. destruct Er as (r & Er & E). injection E as <-.
      destruct Hv as [<-|Hv]; [rewrite <- (Hw x) by (now left); exact Ey|]. apply (IH (fun u Hu => Hw u (or_intror Hu)) r Er v Hv). }
    destruct (C61_points_numbered _ _ _ _ Ea) as (_ & Ecc & _). destruct red as [|v0 red']; [exists []; intros q Hq; apply (in_map p_coordinates) in Hq; rewrite Ecc in Hq; destruct Hq|].
    exists (point_coordinates ms v0). intros q Hq. apply (in_map p_coordinates) in Hq. rewrite Ecc in Hq. apply in_map_iff in Hq. destruct Hq as (v & <- & Hv). pose proof (Hred v Hv) as A. rewrite (Hred v0 (or_introl eq_refl)) in A. injection A as <-. reflexivity. }
  destruct Same as (c & Hc). assert (Ht : forall q, In q turned -> p_coordinates q = r_flip c).
  { intros q Hq. apply (in_map p_coordinates) in Hq. rewrite Ec in Hq. apply in_map_iff in Hq. destruct Hq as (y & <- & Hy). apply in_map_iff in Hy. destruct Hy as (z & <- & Hz). now rewrite (Hc z Hz). }
  assert (Hs : forall q, In q turned -> segment_of (r_flip c) (rate p) = Some (p_segment q)) by (intros q Hq; rewrite <- (Ht q Hq); exact (proj1 (Forall_forall _ _) Fs q Hq)).
  destruct turned as [|q0 l]; [reflexivity|]. pose proof (Hs q0 (or_introl eq_refl)) as S0. apply (usable_same_segment (rate p) (p_segment q0)); [exact Hr| |].
  - unfold segment_of in S0. destruct (r_flip c) as [|a [|b t]]; try discriminate. injection S0 as <-. apply segment_range. lia.
  - intros x Hx. apply in_map_iff in Hx. destruct Hx as (q & <- & Hq). pose proof (Hs q Hq) as A. rewrite S0 in A. injection A as A. cbn [as_pt pseg]. now symmetry.
Qed.
Lemma mirror_segments : forall p points turned, 1 <= rate p -> mirror_points (rate p) points = Ok turned -> segments_ok p (map as_pt turned).
Proof.
  intros p points turned Hr Em x Hx. destruct (mirror_points_shape _ _ _ Em) as (_ & _ & Fs). apply in_map_iff in Hx. destruct Hx as (q & <- & Hq). pose proof (proj1 (Forall_forall _ _) Fs q Hq) as S0. cbn [as_pt pseg].
  unfold segment_of in S0. destruct (p_coordinates q) as [|a [|b c]]; try discriminate. injection S0 as <-. apply segment_range. lia.
Qed.

(** C103 with self correction: if the rows of host [k + 1] are all equal, then whatever the order of events and whether the hosts mirror their points or not, host [k] never comes to distribute its transitions, and as long as
    it does not, no host gets through the exchange of transitions. *)
Theorem C103_correcting_no_host_goes_on : forall p dim n ms pcs part points turned k row order w, let N := n_cluster_nodes p in
  2 <= N <= rate p -> latent p < pattern_length p -> (forall h, h < N -> host_points p dim n N h ms pcs (part h) = Ok (points h)) -> (forall h, h < N -> mirror_points (rate p) (points h) = Ok (turned h)) ->
  k + 1 < N -> (forall r, In r (part (k + 1)) -> r = row) ->
  creachable p (fun h => map as_pt (points h)) (fun h => map as_pt (turned h)) order w ->
  c_sent (host_of w k) = [] /\
  forall x, reachable (correction_exchange p w) x -> entered (state x k) = false -> forall j, j < N -> left (state x j) = 0.
Proof.
  intros p dim n ms pcs part points turned k row order w N HN HL Hp Ht Hk Hrow R. assert (Hr : 1 <= rate p) by lia. split.
  - destruct (corrected_never_distributes p (fun h => map as_pt (points h)) (fun h => map as_pt (turned h)) order k w HN Hk) as (_ & Q & _); auto.
    + apply (host_segments p dim n N (k + 1) ms pcs (part (k + 1))); auto.
    + apply (mirror_segments p (points (k + 1))); auto.
    + apply (points_of_rest p dim n N (k + 1) ms pcs row (part (k + 1))); auto.
    + apply (mirror_of_rest p dim n N (k + 1) ms pcs row (part (k + 1)) (points (k + 1))); auto.
  - intros x Rx Ex j Hj. apply (nobody_leaves _ _ x k j Rx); [cbn; fold N; lia|exact Ex|exact Hj].
Qed.
(** So such an analysis does not come to its end. *)
Theorem C103_correcting_never_finishes : forall inv p dim n mins maxs pcs part k row order, let N := n_cluster_nodes p in
  2 <= N <= rate p -> self_correction p = true -> latent p < pattern_length p -> k + 1 < N -> (forall r, In r (part (k + 1)) -> r = row) ->
  ~ correcting_from_rows inv p dim n mins maxs pcs part order (fun _ => True).
Proof.
  intros inv p dim n mins maxs pcs part k row order N HN Hc HL Hk Hrow H. unfold correcting_from_rows in H. destruct (alignment p mins maxs pcs) as [ms|]; [|exact H]. destruct H as (Ex & H). fold N in Ex, H.
  set (points := fun h => match host_points p dim n N h ms pcs (part h) with Ok l => l | Panic _ => [] end).
  assert (Hp : forall h, h < N -> host_points p dim n N h ms pcs (part h) = Ok (points h)) by (intros h Hh; destruct (Ex h Hh) as (l & E); unfold points; now rewrite E).
  specialize (H points Hp). destruct H as (Et & H). set (turned := fun h => match mirror_points (rate p) (points h) with Ok l => l | Panic _ => [] end).
  assert (Ht : forall h, h < N -> mirror_points (rate p) (points h) = Ok (turned h)) by (intros h Hh; destruct (Et h Hh) as (l & E); unfold turned; now rewrite E).
  specialize (H turned Ht). destruct (correction_completes p (fun h => map as_pt (points h)) (fun h => map as_pt (turned h)) order HN Hc) as (w & Rw & Sw).
  { intros h Hh. apply (host_segments p dim n N h ms pcs (part h)); [lia|now apply Hp]. }
  destruct (H w Rw Sw) as (D & _). destruct (D k) as (_ & d & E); [fold N; lia|]. destruct (C103_correcting_no_host_goes_on p dim n ms pcs part points turned k row order w HN HL Hp Ht Hk Hrow Rw) as (Q & _). rewrite Q in E. discriminate.
Qed.

(** ** Points without direction *)
(** If a coordinate that decides the segment is no number, for all points, all points have segment 0, mirrored or not. *)
Lemma undirected_waits : forall atan2 p c first coords points mirrored order w, let N := n_cluster_nodes p in 2 <= N <= rate p -> c < 2 -> keeps_nan atan2 ->
  (forall h q, h < N -> In q (coords h) -> 2 <= length q /\ exists x, nth_error q c = Some x /\ f_nan x = true) ->
  (forall h, h < N -> stored_points atan2 (rate p) (first h) (coords h) (points h)) -> (forall h, h < N -> stored_points atan2 (rate p) (first h) (map f_mirror (coords h)) (mirrored h)) ->
  creachable p points mirrored order w ->
  (forall k, k + 1 < N -> c_sent (host_of w k) = []) /\
  forall x, reachable (correction_exchange p w) x -> (forall k, k + 1 < N -> entered (state x k) = false) -> forall j, j < N -> left (state x j) = 0.
Proof.
  intros atan2 p c first coords points mirrored order w N HN H2 K Hnan Hst Hsm R.
  assert (Z : forall h x, h < N -> In x (points h) -> pseg x = 0).
  { intros h x Hh Hx. apply (stored_zero atan2 (rate p) (first h) (coords h) (points h)); auto. intros q Hq. destruct (Hnan h q Hh Hq) as (L & y & Ey & Ny). apply (segment_nan atan2 (rate p) q c y); auto. lia. }
  assert (Zm : forall h x, h < N -> In x (mirrored h) -> pseg x = 0).
  { intros h x Hh Hx. apply (stored_zero atan2 (rate p) (first h) (map f_mirror (coords h)) (mirrored h)); auto. intros q Hq. apply in_map_iff in Hq. destruct Hq as (q0 & <- & Hq). destruct (Hnan h q0 Hh Hq) as (L & y & Ey & Ny).
    destruct (mirror_nan q0 c y Ey Ny) as (y' & Ey' & Ny'). apply (segment_nan atan2 (rate p) (f_mirror q0) c y'); auto; [lia|now rewrite mirror_length]. }
  assert (Ok0 : forall l, (forall x, In x l -> pseg x = 0) -> segments_ok p l) by (intros l Hl x Hx; rewrite (Hl x Hx); lia).
  assert (Us : forall l, (forall x, In x l -> pseg x = 0) -> usable_pairs (rate p) l = []) by (intros l Hl; apply (usable_same_segment (rate p) 0); auto; lia).
  split.
  - intros k Hk. destruct (corrected_never_distributes p points mirrored order k w HN Hk) as (_ & Q & _); [apply Ok0; intros x; now apply Z|apply Ok0; intros x; now apply Zm|apply Us; intros x; now apply Z|apply Us; intros x; now apply Zm|exact R|exact Q].
  - intros x Rx En j Hj. apply (nobody_leaves _ _ x 0 j Rx); [cbn; fold N; lia|apply En; lia|exact Hj].
Qed.

(** C104 with self correction: a missing value in one of the first two columns stops a cluster, however first points are handed over. *)
Theorem C104_correcting_cluster_waits_refuted : forall atan2 p dim rows r c windows threads orders order comps ms coords points mirrored delivery w, let N := n_cluster_nodes p in
  let means := channel_means (pattern_length p - latent p) windows threads orders order in
  1 <= latent p < pattern_length p -> 2 <= N <= rate p -> pattern_length p <= length rows / N -> missing rows r c -> r + 1 < length rows -> c < dim -> c < 2 -> keeps_nan atan2 ->
  centred_by p dim N rows windows threads orders order -> components_and_matrices dim (pattern_length p - latent p) comps ms ->
  (forall h, h < N -> host_coordinates means comps ms (windows h) (coords h)) ->
  (forall h, h < N -> stored_points atan2 (rate p) (length rows / N * h) (coords h) (points h)) ->
  (forall h, h < N -> stored_points atan2 (rate p) (length rows / N * h) (map f_mirror (coords h)) (mirrored h)) ->
  creachable p points mirrored delivery w ->
  (forall k, k + 1 < N -> c_sent (host_of w k) = []) /\
  forall x, reachable (correction_exchange p w) x -> (forall k, k + 1 < N -> entered (state x k) = false) -> forall j, j < N -> left (state x j) = 0.
Proof.
  intros atan2 p dim rows r c windows threads orders order comps ms coords points mirrored delivery w N means HL HN HP Hx Hr Hc H2 K Hcb Hcm Hco Hst Hsm R.
  apply (undirected_waits atan2 p c (fun h => length rows / N * h) coords points mirrored delivery w); auto. intros h q Hh Hq.
  destruct (C104_only_its_windows_refuted p dim N rows r c windows threads orders order comps ms h (coords h) q HL ltac:(lia) HP Hx Hr Hc Hcb Hcm Hh (Hco h Hh) Hq) as (L & X & _). split; [lia|exact X].
Qed.
(** C107 with self correction: a constant channel. *)
Theorem C107_correcting_cluster_waits_refuted : forall atan2 p dim rows c z windows threads orders order arrival comps ms coords points mirrored delivery w, let N := n_cluster_nodes p in
  let means := channel_means (pattern_length p - latent p) windows threads orders order in
  1 <= latent p < pattern_length p -> 2 <= N <= rate p -> pattern_length p <= length rows / N -> silent rows c z -> exact p z rows -> c < dim -> c < 2 -> keeps_nan atan2 ->
  centred_by p dim N rows windows threads orders order -> components_and_matrices dim (pattern_length p - latent p) comps ms -> aligned_by p dim N rows arrival means comps ms ->
  (forall h, h < N -> host_coordinates means comps ms (windows h) (coords h)) ->
  (forall h, h < N -> stored_points atan2 (rate p) (length rows / N * h) (coords h) (points h)) ->
  (forall h, h < N -> stored_points atan2 (rate p) (length rows / N * h) (map f_mirror (coords h)) (mirrored h)) ->
  creachable p points mirrored delivery w ->
  (forall k, k + 1 < N -> c_sent (host_of w k) = []) /\
  forall x, reachable (correction_exchange p w) x -> (forall k, k + 1 < N -> entered (state x k) = false) -> forall j, j < N -> left (state x j) = 0.
Proof.
  intros atan2 p dim rows c z windows threads orders order arrival comps ms coords points mirrored delivery w N means HL HN HP Hx Hex Hc H2 K Hcb Hcm Hal Hco Hst Hsm R.
  apply (undirected_waits atan2 p c (fun h => length rows / N * h) coords points mirrored delivery w); auto. intros h q Hh Hq.
  destruct (C107_other_channels_refuted p dim N rows c z windows threads orders order arrival comps ms h (coords h) q HL ltac:(lia) HP Hx Hex Hc Hcb Hcm Hal Hh (Hco h Hh) Hq) as (L & X & _). split; [lia|exact X].
Qed.
(** C108 with self correction: values far apart. *)
Theorem C108_correcting_cluster_waits_refuted : forall atan2 p dim rows c windows threads orders order arrival comps ms coords points mirrored delivery w, let N := n_cluster_nodes p in
  let means := channel_means (pattern_length p - latent p) windows threads orders order in
  1 <= latent p < pattern_length p -> 2 <= N <= rate p -> pattern_length p <= length rows / N -> wide rows c -> c < dim -> c < 2 -> keeps_nan atan2 ->
  centred_by p dim N rows windows threads orders order -> components_and_matrices dim (pattern_length p - latent p) comps ms -> aligned_by p dim N rows arrival means comps ms ->
  (forall h, h < N -> host_coordinates means comps ms (windows h) (coords h)) ->
  (forall h, h < N -> stored_points atan2 (rate p) (length rows / N * h) (coords h) (points h)) ->
  (forall h, h < N -> stored_points atan2 (rate p) (length rows / N * h) (map f_mirror (coords h)) (mirrored h)) ->
  creachable p points mirrored delivery w ->
  (forall k, k + 1 < N -> c_sent (host_of w k) = []) /\
  forall x, reachable (correction_exchange p w) x -> (forall k, k + 1 < N -> entered (state x k) = false) -> forall j, j < N -> left (state x j) = 0.
Proof.
  intros atan2 p dim rows c windows threads orders order arrival comps ms coords points mirrored delivery w N means HL HN HP Hx Hc H2 K Hcb Hcm Hal Hco Hst Hsm R.
  apply (undirected_waits atan2 p c (fun h => length rows / N * h) coords points mirrored delivery w); auto. intros h q Hh Hq.
  destruct (C108_finite_series_refuted p dim N rows c windows threads orders order arrival comps ms h (coords h) q HL ltac:(lia) HP Hx Hc Hcb Hcm Hal Hh (Hco h Hh) Hq) as (L & X & _). split; [lia|exact X].
Qed.
(** C112 with self correction: an infinite value. *)
Theorem C112_correcting_cluster_waits_refuted : forall atan2 p dim rows c windows threads orders order arrival comps ms coords points mirrored delivery w, let N := n_cluster_nodes p in
  let means := channel_means (pattern_length p - latent p) windows threads orders order in
  1 <= latent p < pattern_length p -> 2 <= N <= rate p -> pattern_length p <= length rows / N -> infinite rows c -> c < dim -> c < 2 -> keeps_nan atan2 ->
  centred_by p dim N rows windows threads orders order -> components_and_matrices dim (pattern_length p - latent p) comps ms -> aligned_by p dim N rows arrival means comps ms ->
  (forall h, h < N -> host_coordinates means comps ms (windows h) (coords h)) ->
  (forall h, h < N -> stored_points atan2 (rate p) (length rows / N * h) (coords h) (points h)) ->
  (forall h, h < N -> stored_points atan2 (rate p) (length rows / N * h) (map f_mirror (coords h)) (mirrored h)) ->
  creachable p points mirrored delivery w ->
  (forall k, k + 1 < N -> c_sent (host_of w k) = []) /\
  forall x, reachable (correction_exchange p w) x -> (forall k, k + 1 < N -> entered (state x k) = false) -> forall j, j < N -> left (state x j) = 0.
Proof.
  intros atan2 p dim rows c windows threads orders order arrival comps ms coords points mirrored delivery w N means HL HN HP Hx Hc H2 K Hcb Hcm Hal Hco Hst Hsm R.
  apply (undirected_waits atan2 p c (fun h => length rows / N * h) coords points mirrored delivery w); auto. intros h q Hh Hq.
  destruct (C112_infinite_value_refuted p dim N rows c windows threads orders order arrival comps ms h (coords h) q HL ltac:(lia) HP Hx Hc Hcb Hcm Hal Hh (Hco h Hh) Hq) as (L & X & _). split; [lia|exact X].
Qed.

(** ** Cases *)
(** The series of C103 with self correction: points, mirrored points, and a complete execution for every order of delivery. *)
Definition c103c_params : params := {| rate := 4; n_threads := 1; n_cluster_nodes := 3; pattern_length := 4; latent := 1; query_length := 1; column_start := 0; column_end := 0%Z; self_correction := true |}.
Lemma mirror_total : forall rate l, (forall q, In q l -> 2 <= length (p_coordinates q)) -> exists t, mirror_points rate l = Ok t.
Proof.
  intros rate l. induction l as [|q l IH]; intros H; [exists []; reflexivity|]. destruct (IH (fun x Hx => H x (or_intror Hx))) as (t & E). unfold mirror_points in *. cbn [mapM]. pose proof (H q (or_introl eq_refl)) as L.
  assert (M : exists y, unwrap (mirror q rate) = Ok y) by (unfold mirror; destruct (p_coordinates q) as [|a [|b c]]; cbn in L; try lia; cbn [segment_of obind unwrap]; eauto). destruct M as (y & ->). cbn [bind]. rewrite E. cbn [bind]. eauto.
Qed.
Example C103_correcting_case : exists ms turned,
  (forall h, h < 3 -> host_points c103c_params 1 15 3 h ms [c103_pc] (partition_of 3 3 h c103_rows) = Ok (c103_points h)) /\ (forall h, h < 3 -> mirror_points 4 (c103_points h) = Ok (turned h)) /\
  (forall r, In r (partition_of 3 3 1 c103_rows) -> r = [(-1)%R]) /\
  forall order, exists w, creachable c103c_params (fun h => map as_pt (c103_points h)) (fun h => map as_pt (turned h)) order w /\ cstuck c103c_params (fun h => map as_pt (c103_points h)) (fun h => map as_pt (turned h)) order w.
Proof.
  destruct c103_host_points as (ms & _ & Eh0 & _). assert (Em : forall data, embed c103c_params 1 data = embed c103_params 1 data) by (intros data; rewrite <- (Verif.Properties.Analysis.embed_alone 2 c103c_params); change (Verif.Analysis.Spec.alone 2 c103c_params) with (Verif.Analysis.Spec.alone 2 c103_params); apply Verif.Properties.Analysis.embed_alone).
  assert (Eh : forall h, h < 3 -> host_points c103c_params 1 15 3 h ms [c103_pc] (partition_of 3 3 h c103_rows) = Ok (c103_points h)) by (intros h Hh; rewrite <- (Eh0 h Hh); unfold host_points; now rewrite Em). exists ms, (fun h => match mirror_points 4 (c103_points h) with Ok l => l | Panic _ => [] end). ssplit.
  - exact Eh.
  - intros h Hh. destruct (mirror_total 4 (c103_points h)) as (t & E); [|now rewrite E]. intros q Hq. destruct h as [|[|[|h]]]; [| | |lia]; cbn [c103_points In] in Hq; repeat destruct Hq as [<-|Hq]; try (destruct Hq); cbn; lia.
  - intros r Hr. rewrite c103_rest in Hr. now apply repeat_spec in Hr.
  - intros order. apply correction_completes; [cbn; lia|reflexivity|]. intros h Hh. apply (host_segments c103c_params 1 15 3 h ms [c103_pc] (partition_of 3 3 h c103_rows)); [cbn; lia|exact (Eh h Hh)].
Qed.

(** The series of C104, C107, C108 and C112 on two hosts with self correction. *)
Definition c104c_params : params := {| pattern_length := 4; latent := 1; rate := 100; n_cluster_nodes := 2; n_threads := 1; query_length := 3; column_start := 0; column_end := 0%Z; self_correction := true |}.
Definition corrected (rows : list (list f32)) : Prop := exists windows ms coords points mirrored, let unit := [[f_of_nat 1; f_zero; f_zero]; [f_zero; f_of_nat 1; f_zero]; [f_zero; f_zero; f_of_nat 1]] in
  let means := channel_means 3 windows (fun _ => 1) (fun _ _ => [0]) (fun _ => [0; 1]) in
  1 <= latent c104c_params < pattern_length c104c_params /\ pattern_length c104c_params <= length rows / 2 /\ keeps_nan f_add /\
  centred_by c104c_params 2 2 rows windows (fun _ => 1) (fun _ _ => [0]) (fun _ => [0; 1]) /\ components_and_matrices 2 3 [unit; unit] ms /\ aligned_by c104c_params 2 2 rows [1; 0] means [unit; unit] ms /\
  (forall h, h < 2 -> host_coordinates means [unit; unit] ms (windows h) (coords h) /\ 3 <= length (coords h)) /\
  (forall h, h < 2 -> stored_points f_add (rate c104c_params) (length rows / 2 * h) (coords h) (points h)) /\ (forall h, h < 2 -> stored_points f_add (rate c104c_params) (length rows / 2 * h) (map f_mirror (coords h)) (mirrored h)) /\
  forall order, exists w, creachable c104c_params points mirrored order w /\ cstuck c104c_params points mirrored order w.
Lemma add_keeps : keeps_nan f_add.
Proof. intros y x [H|H]; [now apply nan_add_l|now apply nan_add_r]. Qed.
Definition at_zero (first n : nat) : list pt := map (fun i => {| pid := i; pseg := 0 |}) (seq first n).
Lemma at_zero_stored : forall atan2 rate first coords, (forall q, In q coords -> f_segment_of atan2 q rate = Ok 0) -> stored_points atan2 rate first coords (at_zero first (length coords)).
Proof.
  intros atan2 rate first coords H. split; [unfold at_zero; rewrite map_map; cbn [pid]; now rewrite map_id|]. revert first. induction coords as [|q l IH]; intros first; cbn; constructor; [apply H; now left|]. apply IH. intros x Hx. apply H. now right.
Qed.
Lemma f_embed_alone : forall p dim data, f_embed (Verif.Analysis.Spec.alone 2 p) dim data = f_embed p dim data.
Proof.
  intros p dim data. unfold f_embed, phase_space. cbn [Verif.Analysis.Spec.alone pattern_length latent]. destruct (usub (pattern_length p) 1) as [o|]; [|reflexivity]. cbn [bind]. destruct (usub (length data) o) as [k|]; [|reflexivity]. cbn [bind].
  destruct (usub (pattern_length p) (latent p)) as [w|]; [|reflexivity]. cbn [bind]. apply Verif.Properties.Analysis.windows_alone.
Qed.
Lemma f_embed_same : forall dim data, f_embed c104c_params dim data = f_embed c107_params dim data.
Proof. intros dim data. rewrite <- (f_embed_alone c104c_params). change (Verif.Analysis.Spec.alone 2 c104c_params) with (Verif.Analysis.Spec.alone 2 c107_params). apply f_embed_alone. Qed.
Lemma corrected_exists : forall rows c, length rows = 12 -> c < 2 ->
  (forall windows threads orders order arrival comps ms h coords q, let means := channel_means 3 windows threads orders order in
     centred_by c104c_params 2 2 rows windows threads orders order -> components_and_matrices 2 3 comps ms -> aligned_by c104c_params 2 2 rows arrival means comps ms -> h < 2 -> host_coordinates means comps ms (windows h) coords -> In q coords ->
     length q = 2 + 2 /\ exists x, nth_error q c = Some x /\ f_nan x = true) -> corrected rows.
Proof.
  intros rows c Lr Hc Hnan. destruct (chain_exists rows Lr) as (windows & ms & coords & H1 & H2 & H30 & H4 & H5 & H6).
  assert (H3 : centred_by c104c_params 2 2 rows windows (fun _ => 1) (fun _ _ => [0]) (fun _ => [0; 1])) by (destruct H30 as (C1 & C2); split; [intros h Hh; rewrite f_embed_same; exact (C1 h Hh)|exact C2]). exists windows, ms, coords, (fun h => at_zero (length rows / 2 * h) (length (coords h))), (fun h => at_zero (length rows / 2 * h) (length (map f_mirror (coords h)))).
  cbv zeta. pose proof (fun h q Hh => Hnan windows _ _ _ _ _ _ h (coords h) q H3 H4 H5 Hh (proj1 (H6 h Hh))) as A. ssplit; [exact (proj1 H1)|exact (proj2 H1)|exact H2|exact add_keeps|exact H3|exact H4|exact H5|exact H6| | |].
  - intros h Hh. apply at_zero_stored. intros q Hq. destruct (A h q Hh Hq) as (L & x & Ex & Nx). apply (segment_nan f_add _ q c x add_keeps); [cbn [rate c104c_params]; lia|lia|exact Hc|exact Ex|exact Nx].
  - intros h Hh. apply at_zero_stored. intros q Hq. apply in_map_iff in Hq. destruct Hq as (q0 & <- & Hq). destruct (A h q0 Hh Hq) as (L & x & Ex & Nx). destruct (mirror_nan q0 c x Ex Nx) as (y & Ey & Ny).
    apply (segment_nan f_add _ (f_mirror q0) c y add_keeps); [cbn [rate c104c_params]; lia|rewrite mirror_length; lia|exact Hc|exact Ey|exact Ny].
  - intros order. apply correction_completes; [cbn [rate n_cluster_nodes c104c_params]; lia|reflexivity|]. intros h Hh x Hx. unfold at_zero in Hx. apply in_map_iff in Hx. destruct Hx as (i & <- & _). cbn [pseg rate c104c_params]. lia.
Qed.
Example C104_correcting_case : missing c104_rows 4 0 /\ corrected c104_rows.
Proof.
  pose proof (proj1 C104_case) as M. split; [exact M|]. apply (corrected_exists c104_rows 0); [reflexivity|lia|]. intros windows threads orders order arrival comps ms h coords q means Hcb Hcm _ Hh Hco Hq.
  destruct (C104_only_its_windows_refuted c104c_params 2 2 c104_rows 4 0 windows threads orders order comps ms h coords q ltac:(cbn; lia) ltac:(lia) ltac:(cbn; lia) M ltac:(cbn; lia) ltac:(lia) Hcb Hcm Hh Hco Hq) as (L & X & _). auto.
Qed.
Example C107_correcting_case : silent c107_rows 1 3 /\ exact c104c_params 3 c107_rows /\ corrected c107_rows.
Proof.
  destruct C107_case as (M & E & _). split; [exact M|]. split; [exact E|]. apply (corrected_exists c107_rows 1); [reflexivity|lia|]. intros windows threads orders order arrival comps ms h coords q means Hcb Hcm Hal Hh Hco Hq.
  destruct (C107_other_channels_refuted c104c_params 2 2 c107_rows 1 3 windows threads orders order arrival comps ms h coords q ltac:(cbn; lia) ltac:(lia) ltac:(cbn; lia) M E ltac:(lia) Hcb Hcm Hal Hh Hco Hq) as (L & X & _). auto.
Qed.
Example C108_correcting_case : wide c108_rows 0 /\ corrected c108_rows.
Proof.
  pose proof (proj1 C108_case) as M. split; [exact M|]. apply (corrected_exists c108_rows 0); [reflexivity|lia|]. intros windows threads orders order arrival comps ms h coords q means Hcb Hcm Hal Hh Hco Hq.
  destruct (C108_finite_series_refuted c104c_params 2 2 c108_rows 0 windows threads orders order arrival comps ms h coords q ltac:(cbn; lia) ltac:(lia) ltac:(cbn; lia) M ltac:(lia) Hcb Hcm Hal Hh Hco Hq) as (L & X & _). auto.
Qed.
Example C112_correcting_case : infinite c112_rows 0 /\ corrected c112_rows.
Proof.
  pose proof (proj1 C112_case) as M. split; [exact M|]. apply (corrected_exists c112_rows 0); [reflexivity|lia|]. intros windows threads orders order arrival comps ms h coords q means Hcb Hcm Hal Hh Hco Hq.
  destruct (C112_infinite_value_refuted c104c_params 2 2 c112_rows 0 windows threads orders order arrival comps ms h coords q ltac:(cbn; lia) ltac:(lia) ltac:(cbn; lia) M ltac:(lia) Hcb Hcm Hal Hh Hco Hq) as (L & X & _). auto.
Qed.

Print Assumptions C103_correcting_no_host_goes_on.
Print Assumptions C103_correcting_never_finishes.
Print Assumptions C104_correcting_cluster_waits_refuted.
Print Assumptions C107_correcting_cluster_waits_refuted.
Print Assumptions C108_correcting_cluster_waits_refuted.
Print Assumptions C112_correcting_cluster_waits_refuted.
