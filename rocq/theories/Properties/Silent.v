(** C107: a channel that never changes. *)
From Verif.Pca Require Import Model Spec.
From Coq Require Import List Arith Bool Lia Permutation ZArith Reals.
From Flocq Require Import IEEE754.BinarySingleNaN.
From Verif.Base Require Import Res Params ListX Float32.
From Verif.Stats Require Import Model Proofs Single SingleSpec SingleProofs.
From Verif.Reader Require Import Spec.
From Verif.Pca Require Import Single SingleSpec.
From Verif.PhaseSpace Require Import Model Spec Proofs.
From Verif.Topology Require Import Model Proofs.
From Verif.Transition Require Import Spec.
From Verif.Protocol Require Import Model Exchange ExchangeProofs.
From Verif.Segmentation Require Import Model Spec Proofs Handover.
From Verif.Scoring Require Import Model Spec.
From Verif.Pipeline Require Import Model Spec Cluster.
From Verif.Properties Require Import Segmentation Intersections Pipeline PcaSingle Resting Missing StatsSingle.
From Verif.Front Require Import Single SingleSpec SingleProofs SingleAlign SilentSpec SilentProofs.
Import ListNotations.
Import Verif.Stats.Model.
Local Open Scope nat_scope.

(** A channel whose matrix contains no numbers has no numbers for coordinates. *)
Lemma spoiled_point : forall dim width means comps ms windows coords c comp m q, c < dim -> length comps = dim -> length ms = dim -> Forall (fun comp => length comp = 3 /\ Forall (fun row : list f32 => length row = width) comp) comps ->
  nth_error comps c = Some comp -> nth_error ms c = Some m -> length m = 3 /\ Forall (fun row => length row = 3 /\ Forall (fun x => isnan x) row) m -> host_coordinates means comps ms windows coords -> In q coords ->
  length q = dim + dim /\ (exists x, nth_error q c = Some x /\ f_nan x = true) /\ (exists y, nth_error q (dim + c) = Some y /\ f_nan y = true) /\
  forall atan2 rate, keeps_nan atan2 -> c < 2 -> 1 <= rate -> f_segment_of atan2 q rate = Ok 0.
Proof.
  intros dim width means comps ms windows coords c comp m q Hc Lc Lm Sc Ecomp Em Nm Hco Hq. rewrite Forall_forall in Sc. destruct (Sc comp (nth_error_In _ _ Ecomp)) as (S1 & S2).
  destruct (Forall2_in_r _ _ _ _ _ Hco q Hq) as (w & Hw & vs & Hred & xs & ys & Fx & Fy & ->).
  assert (Ec : nth_error (combine (seq 0 (length comps)) comps) c = Some (c, comp)).
  { apply combine_nth_error; [|exact Ecomp]. rewrite (nth_error_nth' _ 0) by (rewrite seq_length; lia). now rewrite seq_nth by lia. }
  destruct (Forall2_nth _ _ _ _ _ Hred c _ Ec) as (v & Ev & Rv). cbn [fst snd] in Rv.
  assert (Lvs : length vs = dim) by (rewrite <- (Forall2_len _ _ _ _ _ Hred), combine_length, seq_length; lia).
  assert (Lv : length v = 3) by (rewrite <- (Forall2_len _ _ _ _ _ Rv); exact S1).
  assert (Lx : length xs = dim) by (rewrite <- (Forall2_len _ _ _ _ _ Fx), combine_length; lia). assert (Ly : length ys = dim) by (rewrite <- (Forall2_len _ _ _ _ _ Fy), combine_length; lia).
  assert (Ent : forall r x, rotated_entry r m v x -> isnan x).
  { intros r x (row & Er & D). destruct Nm as (_ & Nm). rewrite Forall_forall in Nm. destruct (Nm row (nth_error_In _ _ Er)) as (L3 & Nr). destruct v as [|a v]; [discriminate|]. destruct row as [|b row]; [discriminate|].
    apply (dot_nan_r _ _ D a b); [now left|]. now inversion Nr. }
  pose proof (combine_nth_error _ _ _ _ _ _ _ Em Ev) as Emv. destruct (Forall2_nth _ _ _ _ _ Fx c _ Emv) as (x & Ex & Rx). destruct (Forall2_nth _ _ _ _ _ Fy c _ Emv) as (y & Ey & Ry). cbn [fst snd] in *.
  assert (Eq : nth_error (xs ++ ys) c = Some x) by (rewrite nth_error_app1 by lia; exact Ex).
  split; [rewrite app_length; lia|]. split; [exists x; split; [exact Eq|now apply (Ent 0)]|]. split.
  - exists y. split; [rewrite nth_error_app2 by lia; rewrite Lx; replace (dim + c - dim) with c by lia; exact Ey|now apply (Ent 1)].
  - intros atan2 rate K H2 Hrate. apply (segment_nan atan2 rate (xs ++ ys) c x); auto; [rewrite app_length; lia|now apply (Ent 0)].
Qed.

(** When all points of all hosts have segment 0, the cluster waits. *)
Lemma zero_waits : forall p points early hw, let N := n_cluster_nodes p in 2 <= N <= rate p -> (forall h x, h < N -> In x (points h) -> pseg x = 0) -> hreachable p points early hw ->
  (forall k g m, k + 1 < N -> phase_of hw k <> Distributing g m) /\
  forall x, reachable (transition_exchange p hw) x -> (forall k, k + 1 < N -> entered (state x k) = false) -> forall j, j < N -> left (state x j) = 0.
Proof.
  intros p points early hw N HN Z R. split.
  - intros i g m Hk E.
    destruct (never_distributes p points early i hw ltac:(fold N; lia) ltac:(intros j Hj x Hx; rewrite (Z j x Hj Hx); lia) Hk ltac:(apply (usable_same_segment (rate p) 0); [lia|lia|intros x Hx; now apply (Z (i + 1))]) R) as (_ & P).
    rewrite E in P. exact P.
  - intros x Rx En j Hj. apply (nobody_leaves _ (transition_exchange p hw) x 0 j Rx); [cbn; fold N; lia|apply En; lia|cbn; exact Hj].
Qed.

(** When all points have segment 0, mirrored or not, one machine delivers no number. *)
Lemma zero_is_nan : forall (sector : list f32 -> nat) (cross : list (list f32) -> list transition -> transition -> nat -> res (list f32)) cluster p dim rows windows coords threads orders order means comps ms,
  1 <= latent p < pattern_length p -> n_cluster_nodes p = 1 -> pattern_length p <= length rows -> 1 <= rate p -> (forall q, sector q < rate p) -> (forall q, In q coords -> sector q = 0 /\ sector (f_mirror q) = 0) ->
  centred_by p dim 1 rows (fun _ => windows) threads orders order -> host_coordinates means comps ms windows coords -> 1 <= query_length p -> 1 <= n_threads p <= length coords - query_length p ->
  exists w0, local_scoring sector f_mirror cross cluster p (length rows) coords = Ok w0 /\ forall w, scoring_run (fun x => f_eq x f_zero) w0 w ->
    (flying w <> [] -> exists w', scoring_step (fun x => f_eq x f_zero) w w') /\
    (flying w = [] -> local_results w = [Ok (repeat B754_nan (length coords - query_length p))]).
Proof.
  intros sector cross cluster p dim rows windows coords threads orders order means comps ms HL HN1 HP Hrate Hsb A Hcb Hco Hq Hth. assert (HP1 : pattern_length p <= length rows / 1) by now rewrite Nat.div_1_r.
  assert (Lco : length coords <= length rows).
  { pose proof (Forall2_len _ _ _ _ _ Hco) as L. destruct Hcb as (He & _). specialize (He 0 ltac:(lia)).
    pose proof (host_windows p dim 1 rows (fun _ => windows) ltac:(lia) ltac:(lia) HP1 ltac:(intros h Hh; replace h with 0 by lia; exact He)) as W. cbn [seq map concat] in W. rewrite app_nil_r in W.
    rewrite <- L, W. unfold PhaseSpace.Spec.embedding. rewrite map_length, seq_length. lia. }
  assert (T : transitions_of p sector f_mirror coords = []).
  { unfold transitions_of. apply (usable_same_segment (rate p) 0); [exact Hrate|lia|]. intros x Hx. unfold points_at in Hx. apply in_map_iff in Hx. destruct Hx as (ik & <- & Hik). cbn [pseg].
    destruct ik as [i j]. apply in_combine_r in Hik. cbn [snd]. unfold followed in Hik. destruct (self_correction p && _); [|now apply A]. apply in_map_iff in Hik. destruct Hik as (q & <- & Hq'). now apply A. }
  assert (Tp : path (rate p) (transitions_of p sector f_mirror coords) = []) by (rewrite T; reflexivity).
  apply (C81_quiet_series_is_nan sector f_mirror cross cluster p (length rows) coords (fun _ => [])); try assumption; try lia.
  - intros t x Ht. rewrite T in Ht. destruct Ht.
  - intros s _ Hs'. rewrite Tp in Hs'. cbn in Hs'. lia.
  - rewrite Tp. intros (i & rest & E). discriminate.
  - rewrite T. intros t [].
  - rewrite Tp. cbn. lia.
Qed.

(** The exception in C22: a channel whose reference point already lies on the third axis is not left as it is; in single precision its matrix contains no number at all, whatever the third coordinate, the order of the
    additions and whether they are fused. *)
Theorem C22_on_the_axis : forall s0 s1 v2 m, f_alignment [B754_zero s0; B754_zero s1; v2] m -> length m = 3 /\ forall row x, In row m -> In x row -> f_nan x = true.
Proof.
  intros s0 s1 v2 m A. destruct (axis_nan (B754_zero s0) (B754_zero s1) v2 m I I A) as (L & F). split; [exact L|]. intros row x Hr Hx. rewrite Forall_forall in F. destruct (F row Hr) as (_ & Fr). rewrite Forall_forall in Fr. now apply Fr.
Qed.

(** Exactness: whole numbers up to 2^24 are single precision numbers; as long as no sum exceeds this, nothing is rounded. *)
Definition exact (p : params) (k : Z) (rows : list (list f32)) : Prop := (Z.of_nat (length rows) <= 16777216 /\ Z.abs k * Z.of_nat (latent p) * Z.of_nat (length rows) <= 16777216)%Z.

(** C107 is false: if a channel shows the same whole number in all rows, for instance zero, both coordinates that it contributes to a point are no numbers, for every point of every host: whatever the numbers of
    hosts and threads and the order of their messages, the other channels and the components.  If it is one of the first two channels, every point gets segment 0. *)
Theorem C107_other_channels_refuted : forall p dim N rows c k windows threads orders order arrival comps ms h coords q,
  let means := channel_means (pattern_length p - latent p) windows threads orders order in
  1 <= latent p < pattern_length p -> 1 <= N -> pattern_length p <= length rows / N -> silent rows c k -> exact p k rows -> c < dim ->
  centred_by p dim N rows windows threads orders order -> components_and_matrices dim (pattern_length p - latent p) comps ms -> aligned_by p dim N rows arrival means comps ms ->
  h < N -> host_coordinates means comps ms (windows h) coords -> In q coords ->
  length q = dim + dim /\ (exists x, nth_error q c = Some x /\ f_nan x = true) /\ (exists y, nth_error q (dim + c) = Some y /\ f_nan y = true) /\
  forall atan2, keeps_nan atan2 -> c < 2 -> 1 <= rate p -> f_segment_of atan2 q (rate p) = Ok 0.
Proof.
  intros p dim N rows c k windows threads orders order arrival comps ms h coords q means HL HN HP Hs (B1 & B2) Hc Hcb (Lc & Lm & Sc & _) (Pa & _ & mins & maxs & Hmm & Al) Hh Hco Hq. fold bound in B1, B2.
  assert (Rows : 1 <= length rows) by (pose proof (Nat.mul_div_le (length rows) N ltac:(lia)); nia). assert (B3 : (Z.abs k * Z.of_nat (latent p) <= bound)%Z) by nia. assert (B4 : (Z.abs k <= bound)%Z) by nia.
  destruct (nth_error_some _ comps c ltac:(lia)) as (comp & Ecomp). destruct (nth_error_some _ ms c ltac:(lia)) as (m & Em).
  destruct (Al c comp m Ecomp Em) as (mn & mx & Emn & Emx & v0 & Rv0 & Av0).
  destruct (collected_extremes p dim N rows arrival mins maxs c HN Pa Hc Hmm) as (mn' & mx' & Emn' & Emx' & Nn & Nx & Q). rewrite Emn in Emn'. injection Emn' as <-. rewrite Emx in Emx'. injection Emx' as <-.
  assert (Ent : forall y, f_entry rows c y -> place y = IZR k).
  { intros y (r & Hr & Ey). unfold silent in Hs. rewrite Forall_forall in Hs. destruct (Hs r Hr) as (x & Ex & Fx & Rx). rewrite Ex in Ey. injection Ey as <-. destruct x; try discriminate; exact Rx. }
  assert (W : is mn k /\ is mx k).
  { destruct rows as [|r0 rows']; [cbn in Rows; lia|]. unfold silent in Hs. inversion Hs as [|? ? (x0 & Ex0 & Fx0 & Rx0) _]; subst. destruct (Q x0) as ((y & Hy & Py) & (z & Hz & Pz) & _); [exists r0; split; [now left|exact Ex0]|exact Fx0|].
    split; apply is_place; auto; [rewrite <- Py|rewrite <- Pz]; now apply Ent. }
  destruct (reference_whole p k (mn, mx) B3 ltac:(lia) (proj1 W) (proj2 W)) as (Lr & Fr).
  pose proof (means_whole p dim N rows windows threads orders order c k HL HN HP Hcb Hs Hc B1 B2) as Fm. fold means in Fm.
  assert (Lmean : length (means c) = pattern_length p - latent p) by (unfold means, channel_means; now rewrite map_length, seq_length).
  assert (Nm : length m = 3 /\ Forall (fun row => length row = 3 /\ Forall (fun x => isnan x) row) m).
  { apply (alignment_nan v0 m Av0). apply (reduced_nought (means c) comp (f_reference p (mn, mx))); [|exact Rv0]. apply (whole_differences (k * Z.of_nat (latent p))); auto. lia. }
  destruct (spoiled_point dim (pattern_length p - latent p) means comps ms (windows h) coords c comp m q Hc Lc Lm Sc Ecomp Em Nm Hco Hq) as (A & B & C & D). ssplit; auto.
Qed.

(** So a cluster never finishes: whatever the order of events, only the last host gets to distributing its transitions, and no host gets through their exchange. *)
Theorem C107_cluster_waits_refuted : forall atan2 p dim rows c k windows threads orders order arrival comps ms coords points early hw, let N := n_cluster_nodes p in
  let means := channel_means (pattern_length p - latent p) windows threads orders order in
  1 <= latent p < pattern_length p -> 2 <= N <= rate p -> pattern_length p <= length rows / N -> silent rows c k -> exact p k rows -> c < dim -> c < 2 -> keeps_nan atan2 ->
  centred_by p dim N rows windows threads orders order -> components_and_matrices dim (pattern_length p - latent p) comps ms -> aligned_by p dim N rows arrival means comps ms ->
  (forall h, h < N -> host_coordinates means comps ms (windows h) (coords h)) ->
  (forall h, h < N -> stored_points atan2 (rate p) (length rows / N * h) (coords h) (points h)) ->
  hreachable p points early hw ->
  (forall k g m, k + 1 < N -> phase_of hw k <> Distributing g m) /\
  forall x, reachable (transition_exchange p hw) x -> (forall k, k + 1 < N -> entered (state x k) = false) -> forall j, j < N -> left (state x j) = 0.
Proof.
  intros atan2 p dim rows c k windows threads orders order arrival comps ms coords points early hw N means HL HN HP Hs Hex Hc H2 K Hcb Hcm Hal Hco Hst R.
  assert (Z : forall h x, h < N -> In x (points h) -> pseg x = 0).
  { intros h x Hh Hx. apply (stored_zero atan2 (rate p) (length rows / N * h) (coords h) (points h)); auto. intros q Hq.
    destruct (C107_other_channels_refuted p dim N rows c k windows threads orders order arrival comps ms h (coords h) q HL ltac:(lia) HP Hs Hex Hc Hcb Hcm Hal Hh (Hco h Hh) Hq) as (_ & _ & _ & S). apply S; auto. lia. }
  now apply (zero_waits p points early hw).
Qed.

(** One machine, with or without self correction, delivers nothing but values that are no numbers, one for every window. *)
Theorem C107_one_machine_refuted : forall atan2 (sector : list f32 -> nat) (cross : list (list f32) -> list transition -> transition -> nat -> res (list f32)) cluster p dim rows c k windows threads orders order arrival comps ms coords,
  let means := channel_means (pattern_length p - latent p) (fun _ => windows) threads orders order in
  1 <= latent p < pattern_length p -> n_cluster_nodes p = 1 -> pattern_length p <= length rows -> silent rows c k -> exact p k rows -> c < dim -> c < 2 -> keeps_nan atan2 -> 1 <= rate p ->
  (forall q s, f_segment_of atan2 q (rate p) = Ok s -> sector q = s) -> (forall q, sector q < rate p) ->
  centred_by p dim 1 rows (fun _ => windows) threads orders order -> components_and_matrices dim (pattern_length p - latent p) comps ms -> aligned_by p dim 1 rows arrival means comps ms ->
  host_coordinates means comps ms windows coords ->
  1 <= query_length p -> 1 <= n_threads p <= length coords - query_length p ->
  exists w0, local_scoring sector f_mirror cross cluster p (length rows) coords = Ok w0 /\ forall w, scoring_run (fun x => f_eq x f_zero) w0 w ->
    (flying w <> [] -> exists w', scoring_step (fun x => f_eq x f_zero) w w') /\
    (flying w = [] -> local_results w = [Ok (repeat B754_nan (length coords - query_length p))]).
Proof.
  intros atan2 sector cross cluster p dim rows c k windows threads orders order arrival comps ms coords means HL HN1 HP Hs Hex Hc H2 K Hrate Hsec Hsb Hcb Hcm Hal Hco Hq Hth.
  assert (HP1 : pattern_length p <= length rows / 1) by now rewrite Nat.div_1_r.
  assert (A : forall q, In q coords -> sector q = 0 /\ sector (f_mirror q) = 0).
  { intros q Hin. destruct (C107_other_channels_refuted p dim 1 rows c k (fun _ => windows) threads orders order arrival comps ms 0 coords q HL ltac:(lia) HP1 Hs Hex Hc Hcb Hcm Hal ltac:(lia) Hco Hin) as (Lq & (x & Ex & Nx) & _ & S).
    split; [apply Hsec, S; auto|]. apply Hsec. destruct (mirror_nan q c x Ex Nx) as (y & Ey & Ny). apply (segment_nan atan2 (rate p) (f_mirror q) c y); auto. rewrite mirror_length. lia. }
  now apply (zero_is_nan sector cross cluster p dim rows windows coords threads orders order means comps ms).
Qed.

(** What holds: the channels are kept apart up to the alignment.  What the windows, the extremes and the reference of one channel are depends on the values of that channel only. *)
Theorem C107_kept_apart_partial : forall p dim N rows rows' d, d < dim -> length rows = length rows' -> (forall i row row', nth_error rows i = Some row -> nth_error rows' i = Some row' -> nth_error row d = nth_error row' d) ->
  (forall i, column d (PhaseSpace.Spec.window (f_sum_axis dim) (pattern_length p) (latent p) rows i) = column d (PhaseSpace.Spec.window (f_sum_axis dim) (pattern_length p) (latent p) rows' i)) /\
  forall h, h < N -> nth_error (f_min_axis dim (partition_of N (pattern_length p - 1) h rows)) d = nth_error (f_min_axis dim (partition_of N (pattern_length p - 1) h rows')) d /\
    nth_error (f_max_axis dim (partition_of N (pattern_length p - 1) h rows)) d = nth_error (f_max_axis dim (partition_of N (pattern_length p - 1) h rows')) d.
Proof.
  intros p dim N rows rows' d Hd HL H.
  assert (F : Forall2 (fun row row' : list f32 => nth_error row d = nth_error row' d) rows rows').
  { revert rows' HL H. induction rows as [|a rows IH]; intros [|b rows'] HL H; try discriminate; constructor; [apply (H 0 a b); reflexivity|]. apply IH; [now injection HL|]. intros i row row' E E'. now apply (H (S i) row row'). }
  assert (C : forall a b, column d (slice a b rows) = column d (slice a b rows')).
  { intros a b. unfold slice. assert (G : forall n (l l' : list (list f32)), Forall2 (fun row row' => nth_error row d = nth_error row' d) l l' -> Forall2 (fun row row' => nth_error row d = nth_error row' d) (skipn n l) (skipn n l')).
    { induction n as [|n IH]; intros l l' Fl; [exact Fl|]. destruct Fl; [constructor|]. now apply IH. }
    assert (G' : forall n (l l' : list (list f32)), Forall2 (fun row row' => nth_error row d = nth_error row' d) l l' -> column d (firstn n l) = column d (firstn n l')).
    { induction n as [|n IH]; intros l l' Fl; [reflexivity|]. destruct Fl as [|x y l l' E Fl]; [reflexivity|]. unfold column in *. cbn [firstn flat_map]. rewrite E. f_equal. now apply IH. }
    apply G'. now apply G. }
  split.
  - intros i. rewrite !window_column by exact Hd. apply map_ext. intros j. now rewrite C.
  - intros h Hh. assert (E : column d (partition_of N (pattern_length p - 1) h rows) = column d (partition_of N (pattern_length p - 1) h rows')) by (unfold partition_of; rewrite HL; destruct (S h =? N); apply C).
    unfold f_min_axis, f_max_axis. rewrite !nth_error_map_seq by exact Hd. now rewrite E.
Qed.

(** ** A case *)
Definition c107_params : params := {| pattern_length := 4; latent := 1; rate := 100; n_cluster_nodes := 2; n_threads := 1; query_length := 3; column_start := 0; column_end := 0%Z; self_correction := false |}.
Definition c107_rows : list (list f32) := map (fun n => [f_of_nat n; f_of_nat 3]) [1; 5; 2; 8; 7; 3; 9; 4; 4; 7; 1; 6].
Lemma alignment_exists : forall v0 v1 v2, exists m, f_alignment [v0; v1; v2] m /\ length m = 3 /\ Forall (fun row => length row = 3) m.
Proof.
  intros v0 v1 v2. set (unit := fun x => f_div x (f_norm [v0; v1; v2])). set (w := f_cross_up (unit v0, unit v1, unit v2)).
  destruct (dot_exists (combine [f_zero; f_zero; f_one] [unit v0; unit v1; unit v2])) as (cosine & Dc).
  assert (Sq : exists square, forall r c, r < 3 -> c < 3 -> dot_product (combine (map (f_skew w r) (seq 0 3)) (map (fun i => f_skew w i c) (seq 0 3))) (square r c)).
  { pose (l := fun r c => combine (map (f_skew w r) (seq 0 3)) (map (fun i => f_skew w i c) (seq 0 3))). exists (fun r c => fold_right (fun ab x => f_fma (fst ab) (snd ab) x) f_zero (l r c)). intros r c _ _. fold (l r c).
    generalize (l r c). induction l0 as [|(a, b) t IH]; [constructor|]. cbn [fold_right fst snd]. now apply (dot_fused _ a b t). }
  destruct Sq as (square & Dq). eexists. split; [exists v0, v1, v2; split; [reflexivity|]; exists cosine, square; split; [exact Dc|]; split; [exact Dq|reflexivity]|].
  split; [now rewrite map_length|]. apply Forall_forall. intros row Hrow. apply in_map_iff in Hrow. destruct Hrow as (r & <- & _). now rewrite map_length.
Qed.
Example C22_on_the_axis_case : exists m, f_alignment [f_zero; f_zero; f_of_nat 5] m. Proof. destruct (alignment_exists f_zero f_zero (f_of_nat 5)) as (m & A & _). eauto. Qed.
(** Twelve rows on two hosts: windows, means, alignment and coordinates exist, with any components, here the first three unit vectors. *)
Definition chain (rows : list (list f32)) : Prop := exists windows ms coords, let unit := [[f_of_nat 1; f_zero; f_zero]; [f_zero; f_of_nat 1; f_zero]; [f_zero; f_zero; f_of_nat 1]] in
  let means := channel_means 3 windows (fun _ => 1) (fun _ _ => [0]) (fun _ => [0; 1]) in
  1 <= latent c107_params < pattern_length c107_params /\ pattern_length c107_params <= length rows / 2 /\
  centred_by c107_params 2 2 rows windows (fun _ => 1) (fun _ _ => [0]) (fun _ => [0; 1]) /\ components_and_matrices 2 3 [unit; unit] ms /\ aligned_by c107_params 2 2 rows [1; 0] means [unit; unit] ms /\
  forall h, h < 2 -> host_coordinates means [unit; unit] ms (windows h) (coords h) /\ 3 <= length (coords h).
Lemma chain_exists : forall rows, length rows = 12 -> chain rows.
Proof.
  intros rows Lr. unfold chain.
    set (windows := fun h => PhaseSpace.Spec.embedding (f_sum_axis 2) 4 1 (partition_of 2 3 h rows)).
    set (unit := [[f_of_nat 1; f_zero; f_zero]; [f_zero; f_of_nat 1; f_zero]; [f_zero; f_zero; f_of_nat 1]]).
    set (means := channel_means 3 windows (fun _ => 1) (fun _ _ => [0]) (fun _ => [0; 1])).
    assert (Lp : forall h, h < 2 -> 6 <= length (partition_of 2 3 h rows)) by (intros [|[|h]] Hh; [| |lia]; unfold partition_of; rewrite Lr; cbn [Nat.eqb]; rewrite slice_length, Lr; cbn; lia).
    assert (Lw : forall h, h < 2 -> 3 <= length (windows h)) by (intros h Hh; unfold windows, PhaseSpace.Spec.embedding; rewrite map_length, seq_length; pose proof (Lp h Hh); lia).
    assert (Ra : forall c w, exists v0 v1 v2, reduced_row (means c) unit w [v0; v1; v2]).
    { intros c w. unfold reduced_row, unit. destruct (dot_exists (combine (map2 f_sub w (means c)) [f_of_nat 1; f_zero; f_zero])) as (x & Dx). destruct (dot_exists (combine (map2 f_sub w (means c)) [f_zero; f_of_nat 1; f_zero])) as (y & Dy).
      destruct (dot_exists (combine (map2 f_sub w (means c)) [f_zero; f_zero; f_of_nat 1])) as (z & Dz). exists x, y, z. constructor; [exact Dx|]. constructor; [exact Dy|]. constructor; [exact Dz|]. constructor. }
    destruct (C10_single_precision nat 2 [(1, partition_of 2 3 1 rows); (0, partition_of 2 3 0 rows)] ltac:(discriminate)) as ((mins & maxs & Emm & Ln & Lx & _) & _). cbn [length map fst snd] in Emm.
    assert (Am : forall c, c < 2 -> exists m mn mx, nth_error mins c = Some mn /\ nth_error maxs c = Some mx /\ channel_alignment c107_params (mn, mx) (means c) unit m /\ length m = 3 /\ Forall (fun row => length row = 3) m).
    { intros c Hc. destruct (nth_error_some _ mins c ltac:(lia)) as (mn & En). destruct (nth_error_some _ maxs c ltac:(lia)) as (mx & Ex). destruct (Ra c (f_reference c107_params (mn, mx))) as (v0 & v1 & v2 & Hv).
      destruct (alignment_exists v0 v1 v2) as (m & Hm & L & F). exists m, mn, mx. ssplit; auto. exists [v0; v1; v2]. auto. }
    destruct (Am 0 ltac:(lia)) as (m0 & mn0 & mx0 & En0 & Ex0 & A0 & L0 & F0). destruct (Am 1 ltac:(lia)) as (m1 & mn1 & mx1 & En1 & Ex1 & A1 & L1 & F1).
    assert (Ent : forall r m v, length m = 3 -> r < 2 -> exists x, rotated_entry r m v x).
    { intros r m v L Hr. destruct (nth_error_some _ m r ltac:(lia)) as (row & Er). destruct (dot_exists (combine v row)) as (x & D). exists x, row. auto. }
    assert (Ex : forall h, exists coords, host_coordinates means [unit; unit] [m0; m1] (windows h) coords).
    { intros h. apply Forall2_exists. intros w _. destruct (Ra 0 (column 0 w)) as (a0 & a1 & a2 & Ha). destruct (Ra 1 (column 1 w)) as (b0 & b1 & b2 & Hb).
      destruct (Ent 0 m0 [a0; a1; a2] L0 ltac:(lia)) as (x0 & X0). destruct (Ent 1 m0 [a0; a1; a2] L0 ltac:(lia)) as (y0 & Y0). destruct (Ent 0 m1 [b0; b1; b2] L1 ltac:(lia)) as (x1 & X1). destruct (Ent 1 m1 [b0; b1; b2] L1 ltac:(lia)) as (y1 & Y1).
      exists [x0; x1; y0; y1], [[a0; a1; a2]; [b0; b1; b2]]. split.
      - constructor; [exact Ha|]. constructor; [exact Hb|]. constructor.
      - exists [x0; x1], [y0; y1]. split; [constructor; [exact X0|]; constructor; [exact X1|]; constructor|]. split; [constructor; [exact Y0|]; constructor; [exact Y1|]; constructor|reflexivity]. }
    destruct (Ex 0) as (c0 & H0). destruct (Ex 1) as (c1 & H1).
    exists windows, [m0; m1], (fun h => if h =? 0 then c0 else c1). cbv zeta. fold unit. fold means. ssplit; try (cbn; lia); try (rewrite Lr; cbn; lia).
    + unfold centred_by. ssplit; try lia.
      * intros h Hh. apply phase_space_ok; [cbn; lia|]. pose proof (Lp h Hh). cbn [pattern_length c107_params] in *. lia.
      * intros c h _ Hh. apply C100_orders; [pose proof (Lw h Hh); lia|lia|]. split; [pose proof (Lw h Hh); rewrite Nat.sub_diag; cbn; lia|]. exists []. split; [reflexivity|constructor].
      * intros c _. apply Permutation_refl.
    + unfold components_and_matrices. ssplit; [reflexivity|reflexivity| |].
      * constructor; [|constructor; [|constructor]]; (split; [reflexivity|repeat constructor]).
      * constructor; [auto|constructor; [auto|constructor]].
    + unfold aligned_by. ssplit; [apply perm_swap|reflexivity|]. exists mins, maxs. split; [cbn [map]; change (pattern_length c107_params - 1) with 3; rewrite Emm; cbn; auto|]. intros c comp m Ec Em. destruct c as [|[|c]]; cbn in Ec, Em; [| |destruct c; discriminate]; injection Ec as <-; injection Em as <-; eauto 10.
    + intros h Hh. destruct h as [|[|h]]; [| |lia]; cbn [Nat.eqb]; (split; [assumption|]).
      * rewrite <- (Forall2_len _ _ _ _ _ H0). apply Lw. lia.
      * rewrite <- (Forall2_len _ _ _ _ _ H1). apply Lw. lia.
Qed.

(** Twelve rows on two hosts, whose second channel always shows 3: the hypotheses of the theorems can be met. *)
Example C107_case : silent c107_rows 1 3 /\ exact c107_params 3 c107_rows /\ chain c107_rows.
Proof.
  split; [|split].
  - unfold silent, c107_rows. apply Forall_forall. intros row Hrow. apply in_map_iff in Hrow. destruct Hrow as (n & <- & _). exists (f_of_nat 3). split; [reflexivity|]. apply (is_nat 3). unfold bound. lia.
  - split; cbn; lia.
  - now apply chain_exists.
Qed.

Print Assumptions C107_other_channels_refuted.
Print Assumptions C107_cluster_waits_refuted.
Print Assumptions C107_one_machine_refuted.
Print Assumptions C107_kept_apart_partial.
Print Assumptions C22_on_the_axis.
