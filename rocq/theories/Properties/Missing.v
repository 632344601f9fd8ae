(** C104: a measurement that is missing. *)
From Verif.Pca Require Import Model Spec.
From Coq Require Import List Arith Bool Lia Permutation ZArith.
From Flocq Require Import IEEE754.BinarySingleNaN.
From Verif.Base Require Import Res Params ListX Float32.
From Verif.Stats Require Import Model Proofs.
From Verif.Reader Require Import Spec.
From Verif.Pca Require Import Single SingleSpec.
From Verif.PhaseSpace Require Import Model Spec Proofs.
From Verif.Topology Require Import Model Proofs.
From Verif.Transition Require Import Spec.
From Verif.Protocol Require Import Model Exchange ExchangeProofs.
From Verif.Segmentation Require Import Model Spec Proofs Handover.
From Verif.Scoring Require Import Model Spec.
From Verif.Pipeline Require Import Model Spec Cluster.
From Verif.Properties Require Import Segmentation Intersections Pipeline PcaSingle Resting.
From Verif.Front Require Import Single SingleSpec SingleProofs.
Import ListNotations.
Local Open Scope nat_scope.

Lemma windows_shape : forall p dim N rows windows threads orders order h w c, latent p < pattern_length p -> 1 <= N -> pattern_length p <= length rows / N -> centred_by p dim N rows windows threads orders order ->
  h < N -> In w (windows h) -> c < dim -> length (column c w) = pattern_length p - latent p.
Proof.
  intros p dim N rows windows threads orders order h w c HL HN HP (Hw & _) Hh Hin Hc.
  assert (I : In w (concat (map windows (seq 0 N)))) by (apply in_concat; exists (windows h); split; [apply in_map, in_seq; lia|exact Hin]).
  rewrite (host_windows p dim N rows windows) in I by auto. unfold PhaseSpace.Spec.embedding in I. apply in_map_iff in I. destruct I as (i & <- & _). rewrite window_column by exact Hc. now rewrite map_length, seq_length.
Qed.

(** C104 is false: one missing value, not in the last row, and both coordinates that its channel contributes to a point are no numbers, for every point of every host: whatever the numbers of hosts and threads and the
    order of their messages, the other values, the components and the rotation.  If it is missing in one of the first two columns, every point gets segment 0. *)
Theorem C104_only_its_windows_refuted : forall p dim N rows r c windows threads orders order comps ms h coords q,
  1 <= latent p < pattern_length p -> 1 <= N -> pattern_length p <= length rows / N -> missing rows r c -> r + 1 < length rows -> c < dim ->
  centred_by p dim N rows windows threads orders order -> components_and_matrices dim (pattern_length p - latent p) comps ms ->
  h < N -> host_coordinates (channel_means (pattern_length p - latent p) windows threads orders order) comps ms (windows h) coords -> In q coords ->
  length q = dim + dim /\ (exists x, nth_error q c = Some x /\ f_nan x = true) /\ (exists y, nth_error q (dim + c) = Some y /\ f_nan y = true) /\
  forall atan2, keeps_nan atan2 -> c < 2 -> 1 <= rate p -> f_segment_of atan2 q (rate p) = Ok 0.
Proof.
  intros p dim N rows r c windows threads orders order comps ms h coords q HL HN HP (row & x & Er & Ex & Nx) Hr Hc Hcb (Lc & Lm & Sc & Sm) Hh Hco Hq.
  destruct (Forall2_in_r _ _ _ _ _ Hco q Hq) as (w & Hw & vs & Hred & Hrot). pose proof (windows_shape _ _ _ _ _ _ _ _ h w c (proj2 HL) HN HP Hcb Hh Hw Hc) as Lw.
  destruct Hcb as (He & Ht & Hruns & Ho).
  assert (Hsome : exists ts, forall h, h < N -> 1 <= threads h /\ complete_run (length (windows h)) (threads h) (orders c h) (ts h)).
  { clear -Ht Hruns Hc. assert (G : forall k, k <= N -> exists ts, forall h, h < k -> 1 <= threads h /\ complete_run (length (windows h)) (threads h) (orders c h) (ts h)).
    { induction k as [|k IH]; intros Hk; [exists (fun _ => Own 0); intros h Hh; lia|]. destruct (IH ltac:(lia)) as (ts & Hts). destruct (Hruns c k Hc ltac:(lia)) as (t & Rt). exists (fun h => if h =? k then t else ts h).
      intros h Hh. destruct (Nat.eqb_spec h k) as [->|]; [split; [apply Ht; lia|exact Rt]|apply Hts; lia]. }
    now apply G. }
  destruct Hsome as (ts & Hts).
  destruct (some_mean_nan p dim N rows windows threads orders order ts r c row x HL HN HP He Hts (Ho c Hc) Hr Er Ex Nx Hc) as (j & Hj & m & Em & Nm).
  destruct (nth_error_some _ comps c ltac:(lia)) as (comp & Ecomp). rewrite Forall_forall in Sc. destruct (Sc comp (nth_error_In _ _ Ecomp)) as (S1 & S2).
  assert (Ec : nth_error (combine (seq 0 (length comps)) comps) c = Some (c, comp)).
  { apply combine_nth_error; [|exact Ecomp]. rewrite (nth_error_nth' _ 0) by (rewrite seq_length; lia). now rewrite seq_nth by lia. }
  destruct (Forall2_nth _ _ _ _ _ Hred c _ Ec) as (v & Ev & Rv). cbn [fst snd] in Rv.
  assert (Lvs : length vs = dim) by (rewrite <- (Forall2_len _ _ _ _ _ Hred), combine_length, seq_length; lia).
  assert (Lv : length v = 3) by (rewrite <- (Forall2_len _ _ _ _ _ Rv); exact S1).
  assert (Nv : forall y, In y v -> f_nan y = true).
  { apply (reduced_nan (channel_means (pattern_length p - latent p) windows threads orders order c) comp (column c w) v j m); auto; [lia|]. rewrite Lw. exact S2. }
  destruct (point_nan dim c ms vs q v Hc Lm Lvs Sm Ev Lv Nv Hrot) as (Lq & Hx & Hy). split; [exact Lq|]. split; [exact Hx|]. split; [exact Hy|].
  intros atan2 K H2 Hrate. destruct Hx as (x' & Ex' & Nx'). apply (segment_nan atan2 (rate p) q c x'); auto. lia.
Qed.

Lemma stored_zero : forall atan2 rate first coords points, (forall q, In q coords -> f_segment_of atan2 q rate = Ok 0) -> stored_points atan2 rate first coords points -> forall x, In x points -> pseg x = 0.
Proof.
  intros atan2 rate first coords points H (_ & F) x Hx. destruct (Forall2_in_r _ _ _ _ _ F x Hx) as (q & Hq & E). rewrite H in E by exact Hq. now injection E.
Qed.

(** So a cluster never finishes: whatever the order of events, only the last host gets to distributing its transitions, and no host gets through their exchange. *)
Theorem C104_cluster_waits_refuted : forall atan2 p dim rows r c windows threads orders order comps ms coords points early hw, let N := n_cluster_nodes p in
  1 <= latent p < pattern_length p -> 2 <= N <= rate p -> pattern_length p <= length rows / N -> missing rows r c -> r + 1 < length rows -> c < dim -> c < 2 -> keeps_nan atan2 ->
  centred_by p dim N rows windows threads orders order -> components_and_matrices dim (pattern_length p - latent p) comps ms ->
  (forall h, h < N -> host_coordinates (channel_means (pattern_length p - latent p) windows threads orders order) comps ms (windows h) (coords h)) ->
  (forall h, h < N -> stored_points atan2 (rate p) (length rows / N * h) (coords h) (points h)) ->
  hreachable p points early hw ->
  (forall k g m, k + 1 < N -> phase_of hw k <> Distributing g m) /\
  forall x, reachable (transition_exchange p hw) x -> (forall k, k + 1 < N -> entered (state x k) = false) -> forall j, j < N -> left (state x j) = 0.
Proof.
  intros atan2 p dim rows r c windows threads orders order comps ms coords points early hw N HL HN HP Hmiss Hr Hc H2 K Hcb Hcm Hco Hst R.
  assert (Z : forall h x, h < N -> In x (points h) -> pseg x = 0).
  { intros h x Hh Hx. apply (stored_zero atan2 (rate p) (length rows / N * h) (coords h) (points h)); auto. intros q Hq.
    destruct (C104_only_its_windows_refuted p dim N rows r c windows threads orders order comps ms h (coords h) q HL ltac:(lia) HP Hmiss Hr Hc Hcb Hcm Hh (Hco h Hh) Hq) as (_ & _ & _ & S). apply S; auto. lia. }
  split.
  - intros k g m Hk E.
    destruct (never_distributes p points early k hw ltac:(fold N; lia) ltac:(intros i Hi x Hx; rewrite (Z i x Hi Hx); lia) Hk ltac:(apply (usable_same_segment (rate p) 0); [lia|lia|intros x Hx; now apply (Z (k + 1))]) R) as (_ & P).
    rewrite E in P. exact P.
  - intros x Rx En j Hj. apply (nobody_leaves _ (transition_exchange p hw) x 0 j Rx); [cbn; fold N; lia|apply En; lia|cbn; exact Hj].
Qed.

Lemma mirror_nan : forall q c x, nth_error q c = Some x -> f_nan x = true -> exists y, nth_error (f_mirror q) c = Some y /\ f_nan y = true.
Proof. intros [|a q] [|c] x E Nx; try discriminate; cbn in *; [injection E as ->; eexists; split; [reflexivity|now apply nan_mul_l]|eauto]. Qed.
Lemma mirror_length : forall q, length (f_mirror q) = length q. Proof. now intros [|a q]. Qed.

(** One machine, with or without self correction, delivers nothing but values that are no numbers, one for every window. *)
Theorem C104_one_machine_refuted : forall atan2 (sector : list f32 -> nat) (cross : list (list f32) -> list transition -> transition -> nat -> res (list f32)) cluster p dim rows r c windows threads orders order comps ms coords,
  1 <= latent p < pattern_length p -> n_cluster_nodes p = 1 -> pattern_length p <= length rows -> missing rows r c -> r + 1 < length rows -> c < dim -> c < 2 -> keeps_nan atan2 -> 1 <= rate p ->
  (forall q s, f_segment_of atan2 q (rate p) = Ok s -> sector q = s) -> (forall q, sector q < rate p) ->
  centred_by p dim 1 rows (fun _ => windows) threads orders order -> components_and_matrices dim (pattern_length p - latent p) comps ms ->
  host_coordinates (channel_means (pattern_length p - latent p) (fun _ => windows) threads orders order) comps ms windows coords ->
  1 <= query_length p -> 1 <= n_threads p <= length coords - query_length p ->
  exists w0, local_scoring sector f_mirror cross cluster p (length rows) coords = Ok w0 /\ forall w, scoring_run (fun x => f_eq x f_zero) w0 w ->
    (flying w <> [] -> exists w', scoring_step (fun x => f_eq x f_zero) w w') /\
    (flying w = [] -> local_results w = [Ok (repeat B754_nan (length coords - query_length p))]).
Proof.
  intros atan2 sector cross cluster p dim rows r c windows threads orders order comps ms coords HL HN1 HP Hmiss Hr Hc H2 K Hrate Hsec Hsb Hcb Hcm Hco Hq Hth.
  assert (HP1 : pattern_length p <= length rows / 1) by now rewrite Nat.div_1_r.
  assert (A : forall q, In q coords -> sector q = 0 /\ sector (f_mirror q) = 0).
  { intros q Hin. destruct (C104_only_its_windows_refuted p dim 1 rows r c (fun _ => windows) threads orders order comps ms 0 coords q HL ltac:(lia) HP1 Hmiss Hr Hc Hcb Hcm ltac:(lia) Hco Hin) as (Lq & (x & Ex & Nx) & _ & S).
    split; [apply Hsec, S; auto|]. apply Hsec. destruct (mirror_nan q c x Ex Nx) as (y & Ey & Ny). apply (segment_nan atan2 (rate p) (f_mirror q) c y); auto. rewrite mirror_length. lia. }
  assert (T : transitions_of p sector f_mirror coords = []).
  { unfold transitions_of. apply (usable_same_segment (rate p) 0); [exact Hrate|lia|]. intros x Hx. unfold points_at in Hx. apply in_map_iff in Hx. destruct Hx as (ik & <- & Hik). cbn [pseg].
    destruct ik as [i k]. apply in_combine_r in Hik. cbn [snd]. unfold followed in Hik. destruct (self_correction p && _); [|now apply A]. apply in_map_iff in Hik. destruct Hik as (q & <- & Hq'). now apply A. }
  assert (Lco : length coords <= length rows).
  { pose proof (Forall2_len _ _ _ _ _ Hco) as L. destruct Hcb as (He & _). specialize (He 0 ltac:(lia)).
    pose proof (host_windows p dim 1 rows (fun _ => windows) ltac:(lia) ltac:(lia) HP1 ltac:(intros h Hh; replace h with 0 by lia; exact He)) as W. cbn [seq map concat] in W. rewrite app_nil_r in W.
    rewrite <- L, W. unfold PhaseSpace.Spec.embedding. rewrite map_length, seq_length. lia. }
  assert (Tp : path (rate p) (transitions_of p sector f_mirror coords) = []) by (rewrite T; reflexivity).
  apply (C81_quiet_series_is_nan sector f_mirror cross cluster p (length rows) coords (fun _ => [])); try assumption; try lia.
  - intros t x Ht. rewrite T in Ht. destruct Ht.
  - intros s _ Hs. rewrite Tp in Hs. cbn in Hs. lia.
  - rewrite Tp. intros (i & rest & E). discriminate.
  - rewrite T. intros t [].
  - rewrite Tp. cbn. lia.
Qed.

(** What holds is that a value is missing only in the windows that contain it, before they are centred: rows that do not belong to a window do not matter for it. *)
Theorem C104_windows_partial : forall p dim rows rows' i, latent p < pattern_length p -> (forall k, i <= k < i + (pattern_length p - 1) -> nth_error rows k = nth_error rows' k) ->
  PhaseSpace.Spec.window (f_sum_axis dim) (pattern_length p) (latent p) rows i = PhaseSpace.Spec.window (f_sum_axis dim) (pattern_length p) (latent p) rows' i.
Proof.
  intros p dim rows rows' i HL H. unfold PhaseSpace.Spec.window. apply map_ext_in. intros j Hj. apply in_seq in Hj. f_equal. apply nth_error_ext. intros k. rewrite !nth_error_slice.
  destruct (Nat.ltb_spec k (i + j + latent p - (i + j))); [|reflexivity]. apply H. lia.
Qed.

(** ** A case *)
Lemma dot_exists : forall l, exists x, dot_product l x.
Proof. induction l as [|[a b] l (x & D)]; [eexists; constructor|]. exists (f_fma a b x). now apply (dot_fused _ a b l). Qed.
Lemma Forall2_exists : forall A B (R : A -> B -> Prop) l, (forall a, In a l -> exists b, R a b) -> exists m, Forall2 R l m.
Proof. intros A B R. induction l as [|a l IH]; intros H; [exists []; constructor|]. destruct (H a (or_introl eq_refl)) as (b & Hb). destruct (IH (fun a' Ha => H a' (or_intror Ha))) as (m & Hm). exists (b :: m). now constructor. Qed.

Definition c104_params : params := {| pattern_length := 4; latent := 1; rate := 100; n_cluster_nodes := 2; n_threads := 1; query_length := 3; column_start := 0; column_end := 0%Z; self_correction := false |}.
Definition c104_rows : list (list f32) := map (fun n => [f_of_nat n]) [1; 5; 2; 8] ++ [[B754_nan]] ++ map (fun n => [f_of_nat n]) [3; 9; 4; 4; 7; 1; 6].
(** Twelve rows, the fifth of which is missing, on two hosts: the hypotheses of the theorems can be met, with any components and matrices, here the first three unit vectors and the identity. *)
Example C104_case : missing c104_rows 4 0 /\ exists windows coords, let unit := [[f_of_nat 1; f_zero; f_zero]; [f_zero; f_of_nat 1; f_zero]; [f_zero; f_zero; f_of_nat 1]] in
  1 <= latent c104_params < pattern_length c104_params /\ pattern_length c104_params <= length c104_rows / 2 /\
  centred_by c104_params 1 2 c104_rows windows (fun _ => 1) (fun _ _ => [0]) (fun _ => [0; 1]) /\ components_and_matrices 1 3 [unit] [unit] /\
  forall h, h < 2 -> host_coordinates (channel_means 3 windows (fun _ => 1) (fun _ _ => [0]) (fun _ => [0; 1])) [unit] [unit] (windows h) (coords h) /\ 3 <= length (coords h).
Proof.
  split; [exists [B754_nan], B754_nan; now repeat split|].
  set (windows := fun h => PhaseSpace.Spec.embedding (f_sum_axis 1) 4 1 (partition_of 2 3 h c104_rows)).
  set (unit := [[f_of_nat 1; f_zero; f_zero]; [f_zero; f_of_nat 1; f_zero]; [f_zero; f_zero; f_of_nat 1]]).
  set (means := channel_means 3 windows (fun _ => 1) (fun _ _ => [0]) (fun _ => [0; 1])).
  assert (Lp : forall h, h < 2 -> 6 <= length (partition_of 2 3 h c104_rows)) by (intros [|[|h]] Hh; [cbn; lia|cbn; lia|lia]).
  assert (Lw : forall h, h < 2 -> 3 <= length (windows h)) by (intros h Hh; unfold windows, PhaseSpace.Spec.embedding; rewrite map_length, seq_length; pose proof (Lp h Hh); lia).
  assert (Ex : forall h, exists coords, host_coordinates means [unit] [unit] (windows h) coords).
  { intros h. apply Forall2_exists. intros w _.
    assert (E : exists vs, reduced_window means [unit] w vs).
    { unfold reduced_window. apply Forall2_exists. intros c _. unfold reduced_row. apply Forall2_exists. intros comp _. apply dot_exists. }
    destruct E as (vs & Hvs). assert (Lvs : length vs = 1) by (rewrite <- (Forall2_len _ _ _ _ _ Hvs); reflexivity). destruct vs as [|v [|v' vs]]; try discriminate.
    destruct (dot_exists (combine v [f_of_nat 1; f_zero; f_zero])) as (x & Dx). destruct (dot_exists (combine v [f_zero; f_of_nat 1; f_zero])) as (y & Dy).
    exists [x; y], [v]. split; [exact Hvs|]. exists [x], [y]. split; [|split; [|reflexivity]]; (constructor; [|constructor]); eexists; (split; [reflexivity|assumption]). }
  destruct (Ex 0) as (c0 & H0). destruct (Ex 1) as (c1 & H1).
  exists windows, (fun h => if h =? 0 then c0 else c1). cbv zeta. ssplit; try (cbn; lia).
  - unfold centred_by. ssplit; try lia.
    + intros h Hh. apply phase_space_ok; [cbn; lia|]. pose proof (Lp h Hh). cbn [pattern_length c104_params] in *. lia.
    + intros c h _ Hh. apply C100_orders; [pose proof (Lw h Hh); lia|lia|]. split; [pose proof (Lw h Hh); rewrite Nat.sub_diag; cbn; lia|]. exists []. split; [reflexivity|constructor].
    + intros c _. apply Permutation_refl.
  - unfold components_and_matrices. ssplit; [reflexivity|reflexivity| |]; constructor; try constructor; try reflexivity; repeat constructor.
  - intros h Hh. destruct h as [|[|h]]; [| |lia]; cbn [Nat.eqb]; fold means; (split; [assumption|]).
    + rewrite <- (Forall2_len _ _ _ _ _ H0). apply Lw. lia.
    + rewrite <- (Forall2_len _ _ _ _ _ H1). apply Lw. lia.
Qed.

Print Assumptions C104_only_its_windows_refuted.
Print Assumptions C104_cluster_waits_refuted.
Print Assumptions C104_one_machine_refuted.
Print Assumptions C104_windows_partial.
