(** The analysis of one machine in other units. *)
From Verif.Pca Require Import Model Spec.
From Coq Require Import List Arith Bool Lia Reals Lra FunctionalExtensionality.
From Verif.Base Require Import Res Params ListX.
From Verif.Reader Require Import Spec Proofs.
From Verif.Stats Require Import Model Spec Proofs.
From Verif.PhaseSpace Require Import Model Spec Proofs.
From Verif.Pca Require Import Gram GramSpec GramProofs Components ComponentsSpec ComponentsProofs.
From Verif.Segmentation Require Import Model Spec.
From Verif.Geometry Require Import Model Spec Proofs.
From Verif.Front Require Import Model Spec Proofs.
From Verif.Intersections Require Import Real RealSpec RealProofs.
From Verif.Kde Require Import Real RealSpec RealProofs.
From Verif.Pipeline Require Import Model Spec Proofs Natural.
From Verif.Properties Require Import KdeReal Crossings.
From Verif.Analysis Require Import Model Spec Proofs.
Import ListNotations.
Local Open Scope R_scope.

(** ** From the points on *)
Lemma atan2_scaled : forall a x y, 0 < a -> atan2 (a * y) (a * x) = atan2 y x.
Proof.
  intros a x y Ha. unfold atan2.
  assert (Px : 0 < a * x <-> 0 < x) by (split; intros H; [apply Rmult_lt_reg_l with a; lra|now apply Rmult_lt_0_compat]).
  assert (Py : 0 < a * y <-> 0 < y) by (split; intros H; [apply Rmult_lt_reg_l with a; lra|now apply Rmult_lt_0_compat]).
  assert (Nx : a * x < 0 <-> x < 0) by (split; intros H; [apply Rmult_lt_reg_l with a; lra|replace 0 with (a * 0) by ring; now apply Rmult_lt_compat_l]).
  assert (Ny : a * y < 0 <-> y < 0) by (split; intros H; [apply Rmult_lt_reg_l with a; lra|replace 0 with (a * 0) by ring; now apply Rmult_lt_compat_l]).
  assert (Q : x <> 0 -> a * y / (a * x) = y / x) by (intros H; field; lra).
  destruct (Rlt_dec 0 (a * x)), (Rlt_dec 0 x); try tauto; [rewrite Q by lra; reflexivity|].
  destruct (Rlt_dec (a * x) 0), (Rlt_dec x 0); try tauto.
  - rewrite Q by lra. destruct (Rle_dec 0 (a * y)), (Rle_dec 0 y); try reflexivity; exfalso; [|]; lra || (apply n1; apply Rnot_lt_le; tauto).
  - destruct (Rlt_dec 0 (a * y)), (Rlt_dec 0 y); try tauto. destruct (Rlt_dec (a * y) 0), (Rlt_dec y 0); tauto || reflexivity.
Qed.
Lemma sector_scaled : forall a rate c, 0 < a -> r_sector rate (map (Rmult a) c) = r_sector rate c.
Proof. intros a rate [|x [|y c]] Ha; [reflexivity|reflexivity|]. cbn [map r_sector]. now rewrite atan2_scaled. Qed.
Lemma flip_scaled : forall a c, r_flip (map (Rmult a) c) = map (Rmult a) (r_flip c).
Proof. intros a [|x c]; [reflexivity|]. cbn [map r_flip]. f_equal. ring. Qed.
Lemma cluster_scaled : forall threads d a rows, (1 <= threads)%nat -> (1 <= d)%nat -> 0 < a -> (2 <= length rows)%nat -> Forall (fun r => length r = d) rows ->
  r_cluster threads (map (map (Rmult a)) rows) = r_cluster threads rows.
Proof.
  intros threads d a rows Ht Hd Ha H2 F. assert (F' : Forall (fun r => length r = d) (map (map (Rmult a)) rows)) by (apply Forall_map; revert F; apply Forall_impl; intros r Hr; now rewrite map_length).
  assert (Col : forall k, column k (map (map (Rmult a)) rows) = map (Rmult a) (column k rows)).
  { intros k. unfold column. rewrite !map_map. apply map_ext. intros r. rewrite <- (map_nth (Rmult a)), Rmult_0_r. reflexivity. }
  assert (D : forall m, (m <= d)%nat -> (exists k x, (k < m)%nat /\ forall y, In y (column k rows) -> y = x) \/ forall k, (k < m)%nat -> spread (column k rows)).
  { induction m as [|m IH]; intros Hm; [right; lia|]. destruct IH as [(k & x & Hk & Hx)|S]; [lia|left; exists k, x; split; [lia|exact Hx]|].
    destruct (constant_or_spread (column m rows)) as [S'|(x & Hx)]; [unfold column; destruct rows; [cbn in H2; lia|discriminate]| |left; exists m, x; split; [lia|exact Hx]].
    right. intros k Hk. destruct (Nat.eq_dec k m) as [->|N]; [exact S'|apply S; lia]. }
  destruct (D d (Nat.le_refl d)) as [(k & x & Hk & Hx)|Sp].
  - rewrite (cluster_aborts threads d rows k x Ht H2 F Hk Hx). apply (cluster_aborts threads d _ k (a * x)); auto; [now rewrite map_length|]. intros y Hy. rewrite Col in Hy. apply in_map_iff in Hy. destruct Hy as (z & <- & Hz). f_equal. now apply Hx.
  - destruct (C86_units threads threads d (fun _ => a) (fun _ => 0) rows (map (map (Rmult a)) rows) Ht Ht) as (labels & E & E').
    + split; [exact Hd|]. split; [exact H2|]. split; [exact F|]. intros k Hk. exact (Sp k Hk).
    + intros k Hk. exact Ha.
    + unfold converted. clear -F. induction F as [|r l Hr Hl IH]; [constructor|]. cbn [map]. constructor; [|exact IH]. split; [now rewrite map_length|]. intros k Hk. rewrite <- (Rmult_0_r a) at 1. rewrite map_nth. ring.
    + now rewrite E, E'.
Qed.

Section Scaled.
Variables (p : params) (dim n : nat) (a : R) (inv inv' : (nat -> nat -> R) -> option (nat -> nat -> R)) (coords : list (list R)).
Hypothesis HN : n_cluster_nodes p = 1%nat.
Hypothesis Hrate : (1 <= rate p)%nat.
Hypothesis Hth : (1 <= n_threads p)%nat.
Hypothesis Hdim : (1 <= dim)%nat.
Hypothesis Ha : 0 < a.
Hypothesis Hinv : inverse_correct (2 * dim) inv.
Hypothesis Hinv' : inverse_correct (2 * dim) inv'.
Hypothesis Hlen : Forall (fun c => length c = (2 * dim)%nat) coords.
Let sector := r_sector (rate p).
Let moved := followed p sector r_flip coords.
Let ts := transitions_of p sector r_flip coords.
Lemma moved_held : held_points dim moved ts.
Proof.
  split.
  - unfold moved, followed. destruct (_ && _); [|exact Hlen]. apply Forall_map. revert Hlen. apply Forall_impl. intros c Hc. unfold r_flip. destruct c; exact Hc.
  - intros (x & y) Ht. unfold ts, transitions_of, usable_pairs in Ht. apply filter_In in Ht. destruct Ht as (Ht & _). fold moved in Ht.
    assert (L : length (points_at sector moved) = length moved) by (unfold points_at; rewrite map_length, combine_length, seq_length; lia).
    destruct (numbered_pair (points_at sector moved) x y 0) as (E & _ & B).
    { rewrite L. unfold points_at. rewrite map_map. cbn [pid]. clear. generalize 0%nat. induction moved as [|k l IH]; intros i; [reflexivity|]. cbn. f_equal. apply IH. }
    { exact Ht. }
    rewrite L in B. destruct (nth_error moved (pid x)) as [u|] eqn:Eu; [|apply nth_error_None in Eu; lia]. destruct (nth_error moved (pid y)) as [v|] eqn:Ev; [|apply nth_error_None in Ev; lia]. exists u, v. split; assumption.
Qed.
Lemma scoring_scaled : local_scoring sector r_flip (real_cross inv' (rate p)) (r_cluster (n_threads p)) p n (map (map (Rmult a)) coords) =
  local_scoring sector r_flip (real_cross inv (rate p)) (r_cluster (n_threads p)) p n coords.
Proof.
  apply (scoring_natural (map (Rmult a)) (map (Rmult a)) sector sector r_flip r_flip (real_cross inv (rate p)) (real_cross inv' (rate p)) (r_cluster (n_threads p)) (r_cluster (n_threads p)) p n (fun c => length c = dim)); try assumption.
  - intros k. now apply sector_scaled.
  - intros k. now rewrite flip_scaled.
  - intros k. now apply sector_bound.
  - intros k. now apply sector_bound.
  - intros t s Ht. pose proof moved_held as Hh. fold ts in Ht |- *. fold moved. rewrite (C87_units dim inv') by assumption. now rewrite (C87_any_host dim inv' inv (rate p) moved ts ts t s) by assumption.
  - intros t s c Ht E. pose proof moved_held as Hh. fold ts in Ht, E. fold moved in E. destruct (proj2 Hh t Ht) as (u & v & Ee). destruct (C87_crossing dim inv (rate p) moved ts t s u v Hdim Hinv Hh Ht Ee) as (A & B).
    destruct (Req_dec (offset (rate p) s (coords_fun u)) (offset (rate p) s (coords_fun v))) as [O|O]; [rewrite (B O) in E; discriminate|]. rewrite (A O) in E. injection E as <-. unfold crossing_distances. now rewrite map_length, seq_length.
  - intros rows H2 F. now apply (cluster_scaled (n_threads p) dim).
Qed.
End Scaled.

(** ** Up to the points *)
Definition scale3 (a : R) (v : vec3) : vec3 := let '(x, y, z) := v in (a * x, a * y, a * z).
Lemma unit_scaled : forall a v, 0 < a -> unit3 (scale3 a v) = unit3 v.
Proof.
  intros a ((x & y) & z) Ha. unfold scale3, unit3.
  assert (N : norm3 (a * x, a * y, a * z) = a * norm3 (x, y, z)).
  { unfold norm3. replace (a * x * (a * x) + a * y * (a * y) + a * z * (a * z)) with (a * a * (x * x + y * y + z * z)) by ring. pose proof (Rle_0_sqr x). pose proof (Rle_0_sqr y). pose proof (Rle_0_sqr z). unfold Rsqr in *. rewrite sqrt_mult by nra. rewrite sqrt_square by lra. reflexivity. }
  rewrite N. assert (Q : forall u, a * u / (a * norm3 (x, y, z)) = u / norm3 (x, y, z)).
  { intros u. unfold Rdiv. destruct (Req_dec (norm3 (x, y, z)) 0) as [->|H]; [rewrite Rmult_0_r, !Rinv_0; ring|]. field. split; [exact H|lra]. }
  now rewrite !Q.
Qed.
Lemma rmat_scaled : forall a u r c, 0 < a -> rmat (scale3 a u) r c = rmat u r c.
Proof. intros a u r c Ha. unfold rmat. now rewrite unit_scaled. Qed.
Lemma mat_row_scaled : forall a m m' r x, (r < 3)%nat -> (forall r c, (r < 3)%nat -> (c < 3)%nat -> m' r c = m r c) -> mat_row m' r (scale3 a x) = a * mat_row m r x.
Proof. intros a m m' r ((x & y) & z) Hr H. unfold mat_row, scale3. rewrite !H by lia. ring. Qed.
Lemma coordinates_scaled : forall a ms ms' xs, Forall2 (fun m m' => forall r c, (r < 3)%nat -> (c < 3)%nat -> m' r c = m r c) ms ms' ->
  point_coordinates ms' (map (scale3 a) xs) = map (Rmult a) (point_coordinates ms xs).
Proof.
  intros a ms ms' xs F. unfold point_coordinates. rewrite map_app, !map_map.
  assert (G : forall r, (r < 3)%nat -> map (fun mx => mat_row (fst mx) r (snd mx)) (combine ms' (map (scale3 a) xs)) = map (fun mx => a * mat_row (fst mx) r (snd mx)) (combine ms xs)).
  { intros r Hr. revert xs. induction F as [|m m' l l' H F IH]; intros xs; [reflexivity|]. destruct xs as [|x xs]; [reflexivity|]. cbn [map combine fst snd]. f_equal; [now apply mat_row_scaled|apply IH]. }
  now rewrite !G by lia.
Qed.

(** A window in other units; [b]: by channel and position. *)
Definition window_units (dim : nat) (a : R) (b : nat -> nat -> R) (w w' : list (list R)) : Prop :=
  forall c j, (c < dim)%nat -> entries (Stats.Model.column c w') j = a * entries (Stats.Model.column c w) j + b c j.
Lemma reduced_scaled : forall dim a b (pcs pcs' : list components_of) w w', length pcs = dim -> length pcs' = dim -> window_units dim a b w w' ->
  (forall c pc pc', nth_error pcs c = Some pc -> nth_error pcs' c = Some pc' -> (forall j, fst pc' j = a * fst pc j + b c j) /\ snd pc' = snd pc) ->
  Forall (fun pc : components_of => length (snd pc) = 3%nat) pcs ->
  reduced pcs' w' = map (scale3 a) (reduced pcs w).
Proof.
  intros dim a b pcs pcs' w w' L L' W H F3. unfold reduced. rewrite L, L', map_map.
  assert (G : forall i (q q' : list components_of), length q = length q' -> (i + length q <= dim)%nat -> Forall (fun pc : components_of => length (snd pc) = 3%nat) q ->
    (forall c pc pc', nth_error q c = Some pc -> nth_error q' c = Some pc' -> (forall j, fst pc' j = a * fst pc j + b (i + c)%nat j) /\ snd pc' = snd pc) ->
    map (fun cp => vec_of (reduce_row (fst (snd cp)) (snd (snd cp)) (entries (Stats.Model.column (fst cp) w')))) (combine (seq i (length q)) q') =
    map (fun cp => scale3 a (vec_of (reduce_row (fst (snd cp)) (snd (snd cp)) (entries (Stats.Model.column (fst cp) w))))) (combine (seq i (length q)) q)).
  { intros i q. revert i. induction q as [|pc q IH]; intros i q' E B F0 H0; [reflexivity|]. destruct q' as [|pc' q']; [discriminate|]. cbn [length] in E, B. inversion F0 as [|x l F1 F2]; subst. cbn [length seq combine map fst snd]. f_equal.
    - destruct (H0 0%nat pc pc' eq_refl eq_refl) as (M & Cc). rewrite Cc. rewrite Nat.add_0_r in M.
      assert (R : reduce_row (fst pc') (snd pc) (entries (Stats.Model.column i w')) = map (Rmult a) (reduce_row (fst pc) (snd pc) (entries (Stats.Model.column i w)))).
      { unfold reduce_row. rewrite map_map. apply map_ext. intros comp. generalize (combine (seq 0 (length comp)) comp). intros l. unfold Rsum. induction l as [|jc l IHl]; [cbn; ring|]. cbn [map fold_right]. rewrite IHl, W by lia. rewrite M. ring. }
      rewrite R. set (l := reduce_row (fst pc) (snd pc) (entries (Stats.Model.column i w))). assert (Ll : length l = 3%nat) by (unfold l, reduce_row; rewrite map_length; exact F1). destruct l as [|x [|y [|z [|u l]]]]; cbn in Ll; try discriminate. reflexivity.
    - apply IH; [lia|lia|exact F2|]. intros c pc1 pc1' A1 A2. replace (S i + c)%nat with (i + S c)%nat by lia. now apply H0. }
  rewrite <- L. apply (G 0%nat); [lia|lia|exact F3|exact H].
Qed.

Section Front.
Variables (p : params) (dim : nat) (a : R) (b : nat -> R) (rows rows' : list (list R)).
Hypothesis Ha : 0 < a.
Hypothesis HL : (latent p < pattern_length p)%nat.
Hypothesis Hpl : (pattern_length p <= length rows)%nat.
Hypothesis Hrows : Forall (fun r => length r = dim) rows.
Hypothesis Hconv : converted dim (fun _ => a) b rows rows'.
Let width := (pattern_length p - latent p)%nat.
(** The offset of a position in a window. *)
Definition shift (c j : nat) : R := if (j <? width)%nat then INR (latent p) * b c else 0.

Lemma converted_length : length rows' = length rows.
Proof. clear -Hconv. induction Hconv; cbn; lia. Qed.
Lemma full_column : forall d l c, Forall (fun r : list R => length r = d) l -> (c < d)%nat -> Stats.Model.column c l = column c l.
Proof.
  intros d l c F Hc. unfold Stats.Model.column, column. induction F as [|r l Hr F IH]; [reflexivity|]. cbn [flat_map map]. rewrite IH. rewrite (nth_error_nth' r 0) by lia. reflexivity.
Qed.
Lemma converted_slice : forall i j, converted dim (fun _ => a) b (slice i j rows) (slice i j rows').
Proof.
  intros i j. unfold slice, converted. assert (G : forall n l l', Forall2 (fun r r' : list R => length r' = dim /\ forall k, (k < dim)%nat -> nth k r' 0 = a * nth k r 0 + b k) l l' -> Forall2 (fun r r' : list R => length r' = dim /\ forall k, (k < dim)%nat -> nth k r' 0 = a * nth k r 0 + b k) (firstn n l) (firstn n l') /\ Forall2 (fun r r' : list R => length r' = dim /\ forall k, (k < dim)%nat -> nth k r' 0 = a * nth k r 0 + b k) (skipn n l) (skipn n l')).
  { induction n as [|n IH]; intros l l' F; [split; [constructor|exact F]|]. destruct F as [|x y l l' H F]; [split; constructor|]. cbn. destruct (IH l l' F) as (A & B). split; [now constructor|exact B]. }
  apply G. apply G. exact Hconv.
Qed.
Lemma part_full : forall n d (l : list (list R)), Forall (fun r => length r = d) l -> Forall (fun r => length r = d) (firstn n l) /\ Forall (fun r => length r = d) (skipn n l).
Proof. induction n as [|n IH]; intros d l F; [split; [constructor|exact F]|]. destruct F as [|x l H F]; [split; constructor|]. cbn. destruct (IH d l F) as (A & B). split; [now constructor|exact B]. Qed.
Lemma slice_full : forall i j, Forall (fun r => length r = dim) (slice i j rows).
Proof. intros i j. unfold slice. apply part_full, part_full. exact Hrows. Qed.
Lemma converted_full : forall l l', converted dim (fun _ => a) b l l' -> Forall (fun r => length r = dim) l'.
Proof. intros l l' F. induction F as [|x y l l' (H & _) F IH]; constructor; auto. Qed.
Lemma sum_converted : forall l l' c, converted dim (fun _ => a) b l l' -> (c < dim)%nat -> fold_left Rplus (column c l') 0 = a * fold_left Rplus (column c l) 0 + INR (length l) * b c.
Proof.
  intros l l' c F Hc. rewrite !fold_left_Rplus, !Rplus_0_l. unfold column, Rsum. induction F as [|x y l l' (_ & H) F IH]; [cbn; ring|]. cbn [map fold_right length]. rewrite IH, H by exact Hc. rewrite S_INR. ring.
Qed.
Lemma window_column : forall q i c, (c < dim)%nat -> Forall (fun r => length r = dim) q ->
  Stats.Model.column c (window (sum_axis dim) (pattern_length p) (latent p) q i) = map (fun j => fold_left Rplus (column c (slice (i + j) (i + j + latent p) q)) 0) (seq 0 width).
Proof.
  intros q i c Hc F. rewrite (full_column dim) by (exact Hc || (unfold window; apply Forall_map, Forall_forall; intros j _; unfold sum_axis; now rewrite map_length, seq_length)).
  unfold column at 1, window. rewrite map_map. apply map_ext. intros j. unfold sum_axis.
  rewrite (nth_indep _ 0 (fold_left Rplus (Stats.Model.column 0 (slice (i + j) (i + j + latent p) q)) 0)) by (rewrite map_length, seq_length; exact Hc). rewrite (map_nth (fun d => fold_left Rplus (Stats.Model.column d (slice (i + j) (i + j + latent p) q)) 0)), seq_nth by exact Hc. cbn [Nat.add].
  rewrite (full_column dim); [reflexivity| |exact Hc]. unfold slice. now apply part_full, part_full.
Qed.
Lemma nth_map_seq : forall (g : nat -> R) m j, (j < m)%nat -> nth j (map g (seq 0 m)) 0 = g j.
Proof. intros g m j Hj. rewrite (nth_indep _ 0 (g 0%nat)) by (rewrite map_length, seq_length; exact Hj). rewrite map_nth, seq_nth by exact Hj. reflexivity. Qed.
Lemma windows_converted : forall i, (i < length rows - (pattern_length p - 1))%nat ->
  window_units dim a shift (window (sum_axis dim) (pattern_length p) (latent p) rows i) (window (sum_axis dim) (pattern_length p) (latent p) rows' i).
Proof.
  intros i Hi c j Hc. rewrite !window_column by (exact Hc || exact Hrows || exact (converted_full _ _ Hconv)). unfold entries, shift.
  destruct (Nat.ltb_spec j width) as [Hj|Hj].
  - rewrite !nth_map_seq by exact Hj. rewrite (sum_converted (slice (i + j) (i + j + latent p) rows) (slice (i + j) (i + j + latent p) rows')) by (apply converted_slice || exact Hc).
    rewrite slice_length. unfold width in Hj. do 3 f_equal. lia.
  - rewrite !nth_overflow by (rewrite map_length, seq_length; exact Hj). ring.
Qed.
Lemma channels_converted : forall windows windows' c, (c < dim)%nat -> embed p dim rows = Ok windows -> embed p dim rows' = Ok windows' -> channel c windows' = in_units a (shift c) (channel c windows).
Proof.
  intros windows windows' c Hc E E'. unfold embed in *. rewrite phase_space_ok in E, E' by (rewrite ?converted_length; lia). injection E as <-. injection E' as <-. unfold channel, in_units, embedding. rewrite !map_map, converted_length.
  apply map_ext_in. intros i Hi. apply in_seq in Hi. apply functional_extensionality. intros j. now apply windows_converted; [lia|].
Qed.
Lemma entry_converted : forall c x, (c < dim)%nat -> entry rows c x -> entry rows' c (a * x + b c).
Proof.
  intros c x Hc (r & Hr & E). revert Hr. unfold converted in Hconv. clear -Hconv Hc E. induction Hconv as [|u v l l' (L & H) F IH]; [intros []|]. intros [->|Hr].
  - exists v. split; [now left|]. rewrite (nth_error_nth' v 0) by lia. rewrite H by exact Hc. now rewrite (nth_error_nth r c 0 E).
  - destruct (IH F Hr) as (r' & H' & E'). exists r'. split; [now right|exact E'].
Qed.
Lemma entry_back : forall c y, (c < dim)%nat -> entry rows' c y -> exists x, entry rows c x /\ y = a * x + b c.
Proof.
  intros c y Hc (r & Hr & E). revert Hr. unfold converted in Hconv. clear -Hconv Hrows Hc E. induction Hconv as [|u v l l' (L & H) F IH]; [intros []|]. inversion Hrows as [|u' l0 Hu Hl]; subst. intros [->|Hr].
  - exists (nth c u 0). split; [exists u; split; [now left|apply nth_error_nth'; lia]|]. rewrite <- H by exact Hc. symmetry. now apply nth_error_nth.
  - destruct (IH Hl F Hr) as (x & (r' & H' & E') & Ex). exists x. split; [exists r'; split; [now right|exact E']|exact Ex].
Qed.
Lemma minimum_converted : forall c m m', (c < dim)%nat -> column_minimum rows c m -> column_minimum rows' c m' -> m' = a * m + b c.
Proof.
  intros c m m' Hc (I & B) (I' & B'). apply Rle_antisym; [apply B'; now apply entry_converted|]. destruct (entry_back c m' Hc I') as (x & Hx & ->). apply Rplus_le_compat_r, Rmult_le_compat_l; [lra|now apply B].
Qed.
Lemma reference_converted : forall mins maxs mins' maxs', extremes dim rows mins maxs -> extremes dim rows' mins' maxs' -> window_units dim a shift (reference_row p mins) (reference_row p mins').
Proof.
  intros mins maxs mins' maxs' (L & _ & H) (L' & _ & H') c j Hc.
  assert (C : forall m, length m = dim -> Stats.Model.column c (reference_row p m) = repeat (INR (latent p) * nth c m 0) width).
  { intros m Lm. rewrite (full_column dim) by (exact Hc || (unfold reference_row; apply Forall_forall; intros r Hr; apply repeat_spec in Hr; subst r; now rewrite map_length)). unfold reference_row, column. fold width. generalize width. intros w.
    induction w as [|w IH]; [reflexivity|]. cbn [repeat map]. rewrite IH. f_equal. rewrite <- (Rmult_0_r (INR (latent p))) at 1. now rewrite (map_nth (fun s => INR (latent p) * s)). }
  rewrite !C by assumption. unfold entries, shift. destruct (H c Hc) as (lo & hi & Elo & _ & Mn & _). destruct (H' c Hc) as (lo' & hi' & Elo' & _ & Mn' & _). rewrite (nth_error_nth mins c 0 Elo), (nth_error_nth mins' c 0 Elo'). rewrite (minimum_converted c lo lo' Hc Mn Mn').
  destruct (Nat.ltb_spec j width) as [Hj|Hj].
  - assert (N : forall x : R, nth j (repeat x width) 0 = x) by (intros x; assert (Hin : In (nth j (repeat x width) 0) (repeat x width)) by (apply nth_In; rewrite repeat_length; exact Hj); now apply repeat_spec in Hin). rewrite !N. ring.
  - rewrite !nth_overflow by (rewrite repeat_length; exact Hj). ring.
Qed.
End Front.

(** ** The points and the scores *)
Lemma added_coordinates : forall rate l i ps, add_points i l rate = Some ps -> map p_coordinates ps = l.
Proof.
  intros rate. induction l as [|c l IH]; intros i ps H; cbn [add_points] in H; [now injection H as <-|]. unfold new_point in H. destruct (segment_of c rate) as [s|]; [|discriminate]. cbn [obind] in H. destruct (add_points (S i) l rate) as [qs|] eqn:E; [|discriminate]. cbn [obind] in H. injection H as <-. cbn [map p_coordinates]. f_equal. now apply (IH (S i)).
Qed.
Lemma Forall2_matrices : forall (P Q : (nat -> nat -> R) -> vec3 -> Prop) (T : (nat -> nat -> R) -> (nat -> nat -> R) -> Prop) (h : vec3 -> vec3) us ms ms', (forall m m' u, P m u -> Q m' (h u) -> T m m') -> Forall2 P ms us -> Forall2 Q ms' (map h us) -> Forall2 T ms ms'.
Proof.
  intros P Q T h us. induction us as [|u us IH]; intros ms ms' H F F'; inversion F; subst; inversion F'; subst; constructor; eauto.
Qed.
Section Units.
Variables (qr qr' : list (nat -> R) -> list (nat -> R)) (svd svd' : list (nat -> R) -> nat -> nat -> R) (inv inv' : (nat -> nat -> R) -> option (nat -> nat -> R)).
Variables (p : params) (dim : nat) (a : R) (b : nat -> R) (rows rows' : list (list R)) (mins maxs mins' maxs' : list R) (windows windows' : list (list (list R))) (pcs pcs' : list components_of).
Let width := (pattern_length p - latent p)%nat.
Hypothesis HL : (latent p + 3 <= pattern_length p <= length rows)%nat.
Hypothesis Hdim : (1 <= dim)%nat.
Hypothesis Hrows : Forall (fun r => length r = dim) rows.
Hypothesis Ha : 0 < a.
Hypothesis Hconv : converted dim (fun _ => a) b rows rows'.
Hypothesis Hqr : preserves_gram qr.
Hypothesis Hqr' : preserves_gram qr'.
Hypothesis Hx : extremes dim rows mins maxs.
Hypothesis Hx' : extremes dim rows' mins' maxs'.
Hypothesis Ew : embed p dim rows = Ok windows.
Hypothesis Ew' : embed p dim rows' = Ok windows'.
Hypothesis A : all_analysed qr svd width dim windows pcs.
Hypothesis A' : all_analysed qr' svd' width dim windows' pcs'.
Hypothesis Det : forall c, (c < dim)%nat -> determined width (channel c windows).
Lemma points_scaled : exists coords points points' ms ms', alignment p mins maxs pcs = Ok ms /\ alignment p mins' maxs' pcs' = Ok ms' /\
  host_points p dim (length rows) 1 0 ms pcs rows = Ok points /\ host_points p dim (length rows') 1 0 ms' pcs' rows' = Ok points' /\
  map p_coordinates points = coords /\ map p_coordinates points' = map (map (Rmult a)) coords /\ Forall (fun c => length c = (2 * dim)%nat) coords.
Proof.
  assert (Hwne : windows <> []).
  { unfold embed in Ew. rewrite phase_space_ok in Ew by lia. injection Ew as <-. unfold embedding. intros Z. apply (f_equal (@length _)) in Z. rewrite map_length, seq_length in Z. cbn in Z. lia. }
  assert (U : forall c pc pc', nth_error pcs c = Some pc -> nth_error pcs' c = Some pc' -> (forall j, fst pc' j = a * fst pc j + shift p b c j) /\ snd pc' = snd pc).
  { intros c pc pc' E E'. assert (Hc : (c < dim)%nat) by (rewrite <- (proj1 A); apply nth_error_Some; congruence).
    apply (analysed_units qr qr' svd svd' width (channel c windows) a (shift p b c) pc pc'); auto; [unfold width; lia| |now apply A|].
    - unfold channel. intros Z. apply map_eq_nil in Z. now apply Hwne.
    - rewrite <- (channels_converted p dim a b rows rows' ltac:(lia) ltac:(lia) Hrows Hconv windows windows' c Hc Ew Ew'). now apply A'. }
  assert (F3 : Forall (fun pc : components_of => length (snd pc) = 3%nat) pcs).
  { apply Forall_forall. intros pc Hin. apply In_nth_error in Hin. destruct Hin as (c & E). apply (analysed_shape qr svd width (channel c windows)). now apply A. }
  assert (F3' : Forall (fun pc : components_of => length (snd pc) = 3%nat) pcs').
  { apply Forall_forall. intros pc Hin. apply In_nth_error in Hin. destruct Hin as (c & E). apply (analysed_shape qr' svd' width (channel c windows')). now apply A'. }
  destruct A as (Lp & _), A' as (Lp' & _).
  destruct (alignment_ok p mins maxs pcs) as (ms & E1 & G1); [lia|destruct Hx as (-> & -> & _); reflexivity|exact F3|]. destruct (alignment_ok p mins' maxs' pcs') as (ms' & E2 & G2); [lia|destruct Hx' as (-> & -> & _); reflexivity|exact F3'|].
  rewrite (reduced_scaled dim a (shift p b) pcs pcs' (reference_row p mins) (reference_row p mins')) in G2; auto; [|eapply (reference_converted p dim a b rows rows'); (eassumption || lia)].
  assert (Hm : Forall2 (fun m m' => forall r c, (r < 3)%nat -> (c < 3)%nat -> m' r c = m r c) ms ms').
  { refine (Forall2_matrices _ _ _ _ _ _ _ _ G1 G2). intros m m' u P Q r c Hr Hc. cbv beta in *. rewrite P, Q by assumption. now apply rmat_scaled. }
  assert (Lm : length ms = dim) by (clear -G1 Lp; assert (X : length ms = length (reduced pcs (reference_row p mins))) by (clear Lp; induction G1; cbn; lia); rewrite reduced_length in X; congruence).
  assert (Lm' : length ms' = dim) by (rewrite <- Lm; clear -Hm; induction Hm; cbn; lia).
  set (coords := map (fun w => point_coordinates ms (reduced pcs w)) windows).
  assert (Ec : map (fun w => point_coordinates ms' (reduced pcs' w)) windows' = map (map (Rmult a)) coords).
  { unfold coords. rewrite map_map. unfold embed in Ew, Ew'. pose proof (converted_length dim a b rows rows' Hconv) as Cl. rewrite phase_space_ok in Ew, Ew' by (rewrite ?Cl; lia). injection Ew as <-. injection Ew' as <-. unfold embedding. rewrite !map_map, Cl.
    apply map_ext_in. intros i Hi. apply in_seq in Hi. rewrite (reduced_scaled dim a (shift p b) pcs pcs' (window (sum_axis dim) (pattern_length p) (latent p) rows i)); auto; [now apply coordinates_scaled|]. apply windows_converted; (assumption || lia). }
  assert (Hl : Forall (fun c => length c = (2 * dim)%nat) coords).
  { unfold coords. apply Forall_map, Forall_forall. intros w _. rewrite point_coordinates_length, reduced_length. lia. }
  destruct (add_points_ok (rate p) coords 0) as (ps & Ep); [revert Hl; apply Forall_impl; intros c Lc; lia|].
  destruct (add_points_ok (rate p) (map (map (Rmult a)) coords) 0) as (ps' & Ep'); [apply Forall_map; revert Hl; apply Forall_impl; intros c Lc; rewrite map_length; lia|].
  exists coords, ps, ps', ms, ms'. ssplit; auto.
  - rewrite (host_points_ok p dim pcs ms ltac:(lia) F3 ltac:(lia) ltac:(lia) (length rows) 1 0 rows windows ltac:(lia) Ew). rewrite Nat.mul_0_r. fold coords. now rewrite Ep.
  - rewrite (host_points_ok p dim pcs' ms' ltac:(lia) F3' ltac:(lia) ltac:(lia) (length rows') 1 0 rows' windows' ltac:(lia) Ew'). rewrite Nat.mul_0_r, Ec. now rewrite Ep'.
  - now apply (added_coordinates (rate p) _ 0).
  - now apply (added_coordinates (rate p) _ 0).
Qed.
Lemma analysis_scaled : n_cluster_nodes p = 1%nat -> (1 <= rate p)%nat -> (1 <= n_threads p)%nat -> inverse_correct (2 * dim) inv -> inverse_correct (2 * dim) inv' ->
  machine_analysis inv' p dim mins' maxs' pcs' rows' = machine_analysis inv p dim mins maxs pcs rows.
Proof.
  intros HN Hr Ht Hi Hi'. destruct points_scaled as (coords & points & points' & ms & ms' & E1 & E2 & E3 & E4 & E5 & E6 & L). unfold machine_analysis. rewrite E1, E2. cbn [bind]. rewrite E3, E4. cbn [bind]. rewrite E5, E6, (converted_length dim a b rows rows' Hconv).
  now apply (scoring_scaled p dim).
Qed.
End Units.
