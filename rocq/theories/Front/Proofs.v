From Verif.Pca Require Import Model Spec.
From Coq Require Import List Arith Bool Lia Reals Lra FunctionalExtensionality.
From Verif.Base Require Import Res Params ListX.
From Verif.Reader Require Import Spec Proofs.
From Verif.Stats Require Import Model Spec Proofs.
From Verif.PhaseSpace Require Import Model Spec Proofs.
From Verif.Pca Require Import Gram GramSpec GramProofs Components ComponentsSpec ComponentsProofs.
From Verif.Geometry Require Import Model.
From Verif.Properties Require Import Components.
From Verif.Front Require Import Model Spec.
Import ListNotations.
Local Open Scope R_scope.

(** ** The components of one channel *)
Lemma analysed_units : forall qr qr' svd svd' width rows a b pc pc', preserves_gram qr -> preserves_gram qr' -> (3 <= width)%nat -> 0 < a -> rows <> [] -> determined width rows ->
  analysed qr svd width rows pc -> analysed qr' svd' width (in_units a b rows) pc' -> (forall j, fst pc' j = a * fst pc j + b j) /\ snd pc' = snd pc.
Proof.
  intros qr qr' svd svd' width rows a b pc pc' Hqr Hqr' Hw Ha Hne (v & s & D & Sep & H0) (r & P & E & Sv) (r' & P' & E' & Sv').
  destruct (pca_of_scatter qr rows _ r Hqr P) as (M & Gr). destruct (pca_of_scatter qr' _ _ r' Hqr' P') as (M' & Gr'). split.
  - intros j. now rewrite M, M', mean_units.
  - assert (D' : diagonalises width (gram r) ((fun _ => v) r) s) by (apply (diagonalises_ext _ (scatter_matrix rows)); [intros; symmetry; apply Gr|exact D]).
    assert (X : components svd width r = components (fun _ => v) width r).
    { apply (components_equal width (fun _ => v) svd r r (scatter_matrix rows) 1 s); auto; [lra|]. intros i j _ _. rewrite Gr. ring. }
    assert (X' : components svd' width r' = components (fun _ => v) width r).
    { apply (components_equal width (fun _ => v) svd' r r' (scatter_matrix rows) a s); auto. intros i j _ _. rewrite Gr'. now apply scatter_units. }
    congruence.
Qed.
Lemma same_units : forall rows, in_units 1 (fun _ => 0) rows = rows.
Proof. intros rows. unfold in_units. rewrite <- (map_id rows) at 2. apply map_ext. intros r. apply functional_extensionality. intros j. ring. Qed.
Lemma analysed_unique : forall qr qr' svd svd' width rows pc pc', preserves_gram qr -> preserves_gram qr' -> (3 <= width)%nat -> rows <> [] -> determined width rows ->
  analysed qr svd width rows pc -> analysed qr' svd' width rows pc' -> pc' = pc.
Proof.
  intros qr qr' svd svd' width rows pc pc' Hqr Hqr' Hw Hne D A A'. rewrite <- (same_units rows) in A'.
  destruct (analysed_units qr qr' svd svd' width rows 1 (fun _ => 0) pc pc' Hqr Hqr' Hw ltac:(lra) Hne D A A') as (M & E). destruct pc as (m & c), pc' as (m' & c'). cbn in *. subst. f_equal.
  apply functional_extensionality. intros j. rewrite M. ring.
Qed.
Lemma analysed_shape : forall qr svd width rows pc, analysed qr svd width rows pc -> length (snd pc) = 3%nat.
Proof. intros qr svd width rows pc (r & _ & E & _). unfold components in E. destruct (width <? 3)%nat; [discriminate|]. injection E as <-. reflexivity. Qed.

Lemma extremes_unique : forall dim rows mins maxs mins' maxs', extremes dim rows mins maxs -> extremes dim rows mins' maxs' -> mins' = mins /\ maxs' = maxs.
Proof.
  intros dim rows mins maxs mins' maxs' (L & L' & H) (M & M' & H').
  assert (X : forall j, (j < dim)%nat -> nth_error mins' j = nth_error mins j /\ nth_error maxs' j = nth_error maxs j).
  { intros j Hj. destruct (H j Hj) as (lo & hi & -> & -> & (I1 & B1) & (I2 & B2)). destruct (H' j Hj) as (lo' & hi' & -> & -> & (I1' & B1') & (I2' & B2')).
    pose proof (B1 _ I1'). pose proof (B1' _ I1). pose proof (B2 _ I2'). pose proof (B2' _ I2). split; f_equal; lra. }
  split.
  - apply nth_error_ext. intros j. destruct (Nat.lt_ge_cases j dim) as [Hj|Hj]; [apply X; exact Hj|]. rewrite !(proj2 (nth_error_None _ _)) by lia. reflexivity.
  - apply nth_error_ext. intros j. destruct (Nat.lt_ge_cases j dim) as [Hj|Hj]; [apply X; exact Hj|]. rewrite !(proj2 (nth_error_None _ _)) by lia. reflexivity.
Qed.

(** ** Success *)
Definition vec_of (l : list R) : vec3 := match l with [x; y; z] => (x, y, z) | _ => (0, 0, 0) end.
Definition reduced (pcs : list components_of) (w : list (list R)) : list vec3 :=
  map (fun cp => vec_of (reduce_row (fst (snd cp)) (snd (snd cp)) (entries (column (fst cp) w)))) (combine (seq 0 (length pcs)) pcs).
Lemma reduced_length : forall pcs w, length (reduced pcs w) = length pcs.
Proof. intros. unfold reduced. rewrite map_length, combine_length, seq_length. lia. Qed.
Lemma reduce_window_ok : forall pcs w, Forall (fun pc : components_of => length (snd pc) = 3%nat) pcs -> reduce_window pcs w = Ok (reduced pcs w).
Proof.
  intros pcs w H. unfold reduce_window, reduced. apply mapM_ok. intros (c & m & l) Hin. apply in_combine_r in Hin. rewrite Forall_forall in H. apply H in Hin. cbn [fst snd] in *.
  unfold reduce_row. destruct l as [|x [|y [|z [|u l]]]]; cbn in Hin; try discriminate. reflexivity.
Qed.
Lemma channel_matrix_ok : forall refs u k, nth_error refs k = Some u -> exists m, channel_matrix refs k = Ok m /\ forall r c, (r < 3)%nat -> (c < 3)%nat -> m r c = Geometry.Proofs.rmat u r c.
Proof.
  intros refs u k Hu. unfold channel_matrix.
  rewrite (mapM_ok _ _ _ (fun r => map (fun c => Geometry.Proofs.rmat u r c) (seq 0 3))).
  - cbn [bind]. eexists. split; [reflexivity|]. intros r c Hr Hc. destruct r as [|[|[|r]]]; try lia; destruct c as [|[|[|c]]]; try lia; reflexivity.
  - intros r Hr. apply in_seq in Hr. apply mapM_ok. intros c Hc. apply in_seq in Hc. rewrite (Geometry.Proofs.rotation_entry_eq refs u) by (assumption || lia). reflexivity.
Qed.
(** The first reference row: every position has the sum of [latent] minima. *)
Definition reference_row (p : params) (mins : list R) : list (list R) := repeat (map (fun s => INR (latent p) * s) mins) (pattern_length p - latent p).
Lemma map2_fst : forall (f : R -> R) l m, length l = length m -> map2 (fun (s _ : R) => f s) l m = map f l.
Proof. intros f. induction l as [|x l IH]; intros [|y m] H; try discriminate; [reflexivity|]. cbn in *. now rewrite IH by lia. Qed.
Lemma map2_ext : forall (f g : R -> R -> R) l m, (forall x y, f x y = g x y) -> map2 f l m = map2 g l m.
Proof. intros f g l. induction l as [|x l IH]; intros [|y m] H; try reflexivity. cbn. now rewrite H, IH by assumption. Qed.
Lemma reference_first : forall p mins maxs, (latent p <= pattern_length p)%nat -> length mins = length maxs ->
  exists rest, reference_dataset p mins maxs = Ok (reference_row p mins :: rest).
Proof.
  intros p mins maxs HL Hlen. rewrite reference_dataset_ok by assumption. eexists. change (seq 0 100) with (0%nat :: seq 1 99). cbn [map]. apply f_equal. apply (f_equal (fun h => h :: _)). unfold reference_row. apply (f_equal (fun v => repeat v _)).
  rewrite <- (map2_fst (fun s => INR (latent p) * s) mins maxs Hlen). apply map2_ext. intros x y. cbn [INR]. ring.
Qed.
Lemma alignment_ok : forall p mins maxs pcs, (latent p <= pattern_length p)%nat -> length mins = length maxs -> Forall (fun pc : components_of => length (snd pc) = 3%nat) pcs ->
  exists ms, alignment p mins maxs pcs = Ok ms /\ Forall2 (fun m u => forall r c, (r < 3)%nat -> (c < 3)%nat -> m r c = Geometry.Proofs.rmat u r c) ms (reduced pcs (reference_row p mins)).
Proof.
  intros p mins maxs pcs HL Hlen H3. unfold alignment. destruct (reference_first p mins maxs HL Hlen) as (rest & ->). cbn [bind nth_error unwrap]. rewrite reduce_window_ok by assumption. cbn [bind].
  set (refs := reduced pcs (reference_row p mins)).
  assert (G : forall k l, (forall i u, nth_error l i = Some u -> nth_error refs (k + i) = Some u) -> exists ms, mapM (channel_matrix refs) (seq k (length l)) = Ok ms /\ Forall2 (fun m u => forall r c, (r < 3)%nat -> (c < 3)%nat -> m r c = Geometry.Proofs.rmat u r c) ms l).
  { intros k l. revert k. induction l as [|u l IH]; intros k Hl; [exists []; split; [reflexivity|constructor]|]. cbn [length seq mapM].
    destruct (channel_matrix_ok refs u k) as (m & E & Hm); [rewrite <- (Nat.add_0_r k); now apply Hl|]. rewrite E. cbn [bind].
    destruct (IH (S k)) as (ms & E' & F); [intros i v Hi; replace (S k + i)%nat with (k + S i)%nat by lia; now apply Hl|]. rewrite E'. cbn [bind]. exists (m :: ms). split; [reflexivity|]. now constructor. }
  apply (G 0%nat refs). auto.
Qed.
Lemma add_points_app : forall rate l l' i ps ps', add_points i l rate = Some ps -> add_points (i + length l) l' rate = Some ps' -> add_points i (l ++ l') rate = Some (ps ++ ps').
Proof.
  intros rate. induction l as [|c l IH]; intros l' i ps ps' H H'; cbn in *.
  - injection H as <-. now rewrite Nat.add_0_r in H'.
  - destruct (new_point i c rate) as [q|]; [|discriminate]. cbn in *. destruct (add_points (S i) l rate) as [qs|] eqn:E; [|discriminate]. cbn in *. injection H as <-.
    rewrite (IH l' (S i) qs ps' E) by (replace (S i + length l)%nat with (i + S (length l))%nat by lia; exact H'). reflexivity.
Qed.
Lemma add_points_ok : forall rate l i, Forall (fun c => (2 <= length c)%nat) l -> exists ps, add_points i l rate = Some ps.
Proof.
  intros rate. induction l as [|c l IH]; intros i H; [now exists []|]. inversion H as [|c' l' Hc Hl]; subst. destruct (IH (S i) Hl) as (ps & E). cbn. unfold new_point, segment_of.
  destruct c as [|x [|y c]]; cbn in Hc; try lia. cbn [obind]. rewrite E. cbn. eauto.
Qed.
Lemma point_coordinates_length : forall ms xs, length (point_coordinates ms xs) = (2 * Nat.min (length ms) (length xs))%nat.
Proof. intros. unfold point_coordinates. rewrite app_length, !map_length, combine_length. lia. Qed.

(** ** The points of a cluster *)
Section Cluster.
Variables (p : params) (dim : nat) (rows : list (list R)) (pcs : list components_of) (ms : list (nat -> nat -> R)).
Hypothesis HL : (latent p < pattern_length p)%nat.
Hypothesis H3 : Forall (fun pc : components_of => length (snd pc) = 3%nat) pcs.
Hypothesis Hms : length ms = length pcs.
Hypothesis Hne : (1 <= length pcs)%nat.
Let coords (w : list (list R)) : list R := point_coordinates ms (reduced pcs w).
Lemma coords_enough : forall ws, Forall (fun c => (2 <= length c)%nat) (map coords ws).
Proof. intros ws. apply Forall_forall. intros c Hc. apply in_map_iff in Hc. destruct Hc as (w & <- & _). unfold coords. rewrite point_coordinates_length, reduced_length. lia. Qed.
Lemma host_points_ok : forall n hosts k data windows, (1 <= hosts)%nat -> embed p dim data = Ok windows ->
  host_points p dim n hosts k ms pcs data = unwrap (add_points (n / hosts * k) (map coords windows) (rate p)).
Proof.
  intros n hosts k data windows Hh E. unfold host_points. rewrite E. cbn [bind]. rewrite (mapM_ok _ _ _ (reduced pcs)) by (intros; now apply reduce_window_ok). cbn [bind]. rewrite udiv_ok by lia. cbn [bind]. now rewrite map_map.
Qed.
Lemma points_concat : forall w ws i, Forall (fun l => length l = w) (removelast ws) ->
  exists points, mapM (fun kl => unwrap (add_points (w * fst kl) (map coords (snd kl)) (rate p))) (combine (seq i (length ws)) ws) = Ok points /\ add_points (w * i) (map coords (concat ws)) (rate p) = Some (concat points).
Proof.
  intros w ws. induction ws as [|l ws IH]; intros i F; [exists []; split; reflexivity|]. cbn [length seq combine mapM fst snd].
  destruct (add_points_ok (rate p) (map coords l) (w * i) (coords_enough l)) as (ps & E). rewrite E. cbn [unwrap bind].
  destruct (IH (S i)) as (points & E' & A); [destruct ws; [constructor|]; cbn [removelast] in F; now inversion F|]. rewrite E'. cbn [bind]. exists (ps :: points). split; [reflexivity|]. cbn [concat]. rewrite map_app. apply add_points_app; [exact E|]. rewrite map_length.
  destruct ws as [|l' ws]; [cbn in *; injection E' as <-; reflexivity|]. replace (length l) with w by (cbn [removelast] in F; inversion F; auto). replace (w * i + w)%nat with (w * S i)%nat by lia. exact A.
Qed.
Lemma mapM_ext_in : forall A B (f g : A -> res B) l, (forall x, In x l -> f x = g x) -> mapM f l = mapM g l.
Proof. intros A B f g. induction l as [|x l IH]; intros H; [reflexivity|]. cbn. rewrite H by now left. destruct (g x); [|reflexivity]. cbn. rewrite IH by (intros; apply H; now right). reflexivity. Qed.
Lemma mapM_seq_combine : forall A B (f : nat * A -> res B) (g : nat -> A) n i, mapM (fun k => f (k, g k)) (seq i n) = mapM f (combine (seq i n) (map g (seq i n))).
Proof. intros A B f g. induction n as [|n IH]; intros i; [reflexivity|]. cbn. destruct (f (i, g i)); [|reflexivity]. cbn. now rewrite IH. Qed.
Lemma cluster_points : forall N, (1 <= N)%nat -> (pattern_length p <= length rows / N)%nat -> let n := length rows in
  exists windows points, embed p dim rows = Ok windows /\ mapM (fun k => host_points p dim n N k ms pcs (partition_of N (pattern_length p - 1) k rows)) (seq 0 N) = Ok points /\
    host_points p dim n 1 0 ms pcs rows = Ok (concat points) /\ length windows = (n - (pattern_length p - 1))%nat.
Proof.
  intros N HN Hpl n. set (P := pattern_length p) in *. set (block := fun k => embedding (sum_axis dim) P (latent p) (partition_of N (P - 1) k rows)).
  pose proof (Nat.mul_div_le n N ltac:(lia)) as Hdiv. assert (Hn : (1 * (n / N) <= N * (n / N))%nat) by (apply Nat.mul_le_mono_r; lia).
  assert (Eb : forall k, (k < N)%nat -> embed p dim (partition_of N (P - 1) k rows) = Ok (block k)).
  { intros k Hk. apply phase_space_ok; [exact HL|]. destruct (partition_bounds (sum_axis dim) N P rows k HN Hk ltac:(lia) Hpl) as (b & -> & Hb & Hb2 & _). rewrite slice_length. fold P n. fold n in Hb, Hb2. lia. }
  destruct (distributed_embedding (sum_axis dim) p N rows HL HN Hpl) as (parts & Ep & Ew).
  assert (parts = map block (seq 0 N)).
  { rewrite (mapM_ok _ _ _ block) in Ep; [congruence|]. intros k Hk. apply in_seq in Hk. apply Eb. lia. }
  subst parts. exists (concat (map block (seq 0 N))). destruct (points_concat (n / N) (map block (seq 0 N)) 0) as (points & E1 & E2).
  { apply Forall_forall. intros l Hl. destruct N as [|N']; [lia|]. rewrite seq_S, map_app in Hl. cbn [map] in Hl. rewrite removelast_last in Hl. apply in_map_iff in Hl. destruct Hl as (k & <- & Hk). apply in_seq in Hk.
    unfold block. rewrite (partition_embedding (sum_axis dim) (S N') P) by (fold P in HL; lia). rewrite map_length, seq_length. destruct (Nat.eqb_spec (S k) (S N')); [lia|reflexivity]. }
  exists points. split; [exact Ew|]. rewrite map_length, seq_length in E1. split; [|split].
  - rewrite <- E1, <- mapM_seq_combine. apply mapM_ext_in. intros k Hk. apply in_seq in Hk. rewrite (host_points_ok n N k _ (block k)) by (lia || apply Eb; lia). reflexivity.
  - rewrite (host_points_ok n 1 0 _ _ ltac:(lia) Ew). rewrite Nat.mul_0_r in E2 |- *. rewrite E2. reflexivity.
  - assert (Ew' := Ew). rewrite phase_space_ok in Ew' by (assumption || (fold P n; fold n in Hpl; lia)). injection Ew' as <-. unfold embedding. now rewrite map_length, seq_length.
Qed.
End Cluster.
