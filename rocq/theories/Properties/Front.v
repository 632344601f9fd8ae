(** C85: the rotated points of a cluster are those of one machine. *)
From Verif.Pca Require Import Model Spec Exec.
From Coq Require Import List Arith Bool Lia Permutation ZArith Reals Lra.
From Verif.Base Require Import Res Params ListX.
From Verif.Reader Require Import Spec Proofs.
From Verif.Stats Require Import Model Spec Proofs.
From Verif.PhaseSpace Require Import Model Spec Proofs.
From Verif.Pca Require Import Gram GramSpec GramProofs Components ComponentsSpec ComponentsProofs.
From Verif.Geometry Require Import Model.
From Verif.Properties Require Import Pca Components Geometry.
From Verif.Front Require Import Model Spec Proofs.
Import ListNotations.
Local Open Scope R_scope.

(** On [N] hosts, host [k] has its part of the rows; the analysis of the channels works on the windows [blocks] of all hosts.  One machine has all rows.
    The numbers of threads, the orders of messages and the library ([qr], [svd]) may differ between the two.  Neither aborts, and the points of the hosts, one after the other, are the points of the one machine, numbered alike. *)
Theorem C85_points_as_one_machine_partial : forall qr svd qr' svd' p dim rows N mins maxs mins' maxs' blocks windows pcs pcs',
  (latent p + 3 <= pattern_length p)%nat -> (1 <= N)%nat -> (pattern_length p <= length rows / N)%nat -> (1 <= dim)%nat ->
  preserves_gram qr -> preserves_gram qr' -> extremes dim rows mins maxs -> extremes dim rows mins' maxs' ->
  let width := (pattern_length p - latent p)%nat in let part := fun k => partition_of N (pattern_length p - 1) k rows in
  mapM (fun k => embed p dim (part k)) (seq 0 N) = Ok blocks -> all_analysed qr svd width dim (concat blocks) pcs ->
  embed p dim rows = Ok windows -> all_analysed qr' svd' width dim windows pcs' ->
  (forall c, (c < dim)%nat -> determined width (channel c windows)) ->
  exists ms ms' points, alignment p mins maxs pcs = Ok ms /\ alignment p mins' maxs' pcs' = Ok ms' /\
    mapM (fun k => host_points p dim (length rows) N k ms pcs (part k)) (seq 0 N) = Ok points /\
    host_points p dim (length rows) 1 0 ms' pcs' rows = Ok (concat points) /\
    map p_id (concat points) = seq 0 (length rows - (pattern_length p - 1)).
Proof.
  intros qr svd qr' svd' p dim rows N mins maxs mins' maxs' blocks windows pcs pcs' HL HN Hpl Hdim Hqr Hqr' Hx Hx' width part Eb (Lp & A) Ew (Lp' & A') Det.
  destruct (extremes_unique dim rows mins maxs mins' maxs' Hx Hx') as (-> & ->).
  destruct (distributed_embedding (sum_axis dim) p N rows ltac:(lia) HN Hpl) as (parts & Ep & Ew'). unfold embed in *. change (mapM (fun i => phase_space (sum_axis dim) p (part i)) (seq 0 N) = Ok parts) in Ep. assert (parts = blocks) by congruence. subst parts. assert (windows = concat blocks) by congruence. subst windows. clear Ew'.
  pose proof (Nat.mul_div_le (length rows) N ltac:(lia)) as Hdiv. assert (Hn : (1 * (length rows / N) <= N * (length rows / N))%nat) by (apply Nat.mul_le_mono_r; lia).
  assert (Hw : concat blocks <> []).
  { rewrite phase_space_ok in Ew by lia. injection Ew as <-. unfold embedding. replace (length rows - (pattern_length p - 1))%nat with (S (length rows - pattern_length p)) by lia. discriminate. }
  assert (E : pcs' = pcs).
  { apply nth_error_ext. intros c. destruct (nth_error pcs c) as [pc|] eqn:Ec.
    - assert (Hc : (c < dim)%nat) by (rewrite <- Lp; apply nth_error_Some; congruence). destruct (nth_error pcs' c) as [pc'|] eqn:Ec'; [|apply nth_error_None in Ec'; lia]. f_equal.
      apply (analysed_unique qr qr' svd svd' width (channel c (concat blocks))); auto; [unfold width; lia|]. unfold channel. intros Z. apply map_eq_nil in Z. contradiction.
    - apply nth_error_None in Ec. apply nth_error_None. lia. }
  subst pcs'. assert (H3 : Forall (fun pc : components_of => length (snd pc) = 3%nat) pcs).
  { apply Forall_forall. intros pc Hin. apply In_nth_error in Hin. destruct Hin as (c & Hc). exact (analysed_shape _ _ _ _ _ (A c pc Hc)). }
  destruct (alignment_ok p mins maxs pcs) as (ms & Ea & F); [lia|destruct Hx; lia|exact H3|].
  assert (Lms : length ms = length pcs) by (rewrite <- (reduced_length pcs (reference_row p mins)); clear -F; induction F; cbn; lia).
  destruct (cluster_points p dim rows pcs ms ltac:(lia) H3 Lms ltac:(lia) N HN Hpl) as (ws & points & E1 & E2 & E3 & E4).
  exists ms, ms, points. ssplit; auto. assert (ws = concat blocks) by (unfold embed in E1; congruence). subst ws.
  rewrite (host_points_ok p dim pcs ms ltac:(lia) H3 Lms ltac:(lia) (length rows) 1 0 rows (concat blocks)) in E3 by (lia || exact Ew). rewrite Nat.mul_0_r in E3.
  destruct (add_points 0 _ (rate p)) as [ps|] eqn:Ea'; [|discriminate]. cbn in E3. injection E3 as <-. destruct (C61_points_numbered _ _ _ _ Ea') as (Ei & _). rewrite Ei, map_length. f_equal. exact E4.
Qed.
Print Assumptions C85_points_as_one_machine_partial.

(** Nine rows of one channel on two hosts and on one; six windows. *)
Definition c85_params : params := {| rate := 8; n_threads := 1; n_cluster_nodes := 2; pattern_length := 4; latent := 1; query_length := 2; column_start := 0; column_end := 0%Z; self_correction := false |}.
Definition c85_rows : list (list R) := [[-3]; [-2]; [-2]; [-1]; [1]; [2]; [2]; [3]; [0]].
Definition c85_axes (i : nat) : nat -> R := match i with 0%nat => row3 (1 / sqrt 3) (1 / sqrt 3) (1 / sqrt 3) | 1%nat => row3 (1 / sqrt 2) 0 (- 1 / sqrt 2) | _ => row3 (1 / sqrt 6) (-2 / sqrt 6) (1 / sqrt 6) end.
Definition c85_values (i : nat) : R := match i with 0%nat => sqrt 52 | 1%nat => sqrt (8 / 3) | _ => 1 end.
Definition c85_windows (k : nat) : list (list (list R)) := map (fun w => match w with (x, y, z) => [[0 + x]; [0 + y]; [0 + z]] end)
  match k with 0%nat => [(-3, -2, -2); (-2, -2, -1); (-2, -1, 1); (-1, 1, 2)] | _ => [(1, 2, 2); (2, 2, 3)] end.
Lemma c85_hosts : mapM (fun k => embed c85_params 1 (partition_of 2 3 k c85_rows)) (seq 0 2) = Ok [c85_windows 0; c85_windows 1].
Proof. reflexivity. Qed.
Lemma c85_one : embed c85_params 1 c85_rows = Ok (concat [c85_windows 0; c85_windows 1]).
Proof. reflexivity. Qed.
Definition c85_channel : list (nat -> R) := channel 0 (concat [c85_windows 0; c85_windows 1]).
Lemma c85_scatter : diagonalises 3 (scatter_matrix c85_channel) c85_axes c85_values.
Proof.
  assert (S2 : sqrt 2 * sqrt 2 = 2) by (apply sqrt_sqrt; lra). assert (S3 : sqrt 3 * sqrt 3 = 3) by (apply sqrt_sqrt; lra). assert (S6 : sqrt 6 * sqrt 6 = 6) by (apply sqrt_sqrt; lra).
  assert (S52 : sqrt 52 * sqrt 52 = 52) by (apply sqrt_sqrt; lra). assert (S83 : sqrt (8 / 3) * sqrt (8 / 3) = 8 / 3) by (apply sqrt_sqrt; lra).
  assert (P2 : 0 < sqrt 2) by (apply sqrt_lt_R0; lra). assert (P3 : 0 < sqrt 3) by (apply sqrt_lt_R0; lra). assert (P6 : 0 < sqrt 6) by (apply sqrt_lt_R0; lra).
  assert (O : 1 < sqrt (8 / 3)) by (rewrite <- sqrt_1 at 1; apply sqrt_lt_1; lra). assert (O' : sqrt (8 / 3) < sqrt 52) by (apply sqrt_lt_1; lra).
  assert (F2 : forall x y, x / sqrt 2 * (y / sqrt 2) = x * y / 2) by (intros; rewrite <- S2 at 3; field; lra).
  assert (F3 : forall x y, x / sqrt 3 * (y / sqrt 3) = x * y / 3) by (intros; rewrite <- S3 at 3; field; lra).
  assert (F6 : forall x y, x / sqrt 6 * (y / sqrt 6) = x * y / 6) by (intros; rewrite <- S6 at 3; field; lra).
  unfold diagonalises. ssplit.
  - intros i k Hi Hk. destruct i as [|[|[|i]]]; try lia; destruct k as [|[|[|k]]]; try lia; unfold inner, delta; cbn [seq map Rsum fold_right c85_axes row3 Nat.eqb]; rewrite ?F2, ?F3, ?F6, ?Rmult_0_l, ?Rmult_0_r; try lra; field; lra.
  - intros i k Hi Hk. destruct i as [|[|[|i]]]; try lia; destruct k as [|[|[|k]]]; try lia; unfold inner, delta; cbn [seq map Rsum fold_right c85_axes row3 Nat.eqb]; rewrite ?F2, ?F3, ?F6, ?Rmult_0_l, ?Rmult_0_r; try lra; field; lra.
  - intros i Hi. destruct i as [|[|[|i]]]; try lia; cbn [c85_values]; lra.
  - intros i k Hi Hk. destruct i as [|[|[|i]]]; try lia; destruct k as [|[|[|k]]]; try lia; cbn [c85_values]; lra.
  - intros a b Ha Hb. unfold scatter_matrix, column_mean, mean. unfold c85_channel, channel, c85_windows. cbn [concat app map length].
    destruct a as [|[|[|a]]]; try lia; destruct b as [|[|[|b]]]; try lia; unfold c85_values, entries, column; cbn [flat_map nth_error app nth length map Rsum fold_right seq c85_axes row3]; rewrite ?S52, ?S83, ?F2, ?F3, ?F6, ?Rmult_0_l, ?Rmult_0_r; cbn [INR]; lra.
Qed.
Lemma c85_rows_pca : forall data n, (forall k, (k < n)%nat -> data k <> []) -> all_rows data n = c85_channel -> (n = 1%nat \/ n = 2%nat) -> exists means r, pca_of (fun M => M) c85_channel means r.
Proof.
  intros data n Hne E [->| ->].
  - do 2 eexists. apply (on_hosts _ _ data 1 true (run (hosts 1 false true 1) (starts 1 ++ drain 1 4)) ([0%nat], Own 0)); [lia|exact Hne|now symmetry|apply run_early; vm_compute; reflexivity|vm_compute; auto|reflexivity].
  - do 2 eexists. apply (on_hosts _ _ data 2 true (run (hosts 2 false true 1) (starts 2 ++ drain 2 8)) ([0%nat; 1%nat], Combine (Own 0) (Own 1))); [lia|exact Hne|now symmetry|apply run_early; vm_compute; reflexivity|vm_compute; auto|reflexivity].
Qed.
Lemma c85_analysed : forall means r, pca_of (fun M => M) c85_channel means r -> exists comps, analysed (fun M => M) (fun _ => c85_axes) 3 c85_channel (means, comps).
Proof.
  intros means r H. eexists. exists r. ssplit; [exact H|reflexivity|]. exists c85_values. apply (diagonalises_ext _ (scatter_matrix c85_channel)); [|exact c85_scatter].
  intros i j _ _. symmetry. apply (pca_of_scatter (fun M => M) c85_channel means r); [intros M a b; reflexivity|exact H].
Qed.
Example C85_case : exists blocks windows pcs pcs', let p := c85_params in
  (latent p + 3 <= pattern_length p)%nat /\ (pattern_length p <= length c85_rows / 2)%nat /\ extremes 1 c85_rows [-3] [3] /\
  mapM (fun k => embed p 1 (partition_of 2 3 k c85_rows)) (seq 0 2) = Ok blocks /\ map (@length _) blocks = [4; 2]%nat /\
  all_analysed (fun M => M) (fun _ => c85_axes) 3 1 (concat blocks) pcs /\ embed p 1 c85_rows = Ok windows /\ all_analysed (fun M => M) (fun _ => c85_axes) 3 1 windows pcs' /\
  forall c, (c < 1)%nat -> determined 3 (channel c windows).
Proof.
  destruct (c85_rows_pca (fun k => channel 0 (c85_windows k)) 2) as (means & r & H); [intros [|k] _; discriminate|reflexivity|auto|].
  destruct (c85_rows_pca (fun _ => c85_channel) 1) as (means' & r' & H'); [intros k _; discriminate|unfold all_rows; cbn [seq map concat]; apply app_nil_r|auto|].
  destruct (c85_analysed _ _ H) as (comps & A). destruct (c85_analysed _ _ H') as (comps' & A').
  exists [c85_windows 0; c85_windows 1], (concat [c85_windows 0; c85_windows 1]), [(means, comps)], [(means', comps')]. cbv zeta. ssplit.
  - cbn; lia.
  - cbn; lia.
  - split; [reflexivity|]. split; [reflexivity|]. intros j Hj. assert (j = 0%nat) by lia. subst j. exists (-3), 3. ssplit; try reflexivity.
    + split; [exists [-3]; split; [now left|reflexivity]|]. intros x (row & Hr & E). cbn in Hr. repeat (destruct Hr as [<-|Hr]; [cbn in E; injection E as <-; lra|]). destruct Hr.
    + split; [exists [3]; split; [cbn; tauto|reflexivity]|]. intros x (row & Hr & E). cbn in Hr. repeat (destruct Hr as [<-|Hr]; [cbn in E; injection E as <-; lra|]). destruct Hr.
  - exact c85_hosts.
  - reflexivity.
  - split; [reflexivity|]. intros c pc E. destruct c as [|[|c]]; try discriminate. injection E as <-. exact A.
  - exact c85_one.
  - split; [reflexivity|]. intros c pc E. destruct c as [|[|c]]; try discriminate. injection E as <-. exact A'.
  - intros c Hc. assert (c = 0%nat) by lia. subst c. exists c85_axes, c85_values. ssplit; [exact c85_scatter| |].
    + intros i k Hi Hk Hd. assert (O : 1 < sqrt (8 / 3)) by (rewrite <- sqrt_1 at 1; apply sqrt_lt_1; lra). assert (O' : sqrt (8 / 3) < sqrt 52) by (apply sqrt_lt_1; lra).
      destruct i as [|[|[|i]]]; try lia; destruct k as [|[|[|k]]]; try lia; cbn [c85_values]; lra.
    + assert (Q : forall x y, 0 < y -> x <> 0 -> x / sqrt y <> 0).
      { intros x y Hy Hx Z. pose proof (sqrt_lt_R0 y Hy). apply (f_equal (fun t => t * sqrt y)) in Z. replace (x / sqrt y * sqrt y) with x in Z by (field; lra). lra. }
      intros i Hi. destruct i as [|[|[|i]]]; try lia; cbn [c85_axes row3]; apply Q; lra.
Qed.
