(** C111: reference data set, weights of the edges, overlap between hosts and assembly of the scores. *)
From Coq Require Import List Arith Bool Lia Reals.
From Verif.Base Require Import Res Params Assoc ListX Release.
From Verif.PhaseSpace Require Import Model Release.
From Verif.Nodes Require Import Model.
From Verif.Edges Require Import Model.
From Verif.Scoring Require Import Model Spec WeightProofs Release.
From Verif.Properties Require Import Release Scoring.
Import ListNotations.
Local Open Scope nat_scope.

(** The reference data set: the same, for all lengths on the command line. *)
Theorem C111_reference : forall word p mins maxs,
  2 * (100 * S (pattern_length p) * S (length mins)) + 2 * latent p + 2 < word ->
  same_outcome (reference_dataset p mins maxs) (reference_dataset_release word p mins maxs).
Proof.
  intros word p mins maxs. unfold reference_dataset, reference_dataset_release. assert (H1 : 1 <= 100) by lia. revert H1. generalize 100. intros k H1 H. pose proof (half word) as Hh.
  set (pl := pattern_length p) in *. set (la := latent p) in *. set (d := length mins) in *.
  assert (B : S pl <= k * S pl * S d) by (transitivity (1 * S pl * 1); [lia|]; apply Nat.mul_le_mono; [apply Nat.mul_le_mono_r|]; lia).
  unfold usub. destruct (Nat.ltb_spec pl la) as [L|L].
  - rewrite rsub_low by lia. replace (too_large word [k; pl + word - la; d]) with true; [exact I|]. symmetry. apply Nat.leb_le. cbn [map fold_right]. rewrite Nat.mul_1_r.
    transitivity (1 * ((pl + word - la) * 1)); [lia|]. apply Nat.mul_le_mono; [lia|]. apply Nat.mul_le_mono; lia.
  - rewrite rsub_ok by lia. cbn [bind]. replace (too_large word [k; pl - la; d]) with false; [apply same_refl|]. symmetry. apply Nat.leb_gt. cbn [map fold_right]. rewrite Nat.mul_1_r.
    apply Nat.le_lt_trans with (k * S pl * S d); [|lia]. rewrite <- Nat.mul_assoc. apply Nat.mul_le_mono; [lia|]. apply Nat.mul_le_mono; lia.
Qed.
Print Assumptions C111_reference.

(** What the overlap sent to the previous host contains: the same, for every query length. *)
Theorem C111_overlap : forall word q h, length (snd h) + 1 < word -> same_outcome (overlap_of q h) (overlap_of_release word q h).
Proof.
  intros word q [es index] H. cbn [snd] in H. unfold overlap_of, overlap_of_release, usub. destruct (Nat.ltb_spec q 1) as [Q|Q].
  - rewrite rsub_low by lia. unfold get. rewrite (proj2 (nth_error_None index _)) by lia. exact I.
  - rewrite rsub_ok by lia. apply same_refl.
Qed.
Print Assumptions C111_overlap.

(** The summands of the score of one machine: every edge of the graph has a source whose degree is at least 1, so nothing wraps around, and both builds find
    weight times degree less one, as long as that is a [usize]. *)
Theorem C111_summands : forall word edges num_rotated q g e,
  single_graph edges num_rotated q = Ok g -> In e edges -> multiplicity edges e * (degree edges (fst e) - 1) < word ->
  summand g e = Ok (multiplicity edges e * (degree edges (fst e) - 1)) /\ summand_release word g e = Ok (multiplicity edges e * (degree edges (fst e) - 1)).
Proof.
  intros word edges n q g e Hg He Hw. unfold single_graph in Hg. destruct (count_edges_in_time 0 edges n true) as [index|]; cbn [bind] in Hg; [|discriminate]. injection Hg as <-.
  pose proof (multiplicity_positive edges e He) as M. pose proof (source_degree_positive edges e He) as D.
  unfold summand, summand_release. cbn [g_weight g_degree]. rewrite edge_weight_lookup, node_degrees_lookup. unfold positive.
  destruct (Nat.eqb_spec (multiplicity edges e) 0); [lia|]. destruct (Nat.eqb_spec (degree edges (fst e)) 0); [lia|]. cbn [unwrap bind]. rewrite usub_ok by lia. cbn [bind].
  split; [reflexivity|]. rewrite rsub_ok by lia. now rewrite Nat.mod_small.
Qed.
Print Assumptions C111_summands.

(** The scores of all hosts put together: the same, also if the first window of the first host or all windows of a host are empty. *)
Theorem C111_assembled : forall F (is_zero : F -> bool) word parts, (forall sub b, In (sub, b) parts -> length sub + 1 < word) ->
  same_outcome (assemble is_zero parts) (assemble_release word is_zero parts).
Proof.
  intros F is_zero word parts Hw. unfold assemble, assemble_release. apply same_bind; [|intros; apply same_refl].
  assert (Fl : forall l x, length (fill_up is_zero x l) = length l) by (induction l as [|y l IH]; intros x; cbn [fill_up length]; [reflexivity|now rewrite IH]).
  assert (G : forall parts, (forall sub b, In (sub, b) parts -> length sub + 1 < word) -> forall acc, 1 < word -> (forall l, In l acc -> length l + 1 < word) -> same_outcome (foldM (assemble_step is_zero) parts acc) (foldM (assemble_step_release word is_zero) parts acc)).
  { clear parts Hw. induction parts as [|[sub b] parts IH]; intros Hp acc W Ha; [apply same_refl|]. cbn [foldM].
    assert (Hs : length sub + 1 < word) by (apply (Hp sub b); now left). assert (Hp' : forall s b, In (s, b) parts -> length s + 1 < word) by (intros s b' H; apply (Hp s b'); now right).
    unfold assemble_step at 1, assemble_step_release at 1. destruct b.
    - destruct (nth_error acc (length acc - 1)) as [prev|] eqn:E; cbn [unwrap bind]; [|exact I]. unfold usub. destruct (Nat.ltb_spec (length prev) 1) as [L|L].
      + rewrite rsub_low by lia. unfold get. rewrite (proj2 (nth_error_None prev _)) by lia. exact I.
      + rewrite rsub_ok by lia. cbn [bind]. destruct (get prev (length prev - 1)) as [x|]; cbn [bind]; [|exact I]. apply IH; auto. intros l Hl. apply in_app_or in Hl. destruct Hl as [Hl|[<-|[]]]; [auto|now rewrite Fl].
    - cbn [bind]. apply IH; auto. intros l Hl. apply in_app_or in Hl. destruct Hl as [Hl|[<-|[]]]; auto. }
  destruct parts as [|[sub b] parts]; [apply same_refl|]. apply G; [exact Hw| |intros l []]. specialize (Hw sub b (or_introl eq_refl)). lia.
Qed.
Print Assumptions C111_assembled.

(** A query length of 0 and one that is too long; parts whose first one begins with an empty window; a host without windows. *)
Example C111_later_case :
  overlap_of_release 1000 0 ([], [1; 2; 3]) = Panic OutOfBounds /\ overlap_of_release 1000 3 ([], [0; 0; 0]) = Ok ([], [0; 0]) /\ overlap_of_release 1000 5 ([], [0; 0; 0]) = Panic OutOfBounds
  /\ assemble_release 1000 (Nat.eqb 0) [([5; 6], false); ([0; 7], true)] = Ok [5; 6; 6; 7]
  /\ assemble_release 1000 (Nat.eqb 0) [([], false); ([0; 7], true)] = Panic OutOfBounds /\ assemble_release 1000 (Nat.eqb 0) [([0], true)] = Panic UnwrapNone.
Proof. vm_compute. repeat split; reflexivity. Qed.
(** A pattern of 3 rows with a latent of 1 and of 5. *)
Example C111_reference_case : 2 * (100 * S (pattern_length (c111_params 3 1)) * S (length [1%R])) + 2 * latent (c111_params 3 1) + 2 < 100 * 100
  /\ (exists rows, reference_dataset_release (100 * 100) (c111_params 3 1) [1%R] [2%R] = Ok rows) /\ reference_dataset_release (100 * 100) (c111_params 3 5) [1%R] [2%R] = Panic BadShape.
Proof. split; [apply Nat.ltb_lt; vm_compute; reflexivity|]. split; [|vm_compute; reflexivity]. eexists. vm_compute. reflexivity. Qed.
(** The edges of C42_case: the summands of all of them. *)
Example C111_summands_case : forall e, In e ex_edges -> multiplicity ex_edges e * (degree ex_edges (fst e) - 1) < 1000.
Proof. intros e He. repeat (destruct He as [<-|He]; [vm_compute; lia|]). destruct He. Qed.
Example C111_summands_value : (let! g := single_graph ex_edges 9 3 in mapM (summand_release 1000 g) (firstn 4 ex_edges)) = Ok [4; 2; 4; 2].
Proof. vm_compute. reflexivity. Qed.
