From Coq Require Import List Arith Bool Lia ZArith.
From Verif.Base Require Import Res Params ListX Release.
From Verif.PhaseSpace Require Import Model Release.
From Verif.Nodes Require Import Model.
From Verif.Edges Require Import Model.
From Verif.Scoring Require Import Model Release.
Import ListNotations.

(** The same result, or both abort (the message of the abort may differ). *)
Definition same_outcome {A} (checked release : res A) : Prop :=
  match checked, release with Ok x, Ok y => x = y | Panic _, Panic _ => True | _, _ => False end.

Lemma rsub_ok : forall word a b, b <= a -> rsub word a b = a - b.
Proof. intros word a b H. unfold rsub. destruct (Nat.ltb_spec a b); lia. Qed.
Lemma rsub_low : forall word a b, a < b -> rsub word a b = a + word - b.
Proof. intros word a b H. unfold rsub. destruct (Nat.ltb_spec a b); lia. Qed.
Lemma half : forall word, 2 * (word / 2) <= word /\ word < 2 * (word / 2) + 2.
Proof. intros word. pose proof (Nat.div_mod word 2 ltac:(lia)). pose proof (Nat.mod_upper_bound word 2 ltac:(lia)). lia. Qed.
Lemma same_refl : forall A (r : res A), same_outcome r r.
Proof. intros A [x|q]; cbn; auto. Qed.
Lemma same_bind : forall A B (r r' : res A) (f f' : A -> res B), same_outcome r r' -> (forall x, same_outcome (f x) (f' x)) -> same_outcome (bind r f) (bind r' f').
Proof. intros A B [x|q] [x'|q'] f f' H K; cbn in *; try contradiction; [subst; apply K|exact I]. Qed.

Lemma windows_same : forall V (rowsum : list V -> V) word p width data, latent p <= pattern_length p ->
  forall count i current, (current = None \/ 1 <= i) ->
  windows_release rowsum word p width i count current data = windows rowsum p width i count current data.
Proof.
  intros V rowsum word p width data Hl. induction count as [|count IH]; intros i current H; [reflexivity|]. cbn [windows windows_release].
  assert (E : match current with None => first_window rowsum p width i data | Some c => next_window_release rowsum word p width i c data end
            = match current with None => first_window rowsum p width i data | Some c => next_window rowsum p width i c data end).
  { destruct current as [c|]; [|reflexivity]. destruct H as [H|H]; [discriminate|]. unfold next_window_release, next_window.
    destruct (width =? 0); [reflexivity|]. rewrite !rsub_ok by (rewrite ?rsub_ok by lia; lia). rewrite !usub_ok by lia. cbn [bind]. rewrite ?usub_ok by lia. cbn [bind]. reflexivity. }
  rewrite E. clear E. destruct (match current with None => first_window rowsum p width i data | Some c => next_window rowsum p width i c data end) as [w|q]; cbn [bind]; [|reflexivity]. rewrite IH by (right; lia). reflexivity.
Qed.

(** C111.  Building the windows of a series with at least one row: a release build gives what a checked build gives, and aborts when that aborts, for all lengths on the command line. *)
Theorem C111_windows : forall V (rowsum : list V -> V) word cols p data,
  data <> [] -> 2 * (S (length data) * S (pattern_length p) * S cols) + 2 * latent p + 2 < word ->
  same_outcome (phase_space rowsum p data) (phase_space_release rowsum word cols p data).
Proof.
  intros V rowsum word cols p data Hd Hw. unfold phase_space, phase_space_release. pose proof (half word) as Hh.
  set (n := length data) in *. assert (Hn : 1 <= n) by (unfold n; destruct data; [contradiction|cbn; lia]).
  set (pl := pattern_length p) in *. set (la := latent p) in *.
  assert (B : S n * S pl <= S n * S pl * S cols) by (rewrite <- (Nat.mul_1_r (S n * S pl)) at 1; apply Nat.mul_le_mono_l; lia).
  assert (Bn : S n <= S n * S pl) by (rewrite <- (Nat.mul_1_r (S n)) at 1; apply Nat.mul_le_mono_l; lia).
  assert (Bp : S pl <= S n * S pl) by (rewrite <- (Nat.mul_1_l (S pl)) at 1; apply Nat.mul_le_mono_r; lia).
  assert (Big : forall a b c, word / 2 <= a -> too_large word [a; b; c] = true).
  { intros a b c H. apply Nat.leb_le. cbn [map fold_right]. rewrite Nat.mul_1_r.
    assert (1 <= Nat.max b 1 * Nat.max c 1) by (rewrite <- (Nat.mul_1_l 1) at 1; apply Nat.mul_le_mono; lia).
    transitivity (a * 1); [lia|]. apply Nat.mul_le_mono; lia. }
  assert (Big2 : forall a b c, word / 2 <= b -> too_large word [a; b; c] = true).
  { intros a b c H. specialize (Big b a c H). unfold too_large in *. cbn [map fold_right] in *. rewrite Nat.mul_assoc, (Nat.mul_comm (Nat.max a 1)), <- Nat.mul_assoc. exact Big. }
  destruct (Nat.eq_dec pl 0) as [Z|Z].
  - (* a pattern length of 0 *)
    rewrite Z. cbn [usub Nat.ltb Nat.leb bind]. cbn [same_outcome]. rewrite (rsub_low word 0 1) by lia.
    destruct (Nat.eq_dec la 0) as [L|L].
    + rewrite L. rewrite (rsub_low word n) by lia. rewrite (rsub_ok word 0 0) by lia. replace (n + word - (0 + word - 1)) with (S n) by lia.
      destruct (too_large word [S n; 0 - 0; cols]); [exact I|]. destruct n as [|n']; [lia|]. cbn [windows_release first_window seq mapM bind Nat.sub next_window_release Nat.eqb]. exact I.
    + rewrite (rsub_low word 0 la) by lia. rewrite Big2 by lia. exact I.
  - rewrite usub_ok by lia. cbn [bind]. rewrite (rsub_ok word pl 1) by lia.
    destruct (Nat.ltb_spec n (pl - 1)) as [S1|S1].
    + unfold usub. destruct (Nat.ltb_spec n (pl - 1)); [|lia]. cbn [bind same_outcome]. rewrite (rsub_low word n) by lia. rewrite Big by lia. exact I.
    + rewrite (usub_ok n) by lia. cbn [bind]. rewrite (rsub_ok word n) by lia. destruct (Nat.ltb_spec pl la) as [S2|S2].
      * unfold usub. destruct (Nat.ltb_spec pl la); [|lia]. cbn [bind same_outcome]. rewrite (rsub_low word pl la) by lia. rewrite Big2 by lia. exact I.
      * rewrite usub_ok by lia. cbn [bind]. rewrite (rsub_ok word pl la) by lia.
        replace (too_large word [n - (pl - 1); pl - la; cols]) with false.
        -- rewrite windows_same; [apply same_refl|exact S2|now left].
        -- symmetry. apply Nat.leb_gt. cbn [map fold_right]. rewrite Nat.mul_1_r, Nat.mul_assoc.
           assert (Nat.max (n - (pl - 1)) 1 * Nat.max (pl - la) 1 * Nat.max cols 1 <= S n * S pl * S cols) by (apply Nat.mul_le_mono; [apply Nat.mul_le_mono|]; lia). lia.
Qed.
Print Assumptions C111_windows.

(** Without any row the two differ, for lengths of 0 only: the checked build aborts, the release build goes on with one window without values. *)
Theorem C111_no_rows_refuted : forall V (rowsum : list V -> V) word cols p, pattern_length p = 0 -> latent p = 0 -> 2 * S cols + 2 < word ->
  (exists q, phase_space rowsum p [] = Panic q) /\ phase_space_release rowsum word cols p [] = Ok [[]].
Proof.
  intros V rowsum word cols p P L H. pose proof (half word). unfold phase_space, phase_space_release. rewrite P, L. split; [eexists; reflexivity|].
  cbn [length]. rewrite (rsub_low word 0 1), rsub_low, (rsub_ok word 0 0) by lia. replace (0 + word - (0 + word - 1)) with 1 by lia.
  replace (too_large word [1; 0 - 0; cols]) with false; [reflexivity|]. symmetry. apply Nat.leb_gt. cbn [map fold_right Nat.sub]. change (Nat.max 1 1) with 1. change (Nat.max 0 1) with 1. lia.
Qed.
Print Assumptions C111_no_rows_refuted.

Lemma index_same : forall word start ids s, (forall i x, In (i, x) ids -> x <= vec_limit word) -> 2 * start < word -> 16 <= word ->
  (match snd (fst s) with Some l => l <= vec_limit word | None => True end) ->
  same_outcome (foldM (index_step start) ids s) (foldM (index_step_release word start) ids s).
Proof.
  intros word start. induction ids as [|(i, id) ids IH]; intros [[index last] len] Hi Hs Hw Hl; [reflexivity|]. cbn [foldM fst snd] in *.
  assert (Hid : id <= vec_limit word) by (apply (Hi i); now left).
  assert (Hi' : forall j x, In (j, x) ids -> x <= vec_limit word) by (intros j x J; apply (Hi j); now right).
  unfold index_step at 1, index_step_release at 1. destruct last as [l|]; cbn [bind]; [|apply IH; auto].
  destruct (id =? l); cbn [bind]; [apply IH; auto|].
  assert (V : vec_limit word < word / 2).
  { unfold vec_limit. replace (word / 16) with (word / 2 / 8) by (rewrite Nat.div_div by lia; f_equal; lia). apply Nat.div_lt; [|lia].
    pose proof (half word). lia. }
  unfold usub, pad_release. destruct (Nat.ltb_spec l start) as [G|G].
  - rewrite rsub_low by lia. pose proof (half word). destruct (Nat.ltb_spec (vec_limit word) (l + word - start)); [exact I|lia].
  - rewrite rsub_ok by lia. destruct (Nat.ltb_spec (vec_limit word) (l - start)); [lia|]. cbn [bind]. apply IH; auto.
Qed.

(** The time index: the same, for all edges, also those the host should not have. *)
Theorem C111_time_index : forall word start edges num_rotated last,
  (forall e, In e edges -> to_id e <= vec_limit word) -> 2 * start < word -> 16 <= word -> num_rotated <= vec_limit word ->
  same_outcome (count_edges_in_time start edges num_rotated last) (count_edges_in_time_release word start edges num_rotated last).
Proof.
  intros word start edges n last He Hs Hw Hn. unfold count_edges_in_time, count_edges_in_time_release. apply same_bind.
  - apply index_same; auto; [|exact I]. intros i x H. apply in_combine_r in H. apply in_app_or in H. destruct H as [H|[<-|[]]]; [|lia].
    apply in_map_iff in H. destruct H as (e & <- & J). now apply He.
  - intros [[index l] len]. unfold pad_release. set (b := if last then 1 else 0). assert (b <= 1) by (unfold b; destruct last; lia).
    assert (V : vec_limit word < word / 2).
    { unfold vec_limit. replace (word / 16) with (word / 2 / 8) by (rewrite Nat.div_div by lia; f_equal; lia). apply Nat.div_lt; [|lia]. pose proof (half word). lia. }
    pose proof (half word). unfold usub. destruct (Nat.ltb_spec n b).
    + rewrite rsub_low by lia. destruct (Nat.ltb_spec (vec_limit word) (n + word - b)); [exact I|lia].
    + rewrite rsub_ok by lia. destruct (Nat.ltb_spec (vec_limit word) (n - b)); [lia|reflexivity].
Qed.
Print Assumptions C111_time_index.

(** The number of windows to score and the edges of each of them: the same, for every query length. *)
Theorem C111_scoring : forall word g, length (g_index g) + 1 < word ->
  same_outcome (score_length g) (score_length_release word g)
  /\ forall i, same_outcome (window g i) (window_release word g i).
Proof.
  intros word g H. split.
  - unfold score_length, score_length_release, usub. destruct (Nat.ltb_spec (g_query g) 1) as [Q|Q].
    + rewrite rsub_low by lia. destruct (Nat.ltb_spec (length (g_index g)) (g_query g + word - 1)); [exact I|lia].
    + rewrite (rsub_ok word (g_query g) 1) by lia. cbn [bind]. destruct (Nat.ltb_spec (length (g_index g)) (g_query g - 1)); [exact I|]. rewrite rsub_ok by lia. reflexivity.
  - intros i. unfold window, window_release. apply same_bind; [apply same_refl|]. intros from. unfold usub. destruct (Nat.ltb_spec (i + g_query g) 1) as [Q|Q].
    + rewrite rsub_low by lia. unfold get. rewrite (proj2 (nth_error_None (g_index g) _)) by lia. exact I.
    + rewrite rsub_ok by lia. cbn [bind]. apply same_refl.
Qed.
Print Assumptions C111_scoring.

(** A series of six rows; a window longer than the series; latent longer than the pattern. *)
Definition c111_params (pl la : nat) : params := {| rate := 4; n_threads := 1; n_cluster_nodes := 1; pattern_length := pl; latent := la; query_length := 1; column_start := 0; column_end := 0%Z; self_correction := false |}.
Example C111_case :
  phase_space_release (fold_right Nat.add 0) 1000 1 (c111_params 3 1) [1; 3; 7; 20; 50; 100] = Ok [[1; 3]; [3; 7]; [7; 20]; [20; 50]]
  /\ phase_space_release (fold_right Nat.add 0) 1000 1 (c111_params 9 1) [1; 3; 7; 20; 50; 100] = Panic BadShape
  /\ phase_space_release (fold_right Nat.add 0) 1000 1 (c111_params 3 5) [1; 3; 7; 20; 50; 100] = Panic BadShape
  /\ phase_space_release (fold_right Nat.add 0) 1000 1 (c111_params 0 0) [1; 3; 7; 20; 50; 100] = Panic OutOfBounds.
Proof. vm_compute. repeat split; reflexivity. Qed.
