(** The other hosts under every sequence of announcements, lists and departures. *)
From Coq Require Import List Arith Lia Bool Permutation.
From Verif.Base Require Import Res Params Assoc ListX.
From Verif.Topology Require Import Model Spec Proofs.
From Verif.Listener Require Import Model Spec Proofs Repeats.
Import ListNotations.

Section S.
Context {addr : Type} (eqb : addr -> addr -> bool).
Hypothesis eqb_spec : forall a b, reflect (a = b) (eqb a b).

Definition sub_inv (others : nat) (pre : list (event addr)) (s : state addr) : Prop :=
  stopped s = left_before pre (length pre)
  /\ (stopped s = false -> NoDup (connected s) /\ (forall a, In a (connected s) <-> In a (joined pre))
        /\ (addr_buffer s = [] <-> existsb (list_too_early eqb others pre) (seq 0 (length pre)) = false)).

Lemma early_snoc : forall others pre (e : event addr),
  existsb (list_too_early eqb others (pre ++ [e])) (seq 0 (length pre)) = existsb (list_too_early eqb others pre) (seq 0 (length pre)).
Proof.
  intros others pre e. assert (G : forall ks, (forall k, In k ks -> k < length pre) ->
    existsb (list_too_early eqb others (pre ++ [e])) ks = existsb (list_too_early eqb others pre) ks).
  { induction ks as [|k ks IH]; intros H; [reflexivity|]. cbn [existsb]. rewrite IH by (intros; apply H; now right). f_equal.
    specialize (H k (or_introl eq_refl)). unfold list_too_early. rewrite nth_error_app1 by exact H. rewrite firstn_app.
    replace (k - length pre) with 0 by lia. cbn [firstn]. now rewrite app_nil_r. }
  apply G. intros k Hk. apply in_seq in Hk. lia.
Qed.
Lemma left_snoc : forall pre (e : event addr), left_before (pre ++ [e]) (length (pre ++ [e])) = left_before pre (length pre) || match e with MemberLeft _ => true | _ => false end.
Proof. intros pre e. unfold left_before. rewrite !firstn_all, existsb_app. cbn [existsb]. now rewrite orb_false_r. Qed.

Lemma sub_step : forall p main self pre s e s' out, 1 <= n_cluster_nodes p -> list_not_empty e ->
  sub_inv (n_cluster_nodes p - 1) pre s -> step eqb p (Sub main) self s e (Ok (s', out)) ->
  sub_inv (n_cluster_nodes p - 1) (pre ++ [e]) s'
  /\ length (filter is_start out) = (if sub_starts eqb (n_cluster_nodes p - 1) (pre ++ [e]) (length pre) then 1 else 0).
Proof.
  intros p main self pre s e s' out HN He (Hs & HI) Hst. set (m := n_cluster_nodes p - 1) in *.
  assert (En : nth_error (pre ++ [e]) (length pre) = Some e) by (rewrite nth_error_app2 by lia; now rewrite Nat.sub_diag).
  assert (Ef : firstn (S (length pre)) (pre ++ [e]) = pre ++ [e]) by (apply firstn_all2; rewrite app_length; cbn; lia).
  assert (Ep : firstn (length pre) (pre ++ [e]) = pre) by (rewrite firstn_app, Nat.sub_diag, firstn_all; cbn; apply app_nil_r).
  assert (El : left_before (pre ++ [e]) (length pre) = left_before pre (length pre)) by (unfold left_before; now rewrite Ep, firstn_all).
  assert (Et : list_too_early eqb m (pre ++ [e]) (length pre) = match e with SortedMembers _ => negb (distinct eqb (joined pre) =? m) | _ => false end)
    by (unfold list_too_early; rewrite En, Ep; reflexivity).
  assert (Es : existsb (list_too_early eqb m (pre ++ [e])) (seq 0 (length (pre ++ [e])))
    = existsb (list_too_early eqb m pre) (seq 0 (length pre)) || match e with SortedMembers _ => negb (distinct eqb (joined pre) =? m) | _ => false end).
  { rewrite app_length. cbn [length]. rewrite Nat.add_1_r, seq_S, existsb_app, early_snoc. cbn [existsb plus]. now rewrite Et, orb_false_r. }
  unfold sub_starts. rewrite El, <- Hs, En, Ef, Ep, early_snoc. unfold sub_inv. rewrite left_snoc, <- Hs, Es.
  destruct (stopped s) eqn:Sp.
  - cbn [negb andb orb]. inversion Hst; subst; try congruence. split; [split; [exact Sp|congruence]|reflexivity].
  - destruct (HI eq_refl) as (ND & Hc & Hb). cbn [negb andb orb]. destruct e as [a|a|l].
    + apply step_join_inv in Hst; [|exact Sp]. destruct Hst as (conn' & Pm & E). rewrite joined_app in *.
      assert (ND' : NoDup conn') by (eapply Permutation_NoDup; [symmetry; exact Pm|now apply add_addr_NoDup]).
      assert (Hc' : forall b, In b conn' <-> In b (joined pre ++ joined [NewMember a])).
      { intros b. rewrite in_app_iff. cbn. split.
        - intros H. apply (Permutation_in _ Pm) in H. apply (add_addr_In eqb eqb_spec) in H. rewrite Hc in H. intuition.
        - intros H. apply (Permutation_in _ (Permutation_sym Pm)). apply (add_addr_In eqb eqb_spec). rewrite Hc. intuition. }
      rewrite <- (distinct_length eqb eqb_spec _ conn' ND' Hc'). rewrite orb_false_r.
      unfold after_join, complete in E. rewrite usub_ok in E by lia. cbn [bind connected addr_buffer] in E. fold m in E.
      destruct (Nat.eqb_spec (length conn') m) as [Em|Em].
      * cbn [andb]. destruct (addr_buffer s) as [|x xs] eqn:Eb; injection E as <- <-; cbn [stopped connected addr_buffer sort_members].
        -- split; [split; [exact Sp|intros _; split; [exact ND'|split; [exact Hc'|exact Hb]]]|].
           rewrite (proj1 Hb eq_refl). reflexivity.
        -- split; [split; [exact Sp|intros _; split; [exact ND'|split; [exact Hc'|exact Hb]]]|].
           destruct (existsb _ _); [reflexivity|]. discriminate (proj2 Hb eq_refl).
      * cbn [andb]. injection E as <- <-. cbn [stopped connected addr_buffer].
        split; [split; [exact Sp|intros _; split; [exact ND'|split; [exact Hc'|exact Hb]]]|reflexivity].
    + inversion Hst; subst; [|congruence]. split; [split; [reflexivity|discriminate]|reflexivity].
    + apply step_sorted_inv in Hst; [|exact Sp]. unfold on_sorted, complete in Hst. rewrite usub_ok in Hst by lia. cbn [bind] in Hst.
      fold m in Hst. rewrite joined_app. cbn [joined flat_map]. rewrite app_nil_r.
      rewrite <- (distinct_length eqb eqb_spec _ (connected s) ND Hc).
      destruct (Nat.eqb_spec (length (connected s)) m) as [Em|Em]; injection Hst as <- <-; cbn [stopped connected addr_buffer sort_members negb].
      * rewrite orb_false_r. split; [|reflexivity]. split; [exact Sp|]. intros _. auto.
      * rewrite orb_true_r. split; [|reflexivity]. split; [exact Sp|]. intros _. split; [exact ND|]. split; [exact Hc|].
        split; [intros ->; exfalso; exact (He eq_refl)|discriminate].
Qed.

Lemma sub_starts_prefix : forall others pre (e : event addr) es,
  sub_starts eqb others ((pre ++ [e]) ++ es) (length pre) = sub_starts eqb others (pre ++ [e]) (length pre).
Proof.
  intros others pre e es. assert (L : length (pre ++ [e]) = S (length pre)) by (rewrite app_length; cbn; lia).
  assert (F : forall k, k <= S (length pre) -> firstn k ((pre ++ [e]) ++ es) = firstn k (pre ++ [e])).
  { intros k Hk. rewrite firstn_app, L. replace (k - S (length pre)) with 0 by lia. cbn [firstn]. apply app_nil_r. }
  unfold sub_starts, left_before. rewrite !F by lia. rewrite nth_error_app1 by lia. destruct (nth_error (pre ++ [e]) (length pre)) as [[a|a|l]|]; try reflexivity.
  do 2 f_equal. assert (G : forall ks, (forall k, In k ks -> k < length pre) ->
    existsb (list_too_early eqb others ((pre ++ [e]) ++ es)) ks = existsb (list_too_early eqb others (pre ++ [e])) ks).
  { induction ks as [|k ks IH]; intros H; [reflexivity|]. cbn [existsb]. rewrite IH by (intros; apply H; now right). f_equal.
    specialize (H k (or_introl eq_refl)). unfold list_too_early. rewrite nth_error_app1 by lia. now rewrite F by lia. }
  apply G. intros k Hk. apply in_seq in Hk. lia.
Qed.

Lemma sub_runs : forall p main self es s s' outs pre, 1 <= n_cluster_nodes p ->
  run eqb p (Sub main) self s es s' outs -> sub_inv (n_cluster_nodes p - 1) pre s -> Forall list_not_empty es ->
  starts outs = length (filter (sub_starts eqb (n_cluster_nodes p - 1) (pre ++ es)) (seq (length pre) (length es))).
Proof.
  intros p main self es s s' outs pre HN Hrun. revert pre. induction Hrun as [s|s e es s1 out s'' outs Hst Hrun IH]; intros pre HI HF; [reflexivity|].
  inversion HF as [|? ? He HF']; subst. destruct (sub_step p main self pre s e s1 out HN He HI Hst) as (HI' & Hcount).
  assert (EA : (pre ++ [e]) ++ es = pre ++ e :: es) by (now rewrite <- app_assoc).
  specialize (IH (pre ++ [e]) HI' HF'). rewrite EA in IH. unfold starts in *. cbn [concat]. rewrite filter_app, app_length, IH, Hcount. cbn [length seq].
  rewrite app_length. cbn [length]. rewrite Nat.add_1_r. cbn [filter]. rewrite <- EA, sub_starts_prefix.
  destruct (sub_starts eqb (n_cluster_nodes p - 1) (pre ++ [e]) (length pre)); reflexivity.
Qed.

Lemma sub_inv_init : forall others, sub_inv others [] init.
Proof. intros others. unfold sub_inv. cbn. repeat split; auto; try constructor; tauto. Qed.
End S.
