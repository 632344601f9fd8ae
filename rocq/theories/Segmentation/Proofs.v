From Coq Require Import List Arith ZArith Bool Lia.
From Verif.Base Require Import Res Params Assoc ListX.
From Verif.Topology Require Import Model Proofs.
From Verif.Transition Require Import Model Spec Proofs.
From Verif.Segmentation Require Import Model Spec Blocks.
Import ListNotations.

(** ** Lists of questions *)
Lemma question_eqb_spec : forall a b, reflect (a = b) (question_eqb a b).
Proof.
  intros [a1 a2 a3 a4] [b1 b2 b3 b4]. unfold question_eqb. cbn. destruct (Nat.eqb_spec a1 b1), (Nat.eqb_spec a2 b2), (Nat.eqb_spec a3 b3), (Nat.eqb_spec a4 b4); cbn; constructor; congruence.
Qed.

Lemma dedup_from_app : forall l a l', dedup_from a (dedup_from a l ++ l') = dedup_from a (l ++ l').
Proof.
  induction l as [|b l IH]; intros a l'; cbn; [reflexivity|]. destruct (question_eqb_spec b a) as [->|H]; [apply IH|].
  cbn. destruct (question_eqb_spec b a); [congruence|]. now rewrite IH.
Qed.
Lemma dedup_app : forall l l', dedup (dedup l ++ l') = dedup (l ++ l').
Proof. intros [|a l] l'; cbn; [reflexivity|]. f_equal. apply dedup_from_app. Qed.
Lemma fold_dedup : forall l acc, dedup acc = acc -> fold_left (fun acc q => dedup (acc ++ [q])) l acc = dedup (acc ++ l).
Proof.
  induction l as [|q l IH]; intros acc H; cbn; [now rewrite app_nil_r|]. rewrite IH.
  - rewrite dedup_app, <- app_assoc. reflexivity.
  - pose proof (dedup_app (acc ++ [q]) []) as E. now rewrite !app_nil_r in E.
Qed.

(** [l] is [l'] with some elements doubled. *)
Inductive stutter : list question -> list question -> Prop :=
| st_nil : stutter [] []
| st_one : forall x l l', stutter l l' -> stutter (x :: l) (x :: l')
| st_two : forall x l l', stutter l l' -> stutter (x :: x :: l) (x :: l').
Lemma stutter_refl : forall l, stutter l l.
Proof. induction l; constructor; auto. Qed.
Lemma stutter_app : forall a a' b b', stutter a a' -> stutter b b' -> stutter (a ++ b) (a' ++ b').
Proof. intros a a' b b' H Hb. induction H; cbn; [assumption|apply st_one|apply st_two]; auto. Qed.
Lemma stutter_filter : forall f l l', stutter l l' -> stutter (filter f l) (filter f l').
Proof. intros f l l' H. induction H; cbn; [constructor| |]; destruct (f x); auto; [apply st_one|apply st_two]; auto. Qed.
Lemma dedup_from_stutter : forall l l', stutter l l' -> forall a, ~ In a l' -> NoDup l' -> dedup_from a l = l'.
Proof.
  intros l l' H. induction H as [|x l l' H IH|x l l' H IH]; intros a Ha ND; cbn; [reflexivity| |]; inversion ND; subst.
  - destruct (question_eqb_spec x a) as [->|_]; [exfalso; apply Ha; now left|]. f_equal. apply IH; auto.
  - destruct (question_eqb_spec x a) as [->|_]; [exfalso; apply Ha; now left|]. cbn. destruct (question_eqb_spec x x); [|congruence]. f_equal. apply IH; auto.
Qed.
Lemma dedup_stutter : forall l l', stutter l l' -> NoDup l' -> dedup l = l'.
Proof.
  intros l l' H ND. destruct H as [|x l l' H|x l l' H]; cbn; [reflexivity| |]; inversion ND; subst.
  - f_equal. eapply dedup_from_stutter; eauto.
  - destruct (question_eqb_spec x x); [|congruence]. f_equal. eapply dedup_from_stutter; eauto.
Qed.

Lemma mapM_all : forall A B (f : A -> res B) g l, (forall x, In x l -> f x = Ok (g x)) -> mapM f l = Ok (map g l).
Proof. intros A B f g l H. induction l as [|x l IH]; cbn; [reflexivity|]. rewrite H by now left. cbn. rewrite IH by (intros; apply H; now right). reflexivity. Qed.
Lemma foldM_all : forall A S (f : S -> A -> res S) g l s, (forall s x, In x l -> f s x = Ok (g s x)) -> foldM f l s = Ok (fold_left g l s).
Proof. intros A S f g l. induction l as [|x l IH]; intros s H; cbn; [reflexivity|]. rewrite H by now left. cbn. apply IH. intros; apply H; now right. Qed.
Lemma map_nth_seq : forall A B (h : A -> B) l d, map (fun j => h (nth j l d)) (seq 0 (length l)) = map h l.
Proof.
  intros A B h l d. induction l as [|a l IH]; [reflexivity|]. cbn [length seq map nth]. f_equal. rewrite <- seq_shift, map_map. exact IH.
Qed.
Lemma filter_filter_and : forall A (f g : A -> bool) l, (forall x, f x = true -> g x = true) -> filter f (filter g l) = filter f l.
Proof.
  intros A f g l H. induction l as [|x l IH]; cbn; [reflexivity|]. destruct (g x) eqn:G; cbn; [now rewrite IH|].
  destruct (f x) eqn:F; [rewrite (H x F) in G; discriminate|exact IH].
Qed.

Lemma pairs_app : forall A (a : list A) x y b, pairs (a ++ [x] ++ y :: b) = pairs (a ++ [x]) ++ (x, y) :: pairs (y :: b).
Proof.
  intros A. induction a as [|z a IH]; intros x y b; [reflexivity|]. cbn [app] in *. destruct a as [|z' a]; cbn [app pairs] in *; [reflexivity|]. f_equal. apply IH.
Qed.

Section S.
Variable p : params.
Hypothesis HN : 1 <= n_cluster_nodes p <= rate p.
Notation N := (n_cluster_nodes p).
Notation r := (rate p).

Definition record (l : list question) (qs : questions) : questions :=
  fold_left (fun qs q => add_niq (owner p (q_segment q)) (owner p (q_prev_segment q)) q qs) l qs.

Lemma record_app : forall a b qs, record (a ++ b) qs = record b (record a qs).
Proof. intros. unfold record. now rewrite fold_left_app. Qed.

Lemma questions_of_add : forall qs q b a,
  questions_of (add_niq (owner p (q_segment q)) (owner p (q_prev_segment q)) q qs) b a =
  if between_hosts p a b q then dedup (questions_of qs b a ++ [q]) else questions_of qs b a.
Proof.
  intros qs q b a. unfold between_hosts. generalize (owner p (q_segment q)) as ans. generalize (owner p (q_prev_segment q)) as asker. intros asker ans. unfold add_niq, questions_of.
  destruct (Nat.eqb_spec asker ans) as [E|E].
  - destruct (Nat.eqb_spec asker a), (Nat.eqb_spec ans b), (Nat.eqb_spec a b); cbn; try reflexivity; congruence.
  - destruct (Nat.eqb_spec ans b) as [->|Hb].
    + destruct (lookup Nat.eqb b qs) as [m|] eqn:Lm.
      * destruct (lookup Nat.eqb asker m) as [l|] eqn:Ll; rewrite (lookup_insert_same Nat.eqb Nat.eqb_spec); (destruct (Nat.eqb_spec asker a) as [->|Ha];
          [rewrite (lookup_insert_same Nat.eqb Nat.eqb_spec)|rewrite (lookup_insert_other Nat.eqb Nat.eqb_spec) by congruence; reflexivity]).
        -- destruct (Nat.eqb_spec a b); [congruence|]. cbn. now rewrite Ll.
        -- destruct (Nat.eqb_spec a b); [congruence|]. cbn. now rewrite Ll.
      * rewrite (lookup_insert_same Nat.eqb Nat.eqb_spec). cbn [lookup]. rewrite (Nat.eqb_sym a asker). destruct (Nat.eqb_spec asker a) as [->|Ha]; [|reflexivity].
        destruct (Nat.eqb_spec a b); [congruence|]. reflexivity.
    + rewrite andb_false_r. cbn [andb].
      destruct (lookup Nat.eqb ans qs) as [m|]; [destruct (lookup Nat.eqb asker m)|]; rewrite (lookup_insert_other Nat.eqb Nat.eqb_spec) by congruence; reflexivity.
Qed.

Lemma questions_of_record : forall l qs b a,
  questions_of (record l qs) b a = fold_left (fun acc q => dedup (acc ++ [q])) (filter (between_hosts p a b) l) (questions_of qs b a).
Proof.
  induction l as [|q l IH]; intros qs b a; [reflexivity|]. cbn [filter]. change (record (q :: l) qs) with (record l (add_niq (owner p (q_segment q)) (owner p (q_prev_segment q)) q qs)).
  rewrite IH, questions_of_add. destruct (between_hosts p a b q); reflexivity.
Qed.
Lemma questions_of_record_nil : forall l b a, questions_of (record l []) b a = dedup (filter (between_hosts p a b) l).
Proof. intros. rewrite questions_of_record. change (questions_of [] b a) with (@nil question). now rewrite fold_dedup. Qed.

(** ** What is asked for one transition *)
Definition fine (t : transition) : Prop := from_segment t < r /\ to_segment t < r.
Definition span (t : transition) : nat := ccw r (from_segment t) (to_segment t).

Definition first_question (pv t : transition) : question :=
  {| q_prev_id := from_id pv; q_prev_segment := to_segment pv; q_id := from_id t; q_segment := (from_segment t + 1) mod r |}.
Definition inner_question (t : transition) (l : nat) : question :=
  {| q_prev_id := from_id t; q_prev_segment := (from_segment t + l) mod r; q_id := from_id t; q_segment := (from_segment t + l + 1) mod r |}.
Definition within_question (prev : option transition) (t : transition) (l : nat) : question :=
  match prev with Some pv => if l =? 0 then first_question pv t else inner_question t l | None => inner_question t l end.
Definition between_asks (prev : option transition) (t : transition) : list question :=
  match prev with Some pv => if owner p (from_segment t) =? owner p (to_segment pv) then [] else [first_question pv t] | None => [] end.
Definition asks (prev : option transition) (t : transition) : list question :=
  between_asks prev t ++ map (within_question prev t) (changes p (from_segment t) (span t)).

Lemma usable_ok : forall t, fine t -> is_usable p t = usable r t.
Proof.
  intros t (Hf & Ht). unfold is_usable, usable. apply eq_true_iff_eq. rewrite !andb_true_iff, !Nat.leb_le. apply usable_iff; assumption.
Qed.
Lemma usable_span : forall t, usable r t = true -> 1 <= span t <= r / 2.
Proof. intros t H. unfold usable in H. apply andb_true_iff in H. rewrite !Nat.leb_le in H. exact H. Qed.

Lemma niq_within : forall prev t, fine t -> usable r t = true ->
  nodes_in_question p t prev true (length (changes p (from_segment t) (span t))) = Ok (map (within_question prev t) (changes p (from_segment t) (span t))).
Proof.
  intros prev t (Hf & Ht) Hu. pose proof (usable_span t Hu) as Hs. pose proof (half_bounds r) as Hh.
  rewrite <- (map_nth_seq _ _ (within_question prev t) (changes p (from_segment t) (span t)) 0). unfold nodes_in_question.
  destruct prev as [pv|]; apply mapM_all; intros j Hj; apply in_seq in Hj; rewrite (wanted_ok p HN t (span t) j Hf) by lia; cbn [bind].
  - assert (Hl : nth j (changes p (from_segment t) (span t)) 0 < span t).
    { eapply (changes_lt p HN). apply nth_In. lia. }
    rewrite Nat.mod_mod by lia. unfold first_intersection_segment. set (l := nth j (changes p (from_segment t) (span t)) 0) in *.
    unfold within_question.
    destruct (Nat.eqb_spec ((from_segment t + l + 1) mod r) ((from_segment t + 1) mod r)) as [E|E]; cbn [andb].
    + assert (El : l = 0).
      { replace (from_segment t + l + 1) with (from_segment t + 1 + l) in E by lia. replace (from_segment t + 1) with (from_segment t + 1 + 0) in E at 2 by lia.
        eapply mod_inj_window; [| |exact E]; lia. }
      assert (Ej : j = 0) by (eapply (changes_zero_first p HN (from_segment t) (span t)); [lia|exact El]).
      rewrite Ej, El. cbn [Nat.eqb]. unfold first_question. now rewrite Nat.add_0_r.
    + destruct (Nat.eqb_spec l 0) as [El|El]; [exfalso; apply E; now rewrite El, Nat.add_0_r|]. reflexivity.
  - rewrite Nat.mod_mod by lia. reflexivity.
Qed.

Lemma ask_record : forall t prev within k qs l, nodes_in_question p t prev within k = Ok l -> ask p t prev within k qs = Ok (record l qs).
Proof.
  intros t prev within k qs l E. unfold ask. rewrite E. cbn [bind]. unfold record. apply foldM_all. intros s q _. rewrite !owner_ok by exact HN. reflexivity.
Qed.

Lemma find_splits_ok : forall prev t qs, fine t -> usable r t = true ->
  find_splits p prev (option_map (fun pv => owner p (to_segment pv)) prev) t (owner p (from_segment t)) (owner p (to_segment t)) qs = Ok (record (asks prev t) qs).
Proof.
  intros prev t qs Hf Hu. pose proof (usable_span t Hu) as Hs. unfold find_splits, asks. rewrite record_app.
  assert (E1 : (match option_map (fun pv => owner p (to_segment pv)) prev with Some n => split_between p prev t (owner p (from_segment t)) n qs | None => Ok qs end) = Ok (record (between_asks prev t) qs)).
  { destruct prev as [pv|]; cbn [option_map between_asks]; [|reflexivity]. unfold split_between. destruct (_ =? _); [reflexivity|]. now apply ask_record. }
  rewrite E1. cbn [bind]. unfold split_within. destruct Hf as (Hf & Ht).
  destruct (Nat.eqb_spec (owner p (from_segment t)) (owner p (to_segment t))) as [Eo|Eo].
  - unfold span in *. rewrite changes_none; [reflexivity|assumption|assumption|assumption|lia|assumption].
  - rewrite same_window; [|assumption|assumption|assumption|unfold span in Hs; lia]. cbn [bind]. apply ask_record. apply niq_within; [now split|assumption].
Qed.

(** ** The scan over the points *)
Definition last_opt {A} (d : option A) (l : list A) : option A := fold_left (fun _ x => Some x) l d.
Fixpoint asks_all (prev : option transition) (ts : list transition) : list question :=
  match ts with [] => [] | t :: l => asks prev t ++ asks_all (Some t) l end.
Definition push_all (ts : list transition) (m : for_nodes) : for_nodes := fold_left (fun m t => push_for (owner p (from_segment t)) t m) ts m.
Definition wrong_way (t : transition) : bool :=
  self_correction p && crosses_segments (from_segment t) (to_segment t) && negb (has_valid_direction r (from_segment t) (to_segment t)).
Definition all_fine (points : list pt) : Prop := forall x, In x points -> pseg x < r.

Definition scanned (own : nat) (lp : pt) (points : list pt) (s : scan) : scan :=
  let us := usable_pairs r (lp :: points) in
  {| s_transitions := s_transitions s ++ filter (fun t => owner p (from_segment t) =? own) us;
     s_asked := record (asks_all (s_last_transition s) us) (s_asked s);
     s_send_point := s_send_point s;
     s_send_transition := match s_send_transition s with Some t => Some t | None => hd_error us end;
     s_invalid := length (filter wrong_way (pairs (lp :: points))) + s_invalid s;
     s_foreign := push_all us (s_foreign s);
     s_last_point := Some (last points lp);
     s_last_to_node := option_map (fun t => owner p (to_segment t)) (last_opt (s_last_transition s) us);
     s_last_transition := last_opt (s_last_transition s) us |}.

Lemma usable_not_wrong : forall t, is_usable p t = true -> wrong_way t = false.
Proof. intros t H. unfold is_usable in H. apply andb_true_iff in H. destruct H as (A & B). unfold wrong_way. rewrite B. now rewrite andb_false_r. Qed.

Lemma scan_ok : forall own points lp s, all_fine (lp :: points) -> s_last_point s = Some lp ->
  s_last_to_node s = option_map (fun t => owner p (to_segment t)) (s_last_transition s) ->
  foldM (scan_point p own) points s = Ok (scanned own lp points s).
Proof.
  intros own points. induction points as [|x points IH]; intros lp s Hf Hl Hn.
  - cbn [foldM]. unfold scanned, usable_pairs. cbn. f_equal. destruct s; cbn in *. rewrite app_nil_r. subst. f_equal. match goal with |- ?x = _ => destruct x end; reflexivity.
  - cbn [foldM]. unfold scan_point at 1. rewrite Hl. 
    assert (Ft : fine (lp, x)) by (split; apply Hf; cbn; tauto). rewrite (usable_ok _ Ft).
    assert (Hf' : all_fine (x :: points)) by (intros y Hy; apply Hf; now right).
    destruct (usable r (lp, x)) eqn:U.
    + rewrite !owner_ok by exact HN. cbn [bind]. rewrite Hn.
      change (owner p (pseg lp)) with (owner p (from_segment (lp, x))). change (owner p (pseg x)) with (owner p (to_segment (lp, x))).
      rewrite find_splits_ok by assumption. cbn [bind]. rewrite (IH x); [|assumption|reflexivity|reflexivity]. f_equal.
      unfold scanned. cbn [s_transitions s_asked s_send_point s_send_transition s_invalid s_foreign s_last_point s_last_to_node s_last_transition].
      assert (Eu : usable_pairs r (lp :: x :: points) = (lp, x) :: usable_pairs r (x :: points)).
      { unfold usable_pairs. cbn [pairs filter]. now rewrite U. }
      rewrite Eu. cbn [filter asks_all]. rewrite record_app.
      assert (Ew : length (filter wrong_way (pairs (lp :: x :: points))) = length (filter wrong_way (pairs (x :: points)))).
      { cbn [pairs filter]. rewrite usable_not_wrong; [reflexivity|]. now rewrite usable_ok. }
      rewrite Ew. f_equal.
      * destruct (_ =? own); [now rewrite <- app_assoc|reflexivity].
      * destruct (s_send_transition s); reflexivity.
      * f_equal. clear. revert x. induction points as [|y l IH]; intros x; [reflexivity|]. cbn [last]. destruct l; [reflexivity|]. apply (IH x).
    + cbn [bind]. rewrite (IH x); [|assumption|reflexivity|exact Hn]. f_equal.
      unfold scanned. cbn [s_transitions s_asked s_send_point s_send_transition s_invalid s_foreign s_last_point s_last_to_node s_last_transition].
      assert (Eu : usable_pairs r (lp :: x :: points) = usable_pairs r (x :: points)).
      { unfold usable_pairs. cbn [pairs filter]. now rewrite U. }
      rewrite Eu. f_equal.
      * cbn [pairs filter]. change (self_correction p && crosses_segments (pseg lp) (pseg x) && negb (has_valid_direction r (pseg lp) (pseg x))) with (wrong_way (lp, x)).
        destruct (wrong_way (lp, x)); cbn [length]; lia.
      * f_equal. clear. revert x. induction points as [|y l IH]; intros x; [reflexivity|]. cbn [last]. destruct l; [reflexivity|]. apply (IH x).
Qed.
End S.
