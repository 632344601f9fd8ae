From Coq Require Import List Arith Bool Lia Permutation Sorting.Sorted.
From Verif.Base Require Import Res Params Assoc ListX.
From Verif.Topology Require Import Proofs.
From Verif.Transition Require Import Spec Proofs.
From Verif.Segmentation Require Import Model Spec Blocks Proofs PathProofs.
From Verif.Edges Require Import Model Spec OrdererProofs Proofs ArcProofs HostProofs.
From Verif.Nodes Require Import Model Spec.
Import ListNotations.

Lemma pairs_map : forall A B (f : A -> B) l, pairs (map f l) = map (fun '(x, y) => (f x, f y)) (pairs l).
Proof.
  intros A B f l. induction l as [|x l IH]; [reflexivity|]. destruct l as [|y l]; [reflexivity|]. change (pairs (x :: y :: l)) with ((x, y) :: pairs (y :: l)). cbn [map].
  change (pairs (f x :: f y :: map f l)) with ((f x, f y) :: pairs (map f (y :: l))). now rewrite IH.
Qed.

(** ** Taking in answers *)
Definition key_of (a : answer) : nat * nat := (fst (fst (fst a)), snd (fst (fst a))).
Definition value_of (a : answer) : nat * node := (snd (fst a), snd a).
Lemma take_in_app : forall l l' f, take_in_answers (l ++ l') f = take_in_answers l' (take_in_answers l f).
Proof. intros. unfold take_in_answers. apply fold_left_app. Qed.
Lemma take_in_same : forall l f k v, (forall a, In a l -> key_of a = k -> value_of a = v) -> (exists a, In a l /\ key_of a = k) \/ lookup key_eqb k f = Some v ->
  lookup key_eqb k (take_in_answers l f) = Some v.
Proof.
  induction l as [|a l IH] using rev_ind; intros f k v H E.
  - destruct E as [(a & [] & _)|E]; exact E.
  - rewrite take_in_app. destruct a as [[[pi ps] i] x]. cbn [take_in_answers fold_left].
    destruct (key_eqb_spec k (pi, ps)) as [->|Hne].
    + rewrite (lookup_insert_same key_eqb key_eqb_spec). f_equal. apply (H (pi, ps, i, x)); [apply in_or_app; right; now left|reflexivity].
    + rewrite (lookup_insert_other key_eqb key_eqb_spec) by congruence. apply IH; [intros a Ha; apply H; apply in_or_app; now left|]. destruct E as [(a & Ha & Ek)|E]; [|now right].
      left. exists a. split; [|exact Ek]. apply in_app_or in Ha. destruct Ha as [Ha|[<-|[]]]; [exact Ha|]. exfalso. apply Hne. symmetry. exact Ek.
Qed.
Lemma take_in_none : forall l f k, (forall a, In a l -> key_of a <> k) -> lookup key_eqb k f = None -> lookup key_eqb k (take_in_answers l f) = None.
Proof.
  induction l as [|a l IH] using rev_ind; intros f k H E; [exact E|]. rewrite take_in_app. destruct a as [[[pi ps] i] x]. cbn [take_in_answers fold_left].
  rewrite (lookup_insert_other key_eqb key_eqb_spec).
  - apply IH; [|exact E]. intros a Ha. apply H. apply in_or_app. now left.
  - intros ->. apply (H (pi, ps, i, x)); [apply in_or_app; right; now left|reflexivity].
Qed.

Definition answers_for (answers : list (nat * list answer)) (a : nat) : list answer := match lookup Nat.eqb a answers with Some l => l | None => [] end.
Lemma foreign_at_concat : forall a (answers : nat -> list (nat * list answer)) order f,
  fold_left (fun foreign b => handle_answer a (answer_message (answers b) a) foreign) order f = take_in_answers (concat (map (fun b => answers_for (answers b) a) order)) f.
Proof.
  intros a answers order. induction order as [|b order IH]; intros f; [reflexivity|]. cbn [fold_left map concat]. rewrite take_in_app, <- IH. f_equal. unfold handle_answer, answer_message, answers_for.
  destruct (lookup Nat.eqb a (answers b)) as [l|]; [|reflexivity]. cbn [lookup]. now rewrite Nat.eqb_refl.
Qed.

(** ** Answering *)
Section Answer.
Variable store : list node.
Variable ans : question -> answer.
Lemma search_all : forall others qs answers, NoDup others -> (forall a q, In a others -> In q (match lookup Nat.eqb a qs with Some l => l | None => [] end) -> search store q = Ok (ans q)) ->
  exists answers', search_for_asked_nodes others store qs answers = Ok answers' /\
    (forall a, In a others -> answers_for answers' a = answers_for answers a ++ map ans (match lookup Nat.eqb a qs with Some l => l | None => [] end)) /\
    (forall a, ~ In a others -> answers_for answers' a = answers_for answers a).
Proof.
  induction others as [|o others IH]; intros qs answers ND H.
  - exists answers. ssplit; [reflexivity|easy|reflexivity].
  - inversion ND as [|? ? Hn ND']; subst. unfold search_for_asked_nodes. cbn [foldM].
    assert (E : match lookup Nat.eqb o qs with Some l => mapM (search store) l | None => Ok [] end = Ok (map ans (match lookup Nat.eqb o qs with Some l => l | None => [] end))).
    { specialize (H o). destruct (lookup Nat.eqb o qs) as [l|]; [|reflexivity]. apply mapM_all. intros q Hq. apply H; [now left|exact Hq]. }
    rewrite E. cbn [bind]. clear E. set (new := map ans (match lookup Nat.eqb o qs with Some l => l | None => [] end)).
    destruct (IH qs (insert Nat.eqb o (match lookup Nat.eqb o answers with Some old => old ++ new | None => new end) answers) ND') as (answers' & E & P1 & P2).
    { intros a q Ha Hq. apply (H a); [now right|exact Hq]. }
    assert (Self : answers_for (insert Nat.eqb o (match lookup Nat.eqb o answers with Some old => old ++ new | None => new end) answers) o = answers_for answers o ++ new).
    { unfold answers_for. rewrite (lookup_insert_same Nat.eqb Nat.eqb_spec). destruct (lookup Nat.eqb o answers); reflexivity. }
    assert (Oth : forall a, a <> o -> answers_for (insert Nat.eqb o (match lookup Nat.eqb o answers with Some old => old ++ new | None => new end) answers) a = answers_for answers a).
    { intros a Ha. unfold answers_for. now rewrite (lookup_insert_other Nat.eqb Nat.eqb_spec). }
    exists answers'. ssplit; [exact E| |].
    + intros a [<-|Ha]; [rewrite P2, Self; [reflexivity|exact Hn]|]. rewrite P1 by exact Ha. f_equal. apply Oth. intros ->. contradiction.
    + intros a Ha. rewrite P2 by (intros Hi; apply Ha; now right). apply Oth. intros ->. apply Ha. now left.
Qed.

Lemma answers_at_ok : forall others b asked order, NoDup others -> (forall k a q, In k order -> In a others -> In q (questions_of (asked k) b a) -> search store q = Ok (ans q)) ->
  exists answers, answers_at others b store asked order = Ok answers /\
    (forall a, In a others -> answers_for answers a = concat (map (fun k => map ans (questions_of (asked k) b a)) order)).
Proof.
  intros others b asked order ND. unfold answers_at. induction order as [|k order IH] using rev_ind; intros H.
  - exists []. split; [reflexivity|]. intros a Ha. reflexivity.
  - destruct IH as (answers & E & P); [intros k' a q Hk; apply H; apply in_or_app; now left|]. rewrite foldM_app, E. cbn [bind foldM]. unfold handle_ask, ask_message.
    assert (Hk : forall a q, In a others -> In q (questions_of (asked k) b a) -> search store q = Ok (ans q)) by (intros a q; apply H; apply in_or_app; right; now left).
    unfold questions_of in Hk. destruct (lookup Nat.eqb b (asked k)) as [m|] eqn:Em.
    + cbn [lookup]. rewrite Nat.eqb_refl. destruct (search_all others m answers ND Hk) as (answers' & E' & P1 & _). rewrite E'. cbn [bind]. exists answers'. split; [reflexivity|]. intros a Ha. rewrite P1, P by exact Ha.
      rewrite map_app, concat_app. cbn [map concat]. rewrite app_nil_r. f_equal. unfold questions_of. now rewrite Em.
    + cbn [lookup bind]. exists answers. split; [reflexivity|]. intros a Ha. rewrite P by exact Ha. rewrite map_app, concat_app. cbn [map concat]. unfold questions_of at 3. rewrite Em. now rewrite !app_nil_r.
Qed.
End Answer.

(** ** The exchange of questions and answers *)
Section Exchange.
Variable p : params.
Hypothesis HN : 1 <= n_cluster_nodes p <= rate p.
Notation N := (n_cluster_nodes p).
Variable label : nat -> nat -> nat.
Variable crossed : list (nat * nat).
Hypothesis Hnodup : NoDup crossed.
Hypothesis Hseg : forall c, In c crossed -> snd c < rate p.
Notation W := (map (labelled label) crossed).

Lemma in_store : forall h store x, stored_by_segment p h W store -> In x store <-> In x W /\ owner p (n_segment x) = h.
Proof.
  intros h store x (bucket & -> & HB). rewrite in_concat. split.
  - intros (l & Hl & Hx). apply in_map_iff in Hl. destruct Hl as (s & <- & Hs). apply in_seq in Hs. apply (Permutation_in _ (HB s ltac:(lia))) in Hx. destruct (Nat.eqb_spec (owner p s) h) as [E|]; [|easy].
    apply filter_In in Hx. destruct Hx as (Hx & Es). apply Nat.eqb_eq in Es. split; [exact Hx|congruence].
  - intros (Hx & Ho). exists (bucket (n_segment x)).
    assert (Hs : n_segment x < rate p). { apply in_map_iff in Hx. destruct Hx as (c & <- & Hc). cbn. now apply Hseg. }
    split; [apply in_map, in_seq; lia|]. apply (Permutation_in _ (Permutation_sym (HB _ Hs))). rewrite Ho, Nat.eqb_refl. apply filter_In. split; [exact Hx|apply Nat.eqb_refl].
Qed.

Definition ans_of (q : question) : answer := (q_prev_id q, q_prev_segment q, q_id q, labelled label (q_id q, q_segment q)).
Lemma search_ok : forall b store q, stored_by_segment p b W store -> In (q_id q, q_segment q) crossed -> owner p (q_segment q) = b -> search store q = Ok (ans_of q).
Proof.
  intros b store q Hst Hc Ho. unfold search, nodes_by_point. 
  assert (Hin : In (labelled label (q_id q, q_segment q)) (filter (fun x => n_from x =? q_id q) store)).
  { apply filter_In. split; [|cbn; apply Nat.eqb_refl]. apply (in_store b store _ Hst). split; [now apply in_map|exact Ho]. }
  destruct (filter (fun x => n_from x =? q_id q) store) as [|z zs] eqn:Ef; [easy|]. rewrite <- Ef in *. clear z zs Ef.
  destruct (find (fun x => n_segment x =? q_segment q) (filter (fun x => n_from x =? q_id q) store)) as [x|] eqn:Efd.
  - apply find_some in Efd. destruct Efd as (Hx & Es). apply filter_In in Hx. destruct Hx as (Hx & Ei). apply (in_store b store _ Hst) in Hx. destruct Hx as (Hx & _). apply in_map_iff in Hx. destruct Hx as (c & <- & _).
    apply Nat.eqb_eq in Es, Ei. cbn in Es, Ei. unfold ans_of. now replace (q_id q, q_segment q) with c by (destruct c; cbn in *; congruence).
  - exfalso. pose proof (find_none _ _ Efd _ Hin) as X. cbn in X. rewrite Nat.eqb_refl in X. discriminate.
Qed.

Variable asked : nat -> questions.
Hypothesis Hcover : questions_cover p crossed asked.
Variable stores : nat -> list node.
Hypothesis Hstores : forall h, h < N -> stored_by_segment p h W (stores h).
Variable others : nat -> list nat.
Hypothesis Hothers : forall b, b < N -> other_hosts p b (others b).
Variables ask_order answer_order : nat -> list nat.
Hypothesis Hask : forall b, b < N -> Permutation (ask_order b) (seq 0 N).
Hypothesis Hanswer : forall a, a < N -> Permutation (answer_order a) (seq 0 N).

Theorem exchange_answers : exists answers, (forall b, b < N -> answers_at (others b) b (stores b) asked (ask_order b) = Ok (answers b)) /\
  forall a, a < N -> answers_complete p a W (foreign_at a answers (answer_order a)).
Proof.
  destruct Hcover as (Hall & Honly).
  assert (Each : forall b, b < N -> exists answers, answers_at (others b) b (stores b) asked (ask_order b) = Ok answers /\
    forall a, In a (others b) -> answers_for answers a = concat (map (fun k => map ans_of (questions_of (asked k) b a)) (ask_order b))).
  { intros b Hb. destruct (Hothers b Hb) as (NDo & _). apply answers_at_ok; [exact NDo|]. intros k a q Hk Ha Hq. apply (Permutation_in _ (Hask b Hb)) in Hk. apply in_seq in Hk.
    destruct (Honly k a b q ltac:(lia) Hq) as (B & Hc & _). apply (search_ok b); [now apply Hstores|exact Hc|]. apply (bh_spec p HN) in B. apply B. }
  set (answers := fun b => match answers_at (others b) b (stores b) asked (ask_order b) with Ok x => x | Panic _ => [] end).
  exists answers. assert (Ok_all : forall b, b < N -> answers_at (others b) b (stores b) asked (ask_order b) = Ok (answers b)).
  { intros b Hb. unfold answers. destruct (Each b Hb) as (x & -> & _). reflexivity. }
  split; [exact Ok_all|]. intros a Ha. unfold foreign_at. rewrite foreign_at_concat.
  set (L := concat (map (fun b => answers_for (answers b) a) (answer_order a))).
  (* membership in the answers, for other hosts *)
  assert (Mem : forall b x, b < N -> b <> a -> In x (answers_for (answers b) a) <-> exists k q, k < N /\ In q (questions_of (asked k) b a) /\ x = ans_of q).
  { intros b x Hb Hne. destruct (Each b Hb) as (y & Ey & Py). rewrite Ok_all in Ey by exact Hb. injection Ey as <-. rewrite Py by (apply (Hothers b Hb); auto). rewrite in_concat. split.
    - intros (l & Hl & Hx). apply in_map_iff in Hl. destruct Hl as (k & <- & Hk). apply in_map_iff in Hx. destruct Hx as (q & <- & Hq). exists k, q. apply (Permutation_in _ (Hask b Hb)), in_seq in Hk. ssplit; [lia|exact Hq|reflexivity].
    - intros (k & q & Hk & Hq & ->). exists (map ans_of (questions_of (asked k) b a)). split; [|now apply in_map]. apply in_map with (f := fun k => map ans_of (questions_of (asked k) b a)). apply (Permutation_in _ (Permutation_sym (Hask b Hb))), in_seq. lia. }
  assert (Own : forall x, ~ In x (answers_for (answers a) a)).
  { assert (E : answers_for (answers a) a = []); [|now rewrite E].
    pose proof (Ok_all a Ha) as E. revert E. unfold answers_at. generalize (answers a). generalize (ask_order a). 
    assert (No : ~ In a (others a)) by (intros Hi; apply (Hothers a Ha) in Hi; tauto).
    induction l as [|k l IH] using rev_ind; intros x E; [injection E as <-; reflexivity|]. rewrite foldM_app in E. apply bind_ok_inv in E. destruct E as (y & E1 & E2). specialize (IH y E1). cbn [foldM] in E2. apply bind_ok_inv in E2. destruct E2 as (z & E2 & E3). injection E3 as <-.
    unfold handle_ask in E2. destruct (lookup Nat.eqb a (ask_message (asked k) a)) as [m|]; [|injection E2 as <-; exact IH].
    rewrite <- IH. clear IH E1. revert E2 No. unfold search_for_asked_nodes. generalize (others a). clear. intros l. revert y z. induction l as [|o l IH]; intros y z E No; [injection E as <-; reflexivity|].
    cbn [foldM] in E. apply bind_ok_inv in E. destruct E as (u & E1 & E2). apply bind_ok_inv in E1. destruct E1 as (v & _ & E1). injection E1 as <-. apply IH in E2; [|intros Hi; apply No; now right]. rewrite E2. unfold answers_for.
    rewrite (lookup_insert_other Nat.eqb Nat.eqb_spec); [reflexivity|]. intros ->. apply No. now left. }
  assert (InL : forall x, In x L <-> exists b k q, b < N /\ b <> a /\ k < N /\ In q (questions_of (asked k) b a) /\ x = ans_of q).
  { intros x. unfold L. rewrite in_concat. split.
    - intros (l & Hl & Hx). apply in_map_iff in Hl. destruct Hl as (b & <- & Hb). apply (Permutation_in _ (Hanswer a Ha)), in_seq in Hb. destruct (Nat.eq_dec b a) as [->|Hne]; [now apply Own in Hx|].
      apply (Mem b x ltac:(lia) Hne) in Hx. destruct Hx as (k & q & Hk & Hq & E). exists b, k, q. ssplit; [lia|exact Hne|exact Hk|exact Hq|exact E].
    - intros (b & k & q & Hb & Hne & Hk & Hq & E). exists (answers_for (answers b) a). split; [|apply (Mem b x Hb Hne); eauto].
      apply in_map with (f := fun b => answers_for (answers b) a). apply (Permutation_in _ (Permutation_sym (Hanswer a Ha))), in_seq. lia. }
  (* an answer about a crossing of the path is about the crossing that follows it *)
  assert (Follow : forall x, In x L -> In (key_of x) crossed -> exists c', In (key_of x, c') (pairs crossed) /\ owner p (snd c') <> a /\ value_of x = (fst c', labelled label c')).
  { intros x Hx Hk. apply InL in Hx. destruct Hx as (b & k & q & Hb & Hne & Hkn & Hq & ->). destruct (Honly k a b q Hkn Hq) as (B & _ & St). apply (bh_spec p HN) in B.
    cbn [key_of ans_of fst snd] in Hk. specialize (St Hk). apply in_map_iff in St. destruct St as ((c1 & c2) & Eq & Hp). exists c2. subst q. cbn [as_question q_prev_id q_prev_segment q_id q_segment fst snd key_of value_of ans_of] in *. 
    destruct c1 as (i1 & s1), c2 as (i2 & s2). cbn in *. ssplit; [exact Hp|intros E; apply Hne; destruct B as (_ & B & _); congruence|reflexivity]. }
  split.
  - intros x y Hxy Hx Hy. rewrite pairs_map in Hxy. apply in_map_iff in Hxy. destruct Hxy as ((c1 & c2) & E & Hp). injection E as <- <-. cbn [labelled n_segment n_from] in *. rewrite <- surjective_pairing.
    assert (B : between_hosts p a (owner p (snd c2)) (as_question (c1, c2)) = true) by (apply (bh_spec p HN); cbn; auto).
    destruct (Hall (c1, c2) a (owner p (snd c2)) Hp B) as (k & Hk & Hq).
    apply take_in_same.
    + intros x Hx' Ek. assert (Hc1 : In (key_of x) crossed) by (rewrite Ek; apply (pairs_in _ _ _ _ Hp)). destruct (Follow x Hx' Hc1) as (c' & Hp' & _ & Ev). rewrite Ev. rewrite Ek in Hp'.
      assert (c' = c2); [|now subst c'].
      destruct (in_split c1 crossed) as (l1 & l2 & El); [apply (pairs_in _ _ _ _ Hp)|]. rewrite El in Hp, Hp', Hnodup. apply pairs_next in Hp, Hp'; try exact Hnodup. congruence.
    + left. exists (ans_of (as_question (c1, c2))). split; [apply InL; exists (owner p (snd c2)), k, (as_question (c1, c2)); ssplit; [apply (owner_lt p HN)|exact Hy|exact Hk|exact Hq|reflexivity]|]. now destruct c1.
  - intros x Hx Ho Hnext. apply in_map_iff in Hx. destruct Hx as (c & <- & Hc). cbn [labelled n_segment n_from]. rewrite <- surjective_pairing. apply take_in_none; [|reflexivity].
    intros x Hx Ek. rewrite <- Ek in Hc. destruct (Follow x Hx Hc) as (c' & Hp' & Hne & _). rewrite Ek in Hp'. apply Hne. apply (Hnext (labelled label c')). rewrite pairs_map. apply in_map_iff. exists (c, c'). auto.
Qed.
End Exchange.
