From Coq Require Import List Arith Lia Bool Permutation.
From Verif.Base Require Import Res Params Assoc ListX.
From Verif.Topology Require Import Model Spec Proofs.
From Verif.Listener Require Import Model Spec.
Import ListNotations.

Section L.
Context {addr : Type} (eqb : addr -> addr -> bool).
Hypothesis eqb_spec : forall a b, reflect (a = b) (eqb a b).

Lemma member_In : forall a l, member eqb a l = true <-> In a l.
Proof.
  intros a l. unfold member. rewrite existsb_exists. split.
  - intros (x & Hx & E). destruct (eqb_spec a x); [subst; exact Hx|discriminate].
  - intros H. exists a. split; [exact H|]. destruct (eqb_spec a a); congruence.
Qed.

Lemma member_false : forall a l, member eqb a l = false <-> ~ In a l.
Proof. intros a l. rewrite <- member_In. destruct (member eqb a l); intuition congruence. Qed.

Definition enum (k : nat) (l : list addr) : list (nat * addr) := combine (seq k (length l)) l.

Lemma enum_keys_ge : forall l k i a, In (i, a) (enum k l) -> k <= i.
Proof. intros l k i a H. apply in_combine_l in H. apply in_seq in H. lia. Qed.

Lemma enum_In : forall l k i a, In (i, a) (enum k l) <-> k <= i /\ nth_error l (i - k) = Some a.
Proof.
  induction l as [|b t IH]; intros k i a; cbn.
  - split; [easy|]. intros [_ H]. destruct (i - k); discriminate.
  - unfold enum in IH. rewrite IH. split.
    + intros [E|[Hle Hn]].
      * injection E as -> ->. split; [lia|]. now rewrite Nat.sub_diag.
      * split; [lia|]. replace (i - k) with (S (i - S k)) by lia. exact Hn.
    + intros [Hle Hn]. destruct (Nat.eq_dec i k) as [->|Hne].
      * left. rewrite Nat.sub_diag in Hn. cbn in Hn. congruence.
      * right. split; [lia|]. replace (i - k) with (S (i - S k)) in Hn by lia. exact Hn.
Qed.

Lemma enum_keys : forall l k, keys (enum k l) = seq k (length l).
Proof.
  induction l as [|b t IH]; intros k; cbn; [reflexivity|]. f_equal. apply IH.
Qed.

Lemma member_remove_other : forall a b l, a <> b -> member eqb a (remove_addr eqb b l) = member eqb a l.
Proof.
  intros a b l Hne. unfold remove_addr. apply eq_true_iff_eq. rewrite !member_In, filter_In.
  split; [tauto|]. intros H. split; [exact H|]. destruct (eqb_spec b a); [congruence|reflexivity].
Qed.

Lemma sort_loop_spec : forall l k conn acc, NoDup l -> (forall i, In i (keys acc) -> i < k) ->
  sort_loop eqb k l conn acc = acc ++ filter (fun '(_, a) => member eqb a conn) (enum k l).
Proof.
  induction l as [|a t IH]; intros k conn acc ND Hacc; cbn [sort_loop enum length seq combine filter].
  - now rewrite app_nil_r.
  - inversion ND as [|? ? Hni ND']; subst.
    fold (enum (S k) t).
    destruct (member eqb a conn) eqn:Em.
    + rewrite insert_new; [|exact Nat.eqb_spec|intros H; apply Hacc in H; lia].
      rewrite IH; [|exact ND'|].
      * rewrite <- app_assoc. cbn. f_equal. f_equal.
        apply filter_ext_in. intros [i b] Hin. apply member_remove_other.
        apply enum_In in Hin. intros ->. apply Hni. eapply nth_error_In. apply Hin.
      * intros i Hi. unfold keys in Hi. rewrite map_app, in_app_iff in Hi. destruct Hi as [Hi|[<-|[]]];
          [apply Hacc in Hi|]; cbn; lia.
    + rewrite IH; [reflexivity|exact ND'|]. intros i Hi. apply Hacc in Hi. lia.
Qed.

(** If the connected hosts are all of [l] but [self], sorting numbers them by [l]. *)
Lemma sort_numbered : forall l self conn, NoDup l -> (forall a, In a conn <-> (In a l /\ a <> self)) ->
  numbered_by self l (sort_loop eqb 0 l conn []).
Proof.
  intros l self conn ND Hc. rewrite sort_loop_spec by (auto; intros i []). cbn [app].
  split.
  - apply NoDup_map_filter. change (NoDup (keys (enum 0 l))). rewrite enum_keys. apply seq_NoDup.
  - intros i h. rewrite filter_In, enum_In, Nat.sub_0_r, member_In, Hc.
    split; [tauto|]. intros [Hn Hs]. apply nth_error_In in Hn as Hn'. auto with arith.
Qed.

(** The own index derived from such a table is the own position in the list. *)
Lemma numbered_all_but : forall (l : list addr) self (t : list (nat * addr)) k, NoDup l -> nth_error l k = Some self -> numbered_by self l t ->
  all_but k (length l) (keys t).
Proof.
  intros l self t k ND Hk [NDt Hin]. split; [apply nth_error_Some; congruence|]. split; [exact NDt|].
  intros j. unfold keys. rewrite in_map_iff. split.
  - intros ([j' h] & E & Hjh). cbn in E. subst j'. apply Hin in Hjh. destruct Hjh as [Hn Hne]. split.
    + apply nth_error_Some. congruence.
    + intros ->. congruence.
  - intros [Hj Hne]. destruct (nth_error l j) as [h|] eqn:E.
    + exists (j, h). split; [reflexivity|]. apply Hin. split; [exact E|].
      intros ->. apply Hne. exact (nth_error_NoDup_inj _ _ _ _ _ ND E Hk).
    + apply nth_error_None in E. lia.
Qed.

(** ** Runs *)
Lemma step_join_inv : forall p r self s a x, stopped s = false -> step eqb p r self s (NewMember a) x ->
  exists conn', Permutation conn' (add_addr eqb a (connected s))
    /\ after_join eqb p r self {| connected := conn'; sorted_nodes := sorted_nodes s; addr_buffer := addr_buffer s;
                              stopped := stopped s |} = x.
Proof. intros p r self s a x Hs H. inversion H; subst; [eauto|congruence]. Qed.

Lemma step_sorted_inv : forall p r self s l x, stopped s = false -> step eqb p r self s (SortedMembers l) x ->
  on_sorted eqb p l s = x.
Proof. intros p r self s l x Hs H. inversion H; subst; [reflexivity|congruence]. Qed.

Lemma run_app_inv : forall p r self es1 es2 s s'' outs, run eqb p r self s (es1 ++ es2) s'' outs ->
  exists s' o1 o2, run eqb p r self s es1 s' o1 /\ run eqb p r self s' es2 s'' o2 /\ outs = o1 ++ o2.
Proof.
  intros p r self es1; induction es1 as [|e t IH]; intros es2 s s'' outs H; cbn in H.
  - exists s, [], outs. repeat split; [constructor|exact H].
  - inversion H as [|? ? ? s1 out ? outs' Hst Hrun]; subst. destruct (IH _ _ _ _ Hrun) as (s' & o1 & o2 & H1 & H2 & ->).
    exists s', (out :: o1), o2. repeat split; [econstructor; eauto|exact H2].
Qed.

Lemma run_length : forall p r self es s s' outs, run eqb p r self s es s' outs -> length outs = length es.
Proof. intros p r self es s s' outs H. induction H; cbn; congruence. Qed.

(** *** Main host *)
(** Before the last join nothing happens. *)
Lemma main_prefix : forall p self joins, n_cluster_nodes p >= 1 ->
  forall s s' outs, run eqb p Main self s (map NewMember joins) s' outs ->
  stopped s = false -> NoDup (connected s ++ joins) ->
  length (connected s) + length joins < n_cluster_nodes p - 1 ->
  stopped s' = false /\ Permutation (connected s') (connected s ++ joins)
  /\ sorted_nodes s' = sorted_nodes s /\ addr_buffer s' = addr_buffer s /\ concat outs = [].
Proof.
  intros p self joins Hn; induction joins as [|a t IH]; intros s s' outs H Hs ND Hlen; cbn in H.
  - inversion H; subst. rewrite app_nil_r. auto.
  - inversion H as [|? ? ? s1 out ? outs' Hst Hrun]; subst.
    assert (Hna : ~ In a (connected s)).
    { intros Hin. apply NoDup_remove_2 in ND. apply ND. apply in_app_iff. now left. }
    apply step_join_inv in Hst; [|assumption]. destruct Hst as (conn' & Pm & E).
    unfold after_join, complete in E. rewrite usub_ok in E by lia. cbn [bind connected] in E.
    unfold add_addr in Pm. replace (member eqb a (connected s)) with false in Pm
      by (symmetry; now apply member_false).
    pose proof (Permutation_length Pm) as PL. cbn in PL, Hlen.
    destruct (Nat.eqb_spec (length conn') (n_cluster_nodes p - 1)); [lia|].
    injection E as <- <-.
    assert (P2 : Permutation (conn' ++ t) (connected s ++ a :: t)).
    { rewrite Pm. apply Permutation_middle. }
    destruct (IH _ _ _ Hrun) as (R1 & R2 & R3 & R4 & R5); cbn [connected stopped] in *; auto.
    + eapply Permutation_NoDup; [symmetry; exact P2|exact ND].
    + lia.
    + split; [exact R1|]. split; [now rewrite R2|]. auto.
Qed.

Lemma main_run : forall p self others es s' outs,
  n_cluster_nodes p = length (self :: others) -> 2 <= n_cluster_nodes p -> NoDup (self :: others) ->
  Permutation es (map NewMember others) ->
  run eqb p Main self init es s' outs ->
  exists l t pre,
    Permutation l (self :: others) /\ nth_error l 0 = Some self /\ numbered_by self l t
    /\ outs = pre ++ [map (fun a => SendSorted a l) (tl l) ++ [StartTraining t]] /\ concat pre = [].
Proof.
  intros p self others es s' outs Hn Hn2 ND Pes Hrun.
  apply Permutation_map_inv in Pes. destruct Pes as (joins & -> & Pj).
  assert (Hj : joins <> []).
  { intros ->. apply Permutation_length in Pj. cbn in *. lia. }
  destruct (exists_last Hj) as (js & a & ->). rewrite map_app in Hrun. cbn in Hrun.
  destruct (run_app_inv _ _ _ _ _ _ _ _ Hrun) as (s1 & o1 & o2 & R1 & R2 & ->).
  pose proof (Permutation_length Pj) as PL. rewrite app_length in PL. cbn in PL, Hn.
  inversion ND as [|? ? Hself ND']; subst.
  assert (NDj : NoDup (js ++ [a])) by (eapply Permutation_NoDup; eauto).
  destruct (main_prefix p self js ltac:(lia) _ _ _ R1) as (S1 & S2 & S3 & S4 & S5); cbn; auto.
  { now apply NoDup_remove_1 in NDj; rewrite app_nil_r in NDj. }
  { lia. }
  inversion R2 as [|? ? ? s2 out ? outs' Hst Hnil]; subst. inversion Hnil; subst. clear Hnil R2.
  apply step_join_inv in Hst; [|assumption]. destruct Hst as (conn' & Pm & E).
  cbn in S2.
  assert (Hna : ~ In a (connected s1)).
  { intros Hin. apply (Permutation_in _ S2) in Hin. apply NoDup_remove_2 in NDj. rewrite app_nil_r in NDj. auto. }
  unfold add_addr in Pm. replace (member eqb a (connected s1)) with false in Pm by (symmetry; now apply member_false).
  assert (Pc : Permutation conn' others).
  { rewrite Pm, S2, Pj. apply Permutation_cons_append. }
  unfold after_join, complete in E. rewrite usub_ok in E by lia. cbn [bind connected] in E.
  rewrite (Permutation_length Pc) in E.
  replace (length others =? n_cluster_nodes p - 1) with true in E by (symmetry; apply Nat.eqb_eq; lia).
  injection E as <- <-.
  exists (self :: conn'). eexists. exists o1. split; [now constructor|]. split; [reflexivity|]. split; [|split].
  2: { cbn [tl]. unfold start_training, sort_members. cbn [sorted_nodes connected]. reflexivity. }
  - rewrite S3. cbn [sorted_nodes init]. apply sort_numbered.
    + constructor; [|eapply Permutation_NoDup; [symmetry; exact Pc|exact ND']].
      intros Hin. apply Hself. eapply Permutation_in; eauto.
    + intros x. cbn. split.
      * intros Hx. split; [now right|]. intros ->. apply Hself. eapply Permutation_in; eauto.
      * intros [[->|Hx] Hne]; [congruence|exact Hx].
  - exact S5.
Qed.

(** *** Sub hosts *)
(** State of a sub after some joins [js] and possibly the list: nothing started yet. *)
Definition sub_inv (l : list addr) (js : list addr) (got : bool) (s : state addr) : Prop :=
  stopped s = false /\ Permutation (connected s) js /\ sorted_nodes s = []
  /\ addr_buffer s = (if got then l else []).

Lemma sub_prefix : forall p main self l others, n_cluster_nodes p = length others + 1 ->
  NoDup others ->
  forall es rest s s' outs js got,
  run eqb p (Sub main) self s es s' outs -> sub_inv l js got s ->
  Permutation (es ++ rest) (map NewMember (skipn 0 (filter (fun a => negb (member eqb a js)) others))
                            ++ (if got then [] else [SortedMembers l])) ->
  incl js others -> NoDup js -> rest <> [] ->
  concat outs = [] /\ exists js' got',
    sub_inv l js' got' s' /\ incl js' others /\ NoDup js'
    /\ Permutation rest (map NewMember (filter (fun a => negb (member eqb a js')) others)
                         ++ (if got' then [] else [SortedMembers l])).
Proof.
  intros p main self l others Hn NDo es; induction es as [|e t IH]; intros rest s s' outs js got Hrun Hinv Pm Hincl NDj Hrest.
  - inversion Hrun; subst. split; [reflexivity|]. exists js, got. cbn in Pm. auto.
  - inversion Hrun as [|? ? ? s1 out ? outs' Hst Hrun']; subst.
    destruct Hinv as (Hs & Pc & Hsn & Hb).
    cbn [skipn] in Pm.
    assert (Hin : In e (map NewMember (filter (fun a => negb (member eqb a js)) others)
                        ++ (if got then [] else [SortedMembers l]))).
    { eapply Permutation_in; [exact Pm|]. now left. }
    (* counting: what is missing is non-empty *)
    pose proof (Permutation_length Pm) as PL. cbn [app length] in PL. rewrite !app_length, map_length in PL.
    assert (Hlrest : length rest >= 1) by (destruct rest; [congruence|cbn; lia]).
    assert (Hfl : length (filter (fun a => negb (member eqb a js)) others) + length js = length others).
    { rewrite <- (filter_split_length _ (fun a => negb (member eqb a js)) others).
      f_equal. 
      assert (Permutation js (filter (fun x => negb (negb (member eqb x js))) others)) as Pjs.
      { apply NoDup_Permutation; [exact NDj|now apply NoDup_filter|].
        intros x. rewrite filter_In, negb_involutive, member_In. split; [auto|tauto]. }
      apply Permutation_length in Pjs. exact Pjs. }
    apply in_app_iff in Hin. destruct Hin as [Hin|Hin].
    + (* a join *)
      apply in_map_iff in Hin. destruct Hin as (a & <- & Ha). apply filter_In in Ha. destruct Ha as [Hao Haj].
      apply negb_true_iff, member_false in Haj.
      apply step_join_inv in Hst; [|assumption]. destruct Hst as (conn' & Pn & E).
      unfold add_addr in Pn.
      replace (member eqb a (connected s)) with false in Pn.
      2:{ symmetry. apply member_false. intros H. apply Haj. eapply Permutation_in; eauto. }
      assert (Pf : Permutation (filter (fun x => negb (member eqb x js)) others)
                               (a :: filter (fun x => negb (member eqb x (a :: js))) others)).
      { apply NoDup_Permutation.
        - now apply NoDup_filter.
        - constructor; [|now apply NoDup_filter]. rewrite filter_In. intros [_ Hf].
          apply negb_true_iff, member_false in Hf. apply Hf. now left.
        - intros x. cbn [In]. rewrite !filter_In, !negb_true_iff, !member_false. cbn [In].
          destruct (eqb_spec a x) as [->|Hne]; [tauto|]. intuition congruence. }
      pose proof (Permutation_length Pn) as PnL. cbn in PnL. rewrite (Permutation_length Pc) in PnL.
      pose proof (Permutation_length Pf) as PfL. cbn in PfL.
      unfold after_join, complete in E. rewrite usub_ok in E by lia. cbn [bind connected] in E.
      assert (Hcase : out = [] /\ s1 = {| connected := conn'; sorted_nodes := []; addr_buffer := (if got then l else []);
                                         stopped := false |}).
      { destruct (Nat.eqb_spec (length conn') (n_cluster_nodes p - 1)) as [Heq|Hneq].
        - (* everybody joined: the list must be missing *)
          destruct got.
          + exfalso. cbn [length] in PL. lia.
          + rewrite Hb in E. cbn [addr_buffer] in E. injection E as <- <-. rewrite Hsn, Hs. auto.
        - injection E as <- <-. rewrite Hsn, Hs, Hb. auto. }
      destruct Hcase as [-> ->].
      destruct (IH rest _ _ _ (a :: js) got Hrun') as (Hout & Hex).
      * split; [reflexivity|]. split; [cbn; now rewrite Pn, Pc|]. split; reflexivity.
      * cbn [skipn]. apply Permutation_cons_inv with (a := NewMember a).
        cbn [app] in Pm. rewrite Pm. rewrite Pf. cbn. reflexivity.
      * intros x [<-|Hx]; auto.
      * now constructor.
      * exact Hrest.
      * split; [exact Hout|exact Hex].
    + (* the list *)
      destruct got; [easy|]. destruct Hin as [<-|[]].
      apply step_sorted_inv in Hst; [|assumption]. rename Hst into E.
      unfold on_sorted, complete in E. rewrite usub_ok in E by lia. cbn [bind] in E.
      rewrite (Permutation_length Pc) in E. cbn [length] in PL.
      destruct (Nat.eqb_spec (length js) (n_cluster_nodes p - 1)); [lia|].
      injection E as <- <-.
      destruct (IH rest _ _ _ js true Hrun') as (Hout & Hex).
      * split; [exact Hs|]. split; [exact Pc|]. split; [exact Hsn|reflexivity].
      * cbn [skipn]. rewrite app_nil_r. apply Permutation_cons_inv with (a := SortedMembers l).
        cbn [app] in Pm. rewrite Pm. symmetry. apply Permutation_cons_append.
      * exact Hincl.
      * exact NDj.
      * exact Hrest.
      * split; [exact Hout|exact Hex].
Qed.

Lemma sub_run : forall p main self l others es s' outs,
  NoDup l -> length l = n_cluster_nodes p -> 2 <= n_cluster_nodes p -> In self l ->
  NoDup others -> (forall a, In a others <-> (In a l /\ a <> self)) ->
  Permutation es (map NewMember others ++ [SortedMembers l]) ->
  run eqb p (Sub main) self init es s' outs ->
  exists t pre, numbered_by self l t /\ outs = pre ++ [[StartTraining t]] /\ concat pre = [].
Proof.
  intros p main self l others es s' outs NDl Hl Hn2 Hself NDo Hoth Pes Hrun.
  assert (Hlen : n_cluster_nodes p = length others + 1).
  { assert (Permutation (self :: others) l) as P.
    { apply NoDup_Permutation; [|exact NDl|].
      - constructor; [rewrite Hoth; tauto|exact NDo].
      - intros x. cbn. rewrite Hoth. destruct (eqb_spec self x) as [->|]; intuition congruence. }
    apply Permutation_length in P. cbn in P. lia. }
  assert (Hne : es <> []).
  { intros ->. apply Permutation_length in Pes. rewrite app_length in Pes. cbn in Pes. lia. }
  destruct (exists_last Hne) as (es' & e & ->).
  destruct (run_app_inv _ _ _ _ _ _ _ _ Hrun) as (s1 & o1 & o2 & R1 & R2 & ->).
  assert (Ff : filter (fun a => negb (member eqb a [])) others = others).
  { clear. induction others as [|o ot IHo]; [reflexivity|]. cbn in *. now rewrite IHo. }
  destruct (sub_prefix p main self l others Hlen NDo es' [e] init s1 o1 [] false R1) as (Hc & js & got & Hinv & Hincl & NDj & Pe).
  { repeat split; constructor. }
  { cbn [skipn]. rewrite Ff. exact Pes. }
  { intros x []. }
  { constructor. }
  { discriminate. }
  inversion R2 as [|? ? ? s2 out ? outs' Hst Hnil]; subst. inversion Hnil; subst. clear Hnil R2.
  destruct Hinv as (Hs & Pc & Hsn & Hb).
  pose proof (Permutation_length Pe) as PL. rewrite app_length, map_length in PL. cbn [length] in PL.
  assert (Hfl : length (filter (fun a => negb (member eqb a js)) others) + length js = length others).
  { rewrite <- (filter_split_length _ (fun a => negb (member eqb a js)) others).
    f_equal.
    assert (Permutation js (filter (fun x => negb (negb (member eqb x js))) others)) as Pjs.
    { apply NoDup_Permutation; [exact NDj|now apply NoDup_filter|].
      intros x. rewrite filter_In, negb_involutive, member_In. split; [auto|tauto]. }
    apply Permutation_length in Pjs. exact Pjs. }
  destruct got.
  - (* the list came before the last join *)
    cbn [length] in PL. rewrite app_nil_r in Pe. apply Permutation_length_1_inv in Pe.
    destruct (filter (fun a => negb (member eqb a js)) others) as [|a [|b q]] eqn:Ef; cbn in Pe; try discriminate.
    injection Pe as <-.
    assert (Ha : In a others /\ ~ In a js).
    { assert (In a (filter (fun a => negb (member eqb a js)) others)) as H by (rewrite Ef; now left).
      apply filter_In in H. rewrite negb_true_iff, member_false in H. exact H. }
    apply step_join_inv in Hst; [|assumption]. destruct Hst as (conn' & Pn & E).
    unfold add_addr in Pn.
    replace (member eqb a (connected s1)) with false in Pn.
    2:{ symmetry. apply member_false. intros H. apply Ha. eapply Permutation_in; eauto. }
    pose proof (Permutation_length Pn) as PnL. cbn in PnL. rewrite (Permutation_length Pc) in PnL. cbn in Hfl.
    unfold after_join, complete in E. rewrite usub_ok in E by lia. cbn [bind connected] in E.
    replace (length conn' =? n_cluster_nodes p - 1) with true in E by (symmetry; apply Nat.eqb_eq; lia).
    cbn [addr_buffer] in E. rewrite Hb in E. destruct l as [|l0 lt] eqn:El; [cbn in Hl; lia|].
    injection E as <- <-. rewrite <- El in *.
    eexists. exists o1. split; [|split].
    2:{ unfold start_training, sort_members. cbn [sorted_nodes connected]. reflexivity. }
    + rewrite Hsn. apply sort_numbered; [exact NDl|].
      intros x. rewrite <- Hoth.
      assert (Permutation (a :: js) others) as P.
      { apply NoDup_Permutation; [constructor; [tauto|exact NDj]|exact NDo|].
        intros x'. cbn. split; [intros [<-|H]; [tauto|auto]|].
        intros H. destruct (in_dec (fun u v => match eqb_spec u v with ReflectT _ e => left e | ReflectF _ n => right n end) x' js)
          as [Hi|Hi]; [now right|]. left.
        assert (In x' (filter (fun a => negb (member eqb a js)) others)) as Hf.
        { apply filter_In. rewrite negb_true_iff, member_false. auto. }
        rewrite Ef in Hf. destruct Hf as [Hf|[]]. exact Hf. }
      split; intros H.
      * eapply Permutation_in; [exact P|]. eapply Permutation_in; [apply perm_skip; exact Pc|].
        eapply Permutation_in; [exact Pn|exact H].
      * eapply Permutation_in; [symmetry; exact Pn|]. eapply Permutation_in; [apply perm_skip; symmetry; exact Pc|].
        eapply Permutation_in; [symmetry; exact P|exact H].
    + exact Hc.
  - (* the list is the last event *)
    cbn [length] in PL.
    destruct (filter (fun a => negb (member eqb a js)) others) as [|a q] eqn:Ef; [|cbn in PL; lia].
    cbn in Pe. apply Permutation_length_1 in Pe. subst e.
    apply step_sorted_inv in Hst; [|assumption]. rename Hst into E.
    unfold on_sorted, complete in E. rewrite usub_ok in E by lia. cbn [bind] in E.
    rewrite (Permutation_length Pc) in E. cbn in Hfl.
    replace (length js =? n_cluster_nodes p - 1) with true in E by (symmetry; apply Nat.eqb_eq; lia).
    injection E as <- <-.
    eexists. exists o1. split; [|split].
    2:{ unfold start_training, sort_members. cbn [sorted_nodes connected]. reflexivity. }
    + rewrite Hsn. apply sort_numbered; [exact NDl|].
      intros x. rewrite <- Hoth. split; intros H.
      * apply Hincl. eapply Permutation_in; eauto.
      * destruct (in_dec (fun u v => match eqb_spec u v with ReflectT _ e => left e | ReflectF _ n => right n end) x js)
          as [Hi|Hi]; [eapply Permutation_in; [symmetry; exact Pc|exact Hi]|].
        assert (In x (filter (fun a => negb (member eqb a js)) others)) as Hf.
        { apply filter_In. rewrite negb_true_iff, member_false. auto. }
        rewrite Ef in Hf. destruct Hf.
    + exact Hc.
Qed.

(** *** The whole cluster *)
Lemma cluster_agreement : forall p main others es s' outs,
  n_cluster_nodes p = length (main :: others) -> 2 <= n_cluster_nodes p -> NoDup (main :: others) ->
  Permutation es (map NewMember others) -> run eqb p Main main init es s' outs ->
  exists l,
    Permutation l (main :: others)
    /\ (exists t pre, outs = pre ++ [map (fun a => SendSorted a l) (tl l) ++ [StartTraining t]] /\ concat pre = []
        /\ numbered_by main l t /\ get_own_idx t = Ok 0)
    /\ (forall a, In a others <-> In a (tl l))
    /\ forall self k es' s'' outs', nth_error l k = Some self -> self <> main ->
        Permutation es' (map NewMember (filter (fun a => negb (eqb self a)) (main :: others)) ++ [SortedMembers l]) ->
        run eqb p (Sub main) self init es' s'' outs' ->
        exists t pre, outs' = pre ++ [[StartTraining t]] /\ concat pre = []
          /\ numbered_by self l t /\ get_own_idx t = Ok k.
Proof.
  intros p main others es s' outs Hn Hn2 ND Pes Hrun.
  destruct (main_run _ _ _ _ _ _ Hn Hn2 ND Pes Hrun) as (l & t & pre & Pl & H0 & Hnum & -> & Hpre).
  assert (NDl : NoDup l) by (eapply Permutation_NoDup; [symmetry; exact Pl|exact ND]).
  exists l. split; [exact Pl|]. split; [|split].
  - exists t, pre. split; [reflexivity|]. split; [exact Hpre|]. split; [exact Hnum|].
    eapply own_idx. eapply numbered_all_but; eauto.
  - destruct l as [|m l']; [discriminate|]. cbn in H0. injection H0 as ->. apply Permutation_cons_inv in Pl.
    intros a. cbn. split; intros H; [eapply Permutation_in; [symmetry; exact Pl|exact H]|eapply Permutation_in; eauto].
  - intros self k es' s'' outs' Hk Hne Pes' Hrun'.
    edestruct (sub_run p main self l (filter (fun a => negb (eqb self a)) (main :: others)) es' s'' outs')
      as (t' & pre' & Hnum' & -> & Hpre'); eauto.
    + rewrite (Permutation_length Pl). symmetry. exact Hn.
    + eapply nth_error_In; eauto.
    + now apply NoDup_filter.
    + intros a. rewrite filter_In. split.
      * intros [Ha Hb]. split; [eapply Permutation_in; [symmetry; exact Pl|exact Ha]|].
        intros ->. destruct (eqb_spec self self); [discriminate|congruence].
      * intros [Ha Hb]. split; [eapply Permutation_in; eauto|]. destruct (eqb_spec self a); [congruence|reflexivity].
    + exists t', pre'. split; [reflexivity|]. split; [exact Hpre'|]. split; [exact Hnum'|].
      eapply own_idx. eapply numbered_all_but; eauto.
Qed.
End L.

Section Intro.
Context {addr : Type} (eqb : addr -> addr -> bool).
Lemma step_join_eq : forall p (r : role addr) self s a conn' x, stopped s = false ->
  Permutation conn' (add_addr eqb a (connected s)) ->
  after_join eqb p r self {| connected := conn'; sorted_nodes := sorted_nodes s; addr_buffer := addr_buffer s;
                             stopped := stopped s |} = x -> step eqb p r self s (NewMember a) x.
Proof. intros; subst; now apply step_join. Qed.
Lemma step_sorted_eq : forall p (r : role addr) self s l x, stopped s = false ->
  on_sorted eqb p l s = x -> step eqb p r self s (SortedMembers l) x.
Proof. intros; subst; now apply step_sorted. Qed.
Lemma step_left_eq : forall p (r : role addr) self s a x, stopped s = false ->
  Ok (on_left r s) = x -> step eqb p r self s (MemberLeft a) x.
Proof. intros; subst; now apply step_left. Qed.
End Intro.

Section Progress.
Context {addr : Type} (eqb : addr -> addr -> bool).
Lemma step_exists : forall p (r : role addr) self s e, 1 <= n_cluster_nodes p ->
  exists s' out, step eqb p r self s e (Ok (s', out)).
Proof.
  intros p r self s e Hn. destruct (stopped s) eqn:Hs; [eexists _, _; now apply step_stopped|].
  destruct e as [a|a|l].
  - assert (exists x, after_join eqb p r self {| connected := add_addr eqb a (connected s); sorted_nodes := sorted_nodes s;
        addr_buffer := addr_buffer s; stopped := stopped s |} = Ok x) as [[s' out] Hx].
    { unfold after_join, complete. rewrite usub_ok by lia. cbn [bind].
      destruct (length _ =? _); [|eauto]. destruct r; [eauto|]. cbn [addr_buffer]. destruct (addr_buffer s); eauto. }
    exists s', out. rewrite <- Hx. apply step_join; [exact Hs|reflexivity].
  - destruct (on_left r s) as [s' out] eqn:E. exists s', out. rewrite <- E. now apply step_left.
  - assert (exists x, on_sorted eqb p l s = Ok x) as [[s' out] Hx].
    { unfold on_sorted, complete. rewrite usub_ok by lia. cbn [bind]. destruct (length _ =? _); eauto. }
    exists s', out. rewrite <- Hx. now apply step_sorted.
Qed.

Lemma run_exists : forall p (r : role addr) self es s, 1 <= n_cluster_nodes p ->
  exists s' outs, run eqb p r self s es s' outs.
Proof.
  intros p r self es; induction es as [|e t IH]; intros s Hn; [eexists _, _; constructor|].
  destruct (step_exists p r self s e Hn) as (s1 & out & H1). destruct (IH s1 Hn) as (s' & outs & H2).
  eexists _, _. econstructor; eauto.
Qed.
End Progress.
