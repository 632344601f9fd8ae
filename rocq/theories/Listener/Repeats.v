(** The main host under repeated announcements and departures. *)
From Coq Require Import List Arith Lia Bool Permutation.
From Verif.Base Require Import Res Params Assoc ListX.
From Verif.Topology Require Import Model Spec Proofs.
From Verif.Listener Require Import Model Spec Proofs.
Import ListNotations.

Section R.
Context {addr : Type} (eqb : addr -> addr -> bool).
Hypothesis eqb_spec : forall a b, reflect (a = b) (eqb a b).

Lemma distinct_length : forall l c, NoDup c -> (forall a : addr, In a c <-> In a l) -> length c = distinct eqb l.
Proof.
  assert (G : forall l, exists c, NoDup c /\ (forall a : addr, In a c <-> In a l) /\ length c = distinct eqb l).
  { induction l as [|a t (c & ND & Hc & L)]; [exists []; cbn; repeat split; auto; constructor|].
    cbn [distinct]. destruct (existsb (eqb a) t) eqn:E.
    - exists c. split; [exact ND|]. split; [|exact L]. intros b. rewrite Hc. cbn. split; [tauto|].
      intros [<-|H]; [|exact H]. apply existsb_exists in E. destruct E as (x & Hx & E). destruct (eqb_spec a x); [now subst|discriminate].
    - exists (a :: c). split; [|split].
      + constructor; [|exact ND]. rewrite Hc. intros Hin. assert (existsb (eqb a) t = true); [|congruence].
        apply existsb_exists. exists a. split; [exact Hin|]. destruct (eqb_spec a a); congruence.
      + intros b. cbn. now rewrite Hc.
      + cbn. now rewrite L. }
  intros l c ND Hc. destruct (G l) as (c' & ND' & Hc' & <-).
  apply Permutation_length. apply NoDup_Permutation; auto. intros a. now rewrite Hc, Hc'.
Qed.

Lemma add_addr_NoDup : forall a l, NoDup l -> NoDup (add_addr eqb a l).
Proof.
  intros a l H. unfold add_addr. destruct (member eqb a l) eqn:E; [exact H|]. constructor; [|exact H].
  now apply (member_false eqb eqb_spec).
Qed.

Lemma add_addr_In : forall a b l, In b (add_addr eqb a l) <-> b = a \/ In b l.
Proof.
  intros a b l. unfold add_addr. destruct (member eqb a l) eqn:E.
  - apply (member_In eqb eqb_spec) in E. split; [tauto|]. intros [->|H]; assumption.
  - cbn. intuition.
Qed.

(** The table after sorting: the new entries hide the old ones. *)
Lemma sort_loop_lookup : forall l k conn acc i, NoDup l ->
  lookup Nat.eqb i (sort_loop eqb k l conn acc)
  = match nth_error l (i - k) with
    | Some a => if (k <=? i) && member eqb a conn then Some a else lookup Nat.eqb i acc
    | None => lookup Nat.eqb i acc
    end.
Proof.
  induction l as [|a t IH]; intros k conn acc i ND; cbn [sort_loop].
  - destruct (i - k); reflexivity.
  - inversion ND as [|? ? Hni ND']; subst.
    destruct (Nat.lt_trichotomy i k) as [Hlt|[->|Hgt]].
    + assert (E0 : (k <=? i) = false) by (apply Nat.leb_gt; lia).
      assert (E1 : (S k <=? i) = false) by (apply Nat.leb_gt; lia).
      replace (i - k) with 0 by lia. cbn [nth_error]. rewrite E0. cbn [andb].
      destruct (member eqb a conn); rewrite IH by exact ND'; rewrite E1; cbn [andb];
        (rewrite ?lookup_insert_other by (auto using Nat.eqb_spec; lia)); destruct (nth_error t (i - S k)); reflexivity.
    + rewrite Nat.sub_diag, Nat.leb_refl. cbn [nth_error andb].
      assert (E1 : (S k <=? k) = false) by (apply Nat.leb_gt; lia).
      destruct (member eqb a conn); rewrite IH by exact ND'; rewrite E1; cbn [andb];
        (rewrite ?lookup_insert_same by exact Nat.eqb_spec); destruct (nth_error t (k - S k)); reflexivity.
    + replace (i - k) with (S (i - S k)) by lia. cbn [nth_error].
      assert (E0 : (k <=? i) = true) by (apply Nat.leb_le; lia).
      assert (E1 : (S k <=? i) = true) by (apply Nat.leb_le; lia).
      destruct (member eqb a conn); rewrite IH by exact ND'; rewrite E0, E1; cbn [andb];
        (rewrite ?lookup_insert_other by (auto using Nat.eqb_spec; lia));
        destruct (nth_error t (i - S k)) as [b|] eqn:En; try reflexivity.
      rewrite (member_remove_other eqb eqb_spec); [reflexivity|]. intros ->. apply Hni. eapply nth_error_In. exact En.
Qed.

Lemma sort_loop_keys : forall l k conn acc, NoDup (keys acc) ->
  NoDup (keys (sort_loop eqb k l conn acc))
  /\ (forall i, In i (keys (sort_loop eqb k l conn acc)) -> In i (keys acc) \/
        (k <= i < k + length l /\ exists a, nth_error l (i - k) = Some a /\ In a conn)).
Proof.
  induction l as [|a t IH]; intros k conn acc ND; cbn [sort_loop].
  - split; [exact ND|]. tauto.
  - destruct (member eqb a conn) eqn:Em.
    + destruct (IH (S k) (remove_addr eqb a conn) (insert Nat.eqb k a acc)) as [H1 H2].
      { apply NoDup_keys_insert; [exact Nat.eqb_spec|exact ND]. }
      split; [exact H1|]. intros i Hi. destruct (H2 i Hi) as [Hk|(Hr & b & Hb & Hin)].
      * destruct (in_dec Nat.eq_dec k (keys acc)) as [Hin|Hout].
        -- rewrite keys_insert in Hk by (auto using Nat.eqb_spec). now left.
        -- rewrite keys_insert_new in Hk by (auto using Nat.eqb_spec). apply in_app_iff in Hk.
           destruct Hk as [Hk|[<-|[]]]; [now left|]. right. split; [cbn; lia|]. exists a. rewrite Nat.sub_diag. cbn.
           split; [reflexivity|]. now apply (member_In eqb eqb_spec).
      * right. split; [cbn; lia|]. exists b. replace (i - k) with (S (i - S k)) by lia. cbn. split; [exact Hb|].
        unfold remove_addr in Hin. apply filter_In in Hin. tauto.
    + destruct (IH (S k) conn acc ND) as [H1 H2]. split; [exact H1|]. intros i Hi.
      destruct (H2 i Hi) as [Hk|(Hr & b & Hb & Hin)]; [now left|]. right. split; [cbn; lia|]. exists b.
      replace (i - k) with (S (i - S k)) by lia. auto.
Qed.

Lemma joined_app : forall (a b : list (event addr)), joined (a ++ b) = joined a ++ joined b.
Proof. intros a b. unfold joined. apply flat_map_app. Qed.

(** The state of the main host after the events [pre]. *)
Definition main_inv (p : params) (self : addr) (pre : list (event addr)) (s : state addr) : Prop :=
  stopped s = false /\ NoDup (connected s) /\ (forall a, In a (connected s) <-> In a (joined pre))
  /\ NoDup (keys (sorted_nodes s)) /\ (forall i, In i (keys (sorted_nodes s)) -> 1 <= i <= n_cluster_nodes p - 1).

(** What a start of the training hands over after the events [es]. *)
Definition complete_table (p : params) (self : addr) (es : list (event addr)) (t : cluster_nodes addr) : Prop :=
  exists c, length c = n_cluster_nodes p - 1 /\ NoDup (self :: c) /\ (forall a, In a c <-> In a (joined es))
            /\ numbered_by self (self :: c) t.

Lemma main_step : forall p self pre s e s' out, 1 <= n_cluster_nodes p ->
  main_inv p self pre s -> member_event e -> ~ In self (joined (pre ++ [e])) ->
  step eqb p Main self s e (Ok (s', out)) ->
  main_inv p self (pre ++ [e]) s'
  /\ length (filter is_start out) = (if all_announced eqb (n_cluster_nodes p - 1) (pre ++ [e]) (length pre) then 1 else 0)
  /\ (forall t, In (StartTraining t) out -> complete_table p self (pre ++ [e]) t).
Proof.
  intros p self pre s e s' out HN (Hs & ND & Hc & NDk & Hk) He Hself Hst.
  assert (En : nth_error (pre ++ [e]) (length pre) = Some e).
  { rewrite nth_error_app2 by lia. now rewrite Nat.sub_diag. }
  assert (Ef : firstn (S (length pre)) (pre ++ [e]) = pre ++ [e]).
  { apply firstn_all2. rewrite app_length. cbn. lia. }
  unfold all_announced. rewrite En, Ef. rewrite joined_app in *.
  destruct e as [a|a|l]; [| |easy].
  - apply step_join_inv in Hst; [|exact Hs]. destruct Hst as (conn' & Pm & E).
    assert (ND' : NoDup conn') by (eapply Permutation_NoDup; [symmetry; exact Pm|now apply add_addr_NoDup]).
    assert (Hc' : forall b, In b conn' <-> In b (joined pre ++ joined [NewMember a])).
    { intros b. rewrite in_app_iff. cbn. split.
      - intros H. apply (Permutation_in _ Pm) in H. apply add_addr_In in H. rewrite Hc in H. intuition.
      - intros H. apply (Permutation_in _ (Permutation_sym Pm)). apply add_addr_In. rewrite Hc. intuition. }
    rewrite <- (distinct_length _ conn' ND' Hc').
    unfold after_join, complete in E. rewrite usub_ok in E by lia. cbn [bind connected] in E.
    destruct (Nat.eqb_spec (length conn') (n_cluster_nodes p - 1)) as [El|El].
    + injection E as <- <-. unfold main_inv. cbn [stopped connected sorted_nodes sort_members].
      destruct (sort_loop_keys (self :: conn') 0 conn' (sorted_nodes s) NDk) as [K1 K2].
      assert (K3 : forall i, In i (keys (sort_loop eqb 0 (self :: conn') conn' (sorted_nodes s))) -> 1 <= i <= n_cluster_nodes p - 1).
      { intros i Hi. destruct (K2 i Hi) as [H|(Hr & b & Hb & Hin)]; [now apply Hk|].
        destruct i as [|i]; [|cbn [length] in Hr; lia]. cbn in Hb. injection Hb as <-. exfalso. apply Hself. now apply Hc'. }
      split; [|split].
      * split; [exact Hs|]. split; [exact ND'|]. split; [rewrite joined_app; exact Hc'|]. split; [exact K1|exact K3].
      * rewrite filter_app, app_length. cbn [filter is_start start_training length].
        replace (filter is_start (map (fun b => SendSorted b (self :: conn')) conn')) with (@nil (output addr)); [reflexivity|].
        generalize (self :: conn'). intros m. clear. induction conn' as [|b u IH]; [reflexivity|exact IH].
      * intros t Ht. apply in_app_iff in Ht. destruct Ht as [Ht|[Ht|[]]].
        { apply in_map_iff in Ht. destruct Ht as (b & Hb & _). discriminate. }
        unfold start_training in Ht. cbn [sorted_nodes] in Ht. injection Ht as <-.
        assert (NDs : NoDup (self :: conn')) by (constructor; [intros H; apply Hself; now apply Hc'|exact ND']).
        exists conn'. split; [exact El|]. split; [exact NDs|]. split; [rewrite joined_app; exact Hc'|].
        split; [exact K1|]. intros i h.
        assert (EL : In (i, h) (sort_loop eqb 0 (self :: conn') conn' (sorted_nodes s))
                     <-> lookup Nat.eqb i (sort_loop eqb 0 (self :: conn') conn' (sorted_nodes s)) = Some h).
        { split; [apply (In_lookup Nat.eqb Nat.eqb_spec); exact K1|apply (lookup_In Nat.eqb Nat.eqb_spec)]. }
        rewrite EL, sort_loop_lookup by exact NDs. rewrite Nat.sub_0_r. cbn [Nat.leb andb].
        destruct i as [|i].
        -- cbn [nth_error].
           assert (Em : member eqb self conn' = false).
           { apply (member_false eqb eqb_spec). intros H. apply Hself. now apply Hc'. }
           rewrite Em. split; [|intros [H1 H2]; congruence].
           intros H. exfalso. apply (lookup_In Nat.eqb Nat.eqb_spec) in H. apply (in_map fst) in H. cbn in H. apply Hk in H. lia.
        -- cbn [nth_error]. destruct (nth_error conn' i) as [b|] eqn:Eb.
           ++ assert (Hb : In b conn') by (eapply nth_error_In; eauto).
              rewrite (proj2 (member_In eqb eqb_spec b conn') Hb). split; [|tauto].
              intros H. split; [exact H|]. injection H as ->. intros ->. apply Hself. now apply Hc'.
           ++ split; [|intros [H _]; discriminate]. intros H. exfalso.
              apply (lookup_In Nat.eqb Nat.eqb_spec) in H. apply (in_map fst) in H. cbn in H. apply Hk in H.
              apply nth_error_None in Eb. lia.
    + injection E as <- <-. unfold main_inv. cbn [stopped connected sorted_nodes].
      split; [split; [exact Hs|]; split; [exact ND'|]; split; [rewrite joined_app; exact Hc'|]; split; [exact NDk|exact Hk]|].
      split; [reflexivity|]. intros t [].
  - inversion Hst; subst; [|congruence]. split; [|split].
    + unfold main_inv. rewrite joined_app. cbn. rewrite app_nil_r. auto.
    + reflexivity.
    + intros t [].
Qed.

Lemma main_runs : forall p self es s s' outs pre, 1 <= n_cluster_nodes p ->
  run eqb p Main self s es s' outs -> main_inv p self pre s -> Forall member_event es -> ~ In self (joined (pre ++ es)) ->
  starts outs = length (filter (all_announced eqb (n_cluster_nodes p - 1) (pre ++ es)) (seq (length pre) (length es)))
  /\ (forall k out t, nth_error outs k = Some out -> In (StartTraining t) out ->
        complete_table p self (pre ++ firstn (S k) es) t).
Proof.
  intros p self es s s' outs pre HN Hrun. revert pre. induction Hrun as [s|s e es s1 out s'' outs Hst Hrun IH]; intros pre HI HF Hself.
  - split; [reflexivity|]. intros [|k]; discriminate.
  - inversion HF as [|? ? He HF']; subst.
    assert (Hself' : ~ In self (joined (pre ++ [e]))).
    { intros H. apply Hself. replace (pre ++ e :: es) with ((pre ++ [e]) ++ es) by (now rewrite <- app_assoc).
      rewrite joined_app. apply in_app_iff. now left. }
    destruct (main_step p self pre s e s1 out HN HI He Hself' Hst) as (HI' & Hcount & Htab).
    assert (EA : (pre ++ [e]) ++ es = pre ++ e :: es) by (now rewrite <- app_assoc).
    destruct (IH (pre ++ [e]) HI' HF') as [IH1 IH2].
    { rewrite EA. exact Hself. }
    rewrite EA in IH1. split.
    + unfold starts in *. cbn [concat]. rewrite filter_app, app_length, IH1, Hcount. cbn [length seq].
      rewrite app_length. cbn [length]. rewrite Nat.add_1_r. cbn [filter].
      assert (EQ : all_announced eqb (n_cluster_nodes p - 1) (pre ++ e :: es) (length pre)
                   = all_announced eqb (n_cluster_nodes p - 1) (pre ++ [e]) (length pre)).
      { unfold all_announced. rewrite <- EA. rewrite nth_error_app1 by (rewrite app_length; cbn; lia).
        rewrite firstn_app. rewrite app_length. cbn [length].
        replace (S (length pre) - (length pre + 1)) with 0 by lia. cbn [firstn]. now rewrite app_nil_r. }
      rewrite EQ. destruct (all_announced eqb (n_cluster_nodes p - 1) (pre ++ [e]) (length pre)); reflexivity.
    + intros [|k] o t Ho Ht.
      * cbn in Ho. injection Ho as <-. cbn [firstn]. now apply Htab.
      * cbn in Ho. cbn [firstn]. specialize (IH2 k o t Ho Ht). rewrite <- app_assoc in IH2. exact IH2.
Qed.

Lemma main_inv_init : forall p self, main_inv p self [] init.
Proof. intros p self. unfold main_inv. cbn. repeat split; auto; try constructor; tauto. Qed.
End R.
