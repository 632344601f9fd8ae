From Coq Require Import List Arith Bool Lia Permutation.
From Verif.Base Require Import ListX.
From Verif.Protocol Require Import Model Exchange ExchangeProofs Ring.
Import ListNotations.

Lemma NoDup_app_l : forall A (l r : list A), NoDup (l ++ r) -> NoDup l.
Proof. intros A l. induction l as [|a l IH]; intros r H; [constructor|]. inversion H; subst. constructor; [rewrite in_app_iff in *; tauto|eauto]. Qed.

Section R.
Context {T : Type} (n : nat) (contribution : nat -> T) (Hn : 2 <= n).

Definition prev (p : nat) : nat := (p + (n - 1)) mod n.
Definition msg (p : nat) : message T := (p, contribution p).
(** The [j]-th contribution sent by [p], counted from 0. *)
Definition origin (p j : nat) : nat := (p + (n - j)) mod n.

Lemma next_lt : forall p, next n p < n.
Proof. intros. unfold next. apply Nat.mod_upper_bound. lia. Qed.
Lemma prev_lt : forall p, prev p < n.
Proof. intros. unfold prev. apply Nat.mod_upper_bound. lia. Qed.
Lemma next_cases : forall p, p < n -> (p + 1 < n /\ next n p = p + 1) \/ (p = n - 1 /\ next n p = 0).
Proof.
  intros p Hp. unfold next. destruct (le_lt_dec n (p + 1)).
  - right. split; [lia|]. replace (p + 1) with n by lia. apply Nat.mod_same. lia.
  - left. split; [lia|]. apply Nat.mod_small. lia.
Qed.
Lemma prev_cases : forall p, p < n -> (1 <= p /\ prev p = p - 1) \/ (p = 0 /\ prev p = n - 1).
Proof.
  intros p Hp. unfold prev. destruct p as [|p].
  - right. split; [lia|]. cbn [Nat.add]. apply Nat.mod_small. lia.
  - left. split; [lia|]. replace (S p + (n - 1)) with (p + 1 * n) by lia. rewrite Nat.mod_add by lia. rewrite Nat.mod_small by lia. lia.
Qed.
Lemma prev_next : forall p, p < n -> prev (next n p) = p.
Proof. intros p Hp. pose proof (next_lt p) as H. destruct (next_cases p Hp) as [(A & E)|(A & E)]; destruct (prev_cases _ H) as [(B & F)|(B & F)]; lia. Qed.
Lemma next_prev : forall p, p < n -> next n (prev p) = p.
Proof. intros p Hp. pose proof (prev_lt p) as H. destruct (prev_cases p Hp) as [(A & E)|(A & E)]; destruct (next_cases _ H) as [(B & F)|(B & F)]; lia. Qed.
Lemma next_ne : forall p, p < n -> next n p <> p.
Proof. intros p Hp. destruct (next_cases p Hp) as [(A & E)|(A & E)]; lia. Qed.
Lemma prev_eq_next : forall p q, p < n -> q < n -> prev q = p -> q = next n p.
Proof. intros p q Hp Hq <-. symmetry. now apply next_prev. Qed.

Lemma origin_cases : forall p j, p < n -> j <= n -> (j <= p /\ origin p j = p - j) \/ (p < j /\ origin p j = p + n - j).
Proof.
  intros p j Hp Hj. unfold origin. destruct (le_lt_dec j p).
  - left. split; [lia|]. replace (p + (n - j)) with ((p - j) + 1 * n) by lia. rewrite Nat.mod_add by lia. apply Nat.mod_small. lia.
  - right. split; [lia|]. rewrite Nat.mod_small by lia. lia.
Qed.
Lemma origin_0 : forall p, p < n -> origin p 0 = p.
Proof. intros p Hp. destruct (origin_cases p 0 Hp ltac:(lia)) as [(A & E)|(A & E)]; lia. Qed.
Lemma origin_next : forall p j, p < n -> j < n -> origin (next n p) (S j) = origin p j.
Proof.
  intros p j Hp Hj. pose proof (next_lt p) as H.
  destruct (next_cases p Hp) as [(A & E)|(A & E)]; destruct (origin_cases p j Hp ltac:(lia)) as [(B & F)|(B & F)]; destruct (origin_cases (next n p) (S j) H ltac:(lia)) as [(C & G)|(C & G)]; lia.
Qed.
Lemma origin_lt : forall p j, origin p j < n.
Proof. intros. unfold origin. apply Nat.mod_upper_bound. lia. Qed.

(** Number of contributions sent by a node. *)
Definition sends (d : node T) : nat := if begun d then Nat.min (S (length (taken d))) (n - 1) else 0.
Definition sent_list (p : nat) (d : node T) : list (message T) := map (fun j => msg (origin p j)) (seq 0 (sends d)).

Definition rinv (w : rworld T) : Prop := forall p, p < n ->
  let d := node_of w p in
  (begun d = false -> rproto d = {| n_total := 0; n_received := 0; n_sent := 0; buffer := buffer (rproto d) |} /\ taken d = [] /\ finished d = 0) /\
  (begun d = true -> rproto d = {| n_total := n - 1; n_received := length (taken d); n_sent := sends d; buffer := [] |}
     /\ finished d = (if length (taken d) =? n - 1 then 1 else 0)) /\
  taken d ++ buffer (rproto d) ++ mailbox d ++ transit w p = sent_list (prev p) (node_of w (prev p)).

Lemma sends_le : forall d, sends d <= n - 1.
Proof. intros d. unfold sends. destruct (begun d); lia. Qed.

Lemma rinv_initial : rinv rinitial.
Proof. intros p Hp. cbn. ssplit; auto. discriminate. Qed.

Lemma put_node_same : forall (w : rworld T) p e, node_of (put n w p e) p = fst e.
Proof. intros. unfold put. cbn. apply set_same. Qed.
Lemma put_node_other : forall (w : rworld T) p e q, q <> p -> node_of (put n w p e) q = node_of w q.
Proof. intros. unfold put. cbn. now apply set_other. Qed.
Lemma put_transit_next : forall (w : rworld T) p e, transit (put n w p e) (next n p) = transit w (next n p) ++ snd e.
Proof. intros. unfold put. cbn. apply set_same. Qed.
Lemma put_transit_other : forall (w : rworld T) p e q, q <> next n p -> transit (put n w p e) q = transit w q.
Proof. intros. unfold put. cbn. now apply set_other. Qed.

(** A step of [p] that appends [l] to the transit of its successor. *)
Lemma rinv_put : forall (w : rworld T) p d' l, p < n -> rinv w ->
  (begun d' = false -> rproto d' = {| n_total := 0; n_received := 0; n_sent := 0; buffer := buffer (rproto d') |} /\ taken d' = [] /\ finished d' = 0) ->
  (begun d' = true -> rproto d' = {| n_total := n - 1; n_received := length (taken d'); n_sent := sends d'; buffer := [] |}
     /\ finished d' = (if length (taken d') =? n - 1 then 1 else 0)) ->
  taken d' ++ buffer (rproto d') ++ mailbox d' = taken (node_of w p) ++ buffer (rproto (node_of w p)) ++ mailbox (node_of w p) ->
  sent_list p d' = sent_list p (node_of w p) ++ l ->
  rinv (put n w p (d', l)).
Proof.
  intros w p d' l Hp HI H1 H2 H3 H4 q Hq. cbv zeta. pose proof (next_ne p Hp) as Hnn.
  destruct (Nat.eq_dec q p) as [->|Hqp].
  - rewrite put_node_same. cbn [fst]. destruct (HI p Hp) as (_ & _ & P3). ssplit; [exact H1|exact H2|].
    rewrite put_transit_other by auto. rewrite put_node_other.
    + rewrite <- P3. rewrite !app_assoc. f_equal. rewrite <- !app_assoc. exact H3.
    + intros E. apply Hnn. rewrite <- E at 1. now apply next_prev.
  - rewrite put_node_other by exact Hqp. destruct (HI q Hq) as (Q1 & Q2 & Q3). ssplit; [exact Q1|exact Q2|].
    destruct (Nat.eq_dec q (next n p)) as [->|Hqn].
    + rewrite put_transit_next. cbn [snd]. rewrite prev_next by exact Hp. rewrite put_node_same. cbn [fst]. rewrite H4.
      rewrite prev_next in Q3 by exact Hp. rewrite <- Q3, <- !app_assoc. reflexivity.
    + rewrite put_transit_other by exact Hqn. rewrite put_node_other; [exact Q3|]. intros E. apply Hqn. apply prev_eq_next; auto.
Qed.

Lemma rinv_step : forall (allowed : node T -> Prop) w w', (forall w d p, rinv w -> p < n -> d = node_of w p -> begun d = false -> allowed d -> not_overtaken d) ->
  rinv w -> rstep n contribution allowed w w' -> rinv w'.
Proof.
  intros allowed w w' Hal HI Hs. destruct Hs as [w p Hp Hb Ha|w p m r Hp Ht|w p m r Hp Hm].
  - destruct (HI p Hp) as (P1 & _ & P3). destruct (P1 Hb) as (Epr & Etk & Efin).
    assert (Hno : not_overtaken (node_of w p)) by (eapply Hal; eauto).
    unfold begin_ring. cbn [resolve_buffer start buffer n_total n_received n_sent]. cbv zeta. apply rinv_put; auto; cbn [begun rproto taken finished mailbox buffer sent n_total n_received n_sent].
    + discriminate.
    + intros _. rewrite Etk, Efin, Epr. cbn [length n_received n_sent]. split.
      * unfold sent. cbn [n_total n_received n_sent buffer]. f_equal. unfold sends. cbn [begun taken length]. lia.
      * destruct (Nat.eqb_spec 0 (n - 1)); [lia|reflexivity].
    + destruct Hno as [E|E]; rewrite E; cbn [app]; rewrite ?app_nil_r; reflexivity.
    + unfold sent_list, sends. rewrite Hb. cbn [begun taken]. rewrite Etk. cbn [length]. rewrite Nat.min_l by lia. cbn [seq map app]. rewrite origin_0 by exact Hp. reflexivity.
  - intros q Hq. cbv zeta. cbn [node_of transit]. set (d' := pop (node_of w p) (mailbox (node_of w p) ++ [m])).
    assert (Es : forall q, sent_list q (set (node_of w) p d' q) = sent_list q (node_of w q)).
    { intros z. destruct (Nat.eq_dec z p) as [->|Hne]; [rewrite set_same; reflexivity|now rewrite set_other]. }
    rewrite Es. destruct (Nat.eq_dec q p) as [->|Hne].
    + rewrite !set_same. destruct (HI p Hp) as (P1 & P2 & P3). unfold d', pop. cbn [begun rproto taken finished mailbox]. ssplit; [exact P1|exact P2|].
      rewrite <- P3, Ht. now rewrite <- !app_assoc.
    + rewrite !set_other by exact Hne. exact (HI q Hq).
  - destruct (HI p Hp) as (P1 & P2 & P3). set (d := node_of w p) in *. unfold take_in.
    destruct (begun d) eqn:Hb.
    + destruct (P2 eq_refl) as (Epr & Efin). rewrite Epr in P3. cbn [buffer app] in P3. rewrite Hm in P3.
      (* the head of the mailbox is the next contribution *)
      set (k := length (taken d)) in *.
      assert (Hk : nth_error (sent_list (prev p) (node_of w (prev p))) k = Some m).
      { rewrite <- P3. rewrite nth_error_app2 by (unfold k; lia). unfold k. rewrite Nat.sub_diag. reflexivity. }
      unfold sent_list in Hk. rewrite nth_error_map in Hk.
      assert (Hks : k < sends (node_of w (prev p))).
      { destruct (nth_error (seq 0 (sends (node_of w (prev p)))) k) eqn:E; [|discriminate]. 
        assert (X : nth_error (seq 0 (sends (node_of w (prev p)))) k <> None) by congruence. apply nth_error_Some in X. now rewrite seq_length in X. }
      rewrite nth_error_seq in Hk by exact Hks. cbn [option_map Nat.add] in Hk. injection Hk as Em.
      pose proof (sends_le (node_of w (prev p))) as Hle.
      assert (Hsd : sends d = S k) by (unfold sends; rewrite Hb; fold k; lia).
      assert (Emo : m = msg (origin p (S k))).
      { rewrite <- Em. f_equal. rewrite <- (next_prev p Hp) at 2. symmetry. apply origin_next; [apply prev_lt|lia]. }
      assert (Erun : is_running (rproto (pop d r)) = true).
      { unfold pop. cbn [rproto]. rewrite Epr. unfold is_running. cbn [n_total n_received n_sent]. apply orb_true_iff. left. apply Nat.ltb_lt. lia. }
      unfold received. rewrite Erun. cbn [pop rproto taken finished mailbox begun].
      rewrite Epr. cbn [n_total n_received n_sent buffer]. unfold is_running at 1. cbn [n_total n_received n_sent]. rewrite Hsd.
      destruct (Nat.ltb_spec (S k) (n - 1)) as [L|L]; cbn [orb].
      * apply rinv_put; auto; cbn [begun rproto taken finished mailbox buffer sent n_total n_received n_sent pop].
        -- congruence.
        -- intros _. rewrite app_length. cbn [length]. fold k. split.
           ++ unfold sent. cbn [n_total n_received n_sent buffer]. f_equal; [lia|]. unfold sends. cbn [begun taken]. rewrite Hb, app_length. cbn [length]. fold k. lia.
           ++ rewrite Efin. destruct (Nat.eqb_spec k (n - 1)); destruct (Nat.eqb_spec (k + 1) (n - 1)); try lia; reflexivity.
        -- fold d. rewrite Epr, Hm. cbn [buffer app]. now rewrite <- app_assoc.
        -- unfold sent_list. fold d. rewrite Hsd. unfold sends. cbn [begun taken]. rewrite Hb, app_length. cbn [length]. fold k.
           replace (Nat.min (S (k + 1)) (n - 1)) with (S k + 1) by lia. rewrite seq_app, map_app. cbn [seq map Nat.add]. now rewrite <- Emo.
      * apply rinv_put; auto; cbn [begun rproto taken finished mailbox buffer sent n_total n_received n_sent pop].
        -- congruence.
        -- intros _. rewrite app_length. cbn [length]. fold k. split.
           ++ f_equal; [lia|]. unfold sends. cbn [begun taken]. rewrite Hb, app_length. cbn [length]. fold k. lia.
           ++ rewrite Efin. destruct (Nat.eqb_spec k (n - 1)); destruct (Nat.eqb_spec (k + 1) (n - 1)); try lia; reflexivity.
        -- fold d. rewrite Epr, Hm. cbn [buffer app]. now rewrite <- app_assoc.
        -- unfold sent_list. fold d. rewrite Hsd. unfold sends. cbn [begun taken]. rewrite Hb, app_length. cbn [length]. fold k.
           replace (Nat.min (S (k + 1)) (n - 1)) with (S k) by lia. now rewrite app_nil_r.
    + destruct (P1 eq_refl) as (Epr & Etk & Efin).
      assert (Erun : is_running (rproto (pop d r)) = false) by (unfold pop; cbn [rproto]; rewrite Epr; reflexivity).
      unfold received. rewrite Erun. cbn [pop rproto taken finished mailbox begun].
      apply rinv_put; auto; cbn [begun rproto taken finished mailbox buffer n_total n_received n_sent].
      * intros _. rewrite Epr. cbn [n_total n_received n_sent buffer]. auto.
      * congruence.
      * fold d. rewrite Hm, <- !app_assoc. reflexivity.
      * unfold sent_list, sends. fold d. cbn [begun taken]. rewrite Hb. reflexivity.
Qed.

Lemma rinv_reachable : forall w, rreachable n contribution not_overtaken w -> rinv w.
Proof. intros w. induction 1; [apply rinv_initial|]. eapply rinv_step; eauto. Qed.

Lemma nothing_early_ok : forall w, rreachable n contribution nothing_early w -> rreachable n contribution not_overtaken w.
Proof.
  induction 1 as [|w w' _ IH Hs]; [constructor|]. eapply r_after; [exact IH|]. destruct Hs as [w p Hp Hb Ha|w p m r Hp Ht|w p m r Hp Hm].
  - apply begins; auto. now left.
  - apply arrives; auto.
  - now apply takes_in.
Qed.

(** With two hosts there is only one contribution per receiver, so nothing can be overtaken. *)
Lemma two_hosts : n = 2 -> forall w, rreachable n contribution anytime w -> rinv w.
Proof.
  intros E2 w. induction 1; [apply rinv_initial|]. apply (rinv_step anytime w w'); [|assumption|assumption].
  intros v d p HI Hp -> _ _. destruct (HI p Hp) as (_ & _ & P3). apply (f_equal (@length _)) in P3. rewrite !app_length in P3.
  unfold sent_list in P3. rewrite map_length, seq_length in P3. pose proof (sends_le (node_of v (prev p))).
  unfold not_overtaken. destruct (buffer (rproto (node_of v p))); [now left|]. destruct (mailbox (node_of v p)); [now right|]. cbn [length] in P3. lia.
Qed.

Lemma taken_prefix : forall (w : rworld T) p, rinv w -> p < n -> taken (node_of w p) = map (fun j => msg (origin p (S j))) (seq 0 (length (taken (node_of w p)))) /\ length (taken (node_of w p)) <= n - 1.
Proof.
  intros w p HI Hp. destruct (HI p Hp) as (_ & _ & P3). pose proof (sends_le (node_of w (prev p))) as Hle.
  assert (L : length (taken (node_of w p)) <= sends (node_of w (prev p))).
  { apply (f_equal (@length _)) in P3. rewrite app_length in P3. unfold sent_list in P3. rewrite map_length, seq_length in P3. lia. }
  split; [|lia]. apply (f_equal (firstn (length (taken (node_of w p))))) in P3. rewrite firstn_app, firstn_all, Nat.sub_diag in P3. cbn [firstn] in P3. rewrite app_nil_r in P3.
  rewrite P3 at 1. unfold sent_list. rewrite firstn_map.
  replace (firstn (length (taken (node_of w p))) (seq 0 (sends (node_of w (prev p))))) with (seq 0 (length (taken (node_of w p)))).
  - apply map_ext_in. intros j Hj. apply in_seq in Hj. f_equal. rewrite <- (next_prev p Hp) at 2. symmetry. apply origin_next; [apply prev_lt|lia].
  - replace (sends (node_of w (prev p))) with (length (taken (node_of w p)) + (sends (node_of w (prev p)) - length (taken (node_of w p)))) by lia.
    rewrite seq_app, firstn_app, seq_length, Nat.sub_diag. cbn [firstn]. rewrite app_nil_r. rewrite firstn_all2; [reflexivity|]. now rewrite seq_length.
Qed.

Lemma origins_perm : forall p, p < n -> Permutation (map (fun j => origin p (S j)) (seq 0 (n - 1))) (filter (fun q => negb (q =? p)) (seq 0 n)).
Proof.
  intros p Hp. apply NoDup_Permutation.
  - assert (G : forall l, NoDup l -> (forall j, In j l -> j < n - 1) -> NoDup (map (fun j => origin p (S j)) l)).
    { induction l as [|a l IH]; intros Hnd Hl; cbn; constructor; inversion Hnd; subst.
      - intros Hin. apply in_map_iff in Hin. destruct Hin as (j & E & Hj). pose proof (Hl a (or_introl eq_refl)). pose proof (Hl j (or_intror Hj)).
        destruct (origin_cases p (S a) Hp ltac:(lia)) as [(A1 & A2)|(A1 & A2)]; destruct (origin_cases p (S j) Hp ltac:(lia)) as [(B1 & B2)|(B1 & B2)]; assert (a = j) by lia; subst; contradiction.
      - apply IH; [assumption|]. intros j Hj. apply Hl. now right. }
    apply G; [apply seq_NoDup|]. intros j Hj. apply in_seq in Hj. lia.
  - apply NoDup_filter, seq_NoDup.
  - intros q. rewrite in_map_iff, filter_In, in_seq, negb_true_iff, Nat.eqb_neq. split.
    + intros (j & <- & Hj). apply in_seq in Hj. destruct (origin_cases p (S j) Hp ltac:(lia)) as [(A1 & A2)|(A1 & A2)]; lia.
    + intros (Hq & Hne). destruct (le_lt_dec q p).
      * exists (p - q - 1). rewrite in_seq. destruct (origin_cases p (S (p - q - 1)) Hp ltac:(lia)) as [(A1 & A2)|(A1 & A2)]; lia.
      * exists (p + n - q - 1). rewrite in_seq. destruct (origin_cases p (S (p + n - q - 1)) Hp ltac:(lia)) as [(A1 & A2)|(A1 & A2)]; lia.
Qed.

Lemma taken_all : forall (w : rworld T) p, rinv w -> p < n -> length (taken (node_of w p)) = n - 1 ->
  Permutation (taken (node_of w p)) (map msg (filter (fun q => negb (q =? p)) (seq 0 n))).
Proof.
  intros w p HI Hp E. destruct (taken_prefix w p HI Hp) as (-> & _). rewrite E. rewrite <- (map_map (fun j => origin p (S j)) msg). apply Permutation_map. now apply origins_perm.
Qed.

Lemma taken_nodup : forall (w : rworld T) p, rinv w -> p < n -> NoDup (taken (node_of w p)) /\ forall m, In m (taken (node_of w p)) -> exists q, q < n /\ q <> p /\ m = msg q.
Proof.
  intros w p HI Hp. destruct (taken_prefix w p HI Hp) as (E & L). set (k := length (taken (node_of w p))) in *. rewrite E.
  split.
  - assert (G : NoDup (map (fun j => msg (origin p (S j))) (seq 0 (n - 1)))).
    { rewrite <- (map_map (fun j => origin p (S j)) msg). apply FinFun.Injective_map_NoDup; [intros a b Hab; now injection Hab|].
      eapply Permutation_NoDup; [symmetry; apply origins_perm; exact Hp|]. apply NoDup_filter, seq_NoDup. }
    replace (n - 1) with (k + (n - 1 - k)) in G by lia. rewrite seq_app, map_app in G. now apply NoDup_app_l in G.
  - intros m Hm. apply in_map_iff in Hm. destruct Hm as (j & <- & Hj). apply in_seq in Hj. exists (origin p (S j)). split; [apply origin_lt|]. split; [|reflexivity].
    destruct (origin_cases p (S j) Hp ltac:(lia)) as [(A1 & A2)|(A1 & A2)]; lia.
Qed.

Lemma stuck_facts : forall w, rstuck n contribution w -> forall p, p < n -> begun (node_of w p) = true /\ transit w p = [] /\ mailbox (node_of w p) = [].
Proof.
  intros w Hs p Hp. ssplit.
  - destruct (begun (node_of w p)) eqn:E; [reflexivity|]. exfalso. eapply Hs. apply (begins n contribution anytime w p Hp E). exact I.
  - destruct (transit w p) as [|m r] eqn:E; [reflexivity|]. exfalso. eapply Hs. eapply arrives; eauto.
  - destruct (mailbox (node_of w p)) as [|m r] eqn:E; [reflexivity|]. exfalso. eapply Hs. eapply takes_in; eauto.
Qed.

Lemma stuck_complete : forall w, rinv w -> rstuck n contribution w -> forall p, p < n -> length (taken (node_of w p)) = n - 1.
Proof.
  intros w HI Hs. set (f := fun p => length (taken (node_of w p))).
  assert (Heq : forall p, p < n -> f p = Nat.min (S (f (prev p))) (n - 1)).
  { intros p Hp. destruct (HI p Hp) as (_ & P2 & P3). destruct (stuck_facts w Hs p Hp) as (B & Tr & Mb). destruct (P2 B) as (Epr & _).
    rewrite Epr, Tr, Mb in P3. cbn [buffer app] in P3. rewrite app_nil_r in P3. apply (f_equal (@length _)) in P3.
    unfold sent_list in P3. rewrite map_length, seq_length in P3. unfold sends in P3. rewrite (proj1 (stuck_facts w Hs (prev p) (prev_lt p))) in P3. exact P3. }
  assert (G : forall m, m <= n - 1 -> forall p, p < n -> m <= f p).
  { induction m as [|m IH]; intros Hm p Hp; [lia|]. rewrite Heq by exact Hp. specialize (IH ltac:(lia) (prev p) (prev_lt p)). lia. }
  intros p Hp. fold (f p). pose proof (G (n - 1) (le_n _) p Hp). rewrite Heq by exact Hp. pose proof (G (n - 1) (le_n _) (prev p) (prev_lt p)). lia.
Qed.

(** ** Termination, also for runs in which contributions are overtaken *)
Definition rsum (f : nat -> nat) : nat := list_sum (map f (seq 0 n)).
Lemma rsum_set : forall f p a, p < n -> rsum (set f p a) + f p = rsum f + a.
Proof.
  intros f p a Hp. unfold rsum. assert (G : forall m s, s <= p < s + m -> list_sum (map (set f p a) (seq s m)) + f p = list_sum (map f (seq s m)) + a).
  { induction m as [|m IH]; intros s Hs; [lia|]. cbn [seq map].
    change (set f p a s + list_sum (map (set f p a) (seq (S s) m)) + f p = f s + list_sum (map f (seq (S s) m)) + a).
    destruct (Nat.eq_dec s p) as [->|Hne].
    - rewrite set_same. assert (Em : map (set f p a) (seq (S p) m) = map f (seq (S p) m)).
      { apply map_ext_in. intros q Hq. apply in_seq in Hq. apply set_other. lia. }
      rewrite Em. lia.
    - rewrite set_other by exact Hne. specialize (IH (S s) ltac:(lia)). lia. }
  apply G. lia.
Qed.

(** The counters, independent of the order of the contributions. *)
Definition linv (w : rworld T) : Prop := forall p, p < n ->
  let d := node_of w p in
  (begun d = false -> n_total (rproto d) = 0 /\ n_received (rproto d) = 0 /\ n_sent (rproto d) = 0 /\ taken d = []) /\
  (begun d = true -> n_total (rproto d) = n - 1 /\ n_received (rproto d) = length (taken d) /\ n_sent (rproto d) = sends d /\ buffer (rproto d) = []) /\
  length (taken d) + length (buffer (rproto d)) + length (mailbox d) + length (transit w p) = sends (node_of w (prev p)).

Definition node_weight (d : node T) : nat :=
  4 * (n - 1 - sends d) + (if begun d then 0 else n) + 2 * length (mailbox d) + length (buffer (rproto d)).
Definition rweight (w : rworld T) : nat := rsum (fun p => node_weight (node_of w p)) + rsum (fun p => 3 * length (transit w p)).

Lemma rsum_ext : forall f g, (forall p, p < n -> f p = g p) -> rsum f = rsum g.
Proof. intros f g H. unfold rsum. f_equal. apply map_ext_in. intros p Hp. apply in_seq in Hp. apply H. lia. Qed.
Lemma rsum_set_fun : forall A (h : A -> nat) (f : nat -> A) p a, p < n -> rsum (fun q => h (set f p a q)) + h (f p) = rsum (fun q => h (f q)) + h a.
Proof.
  intros A h f p a Hp. rewrite <- (rsum_set (fun q => h (f q)) p (h a) Hp). f_equal. apply rsum_ext. intros q Hq.
  destruct (Nat.eq_dec q p) as [->|Hne]; [now rewrite !set_same|now rewrite !set_other].
Qed.

Lemma rweight_put : forall (w : rworld T) p d' l, p < n ->
  node_weight d' + 3 * length l < node_weight (node_of w p) -> rweight (put n w p (d', l)) < rweight w.
Proof.
  intros w p d' l Hp H. unfold rweight, put. cbn [node_of transit fst snd].
  pose proof (rsum_set_fun _ node_weight (node_of w) p d' Hp) as A.
  pose proof (rsum_set_fun _ (fun l => 3 * length l) (transit w) (next n p) (transit w (next n p) ++ l) (next_lt p)) as B. cbv beta in B.
  rewrite app_length in B. lia.
Qed.

Lemma linv_initial : linv rinitial.
Proof. intros p Hp. cbn. ssplit; auto. discriminate. Qed.

Lemma linv_put : forall (w : rworld T) p d' l, p < n -> linv w ->
  (begun d' = false -> n_total (rproto d') = 0 /\ n_received (rproto d') = 0 /\ n_sent (rproto d') = 0 /\ taken d' = []) ->
  (begun d' = true -> n_total (rproto d') = n - 1 /\ n_received (rproto d') = length (taken d') /\ n_sent (rproto d') = sends d' /\ buffer (rproto d') = []) ->
  length (taken d') + length (buffer (rproto d')) + length (mailbox d') =
    length (taken (node_of w p)) + length (buffer (rproto (node_of w p))) + length (mailbox (node_of w p)) ->
  sends d' = sends (node_of w p) + length l ->
  linv (put n w p (d', l)).
Proof.
  intros w p d' l Hp HI H1 H2 H3 H4 q Hq. cbv zeta. pose proof (next_ne p Hp) as Hnn.
  destruct (Nat.eq_dec q p) as [->|Hqp].
  - rewrite put_node_same. cbn [fst]. destruct (HI p Hp) as (_ & _ & P3). ssplit; [exact H1|exact H2|].
    rewrite put_transit_other by auto. rewrite put_node_other.
    + rewrite <- P3. lia.
    + intros E. apply Hnn. rewrite <- E at 1. now apply next_prev.
  - rewrite put_node_other by exact Hqp. destruct (HI q Hq) as (Q1 & Q2 & Q3). ssplit; [exact Q1|exact Q2|].
    destruct (Nat.eq_dec q (next n p)) as [->|Hqn].
    + rewrite put_transit_next. cbn [snd]. rewrite prev_next by exact Hp. rewrite put_node_same. cbn [fst]. rewrite H4.
      rewrite prev_next in Q3 by exact Hp. rewrite app_length. lia.
    + rewrite put_transit_other by exact Hqn. rewrite put_node_other; [exact Q3|]. intros E. apply Hqn. apply prev_eq_next; auto.
Qed.

Lemma linv_step : forall (allowed : node T -> Prop) w w', linv w -> rstep n contribution allowed w w' -> linv w' /\ rweight w' < rweight w.
Proof.
  intros allowed w w' HI Hs. destruct Hs as [w p Hp Hb Ha|w p m r Hp Ht|w p m r Hp Hm].
  - destruct (HI p Hp) as (P1 & _ & P3). destruct (P1 Hb) as (E1 & E2 & E3 & Etk). pose proof (sends_le (node_of w (prev p))) as Hle.
    unfold begin_ring. cbn [resolve_buffer start buffer n_total n_received n_sent]. cbv zeta.
    match goal with |- linv (put _ _ _ (?x, _)) /\ _ => set (d' := x) end.
    assert (Es : sends d' = 1) by (unfold sends, d'; cbn [begun taken]; rewrite Etk; cbn [length]; lia).
    assert (Es0 : sends (node_of w p) = 0) by (unfold sends; now rewrite Hb).
    split.
    + apply linv_put; auto; unfold d' in *; cbn [begun rproto taken finished mailbox buffer sent n_total n_received n_sent] in *.
      * discriminate.
      * intros _. rewrite E2, E3, Etk in *. cbn [length] in *. ssplit; auto.
      * rewrite app_length. cbn [length]. lia.
      * cbn [length]. lia.
    + apply rweight_put; auto. unfold node_weight. rewrite Es, Es0, Hb. unfold d'. cbn [begun rproto mailbox buffer sent length]. rewrite app_length. lia.
  - split.
    + intros q Hq. cbv zeta. cbn [node_of transit]. set (d' := pop (node_of w p) (mailbox (node_of w p) ++ [m])).
      assert (Es : forall q, sends (set (node_of w) p d' q) = sends (node_of w q)).
      { intros z. destruct (Nat.eq_dec z p) as [->|Hne]; [rewrite set_same; reflexivity|now rewrite set_other]. }
      rewrite (Es (prev q)). destruct (Nat.eq_dec q p) as [->|Hne].
      * rewrite !set_same. destruct (HI p Hp) as (P1 & P2 & P3). unfold d', pop. cbn [begun rproto taken finished mailbox]. ssplit; [exact P1|exact P2|].
        rewrite <- P3, Ht, app_length. cbn [length]. lia.
      * rewrite !set_other by exact Hne. exact (HI q Hq).
    + unfold rweight. cbn [node_of transit].
      pose proof (rsum_set_fun _ node_weight (node_of w) p (pop (node_of w p) (mailbox (node_of w p) ++ [m])) Hp) as A.
      pose proof (rsum_set_fun _ (fun l => 3 * length l) (transit w) p r Hp) as B. cbv beta in B. rewrite Ht in B. cbn [length] in B.
      assert (W : node_weight (pop (node_of w p) (mailbox (node_of w p) ++ [m])) = node_weight (node_of w p) + 2).
      { unfold node_weight. change (sends (pop (node_of w p) (mailbox (node_of w p) ++ [m]))) with (sends (node_of w p)).
        unfold pop. cbn [begun mailbox rproto]. rewrite app_length. cbn [length]. lia. }
      lia.
  - destruct (HI p Hp) as (P1 & P2 & P3). set (d := node_of w p) in *. pose proof (sends_le (node_of w (prev p))) as Hle. unfold take_in.
    destruct (begun d) eqn:Hb.
    + destruct (P2 eq_refl) as (E1 & E2 & E3 & E4). set (k := length (taken d)) in *. rewrite E4, Hm in P3. cbn [length] in P3.
      assert (Hsd : sends d = S k) by (unfold sends; rewrite Hb; fold k; lia).
      assert (Erun : is_running (rproto (pop d r)) = true).
      { unfold pop, is_running. cbn [rproto]. rewrite E1, E2. apply orb_true_iff. left. apply Nat.ltb_lt. lia. }
      unfold received. rewrite Erun. cbn [pop rproto taken finished mailbox begun].
      rewrite E1, E2, E3, E4, Hsd. unfold is_running at 1 2. cbn [n_total n_received n_sent]. 
      destruct (Nat.ltb_spec (S k) (n - 1)) as [L|L]; cbn [orb].
      * match goal with |- linv (put _ _ _ (?x, _)) /\ _ => set (d' := x) end.
        assert (Es : sends d' = S (S k)) by (unfold sends, d'; cbn [begun taken]; rewrite Hb, app_length; cbn [length]; fold k; lia).
        split.
        -- apply linv_put; auto; fold d; unfold d' in *; cbn [begun rproto taken finished mailbox buffer sent n_total n_received n_sent pop] in *.
           ++ congruence.
           ++ intros _. rewrite Es, app_length. cbn [length]. fold k. ssplit; auto. lia.
           ++ rewrite Hm, E4, app_length. cbn [length]. lia.
           ++ cbn [length]. lia.
        -- apply rweight_put; auto. fold d. unfold node_weight. rewrite Es, Hsd, Hb, Hm, E4. unfold d'. cbn [begun rproto mailbox buffer sent length]. rewrite Hb. lia.
      * match goal with |- linv (put _ _ _ (?x, _)) /\ _ => set (d' := x) end.
        assert (Es : sends d' = S k) by (unfold sends, d'; cbn [begun taken]; rewrite Hb, app_length; cbn [length]; fold k; lia).
        split.
        -- apply linv_put; auto; fold d; unfold d' in *; cbn [begun rproto taken finished mailbox buffer sent n_total n_received n_sent pop] in *.
           ++ congruence.
           ++ intros _. rewrite Es, app_length. cbn [length]. fold k. ssplit; auto. lia.
           ++ rewrite Hm, E4, app_length. cbn [length]. lia.
           ++ cbn [length]. lia.
        -- apply rweight_put; auto. fold d. unfold node_weight. rewrite Es, Hsd, Hb, Hm, E4. unfold d'. cbn [begun rproto mailbox buffer sent length]. rewrite Hb. lia.
    + destruct (P1 eq_refl) as (E1 & E2 & E3 & Etk).
      assert (Erun : is_running (rproto (pop d r)) = false) by (unfold pop, is_running; cbn [rproto]; rewrite E1; reflexivity).
      unfold received. rewrite Erun. cbn [pop rproto taken finished mailbox begun].
      match goal with |- linv (put _ _ _ (?x, _)) /\ _ => set (d' := x) end.
      assert (Es : sends d' = 0) by (unfold sends, d'; cbn [begun]; now rewrite Hb).
      assert (Es0 : sends d = 0) by (unfold sends; now rewrite Hb).
      split.
      * apply linv_put; auto; fold d; unfold d' in *; cbn [begun rproto taken finished mailbox buffer n_total n_received n_sent] in *.
        -- congruence.
        -- rewrite Hm, app_length. cbn [length]. lia.
      * apply rweight_put; auto. fold d. unfold node_weight. rewrite Es, Es0, Hb, Hm. unfold d'. cbn [begun rproto mailbox buffer length]. rewrite Hb, app_length. cbn [length]. lia.
Qed.

Lemma linv_reachable : forall allowed w, rreachable n contribution allowed w -> linv w.
Proof. intros allowed w. induction 1; [apply linv_initial|]. eapply linv_step; eauto. Qed.

Lemma ring_no_infinite : forall allowed (run : nat -> rworld T), rreachable n contribution allowed (run 0) -> ~ (forall i, rstep n contribution allowed (run i) (run (S i))).
Proof.
  intros allowed run H0 Hs.
  assert (G : forall i, linv (run i) /\ rweight (run i) + i <= rweight (run 0)).
  { induction i as [|i (I1 & I2)]; [split; [eapply linv_reachable; eauto|lia]|]. destruct (linv_step _ _ _ I1 (Hs i)) as (A & B). split; [exact A|lia]. }
  destruct (G (S (rweight (run 0)))) as (_ & H). lia.
Qed.
End R.
