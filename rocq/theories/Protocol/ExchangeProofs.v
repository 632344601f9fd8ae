From Coq Require Import List Arith Bool Lia Permutation.
From Verif.Base Require Import ListX.
From Verif.Protocol Require Import Model Exchange.
Import ListNotations.

Lemma set_same : forall A (f : nat -> A) i a, set f i a i = a.
Proof. intros. unfold set. now rewrite Nat.eqb_refl. Qed.
Lemma set_other : forall A (f : nat -> A) i j a, j <> i -> set f i a j = f j.
Proof. intros. unfold set. destruct (Nat.eqb_spec j i); congruence. Qed.

Section X.
Context {T : Type} (x : exchange T).

(** Messages for [p] under way. *)
Definition under_way (p : nat) (l : list (nat * message T)) : list (message T) :=
  map snd (filter (fun e => fst e =? p) l).
(** What [p] is sent by the hosts that already entered. *)
Definition incoming (w : world T) (p : nat) : list (message T) :=
  map (fun q => (q, bucket x q p)) (filter (fun q => entered (state w q) && (to_self x || negb (q =? p))) (seq 0 (hosts x))).
Definition expected (p : nat) : list (message T) :=
  map (fun q => (q, bucket x q p)) (filter (fun q => to_self x || negb (q =? p)) (seq 0 (hosts x))).

Lemma times_sent_eq : forall n (pr : protocol (message T)),
  times_sent n pr = {| n_total := n_total pr; n_received := n_received pr; n_sent := n + n_sent pr; buffer := buffer pr |}.
Proof. induction n as [|n IH]; intros [t r s b]; [reflexivity|]. cbn [times_sent]. rewrite IH. cbn. f_equal. lia. Qed.

Definition inv (w : world T) : Prop :=
  (forall e, In e (net w) -> fst e < hosts x) /\
  forall p, p < hosts x ->
    let h := state w p in let total := length (addressees x p) in
    (entered h = false -> proto h = {| n_total := 0; n_received := 0; n_sent := 0; buffer := buffer (proto h) |} /\ processed h = [] /\ left h = 0) /\
    (entered h = true -> proto h = {| n_total := total; n_received := length (processed h); n_sent := total; buffer := [] |}
       /\ left h = (if (1 <=? total) && (total <=? length (processed h)) then 1 else 0)) /\
    Permutation (processed h ++ buffer (proto h) ++ under_way p (net w)) (incoming w p).

Lemma under_way_app : forall p a b, under_way p (a ++ b) = under_way p a ++ under_way p b.
Proof. intros. unfold under_way. now rewrite filter_app, map_app. Qed.

Lemma expected_length : forall p, length (expected p) = length (addressees x p).
Proof. intros. unfold expected, addressees. now rewrite map_length. Qed.

Lemma incoming_sub : forall w p, length (incoming w p) <= length (expected p).
Proof.
  intros w p. unfold incoming, expected. rewrite !map_length. induction (seq 0 (hosts x)) as [|q t IH]; cbn; [lia|].
  destruct (to_self x || negb (q =? p)); [rewrite andb_true_r; destruct (entered (state w q)); cbn; lia|rewrite andb_false_r; exact IH].
Qed.

Lemma under_way_self : forall p l, under_way p (map (fun m => (p, m)) l) = l.
Proof. intros p l. unfold under_way. induction l as [|m l IH]; [reflexivity|]. cbn. rewrite Nat.eqb_refl. cbn. now rewrite IH. Qed.
Lemma under_way_others : forall p q l, p <> q -> under_way p (map (fun m => (q, m)) l) = [].
Proof. intros p q l H. unfold under_way. induction l as [|m l IH]; [reflexivity|]. cbn. destruct (Nat.eqb_spec q p); [congruence|exact IH]. Qed.

Lemma under_way_buckets : forall p q, q < hosts x ->
  under_way q (map (fun r => (r, (p, bucket x p r))) (addressees x p)) = if to_self x || negb (q =? p) then [(p, bucket x p q)] else [].
Proof.
  intros p q Hq. unfold under_way, addressees.
  assert (G : forall n s, map snd (filter (fun e => fst e =? q) (map (fun r => (r, (p, bucket x p r))) (filter (fun r => to_self x || negb (r =? p)) (seq s n))))
     = if (s <=? q) && (q <? s + n) && (to_self x || negb (q =? p)) then [(p, bucket x p q)] else []).
  { induction n as [|n IH]; intros s.
    - cbn [seq filter map]. destruct (Nat.leb_spec s q); destruct (Nat.ltb_spec q (s + 0)); cbn [andb]; [lia|reflexivity..].
    - cbn [seq filter]. destruct (Nat.eq_dec s q) as [->|Hne].
      + replace (q <=? q) with true by (symmetry; apply Nat.leb_refl). replace (q <? q + S n) with true by (symmetry; apply Nat.ltb_lt; lia). cbn [andb].
        specialize (IH (S q)). replace (S q <=? q) with false in IH by (symmetry; apply Nat.leb_gt; lia). cbn [andb] in IH.
        destruct (to_self x || negb (q =? p)); cbn [map filter]; [cbn [fst]; rewrite Nat.eqb_refl; cbn [map]; now rewrite IH|exact IH].
      + specialize (IH (S s)).
        replace ((S s <=? q) && (q <? S s + n)) with ((s <=? q) && (q <? s + S n)) in IH.
        2: { destruct (Nat.leb_spec s q); destruct (Nat.ltb_spec q (s + S n)); destruct (Nat.leb_spec (S s) q); destruct (Nat.ltb_spec q (S s + n)); cbn; lia || reflexivity. }
        destruct (to_self x || negb (s =? p)); cbn [map filter]; [cbn [fst]; destruct (Nat.eqb_spec s q); [congruence|]; exact IH|exact IH]. }
  rewrite G. replace (0 <=? q) with true by reflexivity. replace (q <? 0 + hosts x) with true by (symmetry; apply Nat.ltb_lt; lia). reflexivity.
Qed.

(** Entering of [p] adds [p]'s buckets to what everybody is sent. *)
Lemma incoming_enter : forall w p h' n', p < hosts x -> entered (state w p) = false -> entered h' = true ->
  forall q, Permutation (incoming {| state := set (state w) p h'; net := n' |} q)
    ((if to_self x || negb (p =? q) then [(p, bucket x p q)] else []) ++ incoming w q).
Proof.
  intros w p h' n' Hp Hf Ht q. unfold incoming. cbn [state].
  assert (G : forall n s, Permutation
    (map (fun r => (r, bucket x r q)) (filter (fun r => entered (set (state w) p h' r) && (to_self x || negb (r =? q))) (seq s n)))
    ((if (s <=? p) && (p <? s + n) && (to_self x || negb (p =? q)) then [(p, bucket x p q)] else [])
     ++ map (fun r => (r, bucket x r q)) (filter (fun r => entered (state w r) && (to_self x || negb (r =? q))) (seq s n)))).
  { induction n as [|n IH]; intros s.
    - cbn [seq filter map]. destruct (Nat.leb_spec s p); destruct (Nat.ltb_spec p (s + 0)); cbn [andb app]; [lia|reflexivity..].
    - cbn [seq filter]. destruct (Nat.eq_dec s p) as [->|Hne].
      + rewrite set_same, Ht, Hf. replace (p <=? p) with true by (symmetry; apply Nat.leb_refl). replace (p <? p + S n) with true by (symmetry; apply Nat.ltb_lt; lia). cbn [andb].
        specialize (IH (S p)). replace (S p <=? p) with false in IH by (symmetry; apply Nat.leb_gt; lia). cbn [andb app] in IH.
        destruct (to_self x || negb (p =? q)); cbn [map app]; [now constructor|exact IH].
      + rewrite set_other by exact Hne. specialize (IH (S s)).
        replace ((S s <=? p) && (p <? S s + n)) with ((s <=? p) && (p <? s + S n)) in IH.
        2: { destruct (Nat.leb_spec s p); destruct (Nat.ltb_spec p (s + S n)); destruct (Nat.leb_spec (S s) p); destruct (Nat.ltb_spec p (S s + n)); cbn; lia || reflexivity. }
        destruct (entered (state w s) && (to_self x || negb (s =? q))); cbn [map]; [|exact IH].
        eapply perm_trans; [apply perm_skip, IH|]. apply Permutation_middle. }
  specialize (G (hosts x) 0). replace (0 <=? p) with true in G by reflexivity. replace (p <? 0 + hosts x) with true in G by (symmetry; apply Nat.ltb_lt; lia). exact G.
Qed.

Lemma incoming_keep : forall w p h' n', entered h' = entered (state w p) ->
  forall q, incoming {| state := set (state w) p h'; net := n' |} q = incoming w q.
Proof.
  intros w p h' n' H q. unfold incoming. cbn [state]. f_equal. apply filter_ext. intros r. f_equal.
  destruct (Nat.eq_dec r p) as [->|Hne]; [now rewrite set_same|now rewrite set_other].
Qed.

Lemma inv_initial : inv initial.
Proof.
  split; [cbn; tauto|]. intros p Hp. cbn. ssplit; auto; try discriminate. unfold incoming. cbn.
  induction (seq 0 (hosts x)); [constructor|assumption].
Qed.

Lemma inv_step : forall w w', inv w -> step x w w' -> inv w'.
Proof.
  intros w w' (HN & H) Hs. destruct Hs as [w p Hp Hf|w p m l r E].
  - destruct (H p Hp) as (P1 & _ & P3). destruct (P1 Hf) as (Epr & Epc & Elf).
    unfold enter. cbn [resolve_buffer start buffer n_total n_received n_sent]. cbv zeta. rewrite times_sent_eq. cbn [fst snd n_total n_received n_sent buffer].
    split; cbn [state net].
    + intros e He. apply in_app_iff in He. destruct He as [He|He]; [now apply HN|]. apply in_app_iff in He. destruct He as [He|He].
      * apply in_map_iff in He. destruct He as (m & <- & _). exact Hp.
      * apply in_map_iff in He. destruct He as (q & <- & Hq). unfold addressees in Hq. apply filter_In in Hq. destruct Hq as (Hq & _). apply in_seq in Hq. cbn. lia.
    + intros q Hq. cbv zeta.
      pose proof (incoming_enter w p {| entered := true;
          proto := {| n_total := length (addressees x p); n_received := n_received (proto (state w p)); n_sent := length (addressees x p) + n_sent (proto (state w p)); buffer := [] |};
          processed := processed (state w p); left := left (state w p) |}
          (net w ++ map (fun m => (p, m)) (buffer (proto (state w p))) ++ map (fun r => (r, (p, bucket x p r))) (addressees x p)) Hp Hf eq_refl q) as Hinc.
      rewrite !under_way_app, under_way_buckets by exact Hq. destruct (Nat.eq_dec q p) as [->|Hne].
      * rewrite set_same. cbn [entered proto processed left n_total n_received n_sent buffer]. rewrite under_way_self. ssplit.
        -- discriminate.
        -- intros _. rewrite Epc, Epr. cbn. split; [f_equal; lia|]. rewrite Elf. destruct (length (addressees x p)); reflexivity.
        -- eapply perm_trans; [|symmetry; exact Hinc]. rewrite Epc in P3 |- *. cbn [app] in P3 |- *.
           eapply perm_trans; [|apply Permutation_app_head; exact P3]. rewrite app_assoc.
           eapply perm_trans; [apply Permutation_app_comm|]. apply Permutation_app_head. apply Permutation_app_comm.
      * rewrite set_other by exact Hne. destruct (H q Hq) as (Q1 & Q2 & Q3). ssplit; [exact Q1|exact Q2|].
        rewrite under_way_others by exact Hne. cbn [app]. eapply perm_trans; [|symmetry; exact Hinc].
        rewrite (Nat.eqb_sym q p). rewrite !app_assoc. eapply perm_trans; [apply Permutation_app_comm|]. apply Permutation_app_head. rewrite <- app_assoc. exact Q3.
  - assert (Hp : p < hosts x) by (apply (HN (p, m)); rewrite E; apply in_elt).
    assert (Hent : entered (handle m (state w p)) = entered (state w p)).
    { unfold handle, received. destruct (is_running (proto (state w p))); reflexivity. }
    assert (Huw : Permutation (under_way p (net w)) (m :: under_way p (l ++ r))).
    { rewrite E. rewrite !under_way_app. unfold under_way at 2. cbn [filter fst]. rewrite Nat.eqb_refl. cbn [map snd]. symmetry. apply Permutation_middle. }
    split; cbn [state net].
    + intros e He. apply HN. rewrite E. apply in_app_iff in He. apply in_app_iff. destruct He; [now left|right; now right].
    + intros q Hq. cbv zeta. rewrite incoming_keep by exact Hent. destruct (Nat.eq_dec q p) as [->|Hne].
      * rewrite set_same. destruct (H p Hp) as (P1 & P2 & P3). rewrite Huw in P3.
        destruct (entered (state w p)) eqn:Ent.
        -- destruct (P2 eq_refl) as (Epr & Elf). 
           assert (Hlt : length (processed (state w p)) < length (addressees x p)).
           { apply Permutation_length in P3. rewrite app_length, app_length in P3. cbn [length] in P3. pose proof (incoming_sub w p). rewrite expected_length in *. lia. }
           assert (Erun : is_running (proto (state w p)) = true).
           { rewrite Epr. unfold is_running. cbn. apply orb_true_iff. left. now apply Nat.ltb_lt. }
           unfold handle, received. rewrite Erun. rewrite Epr at 2. cbn [entered proto processed left n_total n_received n_sent buffer]. rewrite Epr. cbn [n_total n_received n_sent buffer]. ssplit.
           ++ congruence.
           ++ intros _. rewrite app_length. cbn [length]. split; [f_equal; lia|].
              rewrite Elf. unfold is_running. cbn [n_total n_received n_sent].
              replace (1 <=? length (addressees x p)) with true by (symmetry; apply Nat.leb_le; lia).
              replace (length (addressees x p) <=? length (processed (state w p))) with false by (symmetry; apply Nat.leb_gt; lia).
              destruct (Nat.ltb_spec (S (length (processed (state w p)))) (length (addressees x p))); destruct (Nat.ltb_spec (length (addressees x p)) (length (addressees x p)));
                destruct (Nat.leb_spec (length (addressees x p)) (length (processed (state w p)) + 1)); cbn [orb andb]; try lia; reflexivity.
           ++ rewrite Epr in P3. cbn [buffer app] in P3. rewrite <- app_assoc. cbn [app]. exact P3.
        -- destruct (P1 eq_refl) as (Epr & Epc & Elf).
           assert (Erun : is_running (proto (state w p)) = false) by (rewrite Epr; reflexivity).
           unfold handle, received. rewrite Erun. cbn [entered proto processed left n_total n_received n_sent buffer]. ssplit.
           ++ intros _. rewrite Epr. cbn [n_total n_received n_sent buffer]. auto.
           ++ congruence.
           ++ rewrite <- app_assoc. cbn [app]. exact P3.
      * rewrite set_other by exact Hne. destruct (H q Hq) as (Q1 & Q2 & Q3). ssplit; [exact Q1|exact Q2|].
        replace (under_way q (l ++ r)) with (under_way q (net w)); [exact Q3|].
        rewrite E, !under_way_app. unfold under_way at 2. cbn [filter fst]. destruct (Nat.eqb_spec p q); [congruence|]. reflexivity.
Qed.

Lemma inv_reachable : forall w, reachable x w -> inv w.
Proof. induction 1; [apply inv_initial|eapply inv_step; eauto]. Qed.

Lemma stuck_all : forall w, stuck x w -> net w = [] /\ forall p, p < hosts x -> entered (state w p) = true.
Proof.
  intros w Hs. split.
  - destruct (net w) as [|[p m] r] eqn:E; [reflexivity|]. exfalso. eapply Hs. apply (delivers x w p m [] r). exact E.
  - intros p Hp. destruct (entered (state w p)) eqn:E; [reflexivity|]. exfalso. eapply Hs. apply (enters x w p Hp E).
Qed.

Lemma incoming_expected : forall w p, (forall q, q < hosts x -> entered (state w q) = true) -> incoming w p = expected p.
Proof.
  intros w p H. unfold incoming, expected. f_equal. apply filter_ext_in. intros q Hq. apply in_seq in Hq. rewrite H by lia. reflexivity.
Qed.

(** What has been processed is part of what is expected. *)
Lemma incoming_part : forall w p, exists rest, Permutation (incoming w p ++ rest) (expected p).
Proof.
  intros w p. unfold incoming, expected.
  induction (seq 0 (hosts x)) as [|q t (rest & IH)]; [exists []; constructor|]. cbn [filter].
  destruct (to_self x || negb (q =? p)).
  - rewrite andb_true_r. destruct (entered (state w q)); cbn [map].
    + exists rest. cbn. now constructor.
    + exists ((q, bucket x q p) :: rest). eapply perm_trans; [symmetry; apply Permutation_middle|]. now constructor.
  - rewrite andb_false_r. exists rest. exact IH.
Qed.

(** ** Termination *)
Definition waiting (w : world T) : nat := length (filter (fun p => negb (entered (state w p))) (seq 0 (hosts x))).
Definition weight (w : world T) : nat := waiting w * (2 * hosts x + 1) + length (net w).

Lemma addressees_le : forall p, length (addressees x p) <= hosts x.
Proof.
  intros p. unfold addressees. rewrite <- (seq_length (hosts x) 0) at 2. induction (seq 0 (hosts x)) as [|q t IH]; cbn; [lia|].
  destruct (to_self x || negb (q =? p)); cbn; lia.
Qed.

Lemma waiting_enter : forall w p h' n', p < hosts x -> entered (state w p) = false -> entered h' = true ->
  waiting w = S (waiting {| state := set (state w) p h'; net := n' |}).
Proof.
  intros w p h' n' Hp Hf Ht. unfold waiting. cbn [state].
  assert (G : forall n s, length (filter (fun q => negb (entered (state w q))) (seq s n))
     = (if (s <=? p) && (p <? s + n) then 1 else 0) + length (filter (fun q => negb (entered (set (state w) p h' q))) (seq s n))).
  { induction n as [|n IH]; intros s.
    - cbn [seq filter length]. destruct (Nat.leb_spec s p); destruct (Nat.ltb_spec p (s + 0)); cbn [andb]; lia.
    - cbn [seq filter]. specialize (IH (S s)). destruct (Nat.eq_dec s p) as [->|Hne].
      + rewrite set_same, Ht, Hf. cbn [negb length]. rewrite IH.
        destruct (Nat.leb_spec p p); destruct (Nat.ltb_spec p (p + S n)); destruct (Nat.leb_spec (S p) p); cbn [andb]; lia.
      + rewrite set_other by exact Hne. destruct (negb (entered (state w s))); cbn [length]; rewrite IH;
          destruct (Nat.leb_spec s p); destruct (Nat.ltb_spec p (s + S n)); destruct (Nat.leb_spec (S s) p); destruct (Nat.ltb_spec p (S s + n)); cbn [andb]; lia. }
  rewrite (G (hosts x) 0). replace (0 <=? p) with true by reflexivity. replace (p <? 0 + hosts x) with true by (symmetry; apply Nat.ltb_lt; lia). reflexivity.
Qed.

Lemma step_weight : forall w w', inv w -> step x w w' -> weight w' < weight w.
Proof.
  intros w w' (HN & H) Hs. unfold weight. destruct Hs as [w p Hp Hf|w p m l r E].
  - destruct (H p Hp) as (P1 & _ & P3). apply Permutation_length in P3. rewrite !app_length in P3. pose proof (incoming_sub w p) as Hi. rewrite expected_length in Hi.
    pose proof (addressees_le p) as Ha.
    rewrite (waiting_enter w p (fst (enter x p (state w p))) (net w ++ snd (enter x p (state w p))) Hp Hf).
    2: { unfold enter. cbv zeta. destruct (resolve_buffer _). reflexivity. }
    cbn [net]. rewrite app_length.
    assert (El : length (snd (enter x p (state w p))) = length (buffer (proto (state w p))) + length (addressees x p)).
    { unfold enter. cbn [resolve_buffer start buffer]. cbv zeta. cbn [snd]. now rewrite app_length, !map_length. }
    rewrite El. set (z := waiting _). cbn [net]. nia.
  - assert (Hent : entered (handle m (state w p)) = entered (state w p)).
    { unfold handle, received. destruct (is_running (proto (state w p))); reflexivity. }
    replace (waiting {| state := set (state w) p (handle m (state w p)); net := l ++ r |}) with (waiting w).
    + cbn [net]. rewrite E, !app_length. cbn. lia.
    + unfold waiting. cbn [state]. f_equal. apply filter_ext. intros q. f_equal.
      destruct (Nat.eq_dec q p) as [->|Hne]; [now rewrite set_same|now rewrite set_other].
Qed.

Lemma no_infinite : forall r : nat -> world T, r 0 = initial -> ~ (forall i, step x (r i) (r (S i))).
Proof.
  intros r H0 H. assert (R : forall i, reachable x (r i)).
  { induction i as [|i IH]; [rewrite H0; constructor|]. econstructor; eauto. }
  assert (G : forall i, weight (r i) + i <= weight (r 0)).
  { induction i as [|i IH]; [lia|]. pose proof (step_weight _ _ (inv_reachable _ (R i)) (H i)). lia. }
  specialize (G (S (weight (r 0)))). lia.
Qed.
End X.
