(** Helper threads of one host: every thread's column means reach the main thread before the factor they belong to. *)
From Coq Require Import List Arith Bool Lia Permutation.
From Verif.Base Require Import ListX.
From Verif.Pca Require Import Model Spec Tree Abs Proofs.
Import ListNotations.

Definition ms0 (s : pstate) : list nat := match means (nodes s 0) with Some l => l | None => [] end.
Definition isM (q : nat) (m : pmsg) : bool := match m with Means i => i =? q | _ => false end.
Definition occ (q : nat) (l : list nat) : nat := cnt (Nat.eqb q) l.

Lemma fold_mail : forall cf src l s q, helpers cf = true ->
  mail (nodes (fold_left (post cf src) l s) q) = mail (nodes s q) ++ map snd (filter (fun x => fst x =? q) l).
Proof.
  intros cf src l. induction l as [|[d m] t IH]; intros s q Hh; cbn [fold_left]; [symmetry; apply app_nil_r|].
  rewrite IH by exact Hh. unfold post. rewrite Hh. cbn [orb nodes filter fst]. rewrite (Nat.eqb_sym d q).
  destruct (Nat.eqb_spec q d) as [->|Hq].
  - rewrite upd_eq. cbn [with_mail mail map snd]. rewrite <- app_assoc. reflexivity.
  - rewrite upd_neq by exact Hq. reflexivity.
Qed.
Lemma fold_net_h : forall cf src l s, helpers cf = true -> net (fold_left (post cf src) l s) = net s.
Proof.
  intros cf src l. induction l as [|[d m] t IH]; intros s Hh; cbn [fold_left]; [reflexivity|].
  rewrite IH by exact Hh. unfold post. rewrite Hh. reflexivity.
Qed.

Lemma decide_cases : forall n p c, match snd (decide n p c) with ASend _ _ => p <> 0 | AFinalize => p = 0 | AWait => True end.
Proof.
  intros n p c. unfold decide.
  assert (G : forall c, match (if (threshold n c <=? p) && (0 <? p) then ASend (p - threshold n c) (c + 1)
                        else if (p =? 0) && (threshold n c =? 0) then AFinalize else AWait)
             with ASend _ _ => p <> 0 | AFinalize => p = 0 | AWait => True end).
  { intros c0. destruct (0 <? p) eqn:E; [|rewrite andb_false_r]; [apply Nat.ltb_lt in E|].
    - destruct (threshold _ _ <=? p); cbn [andb]; [lia|]. destruct (Nat.eqb_spec p 0); [lia|]. cbn. exact I.
    - destruct (Nat.eqb_spec p 0); cbn [andb]; [|exact I]. destruct (_ =? 0); auto. }
  cbv zeta. pose proof (G c) as G0. pose proof (G 1) as G1. destruct (threshold n c <=? p), (0 <? p), ((c =? 0) && _); cbn [andb snd] in *; assumption.
Qed.

Lemma sof_cases : forall cf p nd t, helpers cf = true ->
  let e := send_or_finalize cf p nd t in
  (e_finals e = [] /\ (e_sends e = [] \/ (p <> 0 /\ exists d k, e_sends e = [(d, R t k)])))
  \/ (p = 0 /\ e_sends e = [] /\ exists m, means nd = Some m /\ e_finals e = [(m, t)]).
Proof.
  intros cf p nd t Hh. cbn zeta. unfold send_or_finalize. pose proof (decide_cases (n_nodes cf) p (r_count nd)) as Ha.
  destruct (decide _ _ _) as [c a]. cbn [snd] in Ha. destruct a as [d k| |].
  - left. destruct (_ && _); cbn; eauto 8.
  - destruct (means nd) as [m|] eqn:Em; cbn.
    + right. unfold share. rewrite Hh. eauto 8.
    + left. auto.
  - left. cbn. auto.
Qed.

Section Help.
Variable N : nat.
Hypothesis HN : 1 <= N.
Notation cf := (helper_threads N N).

Definition setb (s : pstate) (q : nat) : bool := negb (isN (local (nodes s q))).

Record hinv (s : pstate) : Prop := {
  h_net : net s = [];
  h_first : forall p, p < N -> local (nodes s p) = None -> buffer (nodes s p) = [] /\ means (nodes s p) = None /\ exists rest, mail (nodes s p) = Setup :: rest;
  h_buf : forall p m, p < N -> In m (buffer (nodes s p)) -> exists t c, m = R t c;
  h_mbuf : forall p, p < N -> means_buffer (nodes s p) = [];
  h_range : forall p i, p < N -> In (Means i) (mail (nodes s p)) -> p = 0 /\ 1 <= i /\ i < N;
  h_cnt : forall q, 1 <= q -> q < N -> cnt (isM q) (mail (nodes s 0)) + occ q (ms0 s) = b2n (setb s q);
  h_zero : occ 0 (ms0 s) = b2n (setb s 0);
  h_msr : forall i, In i (ms0 s) -> i < N;
  h_order : forall pre t c post q, mail (nodes s 0) = pre ++ R t c :: post -> In q (leaves t) -> q <> 0 -> In q (ms0 s) \/ In (Means q) pre;
  h_loc0 : forall t q, local (nodes s 0) = Some t -> In q (leaves t) -> In q (ms0 s);
  h_buf0 : forall t c q, In (R t c) (buffer (nodes s 0)) -> In q (leaves t) -> q <> 0 -> In q (ms0 s);
  h_fin : forall m t, In (m, t) (finals s) -> Permutation m (seq 0 N)
}.

Lemma hinv_init : hinv (initial cf).
Proof.
  unfold initial, helper_threads. cbn [helpers n_setup].
  assert (Hlt : forall p, p < N -> (p <? N) = true) by (intros; now apply Nat.ltb_lt).
  constructor; cbn [net nodes local buffer means means_buffer mail ms0 setb finals].
  - reflexivity.
  - intros p Hp _. rewrite (Hlt _ Hp). eauto.
  - intros p m _ [].
  - reflexivity.
  - intros p i Hp. rewrite (Hlt _ Hp). intros [H|[]]. discriminate.
  - intros q _ _. rewrite (Hlt 0) by lia. reflexivity.
  - reflexivity.
  - cbn. intros i [].
  - intros pre t c post q. rewrite (Hlt 0) by lia. intros E. destruct pre as [|? [|? ?]]; discriminate.
  - discriminate.
  - intros t c q [].
  - intros m t [].
Qed.

Lemma occ_in : forall q l, In q l -> 1 <= occ q l.
Proof. intros q l H. apply (cnt_pos _ _ l q H). apply Nat.eqb_refl. Qed.
Lemma in_occ : forall q l, 1 <= occ q l -> In q l.
Proof.
  intros q l H. induction l as [|x t IH]; [cbn in H; lia|]. unfold occ in *. rewrite cnt_cons in H.
  destruct (Nat.eqb_spec q x); [now left|]. right. apply IH. cbn in H. exact H.
Qed.
Lemma in_isM : forall q l, 1 <= cnt (isM q) l -> In (Means q) l.
Proof.
  intros q l H. induction l as [|x t IH]; [cbn in H; lia|]. rewrite cnt_cons in H.
  destruct (isM q x) eqn:E.
  - destruct x; cbn in E; try discriminate. apply Nat.eqb_eq in E. subst. now left.
  - right. apply IH. cbn in H. exact H.
Qed.
Lemma perm_occ : forall l, (forall q, q < N -> occ q l = 1) -> (forall i, In i l -> i < N) -> Permutation l (seq 0 N).
Proof.
  intros l H1 H2. apply NoDup_Permutation.
  - apply (NoDup_count_occ' Nat.eq_dec). intros x Hx. rewrite <- (H1 x (H2 x Hx)). unfold occ, cnt. clear.
    induction l as [|y t IH]; [reflexivity|]. cbn [count_occ filter]. destruct (Nat.eq_dec y x) as [->|Hn].
    + rewrite Nat.eqb_refl. cbn. now rewrite IH.
    + destruct (Nat.eqb_spec x y); [congruence|]. exact IH.
  - apply seq_NoDup.
  - intros x. rewrite in_seq. split.
    + intros Hx. specialize (H2 x Hx). lia.
    + intros Hx. apply in_occ. rewrite H1; lia.
Qed.

(** If everything in a factor's leaves is set up, the means are collected or in the mailbox of the main thread. *)
Lemma there : forall s q, hinv s -> 1 <= q -> q < N -> local (nodes s q) <> None -> In q (ms0 s) \/ In (Means q) (mail (nodes s 0)).
Proof.
  intros s q H Hq1 Hq2 HL. pose proof (h_cnt s H q Hq1 Hq2) as E. unfold setb in E.
  destruct (local (nodes s q)); [|contradiction]. cbn in E.
  destruct (Nat.eq_dec (occ q (ms0 s)) 0) as [E0|E0]; [right; apply in_isM; lia|left; apply in_occ; lia].
Qed.

Lemma app_split_tail : forall {A} (a b pre post : list A) x, a ++ b = pre ++ x :: post ->
  (exists post', a = pre ++ x :: post') \/ (exists pre', pre = a ++ pre' /\ b = pre' ++ x :: post).
Proof.
  induction a as [|y a IH]; intros b pre post x E.
  - right. exists pre. split; auto.
  - destruct pre as [|z pre]; cbn in E; injection E as -> E.
    + left. exists a. reflexivity.
    + destruct (IH _ _ _ _ E) as [(post' & ->)|(pre' & -> & ->)]; [left; exists post'; reflexivity|right; exists pre'; split; reflexivity].
Qed.

(** One handler: [p]'s node becomes [nd'], [snds] go out. *)
Lemma hstep : forall s p m rest snds fs nd',
  inv cf s -> hinv s -> p < N -> mail (nodes s p) = m :: rest ->
  local (nodes s p) <> None \/ m = Setup ->
  local nd' <> None ->
  (forall b, In b (buffer nd') -> exists t c, b = R t c) -> means_buffer nd' = [] ->
  let m0 := if p =? 0 then match means nd' with Some l => l | None => [] end else ms0 s in
  let mail0 := if p =? 0 then rest else mail (nodes s 0) in
  let add q := map snd (filter (fun x => fst x =? q) snds) in
  (forall q i, In (Means i) (add q) -> q = 0 /\ 1 <= i < N) ->
  (forall q, 1 <= q < N -> cnt (isM q) (mail0 ++ add 0) + occ q m0 = if q =? p then 1 else b2n (setb s q)) ->
  occ 0 m0 = (if p =? 0 then 1 else b2n (setb s 0)) ->
  (forall i, In i m0 -> i < N) ->
  (forall pre t c post q, mail0 = pre ++ R t c :: post -> In q (leaves t) -> q <> 0 -> In q m0 \/ In (Means q) pre) ->
  (forall pre t c post q, add 0 = pre ++ R t c :: post -> In q (leaves t) -> q <> 0 -> In q m0 \/ In (Means q) mail0 \/ In (Means q) pre) ->
  (p = 0 -> forall t q, local nd' = Some t -> In q (leaves t) -> In q m0) ->
  (forall q, In q (ms0 s) -> In q m0) ->
  (p = 0 -> forall t c q, In (R t c) (buffer nd') -> In q (leaves t) -> q <> 0 -> In q m0) ->
  (forall m t, In (m, t) fs -> p = 0 /\ m = m0 /\ local nd' = Some t) ->
  forall s', inv cf s' -> net s' = [] ->
  (forall q, sameC (nodes s' q) (if q =? p then nd' else nodes s q)) ->
  (forall q, mail (nodes s' q) = (if q =? p then rest else mail (nodes s q)) ++ add q) ->
  finals s' = finals s ++ fs ->
  hinv s'.
Proof.
  intros s p m rest snds fs nd' HI H Hp Hm Hfst HL' Hb Hmb m0 mail0 add Hrange Hcnt Hzero Hmsr Hord Hadd Hloc Hmono Hbuf0 Hfs s' HI' Hn HS HM HF.
  assert (E0 : ms0 s' = m0).
  { unfold m0, ms0. destruct (HS 0) as (_ & _ & _ & E & _). rewrite E. rewrite (Nat.eqb_sym p 0). destruct (0 =? p); reflexivity. }
  assert (EM0 : mail (nodes s' 0) = mail0 ++ add 0).
  { rewrite HM. unfold mail0. rewrite (Nat.eqb_sym p 0). reflexivity. }
  assert (EL : forall q, local (nodes s' q) = if q =? p then local nd' else local (nodes s q)).
  { intros q. destruct (HS q) as (_ & E & _). rewrite E. destruct (q =? p); reflexivity. }
  assert (EB : forall q, buffer (nodes s' q) = if q =? p then buffer nd' else buffer (nodes s q)).
  { intros q. destruct (HS q) as (_ & _ & _ & _ & E & _). rewrite E. destruct (q =? p); reflexivity. }
  assert (Eset : forall q, setb s' q = if q =? p then true else setb s q).
  { intros q. unfold setb. rewrite EL. destruct (q =? p); [|reflexivity]. destruct (local nd'); [reflexivity|contradiction]. }
  constructor.
  - exact Hn.
  - intros q Hq HLq. rewrite EL in HLq. rewrite EB, HM. destruct (HS q) as (_ & _ & _ & Em & _). rewrite Em.
    destruct (Nat.eqb_spec q p) as [->|]; [contradiction|]. destruct (h_first s H q Hq HLq) as (F1 & F2 & r & F3).
    rewrite F1, F2, F3. ssplit; auto. exists (r ++ add q). reflexivity.
  - intros q b Hq. rewrite EB. destruct (q =? p); [apply Hb|now apply (h_buf s H)].
  - intros q Hq. destruct (HS q) as (_ & _ & _ & _ & _ & E & _). rewrite E. destruct (q =? p); [exact Hmb|now apply (h_mbuf s H)].
  - intros q i Hq. rewrite HM. intros Hi. apply in_app_iff in Hi. destruct Hi as [Hi|Hi]; [|destruct (Hrange q i Hi); lia].
    destruct (Nat.eqb_spec q p) as [->|]; [|now apply (h_range s H)]. apply (h_range s H p i Hp). rewrite Hm. now right.
  - intros q Hq1 Hq2. rewrite EM0, E0, Hcnt by lia. rewrite Eset. destruct (q =? p); reflexivity.
  - rewrite E0, Hzero, Eset, (Nat.eqb_sym p 0). destruct (0 =? p); reflexivity.
  - rewrite E0. exact Hmsr.
  - intros pre t c post q E Hq Hq0. rewrite E0. rewrite EM0 in E. destruct (app_split_tail _ _ _ _ _ E) as [(post' & E')|(pre' & -> & E')].
    + eapply Hord; eauto.
    + destruct (Hadd _ _ _ _ q E' Hq Hq0) as [G|[G|G]]; auto; right; apply in_app_iff; auto.
  - intros t q HLt Hq. rewrite E0. rewrite EL in HLt. destruct (Nat.eqb_spec 0 p) as [Ep|]; [eapply Hloc; eauto|].
    apply Hmono. eapply (h_loc0 s H); eauto.
  - intros t c q Hin Hq Hq0. rewrite E0. rewrite EB in Hin. destruct (Nat.eqb_spec 0 p) as [Ep|]; [eapply Hbuf0; eauto|].
    apply Hmono. eapply (h_buf0 s H); eauto.
  - intros m' t. rewrite HF, in_app_iff. intros [Hin|Hin]; [eapply (h_fin s H); eauto|].
    destruct (inv_safe cf HN eq_refl (le_n _) s' HI') as (_ & _ & Hall). rewrite HF, Forall_app, (Forall_forall _ fs) in Hall. destruct Hall as (_ & Hall).
    specialize (Hall _ Hin). cbn [snd] in Hall. destruct (Hfs _ _ Hin) as (Ep & -> & HLt). apply perm_occ; [|exact Hmsr].
    intros q Hq. assert (1 <= occ q m0).
    { apply occ_in. apply (Hloc Ep t q HLt). eapply Permutation_in; [symmetry; exact Hall|]. apply in_seq. cbn [n_nodes helper_threads]. lia. }
    destruct (Nat.eq_dec q 0) as [->|]; [rewrite Hzero, Ep; reflexivity|].
    assert (Eq := Hcnt q ltac:(lia)). destruct (q =? p); [lia|]. destruct (setb s q); cbn in Eq; lia.
Qed.

Lemma hinv_step : forall s s', inv cf s -> (forall p, started (nodes s p) = true) -> hinv s -> step cf s s' -> inv cf s' -> hinv s'.
Proof.
  intros s s' HI Hst H Hs HI'. destruct Hs as [s before src d m after Hn _|s p m rest Hp Hm].
  - rewrite (h_net s H) in Hn. destruct before; discriminate.
  - change (p < N) in Hp. pose proof (in_flight cf HN eq_refl (le_n _) s p m rest Hp Hm) as Hin.
    pose proof (v_node _ _ HI p Hp) as (_ & _ & W3 & _).
    set (nd := with_mail (nodes s p) rest). set (e := handle cf p nd m).
    assert (Hnet : net (process cf p s m rest) = []).
    { unfold process. rewrite fold_net_h by reflexivity. cbn [net]. rewrite (h_net s H). destruct m; reflexivity. }
    assert (HS := process_core cf s p m rest). fold nd in HS. fold e in HS.
    assert (HM : forall q, mail (nodes (process cf p s m rest) q) = (if q =? p then rest else mail (nodes s q)) ++ map snd (filter (fun x => fst x =? q) (e_sends e))).
    { intros q. unfold process. rewrite fold_mail by reflexivity. fold nd. fold e. cbn [nodes]. f_equal. unfold upd.
      destruct (q =? p); [|reflexivity]. unfold e. rewrite handle_mail. reflexivity. }
    assert (HF : finals (process cf p s m rest) = finals s ++ e_finals e).
    { unfold process. destruct (fold_rest cf p (e_sends (handle cf p (with_mail (nodes s p) rest) m)) {| nodes := upd (nodes s) p (e_node (handle cf p (with_mail (nodes s p) rest) m)); net := net s ++ helper_answer cf p (with_mail (nodes s p) rest) m; finals := finals s ++ e_finals (handle cf p (with_mail (nodes s p) rest) m);
       panicked := panicked s || e_panic (handle cf p (with_mail (nodes s p) rest) m) |}) as (E & _). rewrite E. reflexivity. }
    assert (Hmail0 : forall pre t c post q, (if p =? 0 then rest else mail (nodes s 0)) = pre ++ R t c :: post -> In q (leaves t) -> q <> 0 -> In q (ms0 s) \/ In (Means q) pre \/ (p = 0 /\ m = Means q)).
    { intros pre t c post q E Hq Hq0. destruct (Nat.eqb_spec p 0) as [->|].
      - assert (E' : mail (nodes s 0) = (m :: pre) ++ R t c :: post) by (rewrite Hm, E; reflexivity).
        destruct (h_order s H _ _ _ _ q E' Hq Hq0) as [G|[G|G]]; auto.
      - destruct (h_order s H _ _ _ _ q E Hq Hq0) as [G|G]; auto. }
    assert (Hrest0 : p = 0 -> forall q, cnt (isM q) (mail (nodes s 0)) = b2n (isM q m) + cnt (isM q) rest).
    { intros -> q. rewrite Hm, cnt_cons. reflexivity. }
    destruct m as [| |i|t c|mm t|].
    + (* Start *) pose proof (cnt_pos _ (isStart p) _ _ Hin (Nat.eqb_refl p)) as HT. rewrite (v_start _ _ HI p Hp) in HT. unfold tokS in HT. rewrite Hst in HT. cbn in HT. lia.
    + (* Setup *)
      assert (HL : local (nodes s p) = None).
      { pose proof (cnt_pos _ (isSetup p) _ _ Hin (Nat.eqb_refl p)) as HT. rewrite (v_setup _ _ HI p Hp) in HT. unfold tokU in HT.
        rewrite Hst in HT. destruct (local (nodes s p)); [cbn in HT; lia|reflexivity]. }
      destruct (h_first s H p Hp HL) as (Eb & Em & _). pose proof (h_mbuf s H p Hp) as Emb.
      pose proof (sof_cases cf p (with_means nd (Some [p])) (Own p) eq_refl) as SC. cbn zeta in SC.
      set (e0 := send_or_finalize cf p (with_means nd (Some [p])) (Own p)) in *.
      assert (Ee : e = {| e_node := with_buffers (e_node e0) [] []; e_sends := (if p =? 0 then [] else [(0, Means p)]) ++ e_sends e0; e_finals := e_finals e0; e_panic := e_panic e0 |}).
      { unfold e. cbn [handle]. unfold on_setup. cbn [helpers helper_threads orb]. fold e0.
        change (buffer nd) with (buffer (nodes s p)). change (means_buffer nd) with (means_buffer (nodes s p)). rewrite Eb, Emb. cbn [resolve rev map].
        rewrite !app_nil_r. reflexivity. }
      assert (En : local (e_node e) = Some (Own p) /\ means (e_node e) = Some [p]).
      { rewrite Ee. cbn [e_node with_buffers local means]. unfold e0. rewrite sof_node. split; reflexivity. }
      destruct En as (En1 & En2).
      assert (Hms : p = 0 -> ms0 s = []) by (intros ->; unfold ms0; rewrite Em; reflexivity).
      eapply (hstep s p Setup rest (e_sends e) (e_finals e) (e_node e)); auto; rewrite ?En1, ?En2.
      * discriminate.
      * rewrite Ee. intros b [].
      * intros q j Hi. rewrite Ee in Hi. cbn [e_sends] in Hi. rewrite filter_app, map_app, in_app_iff in Hi.
        destruct Hi as [Hi|Hi].
        -- destruct (Nat.eqb_spec p 0); [destruct Hi|]. cbn [filter fst] in Hi. destruct (Nat.eqb_spec 0 q); [|destruct Hi]. destruct Hi as [E|[]]. injection E as <-. lia.
        -- exfalso. destruct SC as [(_ & [SE|(_ & d & k & SE)])|(_ & SE & _)]; rewrite SE in Hi; [destruct Hi| |destruct Hi].
           cbn [filter fst] in Hi. destruct (d =? q); [|destruct Hi]. destruct Hi as [E|[]]. discriminate.
      * intros q Hq. rewrite cnt_app. rewrite Ee. cbn [e_sends]. rewrite filter_app, map_app, cnt_app.
        assert (Ec : cnt (isM q) (map snd (filter (fun x => fst x =? 0) (e_sends e0))) = 0).
        { apply cnt_zero. intros x Hx. destruct SC as [(_ & [SE|(_ & d & k & SE)])|(_ & SE & _)]; rewrite SE in Hx; [destruct Hx| |destruct Hx].
          cbn [filter fst] in Hx. destruct (d =? 0); [|destruct Hx]. destruct Hx as [<-|[]]. reflexivity. }
        rewrite Ec. pose proof (h_cnt s H q ltac:(lia) ltac:(lia)) as HC.
        destruct (Nat.eqb_spec p 0) as [E0|E0].
        -- rewrite (Hms E0) in HC. rewrite (Hrest0 E0) in HC. cbn [isM b2n] in HC. unfold occ in HC. rewrite cnt_nil in HC.
           destruct (Nat.eqb_spec q p); [lia|]. rewrite <- HC. subst p.
           assert (Eq0 : occ q [0] = 0) by (unfold occ; rewrite cnt_cons; destruct (Nat.eqb_spec q 0); [lia|reflexivity]).
           rewrite Eq0. cbn [filter map]. rewrite cnt_nil. lia.
        -- cbn [filter fst Nat.eqb map snd]. rewrite cnt_cons. cbn [isM]. rewrite (Nat.eqb_sym p q).
           destruct (Nat.eqb_spec q p) as [->|].
           ++ assert (Es : setb s p = false) by (unfold setb; rewrite HL; reflexivity). rewrite Es in HC. cbn in *. lia.
           ++ cbn. lia.
      * destruct (Nat.eqb_spec p 0) as [->|]; [reflexivity|apply (h_zero s H)].
      * intros j. destruct (Nat.eqb_spec p 0) as [->|]; [intros [<-|[]]; lia|apply (h_msr s H)].
      * intros pre t c post q E Hq Hq0. destruct (Hmail0 _ _ _ _ q E Hq Hq0) as [G|[G|(_ & G)]]; auto; [|discriminate].
        left. destruct (Nat.eqb_spec p 0) as [E0|]; [|exact G]. rewrite (Hms E0) in G. destruct G.
      * intros pre t c post q E Hq Hq0. rewrite Ee in E. cbn [e_sends] in E.
        destruct SC as [(_ & [SE|(Hp0 & d & k & SE)])|(Hp0 & SE & _)]; rewrite SE in E.
        -- exfalso. rewrite app_nil_r in E. destruct (p =? 0); [destruct pre; discriminate|]. destruct pre as [|? [|? ?]]; discriminate.
        -- destruct (Nat.eqb_spec p 0); [contradiction|]. cbn [app filter fst Nat.eqb map snd] in E. destruct (d =? 0); [|destruct pre as [|? [|? ?]]; discriminate].
           destruct pre as [|x [|y pre]]; try discriminate; [|destruct pre; discriminate]. cbn in E. injection E as <- <- <- <-. destruct Hq as [<-|[]]. right. right. left. reflexivity.
        -- exfalso. rewrite Hp0 in E. destruct pre; discriminate.
      * intros -> t q E. injection E as <-. intros Hq. exact Hq.
      * intros q Hq. destruct (Nat.eqb_spec p 0) as [E0|]; [|exact Hq]. rewrite (Hms E0) in Hq. destruct Hq.
      * rewrite Ee. intros _ t c q [].
      * intros m' t' Hi. rewrite Ee in Hi. cbn [e_finals] in Hi. destruct SC as [(SF & _)|(Hp0 & _ & mm & Emm & SF)]; rewrite SF in Hi; [destruct Hi|].
        destruct Hi as [E|[]]. injection E as <- <-. cbn in Emm. injection Emm as <-. rewrite Hp0. auto.
    + (* Means *)
      destruct (h_range s H p i Hp) as (Ep & Hi1 & Hi2); [rewrite Hm; now left|]. subst p.
      assert (HL : local (nodes s 0) <> None).
      { intros HL. destruct (h_first s H 0 Hp HL) as (_ & _ & r & E). rewrite Hm in E. discriminate. }
      destruct (local (nodes s 0)) as [l|] eqn:El; [|contradiction].
      destruct (means (nodes s 0)) as [ms|] eqn:Em; [|exfalso; now apply (W3 HL)].
      assert (Ems : ms0 s = ms) by (unfold ms0; now rewrite Em).
      assert (Ee : e = no_effect (with_means nd (Some (ms ++ [i])))).
      { unfold e. cbn [handle helpers helper_threads]. change (local nd) with (local (nodes s 0)). rewrite El. cbn [andb].
        change (means nd) with (means (nodes s 0)). rewrite Em. reflexivity. }
      eapply (hstep s 0 (Means i) rest (e_sends e) (e_finals e) (e_node e)); auto; rewrite ?Ee; cbn [no_effect e_node e_sends e_finals with_means local buffer means_buffer means Nat.eqb filter map app].
      * left. now rewrite El.
      * change (local nd) with (local (nodes s 0)). now rewrite El.
      * intros b Hb. now apply (h_buf s H 0 b Hp).
      * apply (h_mbuf s H 0 Hp).
      * intros q j [].
      * intros q Hq. rewrite app_nil_r. pose proof (h_cnt s H q ltac:(lia) ltac:(lia)) as HC. rewrite (Hrest0 eq_refl q), Ems in HC. cbn [isM] in HC.
        unfold occ in *. rewrite cnt_app, cnt_cons, cnt_nil, (Nat.eqb_sym q i). destruct (Nat.eqb_spec q 0); lia.
      * pose proof (h_zero s H) as HZ. rewrite Ems in HZ. unfold occ, setb in *. rewrite El in HZ. rewrite cnt_app, cnt_cons, HZ. destruct i; [lia|reflexivity].
      * intros j Hj. apply in_app_iff in Hj. destruct Hj as [Hj|[<-|[]]]; [apply (h_msr s H); now rewrite Ems|lia].
      * intros pre t c post q E Hq Hq0. destruct (Hmail0 _ _ _ _ q E Hq Hq0) as [G|[G|(_ & G)]]; auto.
        -- left. apply in_app_iff. left. now rewrite <- Ems.
        -- injection G as ->. left. apply in_app_iff. right. now left.
      * intros pre t c post q E. destruct pre; discriminate.
      * intros _ t q E Hq. apply in_app_iff. left. rewrite <- Ems. eapply (h_loc0 s H); eauto.
      * intros q Hq. apply in_app_iff. left. now rewrite <- Ems.
      * intros _ t c q E Hq Hq0. apply in_app_iff. left. rewrite <- Ems. eapply (h_buf0 s H); eauto.
      * intros m' t' [].
    + (* R *)
      assert (HL : local (nodes s p) <> None).
      { intros HL. destruct (h_first s H p Hp HL) as (_ & _ & r & E). rewrite Hm in E. discriminate. }
      destruct (local (nodes s p)) as [l|] eqn:El; [|contradiction].
      destruct (means (nodes s p)) as [ms|] eqn:Em; [|exfalso; now apply (W3 HL)].
      assert (Ems : p = 0 -> ms0 s = ms) by (intros ->; unfold ms0; now rewrite Em).
      assert (Eset : setb s p = true) by (unfold setb; now rewrite El).
      assert (Hfront : p = 0 -> forall q, In q (leaves t) -> q <> 0 -> In q (ms0 s)).
      { intros -> q Hq Hq0. destruct (h_order s H [] t c rest q Hm Hq Hq0) as [G|[]]. exact G. }
      assert (Hleaf : forall q, In q (leaves l ++ leaves t) -> q <> 0 -> In q (ms0 s) \/ In (Means q) (mail (nodes s 0))).
      { intros q Hq Hq0. apply in_app_iff in Hq. 
        assert (HLq : local (nodes s q) <> None).
        { destruct Hq as [Hq|Hq]; [eapply (a_leafL _ _ _ _ _ (v_a _ _ HI) p l q El Hq)|eapply (a_leafF _ _ _ _ _ (v_a _ _ HI) p t c q Hin Hq)]. }
        assert (HqN : q < N).
        { destruct Hq as [Hq|Hq].
          - destruct (a_node _ _ _ _ _ (v_a _ _ HI) p l Hp El) as (PL & _). eapply Permutation_in in Hq; [|exact PL].
            unfold Tree.seg in Hq. apply filter_In in Hq. destruct Hq as (Hq & _). apply in_seq in Hq. cbn in Hq. lia.
          - destruct (a_flight _ _ _ _ _ (v_a _ _ HI) p t c Hin) as (_ & _ & _ & _ & _ & PL & _). eapply Permutation_in in Hq; [|exact PL].
            unfold Tree.seg in Hq. apply filter_In in Hq. destruct Hq as (Hq & _). apply in_seq in Hq. cbn in Hq. lia. }
        apply there; auto. lia. }
      assert (Hcnt0 : forall q, 1 <= q < N -> cnt (isM q) (if p =? 0 then rest else mail (nodes s 0)) + occ q (ms0 s) = if q =? p then 1 else b2n (setb s q)).
      { intros q Hq. pose proof (h_cnt s H q ltac:(lia) ltac:(lia)) as HC. destruct (Nat.eqb_spec p 0) as [E0|].
        - rewrite (Hrest0 E0) in HC. cbn in HC. destruct (Nat.eqb_spec q p); lia.
        - destruct (Nat.eqb_spec q p) as [->|]; [rewrite Eset in HC; exact HC|exact HC]. }
      assert (Hz0 : occ 0 (ms0 s) = if p =? 0 then 1 else b2n (setb s 0)).
      { rewrite (h_zero s H). destruct (Nat.eqb_spec p 0) as [->|]; [now rewrite Eset|reflexivity]. }
      assert (Hnd : forall t' nd', means nd' = Some ms -> (if p =? 0 then match means nd' with Some l => l | None => [] end else ms0 s) = ms0 s /\ t' = t' :> rtree).
      { intros t' nd' E. split; [|reflexivity]. rewrite E. destruct (Nat.eqb_spec p 0) as [E0|]; [symmetry; now apply Ems|reflexivity]. }
      assert (Hbf : forall q t' c', p = 0 -> In (R t' c') (buffer (nodes s p) ++ [R t c]) -> In q (leaves t') -> q <> 0 -> In q (ms0 s)).
      { intros q t' c' E0 Hi Hq Hq0. apply in_app_iff in Hi. destruct Hi as [Hi|[Hi|[]]].
        - subst p. eapply (h_buf0 s H); eauto.
        - injection Hi as -> ->. now apply Hfront. }
      destruct (Nat.eqb c (r_count (nodes s p) + 1)) eqn:Ec.
      * pose proof (sof_cases cf p (with_factor nd (Some l) c) (Combine l t) eq_refl) as SC. cbn zeta in SC.
        set (e0 := send_or_finalize cf p (with_factor nd (Some l) c) (Combine l t)) in *.
        assert (Ee : e = {| e_node := with_buffers (e_node e0) [] (means_buffer (e_node e0)); e_sends := e_sends e0 ++ resolve p (buffer (nodes s p)); e_finals := e_finals e0; e_panic := e_panic e0 |}).
        { unfold e. cbn [handle]. change (local nd) with (local (nodes s p)). rewrite El. change (r_count nd) with (r_count (nodes s p)). rewrite Ec. reflexivity. }
        assert (En : local (e_node e) = Some (Combine l t) /\ means (e_node e) = Some ms /\ means_buffer (e_node e) = []).
        { rewrite Ee. cbn [e_node with_buffers local means means_buffer]. unfold e0. rewrite sof_node. ssplit; [reflexivity|exact Em|exact (h_mbuf s H p Hp)]. }
        destruct En as (En1 & En2 & En3). destruct (Hnd t (e_node e) En2) as (Em0 & _).
        assert (Hres : forall q, map snd (filter (fun x => fst x =? q) (resolve p (buffer (nodes s p)))) = if p =? q then rev (buffer (nodes s p)) else []).
        { intros q. unfold resolve. induction (rev (buffer (nodes s p))) as [|x b IH]; cbn [map filter fst snd]; [now destruct (p =? q)|].
          destruct (p =? q) eqn:Epq; cbn [map snd]; rewrite IH; reflexivity. }
        assert (Hnom : forall q j, In (Means j) (map snd (filter (fun x => fst x =? q) (e_sends e))) -> False).
        { intros q j Hi. rewrite Ee in Hi. cbn [e_sends] in Hi. rewrite filter_app, map_app, in_app_iff, Hres in Hi. destruct Hi as [Hi|Hi].
          - destruct SC as [(_ & [SE|(_ & d & k & SE)])|(_ & SE & _)]; rewrite SE in Hi; [destruct Hi| |destruct Hi].
            cbn [filter fst] in Hi. destruct (d =? q); [|destruct Hi]. destruct Hi as [E|[]]. discriminate.
          - destruct (p =? q); [|destruct Hi]. apply in_rev in Hi. destruct (h_buf s H p _ Hp Hi) as (? & ? & ?). discriminate. }
        eapply (hstep s p (R t c) rest (e_sends e) (e_finals e) (e_node e)); auto; rewrite ?Em0; auto.
        -- left. now rewrite El.
        -- now rewrite En1.
        -- rewrite Ee. intros b [].
        -- intros q j Hi. now apply Hnom in Hi.
        -- intros q Hq. rewrite cnt_app, <- (Hcnt0 q Hq).
           rewrite (cnt_zero _ (isM q) (map snd (filter (fun x => fst x =? 0) (e_sends e)))); [lia|].
           intros x Hx. destruct x; try reflexivity. now apply Hnom in Hx.
        -- apply (h_msr s H).
        -- intros pre t' c' post q E Hq Hq0. destruct (Hmail0 _ _ _ _ q E Hq Hq0) as [G|[G|(_ & G)]]; auto. discriminate.
        -- intros pre t' c' post q E Hq Hq0. rewrite Ee in E. cbn [e_sends] in E. rewrite filter_app, map_app, Hres in E.
           destruct (Nat.eqb_spec p 0) as [E0|E0].
           ++ left. destruct SC as [(_ & [SE|(Hp0 & _)])|(_ & SE & _)]; [|contradiction|]; rewrite SE in E; cbn [filter map app] in E;
              (eapply (Hbf q t' c' E0); [|exact Hq|exact Hq0]; apply in_app_iff; left; apply in_rev; rewrite E; apply in_app_iff; right; now left).
           ++ rewrite app_nil_r in E. destruct SC as [(_ & [SE|(Hp0 & d & k & SE)])|(Hp0 & SE & _)]; [|  |contradiction]; rewrite SE in E.
              ** destruct pre; discriminate.
              ** cbn [filter fst] in E. destruct (d =? 0); [|destruct pre; discriminate]. cbn [map snd] in E. destruct pre as [|? [|? ?]]; try discriminate. cbn in E. injection E as <- _ _.
                 destruct (Hleaf q Hq Hq0); auto.
        -- intros E0 t' q E Hq. rewrite En1 in E. injection E as <-. cbn [leaves] in Hq.
           destruct (Nat.eq_dec q 0) as [->|Hq0]; [apply in_occ; rewrite (h_zero s H); subst p; rewrite Eset; cbn; lia|].
           apply in_app_iff in Hq. destruct Hq as [Hq|Hq]; [subst p; eapply (h_loc0 s H); eauto|now apply Hfront].
        -- rewrite Ee. intros _ t' c' q [].
        -- intros m' t' Hi. rewrite Ee in Hi. cbn [e_finals] in Hi. destruct SC as [(SF & _)|(Hp0 & _ & mm & Emm & SF)]; rewrite SF in Hi; [destruct Hi|].
           destruct Hi as [E|[]]. injection E as <- <-. cbn [with_factor means] in Emm. change (means nd) with (means (nodes s p)) in Emm. rewrite (Ems Hp0). ssplit; auto. congruence.
      * assert (Ee : e = no_effect (with_buffers nd (buffer nd ++ [R t c]) (means_buffer nd))).
        { unfold e. cbn [handle]. change (local nd) with (local (nodes s p)). rewrite El. change (r_count nd) with (r_count (nodes s p)). rewrite Ec. reflexivity. }
        assert (En2 : means (e_node e) = Some ms) by (rewrite Ee; exact Em).
        destruct (Hnd t (e_node e) En2) as (Em0 & _).
        eapply (hstep s p (R t c) rest (e_sends e) (e_finals e) (e_node e)); auto; rewrite ?Em0; auto; rewrite ?Ee; cbn [no_effect e_node e_sends e_finals filter map].
        -- left. now rewrite El.
        -- cbn [with_buffers local]. change (local nd) with (local (nodes s p)). now rewrite El.
        -- cbn [with_buffers buffer]. intros b Hb. apply in_app_iff in Hb. destruct Hb as [Hb|[<-|[]]]; [now apply (h_buf s H p b Hp)|eauto].
        -- exact (h_mbuf s H p Hp).
        -- intros q j [].
        -- intros q Hq. rewrite app_nil_r. now apply Hcnt0.
        -- apply (h_msr s H).
        -- intros pre t' c' post q E Hq Hq0. destruct (Hmail0 _ _ _ _ q E Hq Hq0) as [G|[G|(_ & G)]]; auto. discriminate.
        -- intros pre t' c' post q E. destruct pre; discriminate.
        -- intros E0 t' q E Hq. cbn [with_buffers local] in E. change (local nd) with (local (nodes s p)) in E. subst p. eapply (h_loc0 s H); eauto.
        -- intros E0 t' c' q Hi Hq Hq0. cbn [with_buffers buffer] in Hi. eapply Hbf; eauto.
        -- intros m' t' [].
    + (* Components *)
      pose proof (cnt_pos _ (isCD p) _ _ Hin (Nat.eqb_refl p)) as HT. pose proof (v_comp _ _ HI p Hp) as HC. cbn [helpers helper_threads n_nodes] in *. lia.
    + pose proof (cnt_pos _ (isCD p) _ _ Hin (Nat.eqb_refl p)) as HT. pose proof (v_comp _ _ HI p Hp) as HC. cbn [helpers helper_threads n_nodes] in *. lia.
Qed.

Lemma helper_means : forall s, reachable cf any_run s -> Forall (fun o => Permutation (fst o) (seq 0 N)) (finals s).
Proof.
  intros s Hr.
  assert (G : inv cf s /\ hinv s).
  { induction Hr as [|s s' Hr (IH1 & IH2) Hs _].
    - split; [apply inv_init; [exact HN|reflexivity|apply le_n]|apply hinv_init].
    - destruct (helpers_started cf s eq_refl Hr) as (S1 & S2).
      assert (HI' : inv cf s').
      { refine (inv_step cf HN eq_refl (le_n _) s s' IH1 _ Hs). intros p _ E. rewrite S1 in E. discriminate. }
      split; [exact HI'|]. exact (hinv_step s s' IH1 S1 IH2 Hs HI'). }
  destruct G as (_ & H). apply Forall_forall. intros [m t] Hi. eapply (h_fin s H); eauto.
Qed.
End Help.
