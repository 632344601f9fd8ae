(** Hosts with one thread each: if no factor overtakes the means that belong to it, the main host knows all means when it finalizes.
    With at most three hosts ordered channels are enough. *)
From Coq Require Import List Arith Bool Lia Permutation.
From Verif.Base Require Import ListX.
From Verif.Pca Require Import Model Spec Tree Abs Proofs Help.
Import ListNotations.

Definition outgoing (p : nat) (snds : list (nat * pmsg)) : list (nat * nat * pmsg) :=
  map (fun x => (p, fst x, snd x)) (filter (fun x => negb (fst x =? p)) snds).
Definition own (p : nat) (snds : list (nat * pmsg)) : list pmsg := map snd (filter (fun x => fst x =? p) snds).

Lemma own_app : forall p a b, own p (a ++ b) = own p a ++ own p b.
Proof. intros. unfold own. now rewrite filter_app, map_app. Qed.
Lemma outgoing_app : forall p a b, outgoing p (a ++ b) = outgoing p a ++ outgoing p b.
Proof. intros. unfold outgoing. now rewrite filter_app, map_app. Qed.

Lemma fold_mail_hosts : forall cf src l s q, helpers cf = false ->
  mail (nodes (fold_left (post cf src) l s) q) = mail (nodes s q) ++ if q =? src then own src l else [].
Proof.
  intros cf src l. induction l as [|[d m] t IH]; intros s q Hh; cbn [fold_left].
  { unfold own. cbn. now destruct (q =? src); rewrite app_nil_r. }
  rewrite IH by exact Hh. unfold post. rewrite Hh. cbn [orb]. unfold own. cbn [filter fst].
  destruct (Nat.eqb_spec d src) as [->|Hd]; cbn [nodes].
  - destruct (Nat.eqb_spec q src) as [->|Hq]; [rewrite upd_eq|rewrite upd_neq by exact Hq; reflexivity].
    cbn [with_mail mail map snd]. now rewrite <- app_assoc.
  - reflexivity.
Qed.
Lemma fold_net_hosts : forall cf src l s, helpers cf = false -> net (fold_left (post cf src) l s) = net s ++ outgoing src l.
Proof.
  intros cf src l. induction l as [|[d m] t IH]; intros s Hh; cbn [fold_left]; [symmetry; apply app_nil_r|].
  rewrite IH by exact Hh. unfold post. rewrite Hh. cbn [orb]. unfold outgoing. cbn [filter fst].
  destruct (d =? src); cbn [negb net map fst snd]; [reflexivity|]. now rewrite <- app_assoc.
Qed.

Definition isMn (q : nat) (x : nat * nat * pmsg) : bool := match x with (_, d, Means i) => (d =? 0) && (i =? q) | _ => false end.
Lemma in_isMn : forall q l, 1 <= cnt (isMn q) l -> exists from, In (from, 0, Means q) l.
Proof.
  intros q l H. induction l as [|x t IH]; [cbn in H; lia|]. rewrite cnt_cons in H.
  destruct (isMn q x) eqn:E.
  - destruct x as [[f d] m]. destruct m; cbn in E; try discriminate. apply andb_true_iff in E. destruct E as (E1 & E2).
    apply Nat.eqb_eq in E1, E2. subst. exists f. now left.
  - cbn in H. destruct (IH H) as (f & Hf). exists f. now right.
Qed.

(** The messages about which the invariant speaks. *)
Definition plain (m : pmsg) : Prop := match m with Components _ _ | Done => True | _ => False end.

Lemma sof_cases_hosts : forall cf p nd t, helpers cf = false ->
  let e := send_or_finalize cf p nd t in
  (e_finals e = [] /\ (e_sends e = [] \/ (p <> 0 /\ exists d k, snd (decide (n_nodes cf) p (r_count nd)) = ASend d k /\ e_sends e = [(d, R t k)])))
  \/ (p = 0 /\ Forall (fun x => plain (snd x)) (e_sends e) /\ exists m, means nd = Some m /\ e_finals e = [(m, t)]).
Proof.
  intros cf p nd t Hh. cbn zeta. unfold send_or_finalize. pose proof (decide_cases (n_nodes cf) p (r_count nd)) as Ha.
  destruct (decide _ _ _) as [c a]. cbn [snd] in *. destruct a as [d k| |].
  - left. destruct (_ && _); cbn; eauto 8.
  - destruct (means nd) as [m|] eqn:Em; cbn.
    + right. split; [exact Ha|]. split; [|eauto]. unfold share. rewrite Hh. apply Forall_app. split; [|repeat constructor].
      apply Forall_forall. intros x Hx. apply in_map_iff in Hx. destruct Hx as (j & <- & _). exact I.
    + left. auto.
  - left. cbn. auto.
Qed.

Section Order.
Variables (N : nat) (ord : bool).
Hypothesis HN : 1 <= N.
Notation cf := (hosts N false ord 1).

Record oinv (s : pstate) : Prop := {
  o_set : forall p, p < N -> started (nodes s p) = true -> local (nodes s p) <> None /\ means (nodes s p) <> None;
  o_unset : forall p, p < N -> started (nodes s p) = false -> means (nodes s p) = None;
  o_mbuf : forall p, p < N -> means_buffer (nodes s p) = [];
  o_buf : forall p m, p < N -> In m (buffer (nodes s p)) -> exists t c, m = R t c;
  o_mail : forall p i, p < N -> In (Means i) (mail (nodes s p)) -> p = 0 /\ 1 <= i < N;
  o_net : forall from d i, In (from, d, Means i) (net s) -> d = 0 /\ 1 <= i < N;
  o_cnt : forall q, 1 <= q < N -> cnt (isMn q) (net s) + cnt (isM q) (mail (nodes s 0)) + occ q (ms0 s) = b2n (started (nodes s q));
  o_zero : occ 0 (ms0 s) = b2n (started (nodes s 0));
  o_msr : forall i, In i (ms0 s) -> i < N;
  o_order : forall pre t c post q, mail (nodes s 0) = pre ++ R t c :: post -> In q (leaves t) -> q <> 0 -> In q (ms0 s) \/ In (Means q) pre;
  o_loc0 : forall t q, local (nodes s 0) = Some t -> In q (leaves t) -> In q (ms0 s);
  o_buf0 : forall t c q, In (R t c) (buffer (nodes s 0)) -> In q (leaves t) -> q <> 0 -> In q (ms0 s);
  o_fin : forall m t, In (m, t) (finals s) -> Permutation m (seq 0 N)
}.

Lemma cnt_none : forall q l, (forall from d i, In (from, d, Means i) l -> False) -> cnt (isMn q) l = 0.
Proof. intros q l H. apply cnt_zero. intros [[f d] m] Hx. destruct m; try reflexivity. exfalso. eapply H; eauto. Qed.
Lemma cnt_nom : forall q l, (forall i, In (Means i) l -> False) -> cnt (isM q) l = 0.
Proof. intros q l H. apply cnt_zero. intros m Hx. destruct m; try reflexivity. exfalso. eapply H; eauto. Qed.

Lemma oinv_init : oinv (initial cf).
Proof.
  unfold initial, hosts. cbn [helpers n_setup].
  constructor; cbn [net nodes idle_node local buffer means means_buffer mail ms0 started finals]; try discriminate; auto; try (intros; contradiction).
  - intros from d i Hi. exfalso. apply in_map_iff in Hi. destruct Hi as (x & E & _). discriminate.
  - intros q Hq. cbn [ms0 nodes idle_node means]. rewrite cnt_none; [reflexivity|]. intros from d i Hi. apply in_map_iff in Hi. destruct Hi as (x & E & _). discriminate.
  - intros pre t c post q E. destruct pre; discriminate.
Qed.

Lemma leaf_started : forall s q, inv cf s -> q < N -> local (nodes s q) <> None -> started (nodes s q) = true.
Proof.
  intros s q HI Hq HL. destruct (v_node _ _ HI q Hq) as (W1 & _). destruct (started (nodes s q)) eqn:E; [reflexivity|]. destruct (W1 eq_refl). contradiction.
Qed.

Lemma arrives : forall s before from d m after, inv cf s -> oinv s -> net s = before ++ (from, d, m) :: after ->
  let s' := {| nodes := upd (nodes s) d (with_mail (nodes s d) (mail (nodes s d) ++ [m])); net := before ++ after; finals := finals s; panicked := panicked s |} in
  inv cf s' -> means_ahead s' -> oinv s'.
Proof.
  intros s before from d m after HI H Hn s' HI' Ha.
  assert (Hin : In (from, d, m) (net s)) by (rewrite Hn; apply in_app_iff; right; now left).
  assert (Hd : d < N). { pose proof (v_dst _ _ HI) as V. rewrite Forall_forall in V. apply (V _ Hin). }
  assert (HS : forall q, sameC (nodes s' q) (nodes s q)).
  { intros q. cbn [nodes s']. destruct (Nat.eq_dec q d) as [->|]; [rewrite upd_eq|rewrite upd_neq by assumption; apply sameC_refl].
    unfold sameC. cbn. ssplit; reflexivity. }
  assert (HM : forall q, mail (nodes s' q) = mail (nodes s q) ++ if q =? d then [m] else []).
  { intros q. cbn [nodes s']. destruct (Nat.eqb_spec q d) as [->|]; [rewrite upd_eq; reflexivity|rewrite upd_neq by assumption; symmetry; apply app_nil_r]. }
  assert (E0 : ms0 s' = ms0 s) by (unfold ms0; destruct (HS 0) as (_ & _ & _ & E & _); now rewrite E).
  assert (Hsub : forall x, In x (net s') -> In x (net s)).
  { intros x. cbn [net s']. rewrite Hn, !in_app_iff. intros [Hx|Hx]; [auto|right; now right]. }
  assert (HC : forall q, 1 <= q < N -> cnt (isMn q) (net s') + cnt (isM q) (mail (nodes s' 0)) + occ q (ms0 s') = b2n (started (nodes s' q))).
  { intros q Hq. destruct (HS q) as (Es & _). rewrite E0, HM, Es, <- (o_cnt s H q Hq). cbn [net s']. rewrite Hn, !cnt_app, cnt_cons.
    assert (E : b2n (isMn q (from, d, m)) = cnt (isM q) (if 0 =? d then [m] else [])).
    { rewrite (Nat.eqb_sym 0 d). cbn [isMn]. destruct (d =? 0); [rewrite cnt_cons, cnt_nil|rewrite cnt_nil]; destruct m; cbn; try reflexivity. lia. }
    lia. }
  constructor.
  - intros p Hp. destruct (HS p) as (E1 & E2 & _ & E3 & _). rewrite E1, E2, E3. now apply (o_set s H).
  - intros p Hp. destruct (HS p) as (E1 & _ & _ & E3 & _). rewrite E1, E3. now apply (o_unset s H).
  - intros p Hp. destruct (HS p) as (_ & _ & _ & _ & _ & E & _). rewrite E. now apply (o_mbuf s H).
  - intros p b Hp. destruct (HS p) as (_ & _ & _ & _ & E & _). rewrite E. now apply (o_buf s H).
  - intros p i Hp. rewrite HM, in_app_iff. intros [Hi|Hi]; [now apply (o_mail s H)|]. destruct (Nat.eqb_spec p d) as [->|]; [|destruct Hi].
    destruct Hi as [->|[]]. now apply (o_net s H from d i).
  - intros f d' i Hi. apply Hsub in Hi. now apply (o_net s H f d' i).
  - exact HC.
  - rewrite E0. destruct (HS 0) as (E & _). rewrite E. apply (o_zero s H).
  - rewrite E0. apply (o_msr s H).
  - intros pre t c post q E Hq Hq0. rewrite E0. rewrite HM in E. destruct (app_split_tail _ _ _ _ _ E) as [(post' & E')|(pre' & -> & E')].
    + eapply (o_order s H); eauto.
    + destruct (Nat.eqb_spec 0 d) as [E1|]; [|destruct pre'; discriminate]. destruct pre' as [|? pre']; [|destruct pre'; discriminate].
      injection E' as -> <-. rewrite app_nil_r.
      assert (HR : In (R t c) (mail (nodes s' 0))) by (rewrite HM; subst d; apply in_app_iff; right; now left).
      assert (HF : In (0, R t c) (flight N s')).
      { unfold flight. apply in_app_iff. right. apply in_flat_map. exists 0. split; [apply in_seq; lia|]. apply in_map. unfold contents. apply in_app_iff. now left. }
      assert (HqN : q < N).
      { destruct (a_flight _ _ _ _ _ (v_a _ _ HI') 0 t c HF) as (_ & _ & _ & _ & _ & PL & _). eapply Permutation_in in Hq; [|exact PL].
        unfold Tree.seg in Hq. apply filter_In in Hq. destruct Hq as (Hq & _). apply in_seq in Hq. cbn in Hq. lia. }
      pose proof (leaf_started s' q HI' HqN (a_leafF _ _ _ _ _ (v_a _ _ HI') 0 t c q HF Hq)) as Hst.
      specialize (HC q ltac:(lia)). rewrite Hst in HC. cbn [b2n] in HC.
      assert (Hnn : cnt (isMn q) (net s') = 0).
      { destruct (Nat.eq_dec (cnt (isMn q) (net s')) 0) as [|Hne]; [assumption|]. destruct (in_isMn q (net s') ltac:(lia)) as (f & Hf).
        exfalso. exact (Ha t c q f HR Hq Hf). }
      destruct (Nat.eq_dec (occ q (ms0 s')) 0) as [Eo|Eo].
      * right. assert (Hi : In (Means q) (mail (nodes s' 0))) by (apply (in_isM N HN); lia). rewrite HM, in_app_iff in Hi. destruct Hi as [Hi|Hi]; [exact Hi|].
        destruct (0 =? d); [|destruct Hi]. destruct Hi as [Hi|[]]. discriminate.
      * left. rewrite <- E0. apply (in_occ N HN). lia.
  - intros t q HL Hq. rewrite E0. destruct (HS 0) as (_ & E & _). rewrite E in HL. eapply (o_loc0 s H); eauto.
  - intros t c q Hb Hq Hq0. rewrite E0. destruct (HS 0) as (_ & _ & _ & _ & E & _). rewrite E in Hb. eapply (o_buf0 s H); eauto.
  - exact (o_fin s H).
Qed.

(** One handler: [p]'s node becomes [nd'], [snds] go out. *)
Lemma ostep : forall s p m rest snds fs nd',
  inv cf s -> oinv s -> p < N -> mail (nodes s p) = m :: rest ->
  local (nodes s p) <> None \/ m = Start ->
  started nd' = true -> local nd' <> None -> means nd' <> None ->
  (forall b, In b (buffer nd') -> exists t c, b = R t c) -> means_buffer nd' = [] ->
  let m0 := if p =? 0 then match means nd' with Some l => l | None => [] end else ms0 s in
  let mail0 := if p =? 0 then rest ++ own p snds else mail (nodes s 0) in
  (forall i, ~ In (Means i) (own p snds)) ->
  (forall from d i, In (from, d, Means i) (outgoing p snds) -> d = 0 /\ 1 <= i < N) ->
  (forall q, 1 <= q < N -> cnt (isMn q) (net s ++ outgoing p snds) + cnt (isM q) mail0 + occ q m0 = if q =? p then 1 else b2n (started (nodes s q))) ->
  occ 0 m0 = (if p =? 0 then 1 else b2n (started (nodes s 0))) ->
  (forall i, In i m0 -> i < N) ->
  (p = 0 -> forall pre t c post q, rest ++ own p snds = pre ++ R t c :: post -> In q (leaves t) -> q <> 0 -> In q m0 \/ In (Means q) pre) ->
  (p = 0 -> forall t q, local nd' = Some t -> In q (leaves t) -> In q m0) ->
  (p = 0 -> forall t c q, In (R t c) (buffer nd') -> In q (leaves t) -> q <> 0 -> In q m0) ->
  (forall m t, In (m, t) fs -> p = 0 /\ m = m0 /\ local nd' = Some t) ->
  forall s', inv cf s' -> net s' = net s ++ outgoing p snds ->
  (forall q, sameC (nodes s' q) (if q =? p then nd' else nodes s q)) ->
  (forall q, mail (nodes s' q) = (if q =? p then rest ++ own p snds else mail (nodes s q))) ->
  finals s' = finals s ++ fs ->
  oinv s'.
Proof.
  intros s p m rest snds fs nd' HI H Hp Hm Hfst Hs' HL' Hme Hb Hmb m0 mail0 Hown Hout Hcnt Hzero Hmsr Hord Hloc Hbuf0 Hfs s' HI' Hn HS HM HF.
  assert (E0 : ms0 s' = m0).
  { unfold m0, ms0. destruct (HS 0) as (_ & _ & _ & E & _). rewrite E. rewrite (Nat.eqb_sym p 0). destruct (0 =? p); reflexivity. }
  assert (EM0 : mail (nodes s' 0) = mail0) by (rewrite HM; unfold mail0; now rewrite (Nat.eqb_sym p 0)).
  assert (EL : forall q, local (nodes s' q) = if q =? p then local nd' else local (nodes s q)).
  { intros q. destruct (HS q) as (_ & E & _). rewrite E. destruct (q =? p); reflexivity. }
  assert (EB : forall q, buffer (nodes s' q) = if q =? p then buffer nd' else buffer (nodes s q)).
  { intros q. destruct (HS q) as (_ & _ & _ & _ & E & _). rewrite E. destruct (q =? p); reflexivity. }
  assert (ES : forall q, started (nodes s' q) = if q =? p then true else started (nodes s q)).
  { intros q. destruct (HS q) as (E & _). rewrite E. destruct (q =? p); [exact Hs'|reflexivity]. }
  assert (Em0 : p <> 0 -> m0 = ms0 s) by (intros Hp0; unfold m0; destruct (Nat.eqb_spec p 0); [contradiction|reflexivity]).
  constructor.
  - intros q Hq Hsq. destruct (HS q) as (_ & _ & _ & E & _). rewrite E. rewrite EL. rewrite ES in Hsq. destruct (q =? p); [auto|now apply (o_set s H)].
  - intros q Hq Hsq. destruct (HS q) as (_ & _ & _ & E & _). rewrite E. rewrite ES in Hsq. destruct (q =? p); [discriminate|now apply (o_unset s H)].
  - intros q Hq. destruct (HS q) as (_ & _ & _ & _ & _ & E & _). rewrite E. destruct (q =? p); [exact Hmb|now apply (o_mbuf s H)].
  - intros q b Hq. rewrite EB. destruct (q =? p); [apply Hb|now apply (o_buf s H)].
  - intros q i Hq. rewrite HM. destruct (Nat.eqb_spec q p) as [->|]; [|now apply (o_mail s H)]. intros Hi. apply in_app_iff in Hi.
    destruct Hi as [Hi|Hi]; [|now apply Hown in Hi]. apply (o_mail s H p i Hp). rewrite Hm. now right.
  - intros f d i. rewrite Hn, in_app_iff. intros [Hi|Hi]; [now apply (o_net s H f d i)|now apply (Hout f d i)].
  - intros q Hq. rewrite Hn, EM0, E0, (Hcnt q Hq), ES. destruct (q =? p); reflexivity.
  - rewrite E0, Hzero, ES, (Nat.eqb_sym p 0). destruct (0 =? p); reflexivity.
  - rewrite E0. exact Hmsr.
  - intros pre t c post q E Hq Hq0. rewrite E0. rewrite EM0 in E. unfold mail0 in E. destruct (Nat.eqb_spec p 0) as [Ep|Ep]; [eapply Hord; eauto|].
    rewrite (Em0 Ep). eapply (o_order s H); eauto.
  - intros t q HLt Hq. rewrite E0. rewrite EL in HLt. destruct (Nat.eqb_spec 0 p) as [Ep|Ep]; [eapply Hloc; eauto|].
    rewrite Em0 by lia. eapply (o_loc0 s H); eauto.
  - intros t c q Hin Hq Hq0. rewrite E0. rewrite EB in Hin. destruct (Nat.eqb_spec 0 p) as [Ep|Ep]; [eapply Hbuf0; eauto|].
    rewrite Em0 by lia. eapply (o_buf0 s H); eauto.
  - intros m' t. rewrite HF, in_app_iff. intros [Hin|Hin]; [eapply (o_fin s H); eauto|].
    destruct (inv_safe cf HN eq_refl (le_n _) s' HI') as (_ & _ & Hall). rewrite HF, Forall_app, (Forall_forall _ fs) in Hall. destruct Hall as (_ & Hall).
    specialize (Hall _ Hin). cbn [snd] in Hall. destruct (Hfs _ _ Hin) as (Ep & -> & HLt). apply (perm_occ N HN); [|exact Hmsr].
    intros q Hq. assert (1 <= occ q m0).
    { apply occ_in. apply (Hloc Ep t q HLt). eapply Permutation_in; [symmetry; exact Hall|]. apply in_seq. cbn [n_nodes hosts]. lia. }
    destruct (Nat.eq_dec q 0) as [->|]; [rewrite Hzero, Ep; reflexivity|].
    assert (Eq := Hcnt q ltac:(lia)). destruct (q =? p); [lia|]. destruct (started (nodes s q)); cbn in Eq; lia.
Qed.

Lemma plain_own : forall p l i, Forall (fun x => plain (snd x)) l -> ~ In (Means i) (own p l).
Proof.
  intros p l i HF Hi. unfold own in Hi. apply in_map_iff in Hi. destruct Hi as (x & E & Hx). apply filter_In in Hx.
  rewrite Forall_forall in HF. specialize (HF x (proj1 Hx)). rewrite E in HF. exact HF.
Qed.
Lemma plain_own_R : forall p l t c, Forall (fun x => plain (snd x)) l -> ~ In (R t c) (own p l).
Proof.
  intros p l t c HF Hi. unfold own in Hi. apply in_map_iff in Hi. destruct Hi as (x & E & Hx). apply filter_In in Hx.
  rewrite Forall_forall in HF. specialize (HF x (proj1 Hx)). rewrite E in HF. exact HF.
Qed.
Lemma plain_out : forall p l f d i, Forall (fun x => plain (snd x)) l -> ~ In (f, d, Means i) (outgoing p l).
Proof.
  intros p l f d i HF Hi. unfold outgoing in Hi. apply in_map_iff in Hi. destruct Hi as (x & E & Hx). apply filter_In in Hx.
  rewrite Forall_forall in HF. specialize (HF x (proj1 Hx)). injection E as _ _ E. rewrite E in HF. exact HF.
Qed.
Lemma resolve_own : forall p b, own p (resolve p b) = rev b.
Proof.
  intros p b. unfold own, resolve. induction (rev b) as [|x l IH]; [reflexivity|]. cbn [map filter fst]. rewrite Nat.eqb_refl. cbn [map snd]. now rewrite IH.
Qed.
Lemma resolve_out : forall p b, outgoing p (resolve p b) = [].
Proof.
  intros p b. unfold outgoing, resolve. induction (rev b) as [|x l IH]; [reflexivity|]. cbn [map filter fst]. rewrite Nat.eqb_refl. cbn [negb]. exact IH.
Qed.

Lemma passive : forall s p m rest snds fs nd',
  inv cf s -> oinv s -> p < N -> mail (nodes s p) = m :: rest -> local (nodes s p) <> None -> plain m ->
  fs = [] -> Forall (fun x => plain (snd x)) snds ->
  started nd' = started (nodes s p) -> local nd' = local (nodes s p) -> means nd' = means (nodes s p) ->
  buffer nd' = buffer (nodes s p) -> means_buffer nd' = means_buffer (nodes s p) ->
  forall s', inv cf s' -> net s' = net s ++ outgoing p snds ->
  (forall q, sameC (nodes s' q) (if q =? p then nd' else nodes s q)) ->
  (forall q, mail (nodes s' q) = (if q =? p then rest ++ own p snds else mail (nodes s q))) ->
  finals s' = finals s ++ fs ->
  oinv s'.
Proof.
  intros s p m rest snds fs nd' HI H Hp Hm HL Hpl -> Hsn E1 E2 E3 E4 E5 s' HI' Hn HS HM HF.
  pose proof (leaf_started s p HI Hp HL) as Est. destruct (o_set s H p Hp Est) as (_ & HMe).
  assert (Em0 : (if p =? 0 then match means nd' with Some l => l | None => [] end else ms0 s) = ms0 s).
  { rewrite E3. destruct (Nat.eqb_spec p 0) as [->|]; reflexivity. }
  assert (Hc : forall q, isM q m = false) by (intros q; destruct m; [contradiction..|reflexivity|reflexivity]).
  eapply (ostep s p m rest snds [] nd'); rewrite ?Em0; eauto.
  - now rewrite E2.
  - now rewrite E3.
  - rewrite E4. intros b. now apply (o_buf s H).
  - rewrite E5. now apply (o_mbuf s H).
  - intros i. now apply plain_own.
  - intros f d i Hi. now apply plain_out in Hi.
  - intros q Hq. rewrite cnt_app, (cnt_none q (outgoing p snds)), Nat.add_0_r by (intros f d i Hi; now apply plain_out in Hi).
    pose proof (o_cnt s H q Hq) as HC. destruct (Nat.eqb_spec p 0) as [E0|].
    + rewrite cnt_app, (cnt_nom q (own p snds)) by (intros i Hi; now apply plain_own in Hi).
      subst p. rewrite Hm, cnt_cons, Hc in HC. cbn [b2n] in HC. destruct (Nat.eqb_spec q 0); lia.
    + destruct (Nat.eqb_spec q p) as [->|]; [rewrite Est in HC; exact HC|exact HC].
  - rewrite (o_zero s H). destruct (Nat.eqb_spec p 0) as [->|]; [now rewrite Est|reflexivity].
  - apply (o_msr s H).
  - intros -> pre t c post q E Hq Hq0. destruct (app_split_tail _ _ _ _ _ E) as [(post' & E')|(pre' & _ & E')].
    + assert (E'' : mail (nodes s 0) = (m :: pre) ++ R t c :: post') by (rewrite Hm, E'; reflexivity).
      destruct (o_order s H _ _ _ _ q E'' Hq Hq0) as [G|[G|G]]; auto. rewrite G in Hpl. destruct Hpl.
    + exfalso. apply (plain_own_R 0 snds t c Hsn). rewrite E'. apply in_app_iff. right. now left.
  - intros -> t q. rewrite E2. apply (o_loc0 s H).
  - intros -> t c q. rewrite E4. apply (o_buf0 s H).
  - intros m' t [].
Qed.

Lemma oinv_step : forall s s', inv cf s -> nothing_early cf s -> oinv s -> step cf s s' -> nothing_early cf s' -> means_ahead s' -> inv cf s' -> oinv s'.
Proof.
  intros s s' HI Hea H Hs Hea' Ha HI'. destruct Hs as [s before src d m after Hn _|s p m rest Hp Hm].
  - eapply arrives; eauto.
  - change (p < N) in Hp. pose proof (in_flight cf HN eq_refl (le_n _) s p m rest Hp Hm) as Hin.
    pose proof (v_node _ _ HI p Hp) as (W1 & W2 & W3 & W4 & W5 & W6 & W7).
    set (nd := with_mail (nodes s p) rest). set (e := handle cf p nd m).
    assert (HNet : net (process cf p s m rest) = net s ++ outgoing p (e_sends e)).
    { unfold process. rewrite fold_net_hosts by reflexivity. cbn [net]. fold nd. fold e. f_equal. destruct m; cbn [helper_answer hosts multi andb]; apply app_nil_r. }
    assert (HS := process_core cf s p m rest). fold nd in HS. fold e in HS.
    assert (HM : forall q, mail (nodes (process cf p s m rest) q) = if q =? p then rest ++ own p (e_sends e) else mail (nodes s q)).
    { intros q. unfold process. rewrite fold_mail_hosts by reflexivity. fold nd. fold e. cbn [nodes]. unfold upd.
      destruct (q =? p); [|apply app_nil_r]. unfold e. rewrite handle_mail. reflexivity. }
    assert (HF : finals (process cf p s m rest) = finals s ++ e_finals e).
    { unfold process. fold nd. fold e. destruct (fold_rest cf p (e_sends e) {| nodes := upd (nodes s) p (e_node e); net := net s ++ helper_answer cf p nd m; finals := finals s ++ e_finals e; panicked := panicked s || e_panic e |}) as (E & _). exact E. }
    assert (Hrest0 : p = 0 -> forall q, cnt (isM q) (mail (nodes s 0)) = b2n (isM q m) + cnt (isM q) rest).
    { intros -> q. rewrite Hm, cnt_cons. reflexivity. }
    assert (Hmail0 : p = 0 -> forall pre t c post q, rest = pre ++ R t c :: post -> In q (leaves t) -> q <> 0 -> In q (ms0 s) \/ In (Means q) pre \/ m = Means q).
    { intros -> pre t c post q E Hq Hq0. assert (E' : mail (nodes s 0) = (m :: pre) ++ R t c :: post) by (rewrite Hm, E; reflexivity).
      destruct (o_order s H _ _ _ _ q E' Hq Hq0) as [G|[G|G]]; auto. }
    destruct m as [| |i|t c|mm t|].
    + (* Start *)
      assert (HU : started (nodes s p) = false).
      { pose proof (cnt_pos _ (isStart p) _ _ Hin (Nat.eqb_refl p)) as HT. rewrite (v_start _ _ HI p Hp) in HT. unfold tokS in HT.
        destruct (started (nodes s p)); [cbn in HT; lia|reflexivity]. }
      pose proof (o_unset s H p Hp HU) as Em.
      set (nd1 := {| started := true; local := None; r_count := 0; means := None; buffer := []; means_buffer := []; n_reduced := n_reduced nd + 1; rotated := rotated nd; mail := mail nd |}).
      pose proof (sof_cases_hosts cf p (with_means nd1 (Some [p])) (Own p) eq_refl) as SC. cbn zeta in SC.
      set (e0 := send_or_finalize cf p (with_means nd1 (Some [p])) (Own p)) in *.
      assert (Ee : e = {| e_node := e_node e0; e_sends := (if p =? 0 then [] else [(0, Means p)]) ++ e_sends e0; e_finals := e_finals e0; e_panic := e_panic e0 |}) by reflexivity.
      assert (En : e_node e = with_factor (with_means nd1 (Some [p])) (Some (Own p)) (fst (decide N p 0))).
      { rewrite Ee. cbn [e_node]. unfold e0. rewrite sof_node. reflexivity. }
      assert (Hms : p = 0 -> ms0 s = []) by (intros ->; unfold ms0; rewrite Em; reflexivity).
      assert (Hownm : forall i, ~ In (Means i) (own p (e_sends e))).
      { intros i Hi. rewrite Ee in Hi. cbn [e_sends] in Hi. rewrite own_app, in_app_iff in Hi. destruct Hi as [Hi|Hi].
        - destruct (Nat.eqb_spec p 0); [destruct Hi|]. unfold own in Hi. cbn [filter fst] in Hi. destruct (Nat.eqb_spec 0 p); [lia|destruct Hi].
        - destruct SC as [(_ & [SE|(_ & d & k & _ & SE)])|(_ & SE & _)]; [rewrite SE in Hi; destruct Hi|rewrite SE in Hi|now apply plain_own in Hi].
          unfold own in Hi. cbn [filter fst] in Hi. destruct (d =? p); [|destruct Hi]. destruct Hi as [Hi|[]]. discriminate. }
      assert (Hout0 : forall f d i, ~ In (f, d, Means i) (outgoing p (e_sends e0))).
      { intros f d i Hi. destruct SC as [(_ & [SE|(_ & d' & k & _ & SE)])|(_ & SE & _)]; [rewrite SE in Hi; destruct Hi|rewrite SE in Hi|now apply plain_out in Hi].
        unfold outgoing in Hi. cbn [filter fst] in Hi. destruct (negb _); [|destruct Hi]. destruct Hi as [Hi|[]]. discriminate. }
      assert (HownR : forall t c, ~ In (R t c) (own p (e_sends e))).
      { intros t c Hi. rewrite Ee in Hi. cbn [e_sends] in Hi. rewrite own_app, in_app_iff in Hi. destruct Hi as [Hi|Hi].
        - destruct (Nat.eqb_spec p 0); [destruct Hi|]. unfold own in Hi. cbn [filter fst] in Hi. destruct (Nat.eqb_spec 0 p); [lia|destruct Hi].
        - destruct SC as [(_ & [SE|(_ & d & k & Hd & SE)])|(_ & SE & _)]; [rewrite SE in Hi; destruct Hi|rewrite SE in Hi|now apply plain_own_R in Hi].
          unfold own in Hi. cbn [filter fst] in Hi. destruct (Nat.eqb_spec d p) as [->|]; [|destruct Hi].
          unfold e0 in SE. unfold send_or_finalize in SE. destruct (decide _ _ _) as [c' a]. cbn [snd] in Hd. subst a. rewrite Nat.eqb_refl, andb_false_r in SE. discriminate. }
      eapply (ostep s p Start rest (e_sends e) (e_finals e) (e_node e)); eauto; rewrite ?En; cbn [with_factor with_means started local means buffer means_buffer nd1]; auto; try discriminate.
      * intros b [].
      * intros f d i Hi. rewrite Ee in Hi. cbn [e_sends] in Hi. rewrite outgoing_app, in_app_iff in Hi. destruct Hi as [Hi|Hi]; [|now apply Hout0 in Hi].
        destruct (Nat.eqb_spec p 0); [destruct Hi|]. unfold outgoing in Hi. cbn [filter fst] in Hi. destruct (Nat.eqb_spec 0 p); [lia|]. cbn in Hi. destruct Hi as [E|[]]. injection E as _ <- <-. lia.
      * intros q Hq. pose proof (o_cnt s H q Hq) as HC. rewrite cnt_app. rewrite Ee at 1. cbn [e_sends]. rewrite outgoing_app, cnt_app, (cnt_none q (outgoing p (e_sends e0))) by (intros; eapply Hout0; eauto).
        destruct (Nat.eqb_spec p 0) as [E0|E0].
        -- rewrite cnt_app, (cnt_nom q (own p (e_sends e))) by (intros; eapply Hownm; eauto). rewrite (Hms E0), (Hrest0 E0) in HC. cbn [isM b2n] in HC.
           destruct (Nat.eqb_spec q p); [lia|]. rewrite <- HC. assert (Eq0 : occ q [p] = 0) by (unfold occ; rewrite cnt_cons; destruct (Nat.eqb_spec q p); [lia|reflexivity]).
           rewrite Eq0. unfold occ, outgoing. rewrite cnt_nil. cbn. lia.
        -- unfold outgoing. cbn [filter fst]. destruct (Nat.eqb_spec 0 p); [lia|]. cbn [negb map fst snd]. rewrite cnt_cons, cnt_nil. cbn [isMn]. rewrite (Nat.eqb_sym p q).
           destruct (Nat.eqb_spec q p) as [->|]; [rewrite HU in HC|]; cbn [andb Nat.eqb b2n] in *; lia.
      * destruct (Nat.eqb_spec p 0) as [->|]; [reflexivity|apply (o_zero s H)].
      * intros j. destruct (Nat.eqb_spec p 0) as [->|]; [intros [<-|[]]; lia|apply (o_msr s H)].
      * intros E0 pre t c post q E Hq Hq0. destruct (app_split_tail _ _ _ _ _ E) as [(post' & E')|(pre' & _ & E')].
        -- destruct (Hmail0 E0 _ _ _ _ q E' Hq Hq0) as [G|[G|G]]; auto; [|discriminate]. rewrite (Hms E0) in G. destruct G.
        -- exfalso. apply (HownR t c). rewrite E'. apply in_app_iff. right. now left.
      * intros -> t q E. injection E as <-. intros Hq. exact Hq.
      * intros _ t c q [].
      * intros m' t' Hi. rewrite Ee in Hi. cbn [e_finals] in Hi. destruct SC as [(SF & _)|(Hp0 & _ & mm & Emm & SF)]; rewrite SF in Hi; [destruct Hi|].
        destruct Hi as [E|[]]. injection E as <- <-. cbn in Emm. injection Emm as <-. rewrite Hp0. auto.
    + (* Setup *)
      exfalso. pose proof (cnt_pos _ (isSetup p) _ _ Hin (Nat.eqb_refl p)) as HT. rewrite (v_setup _ _ HI p Hp) in HT. unfold tokU in HT.
      destruct (started (nodes s p)) eqn:Est; [|cbn in HT; lia]. destruct (o_set s H p Hp Est) as (HL & _). destruct (local (nodes s p)); [cbn in HT; lia|contradiction].
    + (* Means *)
      destruct (o_mail s H p i Hp) as (Ep & Hi); [rewrite Hm; now left|]. subst p.
      destruct (started (nodes s 0)) eqn:Est.
      2:{ exfalso. pose proof (o_unset s H 0 Hp Est) as Em. destruct (Hea' 0 Hp) as (_ & E).
          - destruct (HS 0) as (E & _). rewrite E. cbn [Nat.eqb]. unfold e. cbn [handle hosts helpers andb]. change (means nd) with (means (nodes s 0)). rewrite Em. exact Est.
          - destruct (HS 0) as (_ & _ & _ & _ & _ & E' & _). rewrite E in E'. cbn [Nat.eqb] in E'. unfold e in E'. cbn [handle hosts helpers andb] in E'.
            change (means nd) with (means (nodes s 0)) in E'. rewrite Em in E'. cbn [no_effect e_node with_buffers means_buffer] in E'. destruct (means_buffer nd); discriminate. }
      destruct (o_set s H 0 Hp Est) as (HL & HMe). destruct (means (nodes s 0)) as [ms|] eqn:Em; [|contradiction].
      assert (Ems : ms0 s = ms) by (unfold ms0; now rewrite Em).
      assert (Ee : e = no_effect (with_means nd (Some (ms ++ [i])))).
      { unfold e. cbn [handle helpers hosts andb]. change (means nd) with (means (nodes s 0)). rewrite Em. reflexivity. }
      eapply (ostep s 0 (Means i) rest (e_sends e) (e_finals e) (e_node e)); eauto; rewrite ?Ee; cbn [no_effect e_node e_sends e_finals with_means started local buffer means_buffer means Nat.eqb]; auto; try discriminate.
      * intros b Hb. now apply (o_buf s H 0 b Hp).
      * apply (o_mbuf s H 0 Hp).
      * intros f d j [].
      * intros q Hq. cbn [own outgoing filter map]. rewrite !app_nil_r. pose proof (o_cnt s H q Hq) as HC. rewrite (Hrest0 eq_refl q), Ems in HC. cbn [isM] in HC.
        unfold occ in *. rewrite cnt_app, cnt_cons, cnt_nil, (Nat.eqb_sym q i). destruct (Nat.eqb_spec q 0); lia.
      * pose proof (o_zero s H) as HZ. rewrite Ems, Est in HZ. unfold occ in *. rewrite cnt_app, cnt_cons, HZ. destruct i; [lia|reflexivity].
      * intros j Hj. apply in_app_iff in Hj. destruct Hj as [Hj|[<-|[]]]; [apply (o_msr s H); now rewrite Ems|lia].
      * intros _ pre t c post q E Hq Hq0. cbn [own filter map] in E. rewrite app_nil_r in E. destruct (Hmail0 eq_refl _ _ _ _ q E Hq Hq0) as [G|[G|G]]; auto.
        -- left. apply in_app_iff. left. now rewrite <- Ems.
        -- injection G as ->. left. apply in_app_iff. right. now left.
      * intros _ t q E Hq. apply in_app_iff. left. rewrite <- Ems. eapply (o_loc0 s H); eauto.
      * intros _ t c q E Hq Hq0. apply in_app_iff. left. rewrite <- Ems. eapply (o_buf0 s H); eauto.
      * intros m' t' [].
    + (* R *)
      destruct (started (nodes s p)) eqn:Est.
      2:{ exfalso. destruct (W1 eq_refl) as (HL & _). destruct (Hea' p Hp) as (E & _).
          - destruct (HS p) as (E & _). rewrite E. rewrite Nat.eqb_refl. unfold e. cbn [handle]. change (local nd) with (local (nodes s p)). rewrite HL. exact Est.
          - destruct (HS p) as (_ & _ & _ & _ & E' & _). rewrite E in E'. rewrite Nat.eqb_refl in E'. unfold e in E'. cbn [handle] in E'.
            change (local nd) with (local (nodes s p)) in E'. rewrite HL in E'. cbn [no_effect e_node with_buffers buffer] in E'. destruct (buffer nd); discriminate. }
      destruct (o_set s H p Hp Est) as (HL & HMe).
      destruct (local (nodes s p)) as [l|] eqn:El; [|contradiction].
      destruct (means (nodes s p)) as [ms|] eqn:Em; [|contradiction].
      assert (Ems : p = 0 -> ms0 s = ms) by (intros ->; unfold ms0; now rewrite Em).
      assert (Hfront : p = 0 -> forall q, In q (leaves t) -> q <> 0 -> In q (ms0 s)).
      { intros -> q Hq Hq0. destruct (o_order s H [] t c rest q Hm Hq Hq0) as [G|[]]. exact G. }
      assert (Hcnt0 : forall add q, (forall j, ~ In (Means j) add) -> 1 <= q < N -> cnt (isMn q) (net s) + cnt (isM q) (if p =? 0 then rest ++ add else mail (nodes s 0)) + occ q (ms0 s) = if q =? p then 1 else b2n (started (nodes s q))).
      { intros add q Hadd Hq. pose proof (o_cnt s H q Hq) as HC. destruct (Nat.eqb_spec p 0) as [E0|].
        - rewrite cnt_app, (cnt_nom q add) by (intros; eapply Hadd; eauto). rewrite (Hrest0 E0) in HC. cbn [isM b2n] in HC. destruct (Nat.eqb_spec q p); lia.
        - destruct (Nat.eqb_spec q p) as [->|]; [rewrite Est in HC; exact HC|exact HC]. }
      assert (Hz0 : occ 0 (ms0 s) = if p =? 0 then 1 else b2n (started (nodes s 0))).
      { rewrite (o_zero s H). destruct (Nat.eqb_spec p 0) as [->|]; [now rewrite Est|reflexivity]. }
      assert (Hnd : forall nd', means nd' = Some ms -> (if p =? 0 then match means nd' with Some l => l | None => [] end else ms0 s) = ms0 s).
      { intros nd' E. rewrite E. destruct (Nat.eqb_spec p 0) as [E0|]; [symmetry; now apply Ems|reflexivity]. }
      assert (Hbf : forall q t' c', p = 0 -> In (R t' c') (buffer (nodes s p) ++ [R t c]) -> In q (leaves t') -> q <> 0 -> In q (ms0 s)).
      { intros q t' c' E0 Hi Hq Hq0. apply in_app_iff in Hi. destruct Hi as [Hi|[Hi|[]]].
        - subst p. eapply (o_buf0 s H); eauto.
        - injection Hi as -> ->. now apply Hfront. }
      destruct (Nat.eqb c (r_count (nodes s p) + 1)) eqn:Ec.
      * pose proof (sof_cases_hosts cf p (with_factor nd (Some l) c) (Combine l t) eq_refl) as SC. cbn zeta in SC.
        set (e0 := send_or_finalize cf p (with_factor nd (Some l) c) (Combine l t)) in *.
        assert (Ee : e = {| e_node := with_buffers (e_node e0) [] (means_buffer (e_node e0)); e_sends := e_sends e0 ++ resolve p (buffer (nodes s p)); e_finals := e_finals e0; e_panic := e_panic e0 |}).
        { unfold e. cbn [handle]. change (local nd) with (local (nodes s p)). rewrite El. change (r_count nd) with (r_count (nodes s p)). rewrite Ec. reflexivity. }
        assert (En : started (e_node e) = true /\ local (e_node e) = Some (Combine l t) /\ means (e_node e) = Some ms /\ means_buffer (e_node e) = []).
        { rewrite Ee. cbn [e_node with_buffers started local means means_buffer]. unfold e0. rewrite sof_node. ssplit; [exact Est|reflexivity|exact Em|exact (o_mbuf s H p Hp)]. }
        destruct En as (En0 & En1 & En2 & En3). pose proof (Hnd (e_node e) En2) as Em0.
        assert (Hownm : forall i, ~ In (Means i) (own p (e_sends e))).
        { intros i Hi. rewrite Ee in Hi. cbn [e_sends] in Hi. rewrite own_app, in_app_iff, resolve_own in Hi. destruct Hi as [Hi|Hi].
          - destruct SC as [(_ & [SE|(_ & d & k & _ & SE)])|(_ & SE & _)]; [rewrite SE in Hi; destruct Hi|rewrite SE in Hi|now apply plain_own in Hi].
            unfold own in Hi. cbn [filter fst] in Hi. destruct (d =? p); [|destruct Hi]. destruct Hi as [Hi|[]]. discriminate.
          - apply in_rev in Hi. destruct (o_buf s H p _ Hp Hi) as (? & ? & ?). discriminate. }
        assert (Hout0 : forall f d i, ~ In (f, d, Means i) (outgoing p (e_sends e))).
        { intros f d i Hi. rewrite Ee in Hi. cbn [e_sends] in Hi. rewrite outgoing_app, in_app_iff, resolve_out in Hi. destruct Hi as [Hi|[]].
          destruct SC as [(_ & [SE|(_ & d' & k & _ & SE)])|(_ & SE & _)]; [rewrite SE in Hi; destruct Hi|rewrite SE in Hi|now apply plain_out in Hi].
          unfold outgoing in Hi. cbn [filter fst] in Hi. destruct (negb _); [|destruct Hi]. destruct Hi as [Hi|[]]. discriminate. }
        eapply (ostep s p (R t c) rest (e_sends e) (e_finals e) (e_node e)); rewrite ?Em0; eauto.
        -- left. now rewrite El.
        -- now rewrite En1.
        -- now rewrite En2.
        -- rewrite Ee. intros b [].
        -- intros f d i Hi. exfalso. eapply Hout0; eauto.
        -- intros q Hq. rewrite cnt_app, (cnt_none q (outgoing p (e_sends e))), Nat.add_0_r by (intros; eapply Hout0; eauto). now apply Hcnt0.
        -- apply (o_msr s H).
        -- intros E0 pre t' c' post q E Hq Hq0. destruct (app_split_tail _ _ _ _ _ E) as [(post' & E')|(pre' & _ & E')].
           ++ destruct (Hmail0 E0 _ _ _ _ q E' Hq Hq0) as [G|[G|G]]; auto. discriminate.
           ++ left. rewrite Ee in E'. cbn [e_sends] in E'. rewrite own_app, resolve_own in E'.
              assert (Hi : In (R t' c') (own p (e_sends e0) ++ rev (buffer (nodes s p)))) by (rewrite E'; apply in_app_iff; right; now left).
              apply in_app_iff in Hi. destruct Hi as [Hi|Hi].
              ** exfalso. destruct SC as [(_ & [SE|(Hp0 & _)])|(_ & SE & _)]; [rewrite SE in Hi; destruct Hi|contradiction|now apply plain_own_R in Hi].
              ** apply in_rev in Hi. eapply (Hbf q t' c' E0); [apply in_app_iff; left; exact Hi|exact Hq|exact Hq0].
        -- intros E0 t' q E Hq. rewrite En1 in E. injection E as <-. cbn [leaves] in Hq.
           destruct (Nat.eq_dec q 0) as [->|Hq0]; [apply (in_occ N HN); rewrite (o_zero s H); subst p; rewrite Est; cbn; lia|].
           apply in_app_iff in Hq. destruct Hq as [Hq|Hq]; [subst p; eapply (o_loc0 s H); eauto|now apply Hfront].
        -- rewrite Ee. intros _ t' c' q [].
        -- intros m' t' Hi. rewrite Ee in Hi. cbn [e_finals] in Hi. destruct SC as [(SF & _)|(Hp0 & _ & mm & Emm & SF)]; rewrite SF in Hi; [destruct Hi|].
           destruct Hi as [E|[]]. injection E as <- <-. cbn [with_factor means] in Emm. change (means nd) with (means (nodes s p)) in Emm. rewrite (Ems Hp0). ssplit; auto. congruence.
      * assert (Ee : e = no_effect (with_buffers nd (buffer nd ++ [R t c]) (means_buffer nd))).
        { unfold e. cbn [handle]. change (local nd) with (local (nodes s p)). rewrite El. change (r_count nd) with (r_count (nodes s p)). rewrite Ec. reflexivity. }
        assert (En2 : means (e_node e) = Some ms) by (rewrite Ee; exact Em).
        pose proof (Hnd (e_node e) En2) as Em0.
        eapply (ostep s p (R t c) rest (e_sends e) (e_finals e) (e_node e)); rewrite ?Em0; eauto; rewrite ?Ee; cbn [no_effect e_node e_sends e_finals].
        -- left. now rewrite El.
        -- exact Est.
        -- cbn [with_buffers local]. change (local nd) with (local (nodes s p)). now rewrite El.
        -- cbn [with_buffers means]. change (means nd) with (means (nodes s p)). now rewrite Em.
        -- cbn [with_buffers buffer]. intros b Hb. apply in_app_iff in Hb. destruct Hb as [Hb|[<-|[]]]; [now apply (o_buf s H p b Hp)|eauto].
        -- exact (o_mbuf s H p Hp).
        -- intros j [].
        -- intros f d j [].
        -- intros q Hq. cbn [outgoing filter map]. rewrite app_nil_r. apply Hcnt0; [intros j []|exact Hq].
        -- apply (o_msr s H).
        -- intros E0 pre t' c' post q E Hq Hq0. cbn [own filter map] in E. rewrite app_nil_r in E. destruct (Hmail0 E0 _ _ _ _ q E Hq Hq0) as [G|[G|G]]; auto. discriminate.
        -- intros E0 t' q E Hq. cbn [with_buffers local] in E. change (local nd) with (local (nodes s p)) in E. subst p. eapply (o_loc0 s H); eauto.
        -- intros E0 t' c' q Hi Hq Hq0. cbn [with_buffers buffer] in Hi. eapply Hbf; eauto.
        -- intros m' t' [].
    + (* Components *)
      eapply (passive s p (Components mm t) rest (e_sends e) (e_finals e) (e_node e)); eauto; try reflexivity.
      * pose proof (cnt_pos _ (isCD p) _ _ Hin (Nat.eqb_refl p)). pose proof (v_comp _ _ HI p Hp) as VC. cbn [helpers hosts] in VC.
        eapply (fin_all cf HN eq_refl (le_n _) s HI); [|exact Hp]. intros E. rewrite E in VC. cbn [length hosts n_nodes helpers] in *. lia.
      * repeat constructor.
    + (* Done *)
      assert (HL : local (nodes s p) <> None).
      { pose proof (cnt_pos _ (isCD p) _ _ Hin (Nat.eqb_refl p)). pose proof (v_comp _ _ HI p Hp) as VC. cbn [helpers hosts] in VC.
        eapply (fin_all cf HN eq_refl (le_n _) s HI); [|exact Hp]. intros E. rewrite E in VC. cbn [length hosts n_nodes helpers] in *. lia. }
      pose proof (leaf_started s p HI Hp HL) as Est. pose proof (W2 Est) as En.
      assert (Ee : e = no_effect {| started := started nd; local := local nd; r_count := r_count nd; means := means nd; buffer := buffer nd;
                        means_buffer := means_buffer nd; n_reduced := n_reduced nd; rotated := rotated nd + 1; mail := mail nd |}).
      { unfold e. cbn [handle hosts channels]. change (n_reduced nd) with (n_reduced (nodes s p)). rewrite En. reflexivity. }
      eapply (passive s p Done rest (e_sends e) (e_finals e) (e_node e)); eauto; rewrite ?Ee; try reflexivity; try exact I; auto.
      all: constructor.
Qed.

Lemma reach_oinv : forall s, reachable cf (fun s => nothing_early cf s /\ means_ahead s) s -> inv cf s /\ nothing_early cf s /\ oinv s.
Proof.
  intros s Hr. induction Hr as [|s s' Hr (IH1 & IH2 & IH3) Hs (Hok1 & Hok2)].
  - split; [apply inv_init; [exact HN|reflexivity|apply le_n]|]. split; [|apply oinv_init]. intros p Hp _. split; reflexivity.
  - assert (HI' : inv cf s').
    { refine (inv_step cf HN eq_refl (le_n _) s s' IH1 _ Hs). intros p Hp E. apply (IH2 p Hp E). }
    split; [exact HI'|]. split; [exact Hok1|]. exact (oinv_step s s' IH1 IH2 IH3 Hs Hok1 Hok2 HI').
Qed.

Lemma ahead_means : forall s, reachable cf (fun s => nothing_early cf s /\ means_ahead s) s -> Forall (fun o => Permutation (fst o) (seq 0 N)) (finals s).
Proof.
  intros s Hr. destruct (reach_oinv s Hr) as (_ & _ & H). apply Forall_forall. intros [m t] Hi. eapply (o_fin s H); eauto.
Qed.
End Order.

(** At most three hosts, ordered channels: every factor goes straight to the main host, behind the means of the same host. *)
Section Three.
Variable N : nat.
Hypothesis HN : 1 <= N.
Hypothesis H3 : N <= 3.
Notation cf := (hosts N false true 1).

Record finv (s : pstate) : Prop := {
  f_netR : forall from d t c, In (from, d, R t c) (net s) -> t = Own from;
  f_netM : forall from d i, In (from, d, Means i) (net s) -> from = i;
  f_here : forall t c, In (R t c) (mail (nodes s 0)) \/ In (R t c) (buffer (nodes s 0)) ->
             exists q, t = Own q /\ forall from, ~ In (from, 0, Means q) (net s);
  f_ord : forall a from c b, net s = a ++ (from, 0, R (Own from) c) :: b -> ~ In (from, 0, Means from) b
}.

Lemma to_main : forall s p t c, inv cf s -> In (p, R t c) (flight N s) -> p = 0.
Proof.
  intros s p t c HI Hin. destruct (a_flight _ _ _ _ _ (v_a _ _ HI) p t c Hin) as (_ & H1 & H2 & H4 & _). cbn [n_nodes hosts] in *.
  destruct (Nat.eq_dec p 0) as [|Hp]; [assumption|]. exfalso. lia.
Qed.

Lemma net_flight : forall s from d m, In (from, d, m) (net s) -> In (d, m) (flight N s).
Proof. intros s from d m Hi. unfold flight. apply in_app_iff. left. apply in_map_iff. exists (from, d, m). split; [reflexivity|exact Hi]. Qed.
Lemma here_flight : forall s p m, p < N -> In m (mail (nodes s p)) \/ In m (buffer (nodes s p)) -> In (p, m) (flight N s).
Proof.
  intros s p m Hp Hi. unfold flight. apply in_app_iff. right. apply in_flat_map. exists p. split; [apply in_seq; lia|]. apply in_map.
  unfold contents. apply in_app_iff. exact Hi.
Qed.
Lemma sent_started : forall s from t c d, inv cf s -> In (d, R t c) (flight N s) -> t = Own from -> local (nodes s from) <> None.
Proof. intros s from t c d HI Hi ->. eapply (a_leafF _ _ _ _ _ (v_a _ _ HI) d (Own from) c from Hi). now left. Qed.

Lemma finv_step : forall s s', inv cf s -> inv cf s' -> oinv N s -> finv s -> step cf s s' -> nothing_early cf s' -> finv s'.
Proof.
  intros s s' HI HI' HO H Hs Hea. destruct Hs as [s before src d m after Hn Hfifo|s p m rest Hp Hm].
  - specialize (Hfifo eq_refl). set (s' := {| nodes := _; net := _; finals := _; panicked := _ |}) in *.
    assert (Hin : In (src, d, m) (net s)) by (rewrite Hn; apply in_app_iff; right; now left).
    assert (Hsub : forall x, In x (net s') -> In x (net s)).
    { intros x. cbn [net s']. rewrite Hn, !in_app_iff. intros [Hx|Hx]; [auto|right; now right]. }
    constructor.
    + intros f d' t c Hi. eapply (f_netR s H); eauto.
    + intros f d' i Hi. eapply (f_netM s H); eauto.
    + intros t c Hi. assert (Hold : In (R t c) (mail (nodes s 0)) \/ In (R t c) (buffer (nodes s 0)) -> exists q, t = Own q /\ forall from, ~ In (from, 0, Means q) (net s')).
      { intros Ho. destruct (f_here s H t c Ho) as (q & E & Hq). exists q. split; [exact E|]. intros f Hf. exact (Hq f (Hsub _ Hf)). }
      cbn [nodes s'] in Hi. destruct (Nat.eq_dec 0 d) as [Ed|Hd]; [|rewrite upd_neq in Hi by exact Hd; auto].
      rewrite <- Ed, upd_eq in Hi. cbn [with_mail mail buffer] in Hi. rewrite in_app_iff in Hi. destruct Hi as [[Hi|[Hi|[]]]|Hi]; auto.
      subst m d. pose proof (f_netR s H _ _ _ _ Hin) as Et. exists src. split; [exact Et|]. intros f Hf.
      pose proof (f_netM s H _ _ _ (Hsub _ Hf)) as Ef. subst f t. cbn [net s'] in Hf. apply in_app_iff in Hf. destruct Hf as [Hf|Hf]; [exact (Hfifo _ Hf)|].
      exact (f_ord s H _ _ _ _ Hn Hf).
    + intros a f c b E Hb. cbn [net s'] in E. destruct (app_split_tail _ _ _ _ _ E) as [(post' & E')|(pre' & _ & E')].
      * subst before. rewrite <- app_assoc in E. apply app_inv_head in E. injection E as E. subst b. rewrite <- app_assoc in Hn.
        apply (f_ord s H _ _ _ _ Hn). rewrite in_app_iff in *. destruct Hb as [Hb|Hb]; [auto|right; now right].
      * rewrite E' in Hn. change ((src, d, m) :: pre' ++ (f, 0, R (Own f) c) :: b) with (((src, d, m) :: pre') ++ (f, 0, R (Own f) c) :: b) in Hn.
        rewrite app_assoc in Hn. exact (f_ord s H _ _ _ _ Hn Hb).
  - change (p < N) in Hp. pose proof (in_flight cf HN eq_refl (le_n _) s p m rest Hp Hm) as Hin.
    pose proof (v_node _ _ HI p Hp) as (W1 & W2 & W3 & W4 & W5 & W6 & W7).
    set (nd := with_mail (nodes s p) rest) in *. set (e := handle cf p nd m).
    assert (HNet : net (process cf p s m rest) = net s ++ outgoing p (e_sends e)).
    { unfold process. rewrite fold_net_hosts by reflexivity. cbn [net]. fold nd. fold e. f_equal. destruct m; cbn [helper_answer hosts multi andb]; apply app_nil_r. }
    assert (HS := process_core cf s p m rest). fold nd in HS. fold e in HS.
    assert (HM : forall q, mail (nodes (process cf p s m rest) q) = if q =? p then rest ++ own p (e_sends e) else mail (nodes s q)).
    { intros q. unfold process. rewrite fold_mail_hosts by reflexivity. fold nd. fold e. cbn [nodes]. unfold upd.
      destruct (q =? p); [|apply app_nil_r]. unfold e. rewrite handle_mail. reflexivity. }
    set (s' := process cf p s m rest) in *.
    assert (HB : buffer (nodes s' 0) = if 0 =? p then buffer (e_node e) else buffer (nodes s 0)).
    { destruct (HS 0) as (_ & _ & _ & _ & E & _). rewrite E. destruct (0 =? p); reflexivity. }
    (* nothing of interest leaves: enough that the main host only keeps what it had *)
    assert (Quiet : (forall f d i, ~ In (f, d, Means i) (outgoing p (e_sends e))) -> (forall f d t c, ~ In (f, d, R t c) (outgoing p (e_sends e))) ->
              (forall t c, In (R t c) (own p (e_sends e)) \/ In (R t c) (buffer (e_node e)) -> p = 0 -> In (R t c) (mail (nodes s 0)) \/ In (R t c) (buffer (nodes s 0))) -> finv s').
    { intros Q1 Q2 Q3. constructor.
      - intros f d t c. rewrite HNet, in_app_iff. intros [Hi|Hi]; [eapply (f_netR s H); eauto|now apply Q2 in Hi].
      - intros f d i. rewrite HNet, in_app_iff. intros [Hi|Hi]; [eapply (f_netM s H); eauto|now apply Q1 in Hi].
      - intros t c Hi. assert (Ho : In (R t c) (mail (nodes s 0)) \/ In (R t c) (buffer (nodes s 0))).
        { rewrite HM, HB in Hi. destruct (Nat.eqb_spec 0 p) as [Ep|]; [|exact Hi]. rewrite in_app_iff in Hi. destruct Hi as [[Hi|Hi]|Hi]; auto.
          left. rewrite Ep, Hm. now right. }
        destruct (f_here s H t c Ho) as (q & E & Hq). exists q. split; [exact E|]. intros f. rewrite HNet, in_app_iff. intros [Hf|Hf]; [exact (Hq f Hf)|now apply Q1 in Hf].
      - intros a f c b E Hb. rewrite HNet in E. destruct (app_split_tail _ _ _ _ _ E) as [(post' & E')|(pre' & _ & E')].
        + rewrite E', <- app_assoc in E. apply app_inv_head in E. assert (Eb : b = post' ++ outgoing p (e_sends e)) by (change (((f, 0, R (Own f) c) :: post') ++ outgoing p (e_sends e)) with ((f, 0, R (Own f) c) :: (post' ++ outgoing p (e_sends e))) in E; congruence). clear E. subst b. apply in_app_iff in Hb. destruct Hb as [Hb|Hb]; [|now apply Q1 in Hb].
          exact (f_ord s H _ _ _ _ E' Hb).
        + apply (Q2 f 0 (Own f) c). rewrite E'. apply in_app_iff. right. now left. }
    destruct m as [| |i|t c|mm t|].
    + (* Start *)
      assert (HU : started (nodes s p) = false).
      { pose proof (cnt_pos _ (isStart p) _ _ Hin (Nat.eqb_refl p)) as HT. rewrite (v_start _ _ HI p Hp) in HT. unfold tokS in HT.
        destruct (started (nodes s p)); [cbn in HT; lia|reflexivity]. }
      destruct (W1 HU) as (HL & _).
      set (nd1 := {| started := true; local := None; r_count := 0; means := None; buffer := []; means_buffer := []; n_reduced := n_reduced nd + 1; rotated := rotated nd; mail := mail nd |}).
      pose proof (sof_cases_hosts cf p (with_means nd1 (Some [p])) (Own p) eq_refl) as SC. cbn zeta in SC.
      set (e0 := send_or_finalize cf p (with_means nd1 (Some [p])) (Own p)) in *.
      assert (Ee : e = {| e_node := e_node e0; e_sends := (if p =? 0 then [] else [(0, Means p)]) ++ e_sends e0; e_finals := e_finals e0; e_panic := e_panic e0 |}) by reflexivity.
      assert (EB : buffer (e_node e) = []) by (rewrite Ee; cbn [e_node]; unfold e0; rewrite sof_node; reflexivity).
      destruct (Nat.eq_dec p 0) as [Ep|Ep].
      * assert (Hpl : Forall (fun x => plain (snd x)) (e_sends e)).
        { rewrite Ee. cbn [e_sends]. rewrite Ep. cbn [Nat.eqb app]. destruct SC as [(_ & [SE|(Hp0 & _)])|(_ & SE & _)]; [rewrite SE; constructor|contradiction|exact SE]. }
        apply Quiet.
        -- intros f d i. now apply plain_out.
        -- intros f d t c Hi. unfold outgoing in Hi. apply in_map_iff in Hi. destruct Hi as (x & E & Hx). apply filter_In in Hx.
           rewrite Forall_forall in Hpl. specialize (Hpl x (proj1 Hx)). injection E as _ _ E. rewrite E in Hpl. exact Hpl.
        -- intros t c [Hi|Hi]; [now apply plain_own_R in Hi|rewrite EB in Hi; destruct Hi].
      * assert (Eout : exists k, outgoing p (e_sends e) = [(p, 0, Means p)] \/ outgoing p (e_sends e) = [(p, 0, Means p); (p, 0, R (Own p) k)]).
        { destruct SC as [(_ & [SE|(_ & d & k & _ & SE)])|(Hp0 & _)]; [| |contradiction].
          - exists 0. left. rewrite Ee. cbn [e_sends]. rewrite SE. destruct (Nat.eqb_spec p 0); [lia|]. unfold outgoing. cbn [app filter fst]. destruct (Nat.eqb_spec 0 p); [lia|reflexivity].
          - exists k. assert (Eo : outgoing p (e_sends e) = [(p, 0, Means p)] ++ outgoing p [(d, R (Own p) k)]).
            { rewrite Ee. cbn [e_sends]. rewrite SE. destruct (Nat.eqb_spec p 0); [lia|]. rewrite outgoing_app. f_equal. unfold outgoing. cbn [filter fst]. destruct (Nat.eqb_spec 0 p); [lia|reflexivity]. }
            unfold outgoing in Eo at 2. cbn [filter fst] in Eo. destruct (d =? p); cbn [negb map fst snd app] in Eo; [left; exact Eo|].
            assert (Hd : d = 0). { eapply (to_main s' d (Own p) k HI'). eapply net_flight. rewrite HNet, Eo. apply in_app_iff. right. right. left. reflexivity. }
            subst d. right. exact Eo. }
        destruct Eout as (k & Eout).
        assert (Hsent : forall f d t c, In (f, d, R t c) (net s) -> f <> p).
        { intros f d t c Hi ->. pose proof (f_netR s H _ _ _ _ Hi) as Et. exact (sent_started s p t c d HI (net_flight _ _ _ _ Hi) Et HL). }
        constructor.
        -- intros f d t c. rewrite HNet, in_app_iff. intros [Hi|Hi]; [eapply (f_netR s H); eauto|].
           destruct Eout as [Eo|Eo]; rewrite Eo in Hi; destruct Hi as [Hi|Hi]; try discriminate; [destruct Hi|]. destruct Hi as [Hi|[]]. injection Hi as <- _ <- _. reflexivity.
        -- intros f d i. rewrite HNet, in_app_iff. intros [Hi|Hi]; [eapply (f_netM s H); eauto|].
           destruct Eout as [Eo|Eo]; rewrite Eo in Hi; (destruct Hi as [Hi|Hi]; [injection Hi as <- _ <-; reflexivity|]); [destruct Hi|]. destruct Hi as [Hi|[]]. discriminate.
        -- intros t c Hi. rewrite HM, HB in Hi. destruct (Nat.eqb_spec 0 p) as [E0|]; [lia|]. destruct (f_here s H t c Hi) as (q & E & Hq). exists q. split; [exact E|].
           assert (Hqp : q <> p). { intros ->. exact (sent_started s p t c 0 HI (here_flight s 0 _ ltac:(lia) Hi) E HL). }
           intros f. rewrite HNet, in_app_iff. intros [Hf|Hf]; [exact (Hq f Hf)|].
           destruct Eout as [Eo|Eo]; rewrite Eo in Hf; (destruct Hf as [Hf|Hf]; [injection Hf as _ Hf; lia|]); [destruct Hf|]. destruct Hf as [Hf|[]]. discriminate.
        -- intros a f c b E Hb. rewrite HNet in E. destruct (app_split_tail _ _ _ _ _ E) as [(post' & E')|(pre' & _ & E')].
           ++ rewrite E', <- app_assoc in E. apply app_inv_head in E. assert (Eb : b = post' ++ outgoing p (e_sends e)) by (change (((f, 0, R (Own f) c) :: post') ++ outgoing p (e_sends e)) with ((f, 0, R (Own f) c) :: (post' ++ outgoing p (e_sends e))) in E; congruence). clear E. subst b. apply in_app_iff in Hb. destruct Hb as [Hb|Hb]; [exact (f_ord s H _ _ _ _ E' Hb)|].
              assert (Hf : f <> p). { apply (Hsent f 0 (Own f) c). rewrite E'. apply in_app_iff. right. now left. }
              destruct Eout as [Eo|Eo]; rewrite Eo in Hb; (destruct Hb as [Hb|Hb]; [injection Hb as Hb _; lia|]); [destruct Hb|]. destruct Hb as [Hb|[]]. discriminate.
           ++ destruct Eout as [Eo|Eo]; rewrite Eo in E'; (destruct pre' as [|x [|y pre']]; [discriminate| |]).
              ** discriminate.
              ** destruct pre'; discriminate.
              ** cbn in E'. injection E' as _ _ _ E'. subst b. destruct Hb.
              ** destruct pre'; discriminate.
    + (* Setup *)
      exfalso. pose proof (cnt_pos _ (isSetup p) _ _ Hin (Nat.eqb_refl p)) as HT. rewrite (v_setup _ _ HI p Hp) in HT. unfold tokU in HT.
      destruct (started (nodes s p)) eqn:Est; [|cbn in HT; lia]. destruct (o_set N s HO p Hp Est) as (HL & _). destruct (local (nodes s p)); [cbn in HT; lia|contradiction].
    + (* Means *)
      assert (Ee : e_sends e = [] /\ buffer (e_node e) = buffer (nodes s p)).
      { unfold e. cbn [handle helpers hosts andb]. destruct (means nd); split; reflexivity. }
      destruct Ee as (Es & Eb). rewrite Es, Eb in Quiet. apply Quiet; [intros ? ? ? []|intros ? ? ? ? []|]. intros t c [[]|Hi] Ep. right. now rewrite <- Ep.
    + (* R *)
      assert (Ep : p = 0) by exact (to_main s p t c HI Hin).
      assert (Hold : In (R t c) (mail (nodes s 0))) by (rewrite <- Ep, Hm; now left).
      assert (Hbuf : e_sends e = [] -> buffer (e_node e) = buffer (nodes s p) ++ [R t c] -> finv s').
      { intros Es Eb. rewrite Es, Eb in Quiet. apply Quiet; [intros ? ? ? []|intros ? ? ? ? []|]. intros t' c' [[]|Hi] _.
        apply in_app_iff in Hi. destruct Hi as [Hi|[Hi|[]]]; [right; now rewrite <- Ep|left; congruence]. }
      destruct (local (nodes s p)) as [l|] eqn:El.
      2:{ apply Hbuf; unfold e; cbn [handle]; change (local nd) with (local (nodes s p)); rewrite El; reflexivity. }
      destruct (Nat.eqb c (r_count (nodes s p) + 1)) eqn:Ec.
      2:{ apply Hbuf; unfold e; cbn [handle]; change (local nd) with (local (nodes s p)); rewrite El; change (r_count nd) with (r_count (nodes s p)); rewrite Ec; reflexivity. }
      pose proof (sof_cases_hosts cf p (with_factor nd (Some l) c) (Combine l t) eq_refl) as SC. cbn zeta in SC.
      set (e0 := send_or_finalize cf p (with_factor nd (Some l) c) (Combine l t)) in *.
      assert (Ee : e = {| e_node := with_buffers (e_node e0) [] (means_buffer (e_node e0)); e_sends := e_sends e0 ++ resolve p (buffer (nodes s p)); e_finals := e_finals e0; e_panic := e_panic e0 |}).
      { unfold e. cbn [handle]. change (local nd) with (local (nodes s p)). rewrite El. change (r_count nd) with (r_count (nodes s p)). rewrite Ec. reflexivity. }
      assert (Hpl : Forall (fun x => plain (snd x)) (e_sends e0)).
      { destruct SC as [(_ & [SE|(Hp0 & _)])|(_ & SE & _)]; [rewrite SE; constructor|contradiction|exact SE]. }
      assert (Eo : outgoing p (e_sends e) = outgoing p (e_sends e0)) by (rewrite Ee; cbn [e_sends]; rewrite outgoing_app, resolve_out; apply app_nil_r).
      apply Quiet.
      * intros f d i. rewrite Eo. now apply plain_out.
      * intros f d t' c' Hi. rewrite Eo in Hi. unfold outgoing in Hi. apply in_map_iff in Hi. destruct Hi as (x & E & Hx). apply filter_In in Hx.
        rewrite Forall_forall in Hpl. specialize (Hpl x (proj1 Hx)). injection E as _ _ E. rewrite E in Hpl. exact Hpl.
      * intros t' c' [Hi|Hi] _; rewrite Ee in Hi; cbn [e_sends e_node with_buffers buffer] in Hi; [|destruct Hi].
        rewrite own_app, resolve_own, in_app_iff in Hi. destruct Hi as [Hi|Hi]; [now apply plain_own_R in Hi|]. apply in_rev in Hi. right. now rewrite <- Ep.
    + (* Components *)
      apply Quiet; unfold e; cbn [handle e_sends e_node].
      * intros f d i. apply plain_out. repeat constructor.
      * intros f d t' c' Hi. unfold outgoing in Hi. cbn [filter fst] in Hi. rewrite Nat.eqb_refl in Hi. destruct Hi.
      * intros t' c' [Hi|Hi] Ep; [unfold own in Hi; cbn [filter fst] in Hi; rewrite Nat.eqb_refl in Hi; destruct Hi as [Hi|[]]; discriminate|].
        right. now rewrite <- Ep.
    + (* Done *)
      assert (HL : local (nodes s p) <> None).
      { pose proof (cnt_pos _ (isCD p) _ _ Hin (Nat.eqb_refl p)). pose proof (v_comp _ _ HI p Hp) as VC. cbn [helpers hosts] in VC.
        eapply (fin_all cf HN eq_refl (le_n _) s HI); [|exact Hp]. intros E. rewrite E in VC. cbn [length hosts n_nodes helpers] in *. lia. }
      assert (Est : started (nodes s p) = true).
      { destruct (started (nodes s p)) eqn:E; [reflexivity|]. destruct (W1 eq_refl). contradiction. }
      pose proof (W2 Est) as En.
      assert (Ee : e = no_effect {| started := started nd; local := local nd; r_count := r_count nd; means := means nd; buffer := buffer nd;
                        means_buffer := means_buffer nd; n_reduced := n_reduced nd; rotated := rotated nd + 1; mail := mail nd |}).
      { unfold e. cbn [handle hosts channels]. change (n_reduced nd) with (n_reduced (nodes s p)). rewrite En. reflexivity. }
      apply Quiet; rewrite Ee; cbn [no_effect e_sends e_node buffer]; [intros ? ? ? []|intros ? ? ? ? []|]. intros t c [[]|Hi] Ep. right. now rewrite <- Ep.
Qed.

Lemma three_hosts : forall s, reachable cf (nothing_early cf) s -> reachable cf (fun s => nothing_early cf s /\ means_ahead s) s.
Proof.
  intros s Hr. cut (reachable cf (fun s => nothing_early cf s /\ means_ahead s) s /\ finv s); [now intros (A & _)|].
  induction Hr as [|s s' Hr (IH & IF) Hs Hok].
  - split; [constructor|]. unfold initial. cbn [helpers hosts n_setup]. constructor; cbn [net nodes idle_node mail buffer].
    + intros f d t c Hi. apply in_map_iff in Hi. destruct Hi as (x & E & _). discriminate.
    + intros f d i Hi. apply in_map_iff in Hi. destruct Hi as (x & E & _). discriminate.
    + intros t c [[]|[]].
    + intros a f c b E. exfalso. assert (Hi : In (f, 0, R (Own f) c) (map (fun p => (p, p, Start)) (seq 0 N))) by (rewrite E; apply in_app_iff; right; now left).
      apply in_map_iff in Hi. destruct Hi as (x & Ex & _). discriminate.
  - destruct (reach_oinv N true HN s IH) as (HI & Hea & HO).
    assert (HI' : inv cf s'). { refine (inv_step cf HN eq_refl (le_n _) s s' HI _ Hs). intros p Hp E. apply (Hea p Hp E). }
    pose proof (finv_step s s' HI HI' HO IF Hs Hok) as F. split; [|exact F].
    apply reach_step with s; auto. split; [exact Hok|]. intros t c q from Hi Hq. destruct (f_here s' F t c (or_introl Hi)) as (q' & -> & Hq').
    destruct Hq as [<-|[]]. apply Hq'.
Qed.
End Three.
