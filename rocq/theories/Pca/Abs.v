(** Invariant of the reduction, on an abstract state: local factors [L], round counters [C], factors under way [F]. *)
From Coq Require Import List Arith Bool Lia Permutation.
From Verif.Base Require Import ListX.
From Verif.Pca Require Import Model Spec Tree.
Import ListNotations.

Section Abs.
Variable N : nat.
Hypothesis HN : 1 <= N.
Notation K := (Nat.log2_up N).
Notation seg := (seg N).

Definition updf {A} (f : nat -> A) (p : nat) (v : A) : nat -> A := fun q => if q =? p then v else f q.
Lemma updf_eq : forall A (f : nat -> A) p v, updf f p v p = v.
Proof. intros. unfold updf. now rewrite Nat.eqb_refl. Qed.
Lemma updf_neq : forall A (f : nat -> A) p v q, q <> p -> updf f p v q = f q.
Proof. intros. unfold updf. destruct (Nat.eqb_spec q p); [contradiction|reflexivity]. Qed.

Definition isR (p c : nat) (dm : nat * pmsg) : bool :=
  match dm with (p', R _ c') => (p' =? p) && (c' =? c) | _ => false end.
Definition cntR (F : list (nat * pmsg)) p c := length (filter (isR p c) F).

(** [q] has sent its factor, in round [c]. *)
Definition sentc (L : nat -> option rtree) (C : nat -> nat) (q c : nat) : Prop :=
  L q <> None /\ 0 < q /\ C q + 1 = c /\ c <= K /\ 2 ^ (K - c) <= q.

Definition node_ok (p c : nat) (t : rtree) : Prop :=
  Permutation (leaves t) (seg p c) /\ c <= K /\ p < 2 ^ (K - c)
  /\ ((p = 0 /\ c = K) \/ (c < K /\ (2 ^ (K - 1 - c) <= p \/ (p < 2 ^ (K - 1 - c) /\ p + 2 ^ (K - 1 - c) < N)))).

Definition flight_ok (L : nat -> option rtree) (C : nat -> nat) (p : nat) (t : rtree) (c : nat) : Prop :=
  p < N /\ 1 <= c /\ p < 2 ^ (K - c) /\ p + 2 ^ (K - c) < N /\ sentc L C (p + 2 ^ (K - c)) c
  /\ Permutation (leaves t) (seg (p + 2 ^ (K - c)) (c - 1)) /\ (L p = None \/ C p < c).

Record ainv (L : nat -> option rtree) (C : nat -> nat) (F : list (nat * pmsg)) (fin : list outcome) : Prop := {
  a_node : forall p t, p < N -> L p = Some t -> node_ok p (C p) t;
  a_none : forall p, L p = None -> C p = 0;
  a_flight : forall p t c, In (p, R t c) F -> flight_ok L C p t c;
  a_once : forall p c, cntR F p c <= 1;
  a_sent : forall q c, q < N -> sentc L C q c ->
    (L (q - 2 ^ (K - c)) <> None /\ c <= C (q - 2 ^ (K - c))) \/ exists t, In (q - 2 ^ (K - c), R t c) F;
  a_leafL : forall p t q, L p = Some t -> In q (leaves t) -> L q <> None;
  a_leafF : forall p t c q, In (p, R t c) F -> In q (leaves t) -> L q <> None;
  a_used : forall p c, p < N -> L p <> None -> 1 <= c -> c <= C p -> p + 2 ^ (K - c) < N -> sentc L C (p + 2 ^ (K - c)) c;
  a_fin : (fin = [] /\ (L 0 <> None -> C 0 < K)) \/ (exists m t, fin = [(m, t)] /\ L 0 = Some t /\ C 0 = K)
}.

Lemma cntR_zero : forall F p c, (forall t, ~ In (p, R t c) F) -> cntR F p c = 0.
Proof.
  intros F p c H. unfold cntR. apply length_zero_iff_nil. apply filter_nil. intros [p' m] Hin.
  destruct m; cbn; auto. destruct (Nat.eqb_spec p' p); [|auto]. destruct (Nat.eqb_spec count c); [|auto]. subst. exfalso. eapply H; eauto.
Qed.

Lemma grow : forall L C F X fin p c t',
  ainv L C F fin ->
  p < N -> c <= K -> p < 2 ^ (K - c) -> Permutation (leaves t') (seg p c) ->
  (L p = None \/ (C p < c /\ p < 2 ^ (K - 1 - C p))) ->
  (forall q, In q (leaves t') -> q = p \/ L q <> None) ->
  (forall c0, 1 <= c0 -> c0 <= c -> p + 2 ^ (K - c0) < N -> sentc L C (p + 2 ^ (K - c0)) c0) ->
  (forall x, In x X -> In x F) ->
  (forall p0 c0, cntR X p0 c0 <= cntR F p0 c0) ->
  (forall p0 t0 c0, In (p0, R t0 c0) F -> In (p0, R t0 c0) X \/ (p0 = p /\ c0 <= c)) ->
  (forall t0 c0, In (p, R t0 c0) X -> c < c0) ->
  let (c', a) := decide N p c in
  let L' := updf L p (Some t') in let C' := updf C p c' in
  match a with
  | AFinalize => p = 0 /\ fin = [] /\ c' = c /\ (forall m, ainv L' C' X [(m, t')])
  | ASend d k => d < N /\ d <> p /\ k = c' + 1 /\ c <= c' /\ c' < K /\ ainv L' C' ((d, R t' k) :: X) fin
  | AWait => c <= c' /\ c' < K /\ ainv L' C' X fin
  end.
Proof.
  intros L C F X fin p c t' [Hnode Hnone Hfl Honce Hsent HleafL HleafF Hused Hfin] Hp Hc Hpc Hleaves Hold Hl2 H8 HX1 HX2 HX3 HX4.
  pose proof (decide_spec N HN p c Hp Hc Hpc) as D. destruct (decide N p c) as [c' a].
  assert (Hns : forall c0, ~ sentc L C p c0).
  { intros c0 (S1 & S2 & S3 & S4 & S5). destruct Hold as [Ho|[Ho1 Ho2]]; [contradiction|].
    replace (K - c0) with (K - 1 - C p) in S5 by lia. lia. }
  assert (Hskip : c' = c \/ (c = 0 /\ c' = 1 /\ p < 2 ^ (K - 1) /\ N <= p + 2 ^ (K - 1))) by (destruct D as [(?&?&?&?)|(?&?)]; auto).
  assert (Hc' : c' <= K) by (destruct D as [(?&?&?&?)|(?&?&?)]; lia).
  assert (Hseg' : Permutation (leaves t') (seg p c')).
  { destruct Hskip as [->|(-> & -> & E1 & E2)]; [exact Hleaves|]. rewrite Hleaves. now apply seg_skip. }
  assert (Hcc : c <= c') by (destruct Hskip as [->|(-> & -> & _)]; lia).
  assert (H8' : forall c0, 1 <= c0 -> c0 <= c' -> p + 2 ^ (K - c0) < N -> sentc L C (p + 2 ^ (K - c0)) c0).
  { intros c0 A1 A2 A3. destruct Hskip as [->|(-> & -> & E1 & E2)]; [now apply H8|]. replace c0 with 1 in * by lia. lia. }
  assert (HX4' : forall t0 c0, In (p, R t0 c0) X -> c' < c0).
  { intros t0 c0 Hin. pose proof (HX4 _ _ Hin). destruct Hskip as [->|(-> & -> & E1 & E2)]; [assumption|].
    destruct (Nat.eq_dec c0 1) as [->|]; [|lia]. destruct (Hfl _ _ _ (HX1 _ Hin)) as (_ & _ & _ & F4 & _). lia. }
  set (L' := updf L p (Some t')). set (C' := updf C p c').
  assert (HL'p : L' p = Some t') by apply updf_eq.
  assert (HC'p : C' p = c') by apply updf_eq.
  assert (HL' : forall q, q <> p -> L' q = L q) by (intros; now apply updf_neq).
  assert (HC' : forall q, q <> p -> C' q = C q) by (intros; now apply updf_neq).
  assert (HLmono : forall q, L q <> None -> L' q <> None).
  { intros q Hq. destruct (Nat.eq_dec q p) as [->|]; [rewrite HL'p; discriminate|now rewrite HL']. }
  assert (Hsmono : forall q c0, sentc L C q c0 -> sentc L' C' q c0).
  { intros q c0 S. destruct (Nat.eq_dec q p) as [->|Hq]; [now apply Hns in S|]. unfold sentc in *. rewrite HL', HC' by exact Hq. exact S. }
  (* facts common to all outcomes *)
  assert (Hnone' : forall q, L' q = None -> C' q = 0).
  { intros q Hq. destruct (Nat.eq_dec q p) as [->|]; [congruence|]. rewrite HL' in Hq by assumption. rewrite HC' by assumption. auto. }
  assert (Hfl' : forall q t c0, In (q, R t c0) X -> flight_ok L' C' q t c0).
  { intros q t c0 Hin. destruct (Hfl _ _ _ (HX1 _ Hin)) as (F1 & F2 & F3 & F4 & F5 & F6 & F7).
    unfold flight_ok. ssplit; auto.
    destruct (Nat.eq_dec q p) as [->|Hq].
    - right. rewrite HC'p. eapply HX4'; eauto.
    - rewrite HL', HC' by exact Hq. exact F7. }
  assert (HleafL' : forall q t x, L' q = Some t -> In x (leaves t) -> L' x <> None).
  { intros q t x Hq Hx. destruct (Nat.eq_dec q p) as [->|].
    - assert (t = t') by congruence. subst t. destruct (Hl2 _ Hx) as [->|]; [congruence|auto].
    - rewrite HL' in Hq by assumption. apply HLmono. eapply HleafL; eauto. }
  assert (HleafF' : forall q t c0 x, In (q, R t c0) X -> In x (leaves t) -> L' x <> None).
  { intros q t c0 x Hq Hx. apply HLmono. eapply HleafF; eauto. }
  assert (Hused' : forall q c0, q < N -> L' q <> None -> 1 <= c0 -> c0 <= C' q -> q + 2 ^ (K - c0) < N -> sentc L' C' (q + 2 ^ (K - c0)) c0).
  { intros q c0 A1 A2 A3 A4 A5. apply Hsmono. destruct (Nat.eq_dec q p) as [->|].
    - rewrite HC'p in A4. now apply H8'.
    - rewrite HL' in A2 by assumption. rewrite HC' in A4 by assumption. now apply Hused. }
  assert (Honce' : forall q c0, cntR X q c0 <= 1) by (intros q c0; pose proof (HX2 q c0); pose proof (Honce q c0); lia).
  assert (Hsent' : forall q c0, q <> p -> q < N -> sentc L' C' q c0 ->
     (L' (q - 2 ^ (K - c0)) <> None /\ c0 <= C' (q - 2 ^ (K - c0))) \/ exists t, In (q - 2 ^ (K - c0), R t c0) X).
  { intros q c0 Hq A1 A2. assert (S : sentc L C q c0) by (unfold sentc in *; now rewrite HL', HC' in A2 by exact Hq).
    destruct (Hsent q c0 A1 S) as [(B1 & B2)|(t & B)].
    - left. split; [auto|]. destruct (Nat.eq_dec (q - 2 ^ (K - c0)) p) as [E|E].
      + rewrite E in *. rewrite HC'p. destruct Hold as [Ho|[Ho1 Ho2]]; [contradiction|lia].
      + now rewrite HC' by exact E.
    - destruct (HX3 _ _ _ B) as [B1|(B1 & B2)]; [right; eauto|].
      left. rewrite B1. rewrite HL'p, HC'p. split; [discriminate|lia]. }
  assert (Hnode' : forall q t, q <> p -> q < N -> L' q = Some t -> node_ok q (C' q) t).
  { intros q t Hq A1 A2. rewrite HL' in A2 by exact Hq. rewrite HC' by exact Hq. auto. }
  assert (Hnofin : fin = [] \/ p <> 0).
  { destruct Hfin as [(Hf & _)|(m & t & Hf & Hf1 & Hf2)]; [auto|]. right. intros ->.
    destruct Hold as [Ho|[Ho1 Ho2]]; [congruence|lia]. }
  destruct D as [(-> & -> & Ec & EK)|(_ & HcK & [(-> & S1 & S2 & S3)|(-> & W1 & W2)])].
  - (* finalize *)
    split; [reflexivity|]. split; [destruct Hnofin; [assumption|contradiction]|]. split; [exact Ec|]. intros m.
    constructor; auto.
    + intros q t A1 A2. destruct (Nat.eq_dec q 0) as [->|Hq]; [|now apply Hnode'].
      assert (t = t') by congruence. subst t. rewrite HC'p. unfold node_ok. subst c' c. ssplit; auto.
    + intros q c0 A1 A2. destruct (Nat.eq_dec q 0) as [->|Hq]; [destruct A2 as (_ & A2 & _); lia|now apply Hsent'].
    + right. exists m, t'. ssplit; auto. rewrite HC'p. congruence.
  - (* send *)
    set (d := p - 2 ^ (K - 1 - c')).
    assert (Ek : K - (c' + 1) = K - 1 - c') by lia.
    assert (Ed : d + 2 ^ (K - (c' + 1)) = p) by (unfold d; rewrite Ek; lia).
    pose proof (pow_pos (K - 1 - c')) as Hpos.
    assert (Edb : 2 ^ (K - c') = 2 * 2 ^ (K - 1 - c')) by (rewrite <- pow_S; f_equal; lia).
    split; [lia|]. split; [lia|]. split; [reflexivity|]. split; [exact Hcc|]. split; [exact HcK|].
    assert (HS : sentc L' C' p (c' + 1)).
    { unfold sentc. rewrite HL'p, HC'p, Ek. ssplit; try lia. discriminate. }
    assert (Hdn : L' d = None \/ C' d < c' + 1).
    { rewrite HL', HC' by lia. destruct (L d) eqn:Ld; [|auto]. right.
      destruct (le_lt_dec (c' + 1) (C d)) as [Hle|]; [|assumption]. exfalso.
      apply (Hns (c' + 1)). rewrite <- Ed. apply Hused; try lia. congruence. }
    constructor; auto.
    + intros q t A1 A2. destruct (Nat.eq_dec q p) as [->|Hq]; [|now apply Hnode'].
      assert (t = t') by congruence. subst t. rewrite HC'p. unfold node_ok. ssplit; auto.
    + intros q t c0 [A|A]; [|auto]. injection A as <- <- <-. unfold flight_ok. rewrite Ed. ssplit; auto; try lia.
      now replace (c' + 1 - 1) with c' by lia.
    + intros q c0. unfold cntR. cbn [filter]. destruct (isR q c0 (d, R t' (c' + 1))) eqn:E; [|apply Honce'].
      cbn in E. apply andb_true_iff in E. destruct E as [E1 E2]. apply Nat.eqb_eq in E1, E2. subst q c0.
      cbn [length]. fold (cntR X d (c' + 1)). rewrite cntR_zero; [lia|]. intros t Hin.
      destruct (Hfl _ _ _ (HX1 _ Hin)) as (_ & _ & _ & _ & F5 & _). rewrite Ed in F5. eapply Hns; eauto.
    + intros q c0 A1 A2. destruct (Nat.eq_dec q p) as [->|Hq].
      * right. exists t'. left. destruct A2 as (_ & _ & A2 & _). rewrite HC'p in A2. subst c0. rewrite Ek. reflexivity.
      * destruct (Hsent' q c0 Hq A1 A2) as [B|(t & B)]; [auto|]. right. exists t. now right.
    + intros q t c0 x [A|A] Hx; [|eauto]. injection A as <- <- <-. destruct (Hl2 _ Hx) as [->|]; [congruence|auto].
    + destruct Hfin as [(Hf & Hf')|(m & t & Hf & Hf1 & Hf2)].
      * left. split; [exact Hf|]. intros A. rewrite HC' by lia. apply Hf'. now rewrite HL' in A by lia.
      * right. exists m, t. ssplit; auto. rewrite HL' by lia. exact Hf1. rewrite HC' by lia. exact Hf2.
  - (* wait *)
    split; [exact Hcc|]. split; [exact HcK|].
    constructor; auto.
    + intros q t A1 A2. destruct (Nat.eq_dec q p) as [->|Hq]; [|now apply Hnode'].
      assert (t = t') by congruence. subst t. rewrite HC'p. unfold node_ok.
      assert (2 ^ (K - c') = 2 * 2 ^ (K - 1 - c')) by (rewrite <- pow_S; f_equal; lia). ssplit; auto; lia.
    + intros q c0 A1 A2. destruct (Nat.eq_dec q p) as [->|Hq]; [|now apply Hsent'].
      destruct A2 as (_ & _ & A3 & _ & A5). rewrite HC'p in A3. replace (K - c0) with (K - 1 - c') in A5 by lia. lia.
    + destruct (Nat.eq_dec p 0) as [E0|E0].
      * left. destruct Hnofin as [Hf|]; [|contradiction]. split; [exact Hf|]. intros _. rewrite <- E0, HC'p. exact HcK.
      * destruct Hfin as [(Hf & Hf')|(m & t & Hf & Hf1 & Hf2)].
        -- left. split; [exact Hf|]. intros A. rewrite HC' by lia. apply Hf'. now rewrite HL' in A by lia.
        -- right. exists m, t. ssplit; auto. rewrite HL' by lia. exact Hf1. rewrite HC' by lia. exact Hf2.
Qed.

(** First factor of a node. *)
Lemma grow_setup : forall L C F fin p, ainv L C F fin -> p < N -> L p = None ->
  let (c', a) := decide N p 0 in
  let L' := updf L p (Some (Own p)) in let C' := updf C p c' in
  match a with
  | AFinalize => p = 0 /\ fin = [] /\ c' = 0 /\ (forall m, ainv L' C' F [(m, Own p)])
  | ASend d k => d < N /\ d <> p /\ k = c' + 1 /\ 0 <= c' /\ c' < K /\ ainv L' C' ((d, R (Own p) k) :: F) fin
  | AWait => 0 <= c' /\ c' < K /\ ainv L' C' F fin
  end.
Proof.
  intros L C F fin p HI Hp HL. pose proof (N_le N HN).
  apply (grow L C F F fin p 0 (Own p)); auto; try lia.
  - rewrite Nat.sub_0_r. lia.
  - rewrite seg_0 by assumption. reflexivity.
  - intros q [<-|[]]. auto.
  - intros t0 c0 Hin. destruct (a_flight _ _ _ _ HI _ _ _ Hin) as (_ & A & _). lia.
Qed.

(** The expected factor arrives. *)
Lemma grow_merge : forall L C F X fin p l t c, ainv L C F fin -> Permutation F ((p, R t c) :: X) -> L p = Some l -> c = C p + 1 ->
  let (c', a) := decide N p c in
  let L' := updf L p (Some (Combine l t)) in let C' := updf C p c' in
  match a with
  | AFinalize => p = 0 /\ fin = [] /\ c' = c /\ (forall m, ainv L' C' X [(m, Combine l t)])
  | ASend d k => d < N /\ d <> p /\ k = c' + 1 /\ c <= c' /\ c' < K /\ ainv L' C' ((d, R (Combine l t) k) :: X) fin
  | AWait => c <= c' /\ c' < K /\ ainv L' C' X fin
  end.
Proof.
  intros L C F X fin p l t c HI HP HL Hc.
  assert (Hin : In (p, R t c) F) by (eapply Permutation_in; [symmetry; exact HP|left; reflexivity]).
  pose proof (a_flight _ _ _ _ HI _ _ _ Hin) as (F1 & F2 & F3 & F4 & F5 & F6 & F7).
  destruct (a_node _ _ _ _ HI p l F1 HL) as (N1 & N2 & N3 & N4).
  assert (HcK : c <= K) by (destruct F5 as (_ & _ & _ & F5 & _); exact F5).
  assert (HX1 : forall x, In x X -> In x F).
  { intros x Hx. eapply Permutation_in; [symmetry; exact HP|now right]. }
  assert (HX3 : forall p0 t0 c0, In (p0, R t0 c0) F -> In (p0, R t0 c0) X \/ (p0 = p /\ c0 <= c)).
  { intros p0 t0 c0 Hi. apply (Permutation_in _ HP) in Hi. destruct Hi as [E|Hi]; [injection E as <- <- <-; auto|auto]. }
  assert (Hone : forall p0 c0, cntR F p0 c0 = (if isR p0 c0 (p, R t c) then 1 else 0) + cntR X p0 c0).
  { intros p0 c0. unfold cntR. rewrite (filter_length_perm _ _ _ _ HP). cbn [filter]. destruct (isR p0 c0 (p, R t c)); cbn; lia. }
  apply (grow L C F X fin p c (Combine l t)); auto.
  - cbn [leaves]. rewrite <- (seg_merge N HN p c); [|lia|exact HcK|exact F3].
    replace (c - 1) with (C p) in * by lia. now apply Permutation_app.
  - right. replace (K - 1 - C p) with (K - c) by lia. split; [lia|exact F3].
  - intros q. cbn [leaves]. rewrite in_app_iff. intros [Hq|Hq]; right; [eapply a_leafL; eauto|eapply a_leafF; eauto].
  - intros c0 A1 A2 A3. destruct (Nat.eq_dec c0 c) as [->|]; [exact F5|].
    eapply a_used; eauto; try lia. congruence.
  - intros p0 c0. rewrite Hone. lia.
  - intros t0 c0 Hi. destruct (a_flight _ _ _ _ HI _ _ _ (HX1 _ Hi)) as (_ & _ & _ & _ & _ & _ & [G|G]); [congruence|].
    destruct (Nat.eq_dec c0 c) as [->|]; [|lia]. exfalso.
    pose proof (a_once _ _ _ _ HI p c) as O. rewrite Hone in O. cbn [isR] in O. rewrite !Nat.eqb_refl in O. cbn in O.
    assert (0 < cntR X p c); [|lia]. unfold cntR. apply (in_split) in Hi. destruct Hi as (x1 & x2 & ->).
    rewrite filter_app, app_length. cbn [filter isR]. rewrite !Nat.eqb_refl. cbn. lia.
Qed.

(** Without messages of the right round waiting anywhere, everybody has sent. *)
Lemma all_sent : forall L C F fin, ainv L C F fin -> (forall p, p < N -> L p <> None) ->
  (forall p t c, In (p, R t c) F -> c <> C p + 1) -> exists m t, fin = [(m, t)] /\ Permutation (leaves t) (seq 0 N).
Proof.
  intros L C F fin HI Hall Hnone.
  assert (Hs : forall k p, N - p <= k -> p < N -> 0 < p -> sentc L C p (C p + 1)).
  { induction k as [|k IH]; intros p Hk Hp H0; [lia|].
    destruct (L p) as [t|] eqn:EL; [|now apply Hall in EL].
    destruct (a_node _ _ _ _ HI p t Hp EL) as (N1 & N2 & N3 & [(N4 & _)|(N4 & [N5|(N5 & N6)])]); [lia| |].
    - unfold sentc. rewrite EL. replace (K - (C p + 1)) with (K - 1 - C p) by lia. ssplit; try lia. discriminate.
    - exfalso. pose proof (pow_pos (K - 1 - C p)). set (q := p + 2 ^ (K - 1 - C p)) in *.
      assert (Sq : sentc L C q (C q + 1)) by (apply IH; lia).
      (* the round of q *)
      destruct (L q) as [tq|] eqn:ELq; [|now apply Hall in ELq; auto].
      destruct (a_node _ _ _ _ HI q tq N6 ELq) as (_ & M2 & M3 & _).
      destruct Sq as (_ & _ & _ & Q4 & Q5).
      assert (Ecq : C q = C p).
      { assert (K - (C q + 1) < K - C p).
        { apply (Nat.pow_lt_mono_r_iff 2); [lia|]. assert (2 ^ (K - C p) = 2 * 2 ^ (K - 1 - C p)) by (rewrite <- pow_S; f_equal; lia). lia. }
        assert (K - 1 - C p < K - C q). { apply (Nat.pow_lt_mono_r_iff 2); [lia|]. lia. } lia. }
      assert (Sq : sentc L C q (C p + 1)).
      { unfold sentc. rewrite ELq. rewrite Ecq in *. ssplit; try lia. discriminate. }
      replace (K - 1 - C p) with (K - (C p + 1)) in q by lia.
      destruct (a_sent _ _ _ _ HI q (C p + 1) N6 Sq) as [(B1 & B2)|(t0 & B)];
        replace (q - 2 ^ (K - (C p + 1))) with p in * by (unfold q; replace (K - (C p + 1)) with (K - 1 - C p) by lia; lia).
      + lia.
      + apply Hnone in B. lia. }
  destruct (a_fin _ _ _ _ HI) as [(Hf & Hf')|(m & t & Hf & Hf1 & Hf2)].
  - exfalso. destruct (L 0) as [t|] eqn:EL; [|apply (Hall 0); [lia|exact EL]].
    destruct (a_node _ _ _ _ HI 0 t ltac:(lia) EL) as (N1 & N2 & N3 & N4).
    assert (C 0 < K) as HC by (apply Hf'; discriminate).
    destruct N4 as [(_ & N4)|(_ & [N5|(N5 & N6)])]; [lia|pose proof (pow_pos (K - 1 - C 0)); lia|].
    cbn in N6. set (q := 2 ^ (K - 1 - C 0)) in *.
    assert (Sq : sentc L C q (C q + 1)) by (apply (Hs (N - q)); unfold q; try lia).
    destruct (L q) as [tq|] eqn:ELq; [|now apply Hall in ELq].
    destruct (a_node _ _ _ _ HI q tq N6 ELq) as (_ & M2 & M3 & _).
    destruct Sq as (_ & _ & _ & Q4 & Q5).
    assert (Ecq : C q = C 0).
    { assert (K - (C q + 1) <= K - 1 - C 0) by (apply (Nat.pow_le_mono_r_iff 2); [lia|exact Q5]).
      assert (K - 1 - C 0 < K - C q) by (apply (Nat.pow_lt_mono_r_iff 2); [lia|exact M3]). lia. }
    assert (Sq : sentc L C q (C 0 + 1)).
    { unfold sentc. rewrite ELq. rewrite Ecq in *. ssplit; try lia. discriminate. }
    destruct (a_sent _ _ _ _ HI q (C 0 + 1) N6 Sq) as [(B1 & B2)|(t0 & B)];
      replace (q - 2 ^ (K - (C 0 + 1))) with 0 in * by (unfold q; replace (K - (C 0 + 1)) with (K - 1 - C 0) by lia; lia).
    + lia.
    + apply Hnone in B. lia.
  - exists m, t. split; [exact Hf|]. destruct (a_node _ _ _ _ HI 0 t ltac:(lia) Hf1) as (N1 & _).
    rewrite Hf2, seg_K in N1. exact N1.
Qed.
End Abs.
