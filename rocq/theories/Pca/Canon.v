(** The factors are merged in the same way in every run. *)
From Coq Require Import List Arith Bool Lia Permutation.
From Verif.Base Require Import ListX.
From Verif.Pca Require Import Model Spec Tree Abs Proofs.
Import ListNotations.

(** The factor of node [p] after round [c]. *)
Fixpoint canon (N p c : nat) : rtree :=
  match c with
  | 0 => Own p
  | S c' => let q := p + 2 ^ (Nat.log2_up N - c) in if q <? N then Combine (canon N p c') (canon N q c') else canon N p c'
  end.

Lemma fold_in_mail : forall cf src l s q m, In m (mail (nodes (fold_left (post cf src) l s) q)) -> In m (mail (nodes s q)) \/ In (q, m) l.
Proof.
  intros cf src l. induction l as [|[d x] t IH]; intros s q m H; cbn [fold_left] in H; [now left|].
  destruct (IH _ _ _ H) as [G|G]; [|right; now right]. unfold post in G. destruct (helpers cf || (d =? src)); cbn [nodes] in G; [|now left].
  destruct (Nat.eq_dec q d) as [->|Hq]; [rewrite upd_eq in G|rewrite upd_neq in G by exact Hq; now left].
  cbn [with_mail mail] in G. apply in_app_iff in G. destruct G as [G|[<-|[]]]; [now left|right; now left].
Qed.
Lemma fold_in_net : forall cf src l s a d m, In (a, d, m) (net (fold_left (post cf src) l s)) -> In (a, d, m) (net s) \/ In (d, m) l.
Proof.
  intros cf src l. induction l as [|[d' x] t IH]; intros s a d m H; cbn [fold_left] in H; [now left|].
  destruct (IH _ _ _ _ H) as [G|G]; [|right; now right]. unfold post in G. destruct (helpers cf || (d' =? src)); cbn [net] in G; [now left|].
  apply in_app_iff in G. destruct G as [G|[E|[]]]; [now left|]. injection E as <- <- <-. right. now left.
Qed.

Section Canon.
Variable cf : config.
Hypothesis HN : 1 <= n_nodes cf.
Hypothesis Hch : channels cf = 1.
Hypothesis Hset : n_setup cf <= n_nodes cf.
Notation N := (n_nodes cf).
Notation K := (Nat.log2_up (n_nodes cf)).

Definition good (p : nat) (m : pmsg) : Prop := match m with R t c => t = canon N (p + 2 ^ (K - c)) (c - 1) | _ => True end.

Record cinv (s : pstate) : Prop := {
  k_loc : forall p t, p < N -> local (nodes s p) = Some t -> t = canon N p (r_count (nodes s p));
  k_mail : forall p m, p < N -> In m (mail (nodes s p)) -> good p m;
  k_buf : forall p m, p < N -> In m (buffer (nodes s p)) -> good p m;
  k_mb : forall p m, p < N -> In m (means_buffer (nodes s p)) -> good p m;
  k_net : forall a p m, In (a, p, m) (net s) -> good p m;
  k_fin : forall m t, In (m, t) (finals s) -> t = canon N 0 K
}.

Lemma canon_skip : forall p, p < 2 ^ (K - 1) -> N <= p + 2 ^ (K - 1) -> canon N p 1 = canon N p 0.
Proof. intros p _ H. cbn [canon]. destruct (Nat.ltb_spec (p + 2 ^ (K - 1)) N); [lia|reflexivity]. Qed.

Lemma sof_canon : forall p nd t, p < N -> r_count nd <= K -> p < 2 ^ (K - r_count nd) -> t = canon N p (r_count nd) ->
  let e := send_or_finalize cf p nd t in
  local (e_node e) = Some t /\ t = canon N p (r_count (e_node e))
  /\ (forall d m, In (d, m) (e_sends e) -> good d m) /\ (forall m t', In (m, t') (e_finals e) -> t' = canon N 0 K)
  /\ buffer (e_node e) = buffer nd /\ means_buffer (e_node e) = means_buffer nd.
Proof.
  intros p nd t Hp Hc Hpc Ht. cbn zeta. rewrite sof_node. cbn [with_factor local r_count buffer means_buffer].
  unfold send_or_finalize. pose proof (decide_spec N HN p (r_count nd) Hp Hc Hpc) as D. destruct (decide N p (r_count nd)) as [c' a]. cbn [fst].
  assert (Hc' : t = canon N p c').
  { destruct D as [(_ & _ & -> & _)|([->|(E0 & -> & H1 & H2)] & _)]; [exact Ht|exact Ht|]. rewrite (canon_skip p H1 H2). rewrite Ht, E0. reflexivity. }
  split; [reflexivity|]. split; [exact Hc'|].
  assert (G : forall (X : effect), X = match a with AWait => no_effect (with_factor nd (Some t) c') | ASend dst k => if (dst <? N) && negb (dst =? p) then {| e_node := with_factor nd (Some t) c'; e_sends := [(dst, R t k)]; e_finals := []; e_panic := false |}
      else {| e_node := with_factor nd (Some t) c'; e_sends := []; e_finals := []; e_panic := true |}
      | AFinalize => match means nd with Some m => {| e_node := with_factor nd (Some t) c'; e_sends := share cf m t; e_finals := [(m, t)]; e_panic := false |} | None => {| e_node := with_factor nd (Some t) c'; e_sends := []; e_finals := []; e_panic := true |} end end ->
      (forall d m, In (d, m) (e_sends X) -> good d m) /\ (forall m t', In (m, t') (e_finals X) -> t' = canon N 0 K)).
  { intros X ->. destruct D as [(-> & -> & -> & Ek)|(_ & Hlt & [(-> & Hle & H0 & Hb)|(-> & _)])].
    - destruct (means nd) as [m|]; cbn [e_sends e_finals]; [|split; intros ? ? []]. split.
      + intros d x. unfold share. destruct (helpers cf); [intros []|]. rewrite in_app_iff. intros [Hi|[E|[]]].
        * apply in_map_iff in Hi. destruct Hi as (j & E & _). injection E as <- <-. exact I.
        * injection E as <- <-. exact I.
      + intros m' t' [E|[]]. injection E as <- <-. now rewrite Hc', Ek.
    - destruct (_ && _); cbn [e_sends e_finals]; [|split; intros ? ? []]. split; [|intros ? ? []].
      intros d m [E|[]]. injection E as <- <-. cbn [good]. rewrite Hc'. replace (c' + 1 - 1) with c' by lia. f_equal.
      replace (K - (c' + 1)) with (K - 1 - c') by lia. lia.
    - cbn. split; intros ? ? []. }
  destruct (G _ eq_refl) as (G1 & G2). ssplit; auto.
Qed.

Lemma in_resolve : forall p b d m, In (d, m) (resolve p b) -> d = p /\ In m b.
Proof. intros p b d m H. unfold resolve in H. apply in_map_iff in H. destruct H as (x & E & Hx). injection E as <- <-. split; [reflexivity|]. now apply in_rev. Qed.

(** What handling a message keeps. *)
Definition kept (p : nat) (e : effect) : Prop :=
  (forall t, local (e_node e) = Some t -> t = canon N p (r_count (e_node e)))
  /\ (forall d m, In (d, m) (e_sends e) -> good d m) /\ (forall m t, In (m, t) (e_finals e) -> t = canon N 0 K)
  /\ (forall m, In m (buffer (e_node e)) -> good p m) /\ (forall m, In m (means_buffer (e_node e)) -> good p m).

Lemma setup_kept : forall p nd, p < N -> r_count nd = 0 -> (forall m, In m (buffer nd) -> good p m) -> (forall m, In m (means_buffer nd) -> good p m) ->
  kept p (on_setup cf p nd).
Proof.
  intros p nd Hp H0 Hb Hm. unfold on_setup.
  destruct (sof_canon p (with_means nd (Some [p])) (Own p) Hp) as (A & B & C & D & E & F); cbn [with_means r_count]; rewrite ?H0; try reflexivity; [lia|rewrite Nat.sub_0_r; pose proof (N_le N HN); lia|].
  set (e := send_or_finalize cf p (with_means nd (Some [p])) (Own p)) in *.
  assert (M : forall d m, In (d, m) (if p =? 0 then [] else [(0, Means p)]) -> good d m).
  { intros d m. destruct (p =? 0); [intros []|]. intros [Ed|[]]. injection Ed as <- <-. exact I. }
  destruct (helpers cf || multi cf); unfold kept; cbn [e_node e_sends e_finals with_buffers local r_count buffer means_buffer].
  - ssplit.
    + intros t Et. rewrite A in Et. injection Et as <-. exact B.
    + intros d m. rewrite !in_app_iff. intros [G|[G|[G|G]]]; eauto.
      * apply in_resolve in G. destruct G as (-> & G). auto.
      * apply in_resolve in G. destruct G as (-> & G). auto.
    + exact D.
    + intros m [].
    + intros m [].
  - ssplit.
    + intros t Et. rewrite A in Et. injection Et as <-. exact B.
    + intros d m. rewrite in_app_iff. intros [G|G]; eauto.
    + exact D.
    + rewrite E. exact Hb.
    + rewrite F. exact Hm.
Qed.

Lemma handle_kept : forall s p m rest, inv cf s -> nobody_early cf s -> cinv s -> p < N -> mail (nodes s p) = m :: rest ->
  kept p (handle cf p (with_mail (nodes s p) rest) m).
Proof.
  intros s p m rest HI He HC Hp Hm. set (nd := with_mail (nodes s p) rest).
  pose proof (in_flight cf HN Hch Hset s p m rest Hp Hm) as Hin.
  assert (Gm : good p m) by (apply (k_mail s HC p m Hp); rewrite Hm; now left).
  assert (Kb : forall x, In x (buffer nd) -> good p x) by (intros x; apply (k_buf s HC p x Hp)).
  assert (Km : forall x, In x (means_buffer nd) -> good p x) by (intros x; apply (k_mb s HC p x Hp)).
  assert (Kl : forall t, local nd = Some t -> t = canon N p (r_count nd)) by (intros t; apply (k_loc s HC p t Hp)).
  assert (Kn : forall nd', local nd' = local nd -> r_count nd' = r_count nd -> buffer nd' = buffer nd -> means_buffer nd' = means_buffer nd -> kept p (no_effect nd')).
  { intros nd' E1 E2 E3 E4. unfold kept. cbn [no_effect e_node e_sends e_finals]. rewrite E1, E2, E3, E4. ssplit; auto; intros ? ? []. }
  assert (Hr : kept p (run_pca cf p nd)).
  { unfold run_pca. set (nd1 := {| started := true; local := None |}). destruct (multi cf).
    - unfold kept. cbn. ssplit; try discriminate; try (intros ? ? []); intros ? [].
    - apply setup_kept; [exact Hp|reflexivity|intros x []|intros x []]. }
  destruct m as [| |i|t c|ms t|]; cbn [handle].
  - exact Hr.
  - apply setup_kept; auto. change (r_count nd) with (Cf s p). apply (a_none _ _ _ _ _ (v_a _ _ HI)).
    pose proof (cnt_pos _ (isSetup p) _ _ Hin (Nat.eqb_refl p)) as HT. rewrite (v_setup _ _ HI p Hp) in HT. unfold tokU in HT. unfold Lf.
    destruct (local (nodes s p)); [rewrite andb_false_r in HT; cbn in HT; lia|reflexivity].
  - destruct (helpers cf && _).
    + unfold kept. cbn [no_effect e_node e_sends e_finals with_buffers local r_count buffer means_buffer]. ssplit; auto; try (intros ? ? []).
      intros x Hx. apply in_app_iff in Hx. destruct Hx as [Hx|[<-|[]]]; auto.
    + destruct (means nd) as [l|]; [now apply Kn|].
      unfold kept. cbn [no_effect e_node e_sends e_finals with_buffers local r_count buffer means_buffer]. ssplit; auto; try (intros ? ? []).
      intros x Hx. apply in_app_iff in Hx. destruct Hx as [Hx|[<-|[]]]; auto.
  - assert (Keep : kept p (no_effect (with_buffers nd (buffer nd ++ [R t c]) (means_buffer nd)))).
    { unfold kept. cbn [no_effect e_node e_sends e_finals with_buffers local r_count buffer means_buffer]. ssplit; auto; try (intros ? ? []).
      intros x Hx. apply in_app_iff in Hx. destruct Hx as [Hx|[<-|[]]]; auto. }
    destruct (local nd) as [l|] eqn:El; [|exact Keep]. destruct (Nat.eqb_spec c (r_count nd + 1)) as [Ec|]; [|exact Keep].
    destruct (a_flight _ _ _ _ _ (v_a _ _ HI) p t c Hin) as (_ & F1 & F2 & F3 & (_ & _ & _ & F4 & _) & _).
    assert (Et : Combine l t = canon N p c).
    { cbn [good] in Gm. rewrite (Kl l eq_refl). destruct c as [|c']; [lia|]. replace (r_count nd) with c' by lia. cbn [canon].
      destruct (Nat.ltb_spec (p + 2 ^ (K - S c')) N); [|lia]. rewrite Gm. replace (S c' - 1) with c' by lia. reflexivity. }
    destruct (sof_canon p (with_factor nd (Some l) c) (Combine l t) Hp) as (A & B & C & D & E & F); auto.
    set (e := send_or_finalize cf p (with_factor nd (Some l) c) (Combine l t)) in *.
    unfold kept. cbn [e_node e_sends e_finals with_buffers local r_count buffer means_buffer]. ssplit.
    + intros t' Et'. rewrite A in Et'. injection Et' as <-. exact B.
    + intros d m. rewrite in_app_iff. intros [G|G]; eauto. apply in_resolve in G. destruct G as (-> & G). auto.
    + exact D.
    + intros x [].
    + rewrite F. exact Km.
  - unfold kept. cbn [e_node e_sends e_finals]. ssplit; auto; try (intros ? ? []; fail). intros d x [E|[]]. injection E as <- <-. exact I.
  - destruct (n_reduced nd <? channels cf); [exact Hr|]. now apply Kn.
Qed.

Lemma cinv_step : forall s s', inv cf s -> nobody_early cf s -> cinv s -> step cf s s' -> cinv s'.
Proof.
  intros s s' HI He HC Hs. destruct Hs as [s before src d m after Hn _|s p m rest Hp Hm].
  - assert (Sn : forall q, sameC (upd (nodes s) d (with_mail (nodes s d) (mail (nodes s d) ++ [m])) q) (nodes s q)).
    { intros q. destruct (Nat.eq_dec q d) as [->|]; [rewrite upd_eq|rewrite upd_neq by assumption; apply sameC_refl]. unfold sameC. cbn. ssplit; reflexivity. }
    constructor; cbn [nodes net finals].
    + intros p t Hp. destruct (Sn p) as (_ & -> & -> & _). apply (k_loc s HC p t Hp).
    + intros p x Hp. destruct (Nat.eq_dec p d) as [->|Hq]; [rewrite upd_eq|rewrite upd_neq by exact Hq; apply (k_mail s HC p x Hp)].
      cbn [with_mail mail]. rewrite in_app_iff. intros [G|[<-|[]]]; [now apply (k_mail s HC)|]. apply (k_net s HC src). rewrite Hn. apply in_app_iff. right. now left.
    + intros p x Hp. destruct (Sn p) as (_ & _ & _ & _ & -> & _). apply (k_buf s HC p x Hp).
    + intros p x Hp. destruct (Sn p) as (_ & _ & _ & _ & _ & -> & _). apply (k_mb s HC p x Hp).
    + intros a p x Hi. apply (k_net s HC a). rewrite Hn. apply in_app_iff in Hi. apply in_app_iff. destruct Hi; [now left|right; now right].
    + apply (k_fin s HC).
  - change (p < N) in Hp. destruct (handle_kept s p m rest HI He HC Hp Hm) as (A & B & C & D & E).
    pose proof (process_core cf s p m rest) as Sn. set (e := handle cf p (with_mail (nodes s p) rest) m) in *.
    constructor.
    + intros q t Hq. destruct (Sn q) as (_ & -> & -> & _). destruct (Nat.eqb_spec q p) as [->|]; [apply A|apply (k_loc s HC q t Hq)].
    + intros q x Hq Hi. unfold process in Hi. fold e in Hi. apply fold_in_mail in Hi. destruct Hi as [Hi|Hi]; [|now apply B].
      cbn [nodes] in Hi. destruct (Nat.eq_dec q p) as [->|Hn]; [rewrite upd_eq in Hi|rewrite upd_neq in Hi by exact Hn; now apply (k_mail s HC q x Hq)].
      unfold e in Hi. rewrite handle_mail in Hi. apply (k_mail s HC p x Hq). rewrite Hm. now right.
    + intros q x Hq. destruct (Sn q) as (_ & _ & _ & _ & -> & _). destruct (Nat.eqb_spec q p) as [->|]; [apply D|apply (k_buf s HC q x Hq)].
    + intros q x Hq. destruct (Sn q) as (_ & _ & _ & _ & _ & -> & _). destruct (Nat.eqb_spec q p) as [->|]; [apply E|apply (k_mb s HC q x Hq)].
    + intros a q x Hi. unfold process in Hi. fold e in Hi. apply fold_in_net in Hi. destruct Hi as [Hi|Hi]; [|now apply B].
      cbn [net] in Hi. apply in_app_iff in Hi. destruct Hi as [Hi|Hi]; [now apply (k_net s HC a)|].
      assert (Ei : (a, q, x) = (p, p, Setup)).
      { unfold helper_answer in Hi. destruct m; try contradiction; [destruct (multi cf)|destruct (multi cf && _)]; cbn in Hi; try contradiction; destruct Hi as [Hi|[]]; congruence. }
      injection Ei as -> -> ->. exact I.
    + intros ms t Hi. unfold process in Hi. fold e in Hi. match type of Hi with In _ (finals (fold_left _ ?l ?s0)) => destruct (fold_rest cf p l s0) as (Ef & _); rewrite Ef in Hi end.
      cbn [finals] in Hi. apply in_app_iff in Hi. destruct Hi as [Hi|Hi]; [now apply (k_fin s HC ms)|now apply (C ms)].
Qed.

Lemma cinv_init : cinv (initial cf).
Proof.
  unfold initial. destruct (helpers cf); constructor; cbn [nodes net finals local mail buffer means_buffer idle_node].
  - discriminate.
  - intros p m Hp. destruct (p <? n_setup cf); [intros [<-|[]]; exact I|intros []].
  - intros ? ? ? [].
  - intros ? ? ? [].
  - intros ? ? ? [].
  - intros ? ? [].
  - discriminate.
  - intros ? ? ? [].
  - intros ? ? ? [].
  - intros ? ? ? [].
  - intros a p m Hi. apply in_map_iff in Hi. destruct Hi as (x & E & _). injection E as <- <- <-. exact I.
  - intros ? ? [].
Qed.

Lemma same_tree : forall s m t, reachable cf (nobody_early cf) s -> In (m, t) (finals s) -> t = canon N 0 K.
Proof.
  intros s m t Hr. apply k_fin with (s := s). induction Hr as [|s s' Hr IH Hs Hok]; [apply cinv_init|].
  destruct (reach_inv cf HN Hch Hset s Hr) as (HI & He). eapply cinv_step; eauto.
Qed.
End Canon.
