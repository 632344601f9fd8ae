(** A host that receives a factor before its own PCA begins loses it for ever: the run is one in which that message never arrives. *)
From Coq Require Import List Arith Bool Lia Permutation.
From Verif.Base Require Import ListX.
From Verif.Pca Require Import Model Spec Tree Abs Proofs Order.
Import ListNotations.

Lemma fold_nodes : forall cf src l s q, helpers cf = false ->
  nodes (fold_left (post cf src) l s) q = if q =? src then with_mail (nodes s q) (mail (nodes s q) ++ own src l) else nodes s q.
Proof.
  intros cf src l. induction l as [|[d m] t IH]; intros s q Hh; cbn [fold_left].
  - unfold own. cbn. destruct (q =? src); [rewrite app_nil_r; destruct (nodes s q)|]; reflexivity.
  - rewrite IH by exact Hh. unfold post. rewrite Hh. cbn [orb]. unfold own. cbn [filter fst].
    destruct (Nat.eqb_spec d src) as [->|Hd]; cbn [nodes]; [|reflexivity].
    destruct (Nat.eqb_spec q src) as [->|Hq]; [rewrite upd_eq|rewrite upd_neq by exact Hq; reflexivity].
    unfold with_mail. cbn [started local r_count means buffer means_buffer n_reduced rotated mail map snd]. now rewrite <- app_assoc.
Qed.

(** Once the main node has finalized, no factor is under way. *)
Section Stuck.
Variable N : nat.
Hypothesis HN : 1 <= N.
Notation K := (Nat.log2_up N).

Lemma all_used : forall L C F fin, ainv N L C F fin -> (forall p, p < N -> L p <> None) -> fin <> [] ->
  forall p, p < N -> p = 0 \/ exists c, sentc N L C p c.
Proof.
  intros L C F fin HA HL Hf p. induction p as [p IH] using lt_wf_ind. intros Hp.
  destruct (Nat.eq_dec p 0) as [|Hp0]; [now left|right].
  assert (HC0 : C 0 = K). { destruct (a_fin _ _ _ _ _ HA) as [(E & _)|(m & t & _ & _ & E)]; [contradiction|exact E]. }
  set (k := Nat.log2 p). assert (Hk : 2 ^ k <= p < 2 ^ (k + 1)) by (rewrite Nat.add_1_r; apply Nat.log2_spec; lia).
  assert (HkK : k < K).
  { destruct (Nat.le_gt_cases K k) as [Hle|]; [|assumption]. exfalso.
    assert (N <= 2 ^ K). { destruct (Nat.eq_dec N 1) as [->|]; [cbn; lia|]. apply Nat.log2_up_spec. lia. }
    assert (2 ^ K <= 2 ^ k) by (apply Nat.pow_le_mono_r; lia). lia. }
  set (pa := p - 2 ^ k). assert (Hpa : pa < 2 ^ k). { unfold pa. rewrite Nat.pow_add_r in Hk. cbn in Hk. lia. }
  set (c := K - k). assert (EKc : K - c = k) by (unfold c; lia).
  assert (Hpow : 1 <= 2 ^ k) by (clear; induction k; cbn; lia).
  assert (HCpa : c <= C pa).
  { destruct (IH pa ltac:(unfold pa; lia) ltac:(unfold pa; lia)) as [E|(c' & (_ & H1 & H2 & H3 & H4))].
    - rewrite E, HC0. unfold c. lia.
    - assert (Hlt : 2 ^ (K - c') < 2 ^ k) by lia. apply Nat.pow_lt_mono_r_iff in Hlt; [|lia]. unfold c. lia. }
  exists c. pose proof (a_used _ _ _ _ _ HA pa c ltac:(unfold pa; lia) (HL pa ltac:(unfold pa; lia)) ltac:(unfold c; lia) HCpa) as HU.
  rewrite EKc in HU. replace (pa + 2 ^ k) with p in HU by (unfold pa; lia). exact (HU Hp).
Qed.

Lemma none_left : forall L C F fin, ainv N L C F fin -> (forall p, p < N -> L p <> None) -> fin <> [] -> forall p t c, ~ In (p, R t c) F.
Proof.
  intros L C F fin HA HL Hf p t c Hin.
  destruct (a_flight _ _ _ _ _ HA p t c Hin) as (H1 & H2 & H3 & H4 & (_ & _ & _ & H5 & _) & _ & H6).
  destruct H6 as [H6|H6]; [now apply (HL p H1)|].
  destruct (all_used L C F fin HA HL Hf p H1) as [->|(c' & (_ & G1 & G2 & G3 & G4))].
  - destruct (a_fin _ _ _ _ _ HA) as [(E & _)|(m & t' & _ & _ & E)]; [contradiction|]. lia.
  - assert (Hlt : 2 ^ (K - c') < 2 ^ (K - c)) by lia. apply Nat.pow_lt_mono_r_iff in Hlt; [|lia]. lia.
Qed.
End Stuck.

Section Lost.
Variables (N : nat) (mt ord : bool).
Hypothesis HN : 1 <= N.
Notation cf := (hosts N mt ord 1).
Notation cf0 := (hosts N mt false 1).

Definition waiting (m : pmsg) : Prop := match m with R _ _ | Means _ => True | _ => False end.

(** An idle node with these buffers and this mailbox. *)
Definition idle_with (b mb m : list pmsg) : node :=
  {| started := false; local := None; r_count := 0; means := None; buffer := b; means_buffer := mb; n_reduced := 0; rotated := 0; mail := m |}.

Definition related (lost : list (nat * nat * pmsg)) (p : nat) (a b : node) : Prop :=
  (started a = true /\ a = b)
  \/ (exists bu mb early m0, a = idle_with bu mb (early ++ m0) /\ b = idle_with [] [] m0
        /\ (m0 = [] \/ exists r, m0 = Start :: r)
        /\ Forall waiting early
        /\ (forall x, In x (early ++ bu) -> exists from, In (from, p, x) lost)).

Definition sim (lost : list (nat * nat * pmsg)) (s s0 : pstate) : Prop :=
  Permutation (net s0) (net s ++ lost) /\ finals s = finals s0 /\ panicked s = panicked s0
  /\ forall p, p < N -> related lost p (nodes s p) (nodes s0 p).

Lemma related_more : forall lost x p a b, related lost p a b -> related (lost ++ x) p a b.
Proof.
  intros lost x p a b [H|(bu & mb & early & m0 & E1 & E2 & E3 & E4 & E5)]; [now left|right].
  exists bu, mb, early, m0. ssplit; auto. intros y Hy. destruct (E5 y Hy) as (f & Hf). exists f. apply in_app_iff. now left.
Qed.

Lemma sim_step : forall lost s s0 s', inv cf0 s0 -> nobody_early cf0 s0 -> sim lost s s0 -> step cf s s' ->
  exists lost' s0', (s0' = s0 \/ step cf0 s0 s0') /\ sim (lost ++ lost') s' s0'.
Proof.
  intros lost s s0 s' HI Hea (Hnet & Hfin & Hpan & Hrel) Hs. destruct Hs as [s before src d m after Hn _|s p m rest Hp Hm].
  - assert (Hin0 : In (src, d, m) (net s0)).
    { eapply Permutation_in; [symmetry; exact Hnet|]. apply in_app_iff. left. rewrite Hn. apply in_app_iff. right. now left. }
    assert (Hd : d < N). { pose proof (v_dst _ _ HI) as V. rewrite Forall_forall in V. apply (V _ Hin0). }
    assert (Follow : related lost d (with_mail (nodes s d) (mail (nodes s d) ++ [m])) (with_mail (nodes s0 d) (mail (nodes s0 d) ++ [m])) ->
      exists lost' s0', (s0' = s0 \/ step cf0 s0 s0') /\
        sim (lost ++ lost') {| nodes := upd (nodes s) d (with_mail (nodes s d) (mail (nodes s d) ++ [m])); net := before ++ after; finals := finals s; panicked := panicked s |} s0').
    { intros HR. apply in_split in Hin0. destruct Hin0 as (b0 & a0 & E0).
      exists [], {| nodes := upd (nodes s0) d (with_mail (nodes s0 d) (mail (nodes s0 d) ++ [m])); net := b0 ++ a0; finals := finals s0; panicked := panicked s0 |}.
      split; [right; apply (s_arrive cf0 s0 b0 src d m a0 E0); discriminate|]. rewrite app_nil_r. split; [|split; [exact Hfin|split; [exact Hpan|]]]; cbn [net nodes].
      - rewrite E0, Hn in Hnet. rewrite <- app_assoc in Hnet. cbn [app] in Hnet. apply Permutation_app_inv in Hnet. now rewrite <- app_assoc.
      - intros q Hq. destruct (Nat.eq_dec q d) as [->|]; [now rewrite !upd_eq|rewrite !upd_neq by assumption; now apply Hrel]. }
    destruct (Hrel d Hd) as [(E1 & E2)|(bu & mb & early & m0 & E1 & E2 & E3 & E4 & E5)].
    + apply Follow. left. split; [exact E1|]. now rewrite E2.
    + destruct E3 as [->|(r & ->)].
      2:{ apply Follow. right. exists bu, mb, early, (Start :: r ++ [m]). rewrite E1, E2. ssplit; auto.
          - unfold with_mail, idle_with. cbn. now rewrite <- app_assoc.
          - right. now exists (r ++ [m]). }
      assert (Hk : m = Start \/ waiting m).
      { assert (Hfl : In (d, m) (flight N s0)) by (unfold flight; apply in_app_iff; left; apply in_map_iff; exists (src, d, m); auto).
        assert (HS0 : started (nodes s0 d) = false) by (rewrite E2; reflexivity). assert (HL0 : local (nodes s0 d) = None) by (rewrite E2; reflexivity).
        assert (HCD : isCD d (d, m) = true -> False).
        { intros E. pose proof (cnt_pos _ (isCD d) _ _ Hfl E) as HT. pose proof (v_comp _ _ HI d Hd) as VC. cbn [helpers hosts n_nodes] in *.
          refine (fin_all cf0 HN eq_refl (le_n _) s0 HI _ d Hd HL0). intros Ef. rewrite Ef in VC. cbn [length] in VC. lia. }
        destruct m; cbn [waiting]; auto; exfalso.
        - pose proof (cnt_pos _ (isSetup d) _ _ Hfl (Nat.eqb_refl d)) as HT. pose proof (v_setup _ _ HI d Hd) as VS. cbn [n_nodes hosts] in *. unfold tokU in VS. rewrite HS0 in VS. cbn in VS. lia.
        - apply HCD. apply Nat.eqb_refl.
        - apply HCD. apply Nat.eqb_refl. }
      destruct Hk as [->|Hw].
      * apply Follow. right. exists bu, mb, early, [Start]. rewrite E1, E2. ssplit; auto.
        -- unfold with_mail, idle_with. cbn. now rewrite app_nil_r.
        -- right. now exists [].
      * exists [(src, d, m)], s0. split; [now left|]. split; [|split; [exact Hfin|split; [exact Hpan|]]]; cbn [net nodes].
        -- rewrite Hnet, Hn, <- !app_assoc. apply Permutation_app_head. cbn [app]. rewrite app_assoc. apply Permutation_cons_append.
        -- intros q Hq. destruct (Nat.eq_dec q d) as [->|]; [rewrite upd_eq|rewrite upd_neq by assumption; apply related_more; now apply Hrel].
           right. exists bu, mb, (early ++ [m]), []. rewrite E1, E2. ssplit; auto.
           ++ unfold with_mail, idle_with. cbn. now rewrite !app_nil_r.
           ++ apply Forall_app. split; [exact E4|now repeat constructor].
           ++ intros x Hx. rewrite <- app_assoc in Hx. apply in_app_iff in Hx. destruct Hx as [Hx|[->|Hx]].
              ** destruct (E5 x) as (f & Hf); [apply in_app_iff; now left|]. exists f. apply in_app_iff. now left.
              ** exists src. apply in_app_iff. right. now left.
              ** destruct (E5 x) as (f & Hf); [apply in_app_iff; now right|]. exists f. apply in_app_iff. now left.
  - change (p < N) in Hp.
    assert (Same : mail (nodes s0 p) = m :: rest -> handle cf p (with_mail (nodes s p) rest) m = handle cf0 p (with_mail (nodes s0 p) rest) m ->
      helper_answer cf p (with_mail (nodes s p) rest) m = helper_answer cf0 p (with_mail (nodes s0 p) rest) m ->
      started (e_node (handle cf0 p (with_mail (nodes s0 p) rest) m)) = true ->
      exists lost' s0', (s0' = s0 \/ step cf0 s0 s0') /\ sim (lost ++ lost') (process cf p s m rest) s0').
    { intros Hm0 Eh Ea Est. exists [], (process cf0 p s0 m rest). split; [right; now apply s_process|]. rewrite app_nil_r.
      unfold process. rewrite Eh, Ea. set (e := handle cf0 p (with_mail (nodes s0 p) rest) m) in *.
      match goal with |- sim _ (fold_left _ _ ?A) (fold_left _ _ ?B) => set (A0 := A); set (B0 := B) end.
      destruct (fold_rest cf p (e_sends e) A0) as (F1 & P1). destruct (fold_rest cf0 p (e_sends e) B0) as (F2 & P2).
      split; [|split; [|split]].
      - rewrite !fold_net_hosts by reflexivity. cbn [net A0 B0]. rewrite Hnet. rewrite <- !app_assoc. apply Permutation_app_head.
        rewrite (app_assoc lost). rewrite (Permutation_app_comm lost). rewrite <- !app_assoc. apply Permutation_app_head. apply Permutation_app_comm.
      - rewrite F1, F2. cbn [finals A0 B0]. now rewrite Hfin.
      - rewrite P1, P2. cbn [panicked A0 B0]. now rewrite Hpan.
      - intros q Hq. rewrite !fold_nodes by reflexivity. cbn [nodes A0 B0]. destruct (Nat.eqb_spec q p) as [->|Hqp].
        + rewrite !upd_eq. left. split; [exact Est|reflexivity].
        + rewrite !upd_neq by exact Hqp. now apply Hrel. }
    destruct (Hrel p Hp) as [(E1 & E2)|(bu & mb & early & m0 & E1 & E2 & E3 & E4 & E5)].
    + rewrite E2 in Same. apply Same; [now rewrite <- E2|reflexivity|now destruct m|].
      assert (Est : started (with_mail (nodes s0 p) rest) = true) by (rewrite <- E2; exact E1).
      clear - Est. set (nd := with_mail (nodes s0 p) rest) in *. clearbody nd.
      assert (SO : forall nd t, started (e_node (send_or_finalize cf0 p nd t)) = started nd) by (intros; rewrite sof_node; reflexivity).
      assert (OS : forall nd, started (e_node (on_setup cf0 p nd)) = started nd).
      { intros nd'. unfold on_setup. destruct (_ || _); cbn [e_node with_buffers started]; rewrite SO; reflexivity. }
      assert (RP : started (e_node (run_pca cf0 p nd)) = true) by (unfold run_pca; destruct (multi cf0); [reflexivity|rewrite OS; reflexivity]).
      destruct m; cbn [handle].
      * exact RP.
      * rewrite OS. exact Est.
      * destruct (_ && _); [exact Est|]. destruct (means nd); exact Est.
      * destruct (local nd); [|exact Est]. destruct (_ =? _); [|exact Est]. cbn [e_node with_buffers started]. rewrite SO. exact Est.
      * exact Est.
      * destruct (_ <? _); [exact RP|exact Est].
    + destruct early as [|x early].
      * destruct E3 as [->|(r & ->)]; [rewrite E1 in Hm; discriminate|]. rewrite E1 in Hm. cbn in Hm. injection Hm as <- <-.
        rewrite E1, E2 in Same. apply Same; [reflexivity|reflexivity|reflexivity|].
        cbn [handle]. unfold run_pca. destruct (multi cf0); [reflexivity|]. unfold on_setup. destruct (_ || _); cbn [e_node with_buffers started]; rewrite sof_node; reflexivity.
      * rewrite E1 in Hm. cbn in Hm. injection Hm as -> <-. inversion E4 as [|x' e' Hw Hw']; subst x' e'.
        exists [], s0. split; [now left|]. rewrite app_nil_r.
        assert (Ep : exists bu' mb', (process cf p s m (early ++ m0) = {| nodes := upd (nodes s) p (idle_with bu' mb' (early ++ m0)); net := net s ++ []; finals := finals s ++ []; panicked := panicked s || false |})
                     /\ forall y, In y bu' -> In y bu \/ y = m).
        { unfold process. rewrite E1. destruct m; try destruct Hw.
          - exists bu, (mb ++ [Means i]). split; [reflexivity|auto].
          - exists (bu ++ [R t count]), mb. split; [reflexivity|]. intros y Hy. apply in_app_iff in Hy. destruct Hy as [Hy|[Hy|[]]]; auto. }
        destruct Ep as (bu' & mb' & Ep & Hbu). rewrite Ep. split; [|split; [|split]]; cbn [net finals panicked nodes].
        -- now rewrite app_nil_r.
        -- now rewrite app_nil_r.
        -- now rewrite orb_false_r.
        -- intros q Hq. destruct (Nat.eq_dec q p) as [->|]; [rewrite upd_eq|rewrite upd_neq by assumption; now apply Hrel].
           right. exists bu', mb', early, m0. ssplit; auto. intros y Hy. apply E5. apply in_app_iff in Hy. destruct Hy as [Hy|Hy].
           ++ apply in_app_iff. left. now right.
           ++ destruct (Hbu y Hy) as [Hb|Hb]; [apply in_app_iff; now right|apply in_app_iff; left; left; now symmetry].
Qed.

Definition good (s0 : pstate) : Prop := inv cf0 s0 /\ nobody_early cf0 s0.
Lemma sim_early : forall lost s s0, sim lost s s0 -> nobody_early cf0 s0.
Proof.
  intros lost s s0 (_ & _ & _ & Hrel) p Hp Hs. destruct (Hrel p Hp) as [(E1 & E2)|(bu & mb & early & m0 & E1 & E2 & _)]; [congruence|]. now rewrite E2.
Qed.
Lemma sim_good : forall lost s s0 s', good s0 -> sim lost s s0 -> step cf s s' -> exists lost' s0', good s0' /\ sim (lost ++ lost') s' s0'.
Proof.
  intros lost s s0 s' (HI & He) HS Hs. destruct (sim_step lost s s0 s' HI He HS Hs) as (lost' & s0' & H0 & HS').
  exists lost', s0'. split; [|exact HS']. split; [|eapply sim_early; exact HS'].
  destruct H0 as [->|H0]; [exact HI|]. exact (inv_step cf0 HN eq_refl (le_n _) s0 s0' HI He H0).
Qed.
Lemma sim_reach : forall s, reachable cf any_run s -> exists lost s0, good s0 /\ sim lost s s0.
Proof.
  intros s Hr. induction Hr as [|s s' Hr (lost & s0 & HG & HS) Hs _].
  - exists [], (initial cf0). split; [split; [apply inv_init; [exact HN|reflexivity|apply le_n]|apply early_init]|].
    split; [|split; [reflexivity|split; [reflexivity|]]].
    + rewrite app_nil_r. reflexivity.
    + intros p Hp. right. exists [], [], [], []. ssplit; auto. intros x [].
  - destruct (sim_good lost s s0 s' HG HS Hs) as (lost' & s0' & HG' & HS'). eauto.
Qed.
Lemma sim_continues : forall lost s s0 s', good s0 -> sim lost s s0 -> continues cf s s' -> exists lost' s0', good s0' /\ sim (lost ++ lost') s' s0'.
Proof.
  intros lost s s0 s' HG HS Hc. induction Hc as [|s' s'' Hc (lost' & s0' & HG' & HS') Hs].
  - exists [], s0. rewrite app_nil_r. auto.
  - destruct (sim_good _ s' s0' s'' HG' HS' Hs) as (l2 & s2 & HG2 & HS2). exists (lost' ++ l2), s2. rewrite app_assoc. auto.
Qed.

Lemma lost_for_ever : forall s p t c, reachable cf any_run s -> p < N -> started (nodes s p) = false -> In (R t c) (buffer (nodes s p)) ->
  forall s', continues cf s s' -> panicked s' = false /\ finals s' = [] /\ forall q, q < N -> rotated (nodes s' q) = 0.
Proof.
  intros s p t c Hr Hp Hst Hb s' Hc. destruct (sim_reach s Hr) as (lost & s0 & HG & HS).
  assert (Hl : exists from, In (from, p, R t c) lost).
  { destruct HS as (_ & _ & _ & Hrel). destruct (Hrel p Hp) as [(E1 & _)|(bu & mb & early & m0 & E1 & _ & _ & _ & E5)]; [congruence|].
    apply E5. rewrite E1 in Hb. apply in_app_iff. now right. }
  destruct (sim_continues lost s s0 s' HG HS Hc) as (lost' & s0' & (HI & He) & (Hnet & Hfin & Hpan & Hrel)).
  assert (Hf : finals s0' = []).
  { destruct (finals s0') as [|o l] eqn:E; [reflexivity|]. exfalso. destruct Hl as (from & Hl).
    refine (none_left N HN _ _ _ _ (v_a _ _ HI) _ _ p t c _); [|cbn [n_nodes hosts] in *; rewrite E; discriminate|].
    - intros q Hq. apply (fin_all cf0 HN eq_refl (le_n _) s0' HI); [rewrite E; discriminate|exact Hq].
    - unfold flight. apply in_app_iff. left. apply in_map_iff. exists (from, p, R t c). split; [reflexivity|].
      eapply Permutation_in; [symmetry; exact Hnet|]. rewrite !in_app_iff. auto. }
  split; [rewrite Hpan; apply (v_panic _ _ HI)|]. split; [now rewrite Hfin|].
  intros q Hq. destruct (Hrel q Hq) as [(_ & E)|(bu & mb & early & m0 & E & _)]; rewrite E; [|reflexivity].
  pose proof (v_comp _ _ HI q Hq) as VC. rewrite Hf in VC. cbn [helpers hosts length] in VC. lia.
Qed.
End Lost.
