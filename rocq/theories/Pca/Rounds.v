(** Several channels on several hosts: if no host handles messages of a channel it has not begun, every channel goes as if it was alone.
    A host that has not yet begun the channel looks like a host that has not begun at all. *)
From Coq Require Import List Arith Bool Lia Permutation.
From Verif.Base Require Import ListX.
From Verif.Pca Require Import Model Spec Tree Abs Proofs Help Order Lost.
Import ListNotations.

Section Rounds.
Variables (N k : nat) (ord : bool).
Hypothesis HN : 1 <= N.
Notation cf := (hosts N false ord k).
Notation cf1 := (hosts N false false 1).
Notation ok1 := (fun s => nothing_early cf1 s /\ means_ahead s).

(** The node of the channel alone, seen as a node of channel [r]. *)
Definition at_round (r : nat) (nd : node) : node :=
  {| started := started nd; local := local nd; r_count := r_count nd; means := means nd; buffer := buffer nd; means_buffer := means_buffer nd;
     n_reduced := r; rotated := rotated nd; mail := mail nd |}.
(** What ends the channel before is what begins this one. *)
Definition old_msg (m : pmsg) : pmsg := match m with Components _ _ | Done => Start | _ => m end.
Definition rel (r : nat) (nd nd1 : node) : Prop :=
  (nd = at_round r nd1 /\ started nd1 = true)
  \/ (S (n_reduced nd) = r /\ rotated nd = 0 /\ nd1 = idle_with [] [] (map old_msg (mail nd))).
Definition tr (r : nat) (f : nat -> node) (x : nat * nat * pmsg) : nat * nat * pmsg :=
  let '(src, d, m) := x in
  if n_reduced (f d) <? r then match m with Components _ _ | Done => (d, d, Start) | _ => x end else x.
Definition complete (o : outcome) : Prop := Permutation (fst o) (seq 0 N) /\ Permutation (leaves (snd o)) (seq 0 N).

Record rsim (r : nat) (s s1 : pstate) : Prop := {
  z_reach : reachable cf1 ok1 s1;
  z_r : 1 <= r <= k;
  z_fin : exists old, finals s = old ++ finals s1 /\ S (length old) = r /\ Forall complete old;
  z_pan : panicked s = panicked s1;
  z_net : Permutation (net s1) (map (tr r (nodes s)) (net s));
  z_node : forall p, p < N -> rel r (nodes s p) (nodes s1 p);
  z_rot : r < k -> forall p, p < N -> rotated (nodes s1 p) = 0
}.

Lemma tr_ext : forall r f g l, (forall x, In x l -> n_reduced (f (fst (dm x))) = n_reduced (g (fst (dm x)))) -> map (tr r f) l = map (tr r g) l.
Proof. intros r f g l H. apply map_ext_in. intros [[src d] m] Hx. unfold tr. specialize (H _ Hx). cbn in H. now rewrite H. Qed.

Lemma upd_reduced : forall f p v q, n_reduced v = n_reduced (f p) -> n_reduced (upd f p v q) = n_reduced (f q).
Proof. intros f p v q E. unfold upd. destruct (Nat.eqb_spec q p) as [->|]; auto. Qed.

Lemma rel_started : forall r nd nd1, rel r nd nd1 -> started nd1 = true -> nd = at_round r nd1.
Proof. intros r nd nd1 [(E & _)|(_ & _ & E)] H; [exact E|]. rewrite E in H. discriminate. Qed.
Lemma rel_early : forall s s1 r, (forall p, p < N -> rel r (nodes s p) (nodes s1 p)) -> nothing_early cf1 s1.
Proof. intros s s1 r H p Hp Hs. destruct (H p Hp) as [(_ & E)|(_ & _ & E)]; [congruence|]. rewrite E. split; reflexivity. Qed.
Lemma rel_mailR : forall r nd nd1 t c, rel r nd nd1 -> In (R t c) (mail nd1) -> In (R t c) (mail nd).
Proof.
  intros r nd nd1 t c [(E & _)|(_ & _ & E)] H; [rewrite E; exact H|]. rewrite E in H. cbn in H. apply in_map_iff in H. destruct H as (m & Em & Hm).
  destruct m; cbn in Em; try discriminate. now rewrite <- Em.
Qed.
Lemma tr_means : forall r f l from d i, In (from, d, Means i) (map (tr r f) l) -> In (from, d, Means i) l.
Proof.
  intros r f l from d i H. apply in_map_iff in H. destruct H as ([[a b] m] & E & Hx). unfold tr in E.
  destruct (n_reduced (f b) <? r); [|now rewrite <- E]. destruct m; try (now rewrite <- E); discriminate.
Qed.

(** Facts about the channel alone. *)
Lemma alone : forall s1, reachable cf1 ok1 s1 -> inv cf1 s1 /\ nothing_early cf1 s1 /\ oinv N s1.
Proof. intros s1 H. exact (reach_oinv N false HN s1 H). Qed.

Lemma mail_flight : forall s p m, p < N -> In m (mail (nodes s p)) -> In (p, m) (flight N s).
Proof.
  intros s p m Hp Hm. unfold flight. apply in_app_iff. right. apply in_flat_map. exists p. split; [apply in_seq; lia|]. apply in_map. unfold contents. apply in_app_iff. now left.
Qed.
Lemma net_flight1 : forall s from d m, In (from, d, m) (net s) -> In (d, m) (flight N s).
Proof. intros s from d m H. unfold flight. apply in_app_iff. left. apply in_map_iff. now exists (from, d, m). Qed.

(** A factor or means under way to a host comes from a host that has begun. *)
Lemma somebody : forall s1 p m, inv cf1 s1 -> oinv N s1 -> p < N -> In m (mail (nodes s1 p)) -> (exists t c, m = R t c) \/ (exists i, m = Means i) ->
  exists q, q < N /\ started (nodes s1 q) = true.
Proof.
  intros s1 p m HI HO Hp Hm [(t & c & ->)|(i & ->)].
  - pose proof (mail_flight _ _ _ Hp Hm) as HF. destruct (a_flight _ _ _ _ _ (v_a _ _ HI) p t c HF) as (_ & _ & _ & H4 & (H5 & _) & _).
    cbn [n_nodes hosts] in *. exists (p + 2 ^ (Nat.log2_up N - c)). split; [exact H4|]. apply (leaf_started N false s1 _ HI H4 H5).
  - destruct (o_mail _ _ HO p i Hp Hm) as (-> & Hi). exists i. split; [lia|]. pose proof (o_cnt _ _ HO i Hi) as C.
    assert (1 <= cnt (isM i) (mail (nodes s1 0))) by (apply (cnt_pos _ _ _ _ Hm); apply Nat.eqb_refl). destruct (started (nodes s1 i)); [reflexivity|cbn in C; lia].
Qed.

Lemma no_setup : forall s1 p, inv cf1 s1 -> oinv N s1 -> p < N -> ~ In (p, Setup) (flight N s1).
Proof.
  intros s1 p HI HO Hp H. pose proof (cnt_pos _ (isSetup p) _ _ H (Nat.eqb_refl p)) as C. pose proof (v_setup _ _ HI p Hp) as VS. cbn [n_nodes hosts] in *.
  unfold tokU in VS. destruct (started (nodes s1 p)) eqn:E; [|cbn in VS; lia]. destruct (o_set _ _ HO p Hp E) as (HL & _). destruct (local (nodes s1 p)); [|congruence]. cbn in VS. lia.
Qed.
Lemma no_start : forall s1 p, inv cf1 s1 -> p < N -> started (nodes s1 p) = true -> ~ In (p, Start) (flight N s1).
Proof.
  intros s1 p HI Hp E H. pose proof (cnt_pos _ (isStart p) _ _ H (Nat.eqb_refl p)) as C. pose proof (v_start _ _ HI p Hp) as VS. cbn [n_nodes hosts] in *.
  unfold tokS in VS. rewrite E in VS. cbn in VS. lia.
Qed.
Lemma end_all : forall s1 p m, inv cf1 s1 -> p < N -> In (p, m) (flight N s1) -> plain m -> finals s1 <> [] /\ forall q, q < N -> started (nodes s1 q) = true.
Proof.
  intros s1 p m HI Hp HF Hm. assert (C : 1 <= cnt (isCD p) (flight N s1)).
  { apply (cnt_pos _ _ _ _ HF). destruct m; try destruct Hm; apply Nat.eqb_refl. }
  pose proof (v_comp _ _ HI p Hp) as VC. cbn [n_nodes hosts helpers] in *. assert (Hf : finals s1 <> []) by (intros E; rewrite E in VC; cbn [length] in VC; lia).
  split; [exact Hf|]. intros q Hq. apply (leaf_started N false s1 _ HI Hq). exact (fin_all cf1 HN eq_refl (le_n _) s1 HI Hf q Hq).
Qed.

(** Handlers do not see the number of the channel, except for the one at the end. *)
Definition eat (r : nat) (e : effect) : effect := {| e_node := at_round r (e_node e); e_sends := e_sends e; e_finals := e_finals e; e_panic := e_panic e |}.
Lemma sof_at : forall r p nd t, send_or_finalize cf p (at_round r nd) t = eat r (send_or_finalize cf1 p nd t).
Proof.
  intros r p nd t. unfold send_or_finalize. cbn [at_round r_count means hosts n_nodes]. destruct (decide N p (r_count nd)) as (c, a). destruct a as [d j| |].
  - destruct (_ && _); reflexivity.
  - destruct (means nd); reflexivity.
  - reflexivity.
Qed.
Lemma setup_at : forall r p nd, on_setup cf p (at_round r nd) = eat r (on_setup cf1 p nd).
Proof.
  intros r p nd. unfold on_setup. cbn [helpers multi hosts orb]. change (with_means (at_round r nd) (Some [p])) with (at_round r (with_means nd (Some [p]))). rewrite sof_at. reflexivity.
Qed.
Lemma handle_at : forall r p nd m, m <> Start -> m <> Done -> handle cf p (at_round r nd) m = eat r (handle cf1 p nd m).
Proof.
  intros r p nd m H1 H2. destruct m; try contradiction; cbn [handle].
  - apply setup_at.
  - cbn [helpers hosts andb at_round means]. destruct (means nd); reflexivity.
  - cbn [at_round local r_count]. destruct (local nd) as [l|]; [|reflexivity]. destruct (count =? r_count nd + 1); [|reflexivity].
    change (with_factor (at_round r nd) (Some l) count) with (at_round r (with_factor nd (Some l) count)). rewrite sof_at. reflexivity.
  - reflexivity.
Qed.

(** Conditions of the channel alone follow from the relation. *)
Lemma sim_ok : forall r s s1, (forall p, p < N -> rel r (nodes s p) (nodes s1 p)) -> (forall from d i, In (from, d, Means i) (net s1) -> In (from, d, Means i) (net s)) ->
  means_ahead s -> ok1 s1.
Proof.
  intros r s s1 HR Hn HA. split; [exact (rel_early s s1 r HR)|]. intros t c q from Hi Hq Hin. apply (HA t c q from); [|exact Hq|apply Hn; exact Hin].
  eapply rel_mailR; [apply HR; lia|exact Hi].
Qed.

(** A host of the channel acts: both sides do the same. *)
Lemma same_act : forall r s s1 p m rest m1 rest1, rsim r s s1 -> p < N ->
  mail (nodes s p) = m :: rest -> mail (nodes s1 p) = m1 :: rest1 ->
  handle cf p (with_mail (nodes s p) rest) m = eat r (handle cf1 p (with_mail (nodes s1 p) rest1) m1) ->
  started (e_node (handle cf1 p (with_mail (nodes s1 p) rest1) m1)) = true ->
  (r < k -> rotated (e_node (handle cf1 p (with_mail (nodes s1 p) rest1) m1)) = 0) ->
  (forall src x, In (src, p, x) (net s) -> n_reduced (nodes s p) = r \/ ~ plain x) ->
  means_ahead (process cf p s m rest) -> rsim r (process cf p s m rest) (process cf1 p s1 m1 rest1).
Proof.
  intros r s s1 p m rest m1 rest1 Z Hp Hm Hm1 He Hst Hro Hpn HA.
  set (e := handle cf1 p (with_mail (nodes s1 p) rest1) m1) in *.
  assert (Ha : forall c nd x, multi c = false -> helper_answer c p nd x = []) by (intros c nd x E; destruct x; cbn; rewrite ?E; reflexivity).
  assert (Ns : net (process cf p s m rest) = net s ++ outgoing p (e_sends e)).
  { unfold process. rewrite He, fold_net_hosts by reflexivity. cbn [net]. rewrite Ha by reflexivity. now rewrite app_nil_r. }
  assert (Ns1 : net (process cf1 p s1 m1 rest1) = net s1 ++ outgoing p (e_sends e)).
  { unfold process. rewrite fold_net_hosts by reflexivity. cbn [net]. rewrite Ha by reflexivity. now rewrite app_nil_r. }
  assert (Nd : forall q, nodes (process cf p s m rest) q = if q =? p then at_round r (with_mail (e_node e) (mail (e_node e) ++ own p (e_sends e))) else nodes s q).
  { intros q. unfold process. rewrite He, fold_nodes by reflexivity. cbn [nodes]. unfold upd. destruct (q =? p); [reflexivity|reflexivity]. }
  assert (Nd1 : forall q, nodes (process cf1 p s1 m1 rest1) q = if q =? p then with_mail (e_node e) (mail (e_node e) ++ own p (e_sends e)) else nodes s1 q).
  { intros q. unfold process. rewrite fold_nodes by reflexivity. cbn [nodes]. unfold upd. destruct (q =? p); reflexivity. }
  assert (Fs : finals (process cf p s m rest) = finals s ++ e_finals e) by (unfold process; rewrite (proj1 (fold_rest _ _ _ _)), He; reflexivity).
  assert (Fs1 : finals (process cf1 p s1 m1 rest1) = finals s1 ++ e_finals e) by (unfold process; rewrite (proj1 (fold_rest _ _ _ _)); reflexivity).
  assert (Ps : panicked (process cf p s m rest) = panicked s || e_panic e) by (unfold process; rewrite (proj2 (fold_rest _ _ _ _)), He; reflexivity).
  assert (Ps1 : panicked (process cf1 p s1 m1 rest1) = panicked s1 || e_panic e) by (unfold process; rewrite (proj2 (fold_rest _ _ _ _)); reflexivity).
  assert (Rel : forall q, q < N -> rel r (nodes (process cf p s m rest) q) (nodes (process cf1 p s1 m1 rest1) q)).
  { intros q Hq. rewrite Nd, Nd1. destruct (q =? p); [|now apply (z_node _ _ _ Z)]. left. split; [reflexivity|exact Hst]. }
  assert (Ok : ok1 (process cf1 p s1 m1 rest1)).
  { apply (sim_ok r (process cf p s m rest)); [exact Rel| |exact HA]. intros from d i H. rewrite Ns1 in H. rewrite Ns. apply in_app_iff in H. apply in_app_iff.
    destruct H as [H|H]; [left|now right]. eapply tr_means. eapply Permutation_in; [apply (z_net _ _ _ Z)|exact H]. }
  assert (Stp : step cf1 s1 (process cf1 p s1 m1 rest1)) by (now apply s_process).
  assert (Rch : reachable cf1 ok1 (process cf1 p s1 m1 rest1)) by (eapply reach_step; [apply (z_reach _ _ _ Z)|exact Stp|exact Ok]).
  destruct (alone _ Rch) as (HI & _ & _).
  constructor.
  - exact Rch.
  - apply (z_r _ _ _ Z).
  - destruct (z_fin _ _ _ Z) as (old & E1 & E2 & E3). exists old. rewrite Fs, Fs1, E1, app_assoc. auto.
  - now rewrite Ps, Ps1, (z_pan _ _ _ Z).
  - rewrite Ns, Ns1, map_app. apply Permutation_app.
    + rewrite (z_net _ _ _ Z). replace (map (tr r (nodes (process cf p s m rest))) (net s)) with (map (tr r (nodes s)) (net s)); [reflexivity|].
      apply map_ext_in. intros [[src d] x] Hx. unfold tr. rewrite Nd. destruct (Nat.eqb_spec d p) as [->|]; [|reflexivity]. cbn [at_round n_reduced]. rewrite Nat.ltb_irrefl.
      destruct (Hpn _ _ Hx) as [E|E]; [rewrite E, Nat.ltb_irrefl; reflexivity|]. destruct (_ <? _); [|reflexivity]. destruct x; try reflexivity; exfalso; apply E; exact I.
    + replace (map (tr r (nodes (process cf p s m rest))) (outgoing p (e_sends e))) with (outgoing p (e_sends e)); [reflexivity|].
      symmetry. rewrite <- (map_id (outgoing p (e_sends e))) at 2. apply map_ext_in. intros [[src d] x] Hx. unfold tr.
      assert (Hd : d < N).
      { pose proof (v_dst _ _ HI) as V. rewrite Forall_forall in V. apply (V (src, d, x)). rewrite Ns1. apply in_app_iff. now right. }
      assert (Hpl : plain x -> n_reduced (nodes (process cf p s m rest) d) = r).
      { intros P. destruct (end_all _ d x HI Hd) as (_ & Hall); [|exact P|].
        - apply (net_flight1 _ src). rewrite Ns1. apply in_app_iff. now right.
        - rewrite (rel_started _ _ _ (Rel d Hd) (Hall d Hd)). reflexivity. }
      destruct (Nat.ltb_spec (n_reduced (nodes (process cf p s m rest) d)) r) as [Hlt|]; [|reflexivity].
      destruct x; try reflexivity; exfalso; rewrite (Hpl I) in Hlt; lia.
  - exact Rel.
  - intros Hk q Hq. rewrite Nd1. destruct (q =? p); [|now apply (z_rot _ _ _ Z)]. exact (Hro Hk).
Qed.

(** A message arrives. *)
Lemma arrival : forall r s s1 before src d m after, rsim r s s1 -> net s = before ++ (src, d, m) :: after ->
  means_ahead {| nodes := upd (nodes s) d (with_mail (nodes s d) (mail (nodes s d) ++ [m])); net := before ++ after; finals := finals s; panicked := panicked s |} ->
  exists s1', step cf1 s1 s1' /\
    rsim r {| nodes := upd (nodes s) d (with_mail (nodes s d) (mail (nodes s d) ++ [m])); net := before ++ after; finals := finals s; panicked := panicked s |} s1'.
Proof.
  intros r s s1 before src d m after Z Hn HA. destruct (alone _ (z_reach _ _ _ Z)) as (HI & _ & _).
  destruct (tr r (nodes s) (src, d, m)) as [[src1 d1] m1] eqn:Et.
  assert (Ed : d1 = d) by (unfold tr in Et; destruct (_ <? _); [destruct m|]; injection Et; congruence). subst d1.
  assert (Hin : In (src1, d, m1) (net s1)).
  { eapply Permutation_in; [symmetry; apply (z_net _ _ _ Z)|]. rewrite Hn, map_app. apply in_app_iff. right. cbn [map]. rewrite Et. now left. }
  assert (Hd : d < N) by (pose proof (v_dst _ _ HI) as V; rewrite Forall_forall in V; apply (V _ Hin)).
  apply in_split in Hin. destruct Hin as (b1 & a1 & E1).
  set (s1' := {| nodes := upd (nodes s1) d (with_mail (nodes s1 d) (mail (nodes s1 d) ++ [m1])); net := b1 ++ a1; finals := finals s1; panicked := panicked s1 |}).
  assert (Pn : Permutation (b1 ++ a1) (map (tr r (nodes s)) (before ++ after))).
  { pose proof (z_net _ _ _ Z) as P. rewrite E1, Hn, !map_app in P. cbn [map] in P. rewrite Et in P. apply Permutation_app_inv in P. now rewrite map_app. }
  assert (Rel : forall q, q < N -> rel r (upd (nodes s) d (with_mail (nodes s d) (mail (nodes s d) ++ [m])) q) (nodes s1' q)).
  { intros q Hq. cbn [nodes s1']. destruct (Nat.eq_dec q d) as [->|]; [rewrite !upd_eq|rewrite !upd_neq by assumption; now apply (z_node _ _ _ Z)].
    destruct (z_node _ _ _ Z d Hd) as [(A & B)|(A & B & C)].
    - left. rewrite A in *. split; [|exact B]. unfold tr in Et. rewrite A in Et. cbn [at_round n_reduced] in Et. rewrite Nat.ltb_irrefl in Et. injection Et as <- <-. reflexivity.
    - right. rewrite C. split; [exact A|]. split; [exact B|]. unfold tr in Et. assert (Hlt : n_reduced (nodes s d) <? r = true) by (apply Nat.ltb_lt; lia). rewrite Hlt in Et.
      assert (m1 = old_msg m) as -> by (destruct m; injection Et; intros; subst; reflexivity). unfold with_mail, idle_with. cbn. now rewrite map_app. }
  exists s1'. assert (Stp : step cf1 s1 s1') by (apply (s_arrive cf1 s1 b1 src1 d m1 a1 E1); discriminate). split; [exact Stp|]. constructor.
  - eapply reach_step; [apply (z_reach _ _ _ Z)|exact Stp|]. match type of HA with means_ahead ?x => apply (sim_ok r x) end; [exact Rel| |exact HA]. cbn [net s1']. intros from e i H.
    eapply tr_means. eapply Permutation_in; [exact Pn|exact H].
  - apply (z_r _ _ _ Z).
  - exact (z_fin _ _ _ Z).
  - exact (z_pan _ _ _ Z).
  - cbn [net nodes s1']. rewrite Pn. erewrite tr_ext; [reflexivity|]. intros [[a b] x] Hx. cbn [dm fst]. symmetry. apply upd_reduced. reflexivity.
  - exact Rel.
  - intros Hk q Hq. cbn [nodes s1']. destruct (Nat.eq_dec q d) as [->|]; [rewrite upd_eq|rewrite upd_neq by assumption; now apply (z_rot _ _ _ Z)].
    cbn [with_mail rotated]. now apply (z_rot _ _ _ Z).
Qed.

(** When the channel is finalized only its end is under way. *)
Lemma in_flight_dst : forall s1 d m, inv cf1 s1 -> In (d, m) (flight N s1) ->
  d < N /\ ((exists from, In (from, d, m) (net s1)) \/ In m (mail (nodes s1 d)) \/ In m (buffer (nodes s1 d))).
Proof.
  intros s1 d m HI H. unfold flight in H. apply in_app_iff in H. destruct H as [H|H].
  - apply in_map_iff in H. destruct H as ([[from d'] m'] & E & Hx). cbn in E. injection E as -> ->.
    pose proof (v_dst _ _ HI) as V. rewrite Forall_forall in V. split; [exact (V _ Hx)|left; eauto].
  - apply in_flat_map in H. destruct H as (q & Hq & H). apply in_map_iff in H. destruct H as (m' & E & Hx). injection E as -> ->.
    apply in_seq in Hq. split; [lia|]. right. unfold contents in Hx. now apply in_app_iff in Hx.
Qed.
Lemma only_end : forall s1 d m, inv cf1 s1 -> oinv N s1 -> finals s1 <> [] -> In (d, m) (flight N s1) -> plain m.
Proof.
  intros s1 d m HI HO Hf H. pose proof (fin_all cf1 HN eq_refl (le_n _) s1 HI Hf) as HL. cbn [hosts n_nodes] in HL.
  assert (Hs : forall q, q < N -> started (nodes s1 q) = true) by (intros q Hq; apply (leaf_started N false s1 q HI Hq (HL q Hq))).
  destruct (in_flight_dst _ _ _ HI H) as (Hd & Hw). destruct m as [| |i|t c| |]; try exact I; exfalso.
  - exact (no_start _ _ HI Hd (Hs d Hd) H).
  - exact (no_setup _ _ HI HO Hd H).
  - assert (Hin : forall q, 1 <= q < N -> 1 <= occ q (ms0 s1)).
    { intros q Hq. apply occ_in. destruct (a_fin _ _ _ _ _ (v_a _ _ HI)) as [(E & _)|(mm & t & E & E2 & E3)]; [contradiction|].
      apply (o_loc0 _ _ HO t q E2). destruct (inv_safe cf1 HN eq_refl (le_n _) s1 HI) as (_ & _ & G). rewrite E in G. inversion G as [|? ? G1]; subst. cbn [snd hosts n_nodes] in G1.
      eapply Permutation_in; [symmetry; exact G1|]. apply in_seq. lia. }
    destruct Hw as [(from & Hn)|[Hm|Hb]].
    + destruct (o_net _ _ HO _ _ _ Hn) as (-> & Hi). pose proof (o_cnt _ _ HO i Hi) as C. specialize (Hin i Hi). rewrite Hs in C by lia.
      assert (1 <= cnt (isMn i) (net s1)) by (apply (cnt_pos _ _ _ _ Hn); cbn; apply Nat.eqb_refl). cbn in C. lia.
    + destruct (o_mail _ _ HO _ _ Hd Hm) as (-> & Hi). pose proof (o_cnt _ _ HO i Hi) as C. specialize (Hin i Hi). rewrite Hs in C by lia.
      assert (1 <= cnt (isM i) (mail (nodes s1 0))) by (apply (cnt_pos _ _ _ _ Hm); cbn; apply Nat.eqb_refl). cbn in C. lia.
    + destruct (o_buf _ _ HO _ _ Hd Hb) as (t & c & E). discriminate.
  - exact (none_left N HN _ _ _ _ (v_a _ _ HI) HL Hf d t c H).
Qed.

(** The channel alone can begin with any of the hosts having been told to begin. *)
Lemma begin_with : forall m l, Permutation (l ++ m) (seq 0 N) ->
  exists s1, reachable cf1 ok1 s1 /\ finals s1 = [] /\ panicked s1 = false /\ Permutation (net s1) (map (fun p => (p, p, Start)) l)
    /\ forall p, nodes s1 p = idle_with [] [] (if existsb (Nat.eqb p) m then [Start] else []).
Proof.
  induction m as [|a m IH]; intros l HP.
  - exists (initial cf1). split; [constructor|]. split; [reflexivity|]. split; [reflexivity|]. split; [|reflexivity].
    rewrite app_nil_r in HP. cbn. apply Permutation_map. now symmetry.
  - assert (ND : NoDup (l ++ a :: m)) by (eapply Permutation_NoDup; [symmetry; exact HP|apply seq_NoDup]).
    assert (Ha : ~ In a m) by (apply NoDup_remove_2 in ND; intros X; apply ND; apply in_app_iff; now right).
    destruct (IH (a :: l)) as (s1 & R1 & F1 & P1 & N1 & D1).
    { rewrite <- HP. cbn [app]. apply Permutation_middle. }
    assert (Hin : In (a, a, Start) (net s1)) by (eapply Permutation_in; [symmetry; exact N1|now left]). apply in_split in Hin. destruct Hin as (b & c & E).
    assert (Na : existsb (Nat.eqb a) m = false).
    { destruct (existsb (Nat.eqb a) m) eqn:X; [|reflexivity]. apply existsb_exists in X. destruct X as (y & Hy & Ey). apply Nat.eqb_eq in Ey. now subst y. }
    set (s' := {| nodes := upd (nodes s1) a (with_mail (nodes s1 a) (mail (nodes s1 a) ++ [Start])); net := b ++ c; finals := finals s1; panicked := panicked s1 |}).
    assert (D' : forall p, nodes s' p = idle_with [] [] (if existsb (Nat.eqb p) (a :: m) then [Start] else [])).
    { intros p. cbn [nodes s']. cbn [existsb]. unfold upd. destruct (Nat.eqb_spec p a) as [->|]; cbn [orb]; [|apply D1]. rewrite D1, Na. reflexivity. }
    exists s'. split; [|split; [exact F1|]; split; [exact P1|]; split; [|exact D']].
    + eapply reach_step; [exact R1|apply (s_arrive cf1 s1 b a a Start c E); discriminate|]. split.
      * intros p _ _. rewrite D'. split; reflexivity.
      * intros t k0 q from H. rewrite D' in H. cbn in H. destruct (_ || _); [destruct H as [H|[]]; discriminate|destruct H].
    + cbn [net s']. rewrite E in N1. cbn [map] in N1. symmetry. apply Permutation_cons_app_inv with (a := (a, a, Start)). symmetry. exact N1.
Qed.

Lemma cnt_flat : forall (g : nat -> list pmsg) q n a, (forall p m, a <= p < a + n -> In m (g p) -> plain m) ->
  cnt (isCD q) (flat_map (fun p => map (pair p) (g p)) (seq a n)) = if (a <=? q) && (q <? a + n) then length (g q) else 0.
Proof.
  intros g q n. induction n as [|n IH]; intros a H; cbn [seq flat_map].
  - rewrite cnt_nil. destruct (Nat.leb_spec a q), (Nat.ltb_spec q (a + 0)); cbn; lia.
  - rewrite cnt_app, IH by (intros p m Hp; apply H; lia).
    assert (E : cnt (isCD q) (map (pair a) (g a)) = if a =? q then length (g a) else 0).
    { assert (G : forall m, In m (g a) -> plain m) by (intros m; apply H; lia). clear -G. revert G. induction (g a) as [|m l IH]; intros G.
      - cbn. now destruct (a =? q).
      - cbn [map]. rewrite cnt_cons, IH by (intros; apply G; now right). specialize (G m (or_introl eq_refl)). destruct m; try destruct G; cbn [isCD]; destruct (a =? q); reflexivity. }
    rewrite E. destruct (Nat.eqb_spec a q) as [<-|].
    + destruct (Nat.leb_spec (S a) a), (Nat.leb_spec a a), (Nat.ltb_spec a (a + S n)); cbn [andb]; lia.
    + destruct (Nat.leb_spec (S a) q), (Nat.leb_spec a q), (Nat.ltb_spec q (S a + n)), (Nat.ltb_spec q (a + S n)); cbn [andb]; lia.
Qed.
Lemma occ_filter : forall f q n a, occ q (filter f (seq a n)) = b2n (f q && ((a <=? q) && (q <? a + n))).
Proof.
  intros f q n. induction n as [|n IH]; intros a; cbn [seq filter].
  - change (occ q []) with 0. destruct (f q), (Nat.leb_spec a q), (Nat.ltb_spec q (a + 0)); cbn [andb b2n]; lia.
  - assert (E : occ q (if f a then a :: filter f (seq (S a) n) else filter f (seq (S a) n)) = b2n (f a && (q =? a)) + occ q (filter f (seq (S a) n))).
    { destruct (f a); [|reflexivity]. unfold occ. now rewrite cnt_cons. }
    rewrite E, IH. destruct (Nat.eqb_spec q a) as [->|].
    + destruct (f a), (Nat.leb_spec (S a) a), (Nat.leb_spec a a), (Nat.ltb_spec a (S a + n)), (Nat.ltb_spec a (a + S n)); cbn; lia.
    + destruct (f q), (f a), (Nat.leb_spec (S a) q), (Nat.leb_spec a q), (Nat.ltb_spec q (S a + n)), (Nat.ltb_spec q (a + S n)); cbn; lia.
Qed.

(** The next channel. *)
Lemma switch : forall r s s1, rsim r s s1 -> r < k -> finals s1 <> [] -> exists s1', rsim (S r) s s1'.
Proof.
  intros r s s1 Z Hr Hf. destruct (alone _ (z_reach _ _ _ Z)) as (HI & _ & HO).
  pose proof (fin_all cf1 HN eq_refl (le_n _) s1 HI Hf) as HL. cbn [hosts n_nodes] in HL.
  assert (Hs : forall q, q < N -> started (nodes s1 q) = true) by (intros q Hq; apply (leaf_started N false s1 q HI Hq (HL q Hq))).
  assert (Hnd : forall q, q < N -> nodes s q = at_round r (nodes s1 q)) by (intros q Hq; apply (rel_started _ _ _ (z_node _ _ _ Z q Hq) (Hs q Hq))).
  assert (Hdst : forall src d m, In (src, d, m) (net s) -> d < N).
  { intros src d m H. pose proof (v_dst _ _ HI) as V. rewrite Forall_forall in V.
    assert (G : In (tr r (nodes s) (src, d, m)) (net s1)) by (eapply Permutation_in; [symmetry; apply (z_net _ _ _ Z)|now apply in_map]).
    specialize (V _ G). unfold tr in V. destruct (_ <? _); [destruct m|]; exact V. }
  assert (PN : Permutation (net s1) (net s)).
  { rewrite (z_net _ _ _ Z). rewrite <- (map_id (net s)) at 2. replace (map (tr r (nodes s)) (net s)) with (map (fun x => x) (net s)); [reflexivity|].
    apply map_ext_in. intros [[src d] m] H. unfold tr. rewrite (Hnd d (Hdst _ _ _ H)). cbn [at_round n_reduced]. now rewrite Nat.ltb_irrefl. }
  assert (Hpn : forall src d m, In (src, d, m) (net s) -> plain m).
  { intros src d m H. apply (only_end s1 d m HI HO Hf). apply (net_flight1 s1 src). eapply Permutation_in; [symmetry; exact PN|exact H]. }
  assert (Hpm : forall p m, p < N -> In m (mail (nodes s p)) -> plain m).
  { intros p m Hp H. rewrite (Hnd p Hp) in H. apply (only_end s1 p m HI HO Hf). now apply mail_flight. }
  assert (Hb : forall p, p < N -> buffer (nodes s1 p) = []).
  { intros p Hp. destruct (buffer (nodes s1 p)) as [|m b] eqn:E; [reflexivity|]. exfalso. assert (Hm : In m (buffer (nodes s1 p))) by (rewrite E; now left).
    destruct (o_buf _ _ HO p m Hp Hm) as (t & c & ->). apply (only_end s1 p (R t c) HI HO Hf). unfold flight. apply in_app_iff. right.
    apply in_flat_map. exists p. split; [apply in_seq; lia|]. apply in_map. unfold contents. apply in_app_iff. now right. }
  assert (Hlen : length (finals s1) = 1) by (destruct (a_fin _ _ _ _ _ (v_a _ _ HI)) as [(E & _)|(mm & t & E & _)]; [contradiction|rewrite E; reflexivity]).
  set (l := map (fun x => fst (dm x)) (net s)). set (full := fun p => match mail (nodes s p) with [] => false | _ => true end).
  assert (Hc : forall q, q < N -> occ q l + length (mail (nodes s q)) = 1).
  { intros q Hq. pose proof (v_comp _ _ HI q Hq) as VC. rewrite (z_rot _ _ _ Z Hr q Hq) in VC. cbn [hosts helpers n_nodes] in VC. rewrite Hlen in VC.
    unfold flight in VC. rewrite cnt_app in VC. rewrite cnt_flat in VC.
    - assert (E : (0 <=? q) && (q <? 0 + N) = true) by (apply andb_true_iff; split; [apply Nat.leb_le|apply Nat.ltb_lt]; lia). rewrite E in VC.
      unfold contents in VC. rewrite (Hb q Hq), app_nil_r in VC. rewrite (Hnd q Hq). cbn [at_round mail].
      assert (E2 : cnt (isCD q) (map dm (net s1)) = occ q l); [|lia].
      rewrite (cnt_perm _ _ _ _ (Permutation_map dm PN)). unfold l. clear -Hpn. induction (net s) as [|[[src d] m] t IH]; [reflexivity|].
      cbn [map]. unfold occ in *. rewrite !cnt_cons, IH by (intros; eapply Hpn; right; eauto). f_equal. f_equal.
      specialize (Hpn src d m (or_introl eq_refl)). cbn [dm fst]. rewrite (Nat.eqb_sym q d). destruct m; try destruct Hpn; reflexivity.
    - intros p m Hp Hm. unfold contents in Hm. rewrite (Hb p), app_nil_r in Hm by lia. apply (Hpm p m ltac:(lia)). rewrite (Hnd p) by lia. exact Hm. }
  assert (HP : Permutation (l ++ filter full (seq 0 N)) (seq 0 N)).
  { apply (perm_occ N HN).
    - intros q Hq. unfold occ. rewrite cnt_app. fold (occ q l). fold (occ q (filter full (seq 0 N))). rewrite occ_filter.
      assert (E : (0 <=? q) && (q <? 0 + N) = true) by (apply andb_true_iff; split; [apply Nat.leb_le|apply Nat.ltb_lt]; lia). rewrite E, andb_true_r.
      specialize (Hc q Hq). unfold full. destruct (mail (nodes s q)); cbn [b2n length] in *; lia.
    - intros i Hi. apply in_app_iff in Hi. destruct Hi as [Hi|Hi].
      + unfold l in Hi. apply in_map_iff in Hi. destruct Hi as ([[src d] m] & <- & Hx). apply (Hdst _ _ _ Hx).
      + apply filter_In in Hi. destruct Hi as (Hi & _). apply in_seq in Hi. lia. }
  destruct (begin_with _ _ HP) as (s1' & R' & F' & P' & N' & D').
  exists s1'. constructor.
  - exact R'.
  - pose proof (z_r _ _ _ Z). lia.
  - destruct (z_fin _ _ _ Z) as (old & E1 & E2 & E3). exists (old ++ finals s1). rewrite F', app_nil_r. split; [exact E1|]. split; [rewrite app_length; lia|].
    apply Forall_app. split; [exact E3|]. apply Forall_forall. intros [m t] Hx. split; [exact (o_fin _ _ HO m t Hx)|].
    destruct (inv_safe cf1 HN eq_refl (le_n _) s1 HI) as (_ & _ & G). rewrite Forall_forall in G. exact (G _ Hx).
  - rewrite P', (z_pan _ _ _ Z). apply (v_panic _ _ HI).
  - rewrite N'. unfold l. rewrite map_map. replace (map (tr (S r) (nodes s)) (net s)) with (map (fun x => (fst (dm x), fst (dm x), Start)) (net s)); [reflexivity|].
    apply map_ext_in. intros [[src d] m] H. unfold tr. rewrite (Hnd d (Hdst _ _ _ H)). cbn [at_round n_reduced].
    assert (E : r <? S r = true) by (apply Nat.ltb_lt; lia). rewrite E. pose proof (Hpn _ _ _ H) as G. destruct m; try destruct G; reflexivity.
  - intros p Hp. right. split; [rewrite (Hnd p Hp); reflexivity|]. split; [rewrite (Hnd p Hp); exact (z_rot _ _ _ Z Hr p Hp)|].
    rewrite D'. f_equal. assert (E : existsb (Nat.eqb p) (filter full (seq 0 N)) = full p).
    { destruct (full p) eqn:Ef.
      - apply existsb_exists. exists p. split; [|apply Nat.eqb_refl]. apply filter_In. split; [apply in_seq; lia|exact Ef].
      - destruct (existsb (Nat.eqb p) (filter full (seq 0 N))) eqn:X; [|reflexivity]. apply existsb_exists in X. destruct X as (y & Hy & Ey). apply Nat.eqb_eq in Ey. subst y.
        apply filter_In in Hy. destruct Hy. congruence. }
    rewrite E. unfold full. specialize (Hc p Hp). pose proof (Hpm p) as G. destruct (mail (nodes s p)) as [|m [|m2 t]]; [reflexivity| |cbn in Hc; lia].
    specialize (G m Hp (or_introl eq_refl)). destruct m; try destruct G; reflexivity.
  - intros _ p Hp. rewrite D'. reflexivity.
Qed.

(** A host that has not begun the channel acts. *)
Lemma start_once : forall s1 p rest1, inv cf1 s1 -> p < N -> mail (nodes s1 p) = Start :: rest1 ->
  ~ In Start rest1 /\ forall src, ~ In (src, p, Start) (net s1).
Proof.
  intros s1 p rest1 HI Hp Hm.
  assert (C : cnt (isStart p) (map dm (net s1)) + cnt (isStart p) (map (pair p) rest1) + 1 <= cnt (isStart p) (flight N s1)).
  { unfold flight. rewrite cnt_app. assert (Hi : In p (seq 0 N)) by (apply in_seq; lia). apply in_split in Hi. destruct Hi as (a & b & E). rewrite E, flat_map_app. cbn [flat_map].
    rewrite !cnt_app. unfold contents at 2. rewrite Hm, map_app, cnt_app. cbn [map]. rewrite cnt_cons. cbn [isStart]. rewrite Nat.eqb_refl. cbn [b2n]. lia. }
  pose proof (v_start _ _ HI p Hp) as VS. cbn [hosts n_nodes] in VS. rewrite VS in C.
  assert (tokS cf1 p (nodes s1 p) <= 1) by (unfold tokS; destruct (_ && _); cbn; lia).
  split.
  - intros H0. assert (1 <= cnt (isStart p) (map (pair p) rest1)); [|lia]. apply cnt_pos with (x := (p, Start)); [now apply in_map|]. apply Nat.eqb_refl.
  - intros src H0. assert (1 <= cnt (isStart p) (map dm (net s1))); [|lia]. apply cnt_pos with (x := (p, Start)); [|apply Nat.eqb_refl].
    apply in_map_iff. exists (src, p, Start). auto.
Qed.

Lemma run_started : forall c p nd, started (e_node (run_pca c p nd)) = true.
Proof.
  intros c p nd. unfold run_pca. destruct (multi c); [reflexivity|]. unfold on_setup. destruct (_ || _); cbn [e_node with_buffers started]; rewrite sof_node; reflexivity.
Qed.
Lemma handle_started : forall c p nd m, started nd = true -> started (e_node (handle c p nd m)) = true.
Proof.
  assert (Sof : forall c p nd t, started (e_node (send_or_finalize c p nd t)) = started nd).
  { intros c p nd t. rewrite sof_node. reflexivity. }
  assert (Set1 : forall c p nd, started (e_node (on_setup c p nd)) = started nd).
  { intros c p nd. unfold on_setup. destruct (_ || _); cbn [e_node with_buffers started]; rewrite Sof; reflexivity. }
  intros c p nd m H. destruct m; cbn [handle].
  - apply run_started.
  - now rewrite Set1.
  - destruct (_ && _); [exact H|]. destruct (means nd); exact H.
  - destruct (local nd); [|exact H]. destruct (_ =? _); [|exact H]. cbn [e_node with_buffers started]. now rewrite Sof.
  - exact H.
  - destruct (_ <? _); [apply run_started|exact H].
Qed.
Lemma handle_rotated : forall c p nd m, m <> Done -> rotated (e_node (handle c p nd m)) = rotated nd.
Proof.
  assert (Sof : forall c p nd t, rotated (e_node (send_or_finalize c p nd t)) = rotated nd).
  { intros c p nd t. rewrite sof_node. reflexivity. }
  assert (Set1 : forall c p nd, rotated (e_node (on_setup c p nd)) = rotated nd).
  { intros c p nd. unfold on_setup. destruct (_ || _); cbn [e_node with_buffers rotated]; rewrite Sof; reflexivity. }
  intros c p nd m H. destruct m; cbn [handle]; try contradiction.
  - unfold run_pca. destruct (multi c); [reflexivity|]. rewrite Set1. reflexivity.
  - apply Set1.
  - destruct (_ && _); [reflexivity|]. destruct (means nd); reflexivity.
  - destruct (local nd); [|reflexivity]. destruct (_ =? _); [|reflexivity]. cbn [e_node with_buffers rotated]. now rewrite Sof.
  - reflexivity.
Qed.

(** Components waiting in mailboxes. *)
Definition isComp (m : pmsg) : bool := match m with Components _ _ => true | _ => false end.
Definition ncomp (s : pstate) : nat := sum (map (fun p => cnt isComp (mail (nodes s p))) (seq 0 N)).
(** What a step of the channels means for the channel alone: the next channel, a step, or nothing but components handed on. *)
Definition onward (r : nat) (s s1 : pstate) (r' : nat) (s' s1' : pstate) : Prop :=
  r < r' \/ (r' = r /\ (step cf1 s1 s1' \/ (s1' = s1 /\ ncomp s' < ncomp s))).

Lemma behind_step : forall r s s1 p m rest, rsim r s s1 -> rounds_apart cf s -> p < N -> n_reduced (nodes s p) < r -> mail (nodes s p) = m :: rest ->
  rounds_apart cf (process cf p s m rest) -> means_ahead (process cf p s m rest) ->
  exists s1', rsim r (process cf p s m rest) s1' /\ (step cf1 s1 s1' \/ (s1' = s1 /\ ncomp (process cf p s m rest) < ncomp s)).
Proof.
  intros r s s1 p m rest Z HA Hp Hlt Hm HA' HM'. destruct (alone _ (z_reach _ _ _ Z)) as (HI & _ & HO).
  destruct (z_node _ _ _ Z p Hp) as [(E & _)|(Er & Ero & E1)]; [rewrite E in Hlt; cbn in Hlt; lia|].
  assert (Hm1 : mail (nodes s1 p) = old_msg m :: map old_msg rest) by (rewrite E1, Hm; reflexivity).
  assert (Hsome : forall x, In x (mail (nodes s1 p)) -> (exists t c, x = R t c) \/ (exists i, x = Means i) -> exists q, q < N /\ q <> p /\ n_reduced (nodes s q) = r).
  { intros x Hx Hk0. destruct (somebody s1 p x HI HO Hp Hx Hk0) as (q & Hq & Hst). exists q. split; [exact Hq|]. split.
    - intros ->. rewrite E1 in Hst. discriminate.
    - rewrite (rel_started _ _ _ (z_node _ _ _ Z q Hq) Hst). reflexivity. }
  assert (Hrest : old_msg m = Start -> forall x, In x rest -> (exists t c, x = R t c) \/ (exists i, x = Means i)).
  { intros Eo x Hx. rewrite Eo in Hm1. destruct (start_once s1 p _ HI Hp Hm1) as (G & _). assert (Gx : In (old_msg x) (map old_msg rest)) by now apply in_map.
    destruct x; try (cbn [old_msg] in Gx; contradiction); eauto.
    exfalso. apply (no_setup s1 p HI HO Hp). apply mail_flight; [exact Hp|]. rewrite Hm1. right. exact Gx. }
  assert (Hend : old_msg m = Start -> (m = Start \/ m = Done) -> exists s1', rsim r (process cf p s m rest) s1' /\ (step cf1 s1 s1' \/ (s1' = s1 /\ ncomp (process cf p s m rest) < ncomp s))).
  { intros Eo Hsd. rewrite Eo in Hm1. assert (Eid : map old_msg rest = rest).
    { rewrite <- (map_id rest) at 2. apply map_ext_in. intros x Hx. destruct (Hrest Eo x Hx) as [(t & c & ->)|(i & ->)]; reflexivity. }
    destruct (start_once s1 p _ HI Hp Hm1) as (_ & Gn). rewrite Eid in Hm1. exists (process cf1 p s1 Start rest). split; [|left; now apply s_process].
    assert (Eh : handle cf p (with_mail (nodes s p) rest) m = run_pca cf p (with_mail (nodes s p) rest)).
    { destruct Hsd as [->| ->]; [reflexivity|]. cbn [handle]. cbn [with_mail n_reduced hosts channels]. pose proof (z_r _ _ _ Z).
      assert (El : n_reduced (nodes s p) <? k = true) by (apply Nat.ltb_lt; lia). now rewrite El. }
    apply same_act; auto.
    - rewrite Eh. cbn [handle]. unfold run_pca. cbn [multi hosts]. rewrite <- setup_at. f_equal. unfold at_round. cbn. rewrite E1. cbn. f_equal; [lia|exact Ero].
    - apply run_started.
    - intros _. rewrite handle_rotated by discriminate. rewrite E1. reflexivity.
    - intros src x Hx. right. intros Hpl. apply (Gn p). eapply Permutation_in; [symmetry; apply (z_net _ _ _ Z)|]. apply in_map_iff. exists (src, p, x). split; [|exact Hx].
      unfold tr. assert (El : n_reduced (nodes s p) <? r = true) by (apply Nat.ltb_lt; lia). rewrite El. destruct x; try destruct Hpl; reflexivity. }
  destruct m as [| |i|t c|ms t|].
  - apply Hend; auto.
  - exfalso. apply (no_setup s1 p HI HO Hp). apply mail_flight; [exact Hp|]. rewrite Hm1. now left.
  - exfalso. destruct (Hsome (Means i)) as (q & Hq & _ & Eq); [rewrite Hm1; now left|eauto|]. assert (G := HA p q Hp Hq ltac:(lia)). rewrite Hm in G. exact G.
  - exfalso. destruct (Hsome (R t c)) as (q & Hq & _ & Eq); [rewrite Hm1; now left|eauto|]. assert (G := HA p q Hp Hq ltac:(lia)). rewrite Hm in G. exact G.
  - assert (Nd : forall q, nodes (process cf p s (Components ms t) rest) q = if q =? p then with_mail (nodes s p) (rest ++ [Done]) else nodes s q).
    { intros q. unfold process. rewrite fold_nodes by reflexivity. cbn [handle e_sends e_node nodes own filter map fst snd]. rewrite Nat.eqb_refl. cbn [map snd].
      unfold upd. destruct (q =? p); reflexivity. }
    assert (rest = []) as ->.
    { destruct rest as [|x rest]; [reflexivity|]. exfalso. destruct (Hrest eq_refl x (or_introl eq_refl)) as [(t' & c & ->)|(i & ->)].
      - destruct (Hsome (R t' c)) as (q & Hq & Hqp & Eq); [rewrite Hm1; right; left; reflexivity|eauto|].
        assert (G := HA' p q Hp Hq). rewrite !Nd, Nat.eqb_refl in G. apply Nat.eqb_neq in Hqp. rewrite Hqp in G. cbn [with_mail n_reduced mail app] in G. apply G. lia.
      - destruct (Hsome (Means i)) as (q & Hq & Hqp & Eq); [rewrite Hm1; right; left; reflexivity|eauto|].
        assert (G := HA' p q Hp Hq). rewrite !Nd, Nat.eqb_refl in G. apply Nat.eqb_neq in Hqp. rewrite Hqp in G. cbn [with_mail n_reduced mail app] in G. apply G. lia. }
    assert (Ns : net (process cf p s (Components ms t) []) = net s).
    { unfold process. rewrite fold_net_hosts by reflexivity. cbn [handle e_sends net helper_answer]. unfold outgoing. cbn [filter fst]. rewrite Nat.eqb_refl. cbn. now rewrite !app_nil_r. }
    assert (Fs : finals (process cf p s (Components ms t) []) = finals s) by (unfold process; rewrite (proj1 (fold_rest _ _ _ _)); cbn; apply app_nil_r).
    assert (Ps : panicked (process cf p s (Components ms t) []) = panicked s) by (unfold process; rewrite (proj2 (fold_rest _ _ _ _)); cbn; apply orb_false_r).
    exists s1. split.
    + constructor.
      * exact (z_reach _ _ _ Z).
      * exact (z_r _ _ _ Z).
      * rewrite Fs. exact (z_fin _ _ _ Z).
      * rewrite Ps. exact (z_pan _ _ _ Z).
      * rewrite Ns, (z_net _ _ _ Z). erewrite tr_ext; [reflexivity|]. intros x _. rewrite Nd. destruct (Nat.eqb_spec (fst (dm x)) p) as [->|]; reflexivity.
      * intros q Hq. rewrite Nd. destruct (Nat.eqb_spec q p) as [->|]; [|now apply (z_node _ _ _ Z)]. right. split; [exact Er|]. split; [exact Ero|]. rewrite E1, Hm. reflexivity.
      * exact (z_rot _ _ _ Z).
    + right. split; [reflexivity|]. unfold ncomp. assert (Hi : In p (seq 0 N)) by (apply in_seq; lia). pose proof (seq_NoDup N 0) as ND. apply in_split in Hi.
      destruct Hi as (a & b & Es). rewrite Es in *. rewrite !map_app. cbn [map]. unfold sum. rewrite !fold_right_app. cbn [fold_right].
      assert (Eab : forall l, ~ In p l -> map (fun q => cnt isComp (mail (nodes (process cf p s (Components ms t) []) q))) l = map (fun q => cnt isComp (mail (nodes s q))) l).
      { intros l Hl. apply map_ext_in. intros q Hq. rewrite Nd. destruct (Nat.eqb_spec q p) as [->|]; [contradiction|reflexivity]. }
      apply NoDup_remove_2 in ND. rewrite !Eab by (intros X; apply ND; apply in_app_iff; auto). rewrite Nd, Nat.eqb_refl, Hm. cbn [with_mail mail app].
      assert (Hfold : forall l x y, x < y -> fold_right Nat.add x l < fold_right Nat.add y l) by (clear; induction l as [|h l IH]; intros x y Hxy; cbn; [exact Hxy|specialize (IH x y Hxy); lia]).
      apply Hfold. cbn. lia.
  - apply Hend; auto.
Qed.

Lemma rsim_step : forall r s s1 s', rsim r s s1 -> rounds_apart cf s -> step cf s s' -> rounds_apart cf s' -> means_ahead s' ->
  exists r' s1', rsim r' s' s1' /\ onward r s s1 r' s' s1'.
Proof.
  intros r s s1 s' Z HA Hs HA' HM'. destruct (alone _ (z_reach _ _ _ Z)) as (HI & _ & HO).
  destruct Hs as [s before src d m after Hn _|s p m rest Hp Hm].
  { destruct (arrival r s s1 before src d m after Z Hn HM') as (s1' & S1 & Z'). exists r, s1'. split; [exact Z'|]. right. auto. }
  cbn [hosts n_nodes] in Hp. destruct (Nat.lt_ge_cases (n_reduced (nodes s p)) r) as [Hlt|Hge].
  { destruct (behind_step r s s1 p m rest Z HA Hp Hlt Hm HA' HM') as (s1' & Z' & G). exists r, s1'. split; [exact Z'|]. right. auto. }
  destruct (z_node _ _ _ Z p Hp) as [(E & Est)|(Er & _)]; [|lia].
  assert (Hm1 : mail (nodes s1 p) = m :: rest) by (rewrite E in Hm; exact Hm).
  assert (HF : In (p, m) (flight N s1)) by (apply mail_flight; [exact Hp|rewrite Hm1; now left]).
  assert (Ew : with_mail (nodes s p) rest = at_round r (with_mail (nodes s1 p) rest)) by (rewrite E; reflexivity).
  assert (En : n_reduced (nodes s p) = r) by (rewrite E; reflexivity).
  assert (Same : handle cf p (with_mail (nodes s p) rest) m = eat r (handle cf1 p (with_mail (nodes s1 p) rest) m) -> (m = Done -> r = k) ->
    exists r' s1', rsim r' (process cf p s m rest) s1' /\ onward r s s1 r' (process cf p s m rest) s1').
  { intros Eh Hd. exists r, (process cf1 p s1 m rest). split; [|right; split; [reflexivity|left; now apply s_process]]. apply same_act; auto.
    - apply handle_started. exact Est.
    - intros Hk0. destruct m; try (rewrite handle_rotated by discriminate; exact (z_rot _ _ _ Z Hk0 p Hp)). specialize (Hd eq_refl). lia. }
  destruct m as [| |i|t c|ms t|].
  - exfalso. exact (no_start s1 p HI Hp Est HF).
  - exfalso. exact (no_setup s1 p HI HO Hp HF).
  - apply Same; [|discriminate]. rewrite Ew. apply handle_at; discriminate.
  - apply Same; [|discriminate]. rewrite Ew. apply handle_at; discriminate.
  - apply Same; [|discriminate]. rewrite Ew. apply handle_at; discriminate.
  - pose proof (z_r _ _ _ Z) as Hr. destruct (Nat.eq_dec r k) as [Erk|Hne].
    + apply Same; [|auto]. rewrite Ew. destruct (v_node _ _ HI p Hp) as (_ & W2 & _). cbn [handle at_round n_reduced hosts channels with_mail]. rewrite (W2 Est), Erk, Nat.ltb_irrefl. reflexivity.
    + destruct (end_all s1 p Done HI Hp HF I) as (Hf & _). destruct (switch r s s1 Z ltac:(lia) Hf) as (s2 & Z2).
      destruct (behind_step (S r) s s2 p Done rest Z2 HA Hp ltac:(lia) Hm HA' HM') as (s1' & Z' & _). exists (S r), s1'. split; [exact Z'|]. left. lia.
Qed.

Lemma rsim_init : 1 <= k -> rsim 1 (initial cf) (initial cf1).
Proof.
  intros Hk. constructor.
  - constructor.
  - lia.
  - exists []. repeat split. constructor.
  - reflexivity.
  - cbn. rewrite map_map. reflexivity.
  - intros p _. right. repeat split.
  - reflexivity.
Qed.
Lemma apart_init : rounds_apart cf (initial cf).
Proof. intros p q _ _ H. cbn in H. lia. Qed.

Lemma rsim_reach : forall s, 1 <= k -> reachable cf (fun s => rounds_apart cf s /\ means_ahead s) s -> rounds_apart cf s /\ exists r s1, rsim r s s1.
Proof.
  intros s Hk H. induction H as [|s s' H IH Hs (HA' & HM')].
  - split; [exact apart_init|]. exists 1, (initial cf1). now apply rsim_init.
  - destruct IH as (HA & r & s1 & Z). split; [exact HA'|]. destruct (rsim_step r s s1 s' Z HA Hs HA' HM') as (r' & s1' & Z' & _). eauto.
Qed.

Lemma rounds_safe : forall s, 1 <= k -> reachable cf (fun s => rounds_apart cf s /\ means_ahead s) s ->
  panicked s = false /\ length (finals s) <= k /\ Forall complete (finals s).
Proof.
  intros s Hk H. destruct (rsim_reach s Hk H) as (_ & r & s1 & Z). destruct (alone _ (z_reach _ _ _ Z)) as (HI & _ & HO).
  destruct (inv_safe cf1 HN eq_refl (le_n _) s1 HI) as (G1 & G2 & G3). destruct (z_fin _ _ _ Z) as (old & E1 & E2 & E3). pose proof (z_r _ _ _ Z).
  split; [now rewrite (z_pan _ _ _ Z)|]. rewrite E1. split; [rewrite app_length; lia|]. apply Forall_app. split; [exact E3|].
  apply Forall_forall. intros [m t] Hx. split; [exact (o_fin _ _ HO m t Hx)|]. rewrite Forall_forall in G3. exact (G3 _ Hx).
Qed.

Lemma rounds_done : forall s, 1 <= k -> reachable cf (fun s => rounds_apart cf s /\ means_ahead s) s -> quiescent cf s ->
  length (finals s) = k /\ forall p, p < N -> rotated (nodes s p) = 1.
Proof.
  intros s Hk H (Qn & Qm). destruct (rsim_reach s Hk H) as (_ & r & s1 & Z). destruct (alone _ (z_reach _ _ _ Z)) as (HI & _ & HO). cbn [hosts n_nodes] in Qm.
  assert (Q1 : quiescent cf1 s1).
  { split.
    - pose proof (z_net _ _ _ Z) as PN. rewrite Qn in PN. cbn in PN. apply Permutation_sym, Permutation_nil in PN. exact PN.
    - intros p Hp. cbn [hosts n_nodes] in Hp. specialize (Qm p Hp). destruct (z_node _ _ _ Z p Hp) as [(E & _)|(_ & _ & E)]; [now rewrite E in Qm|rewrite E, Qm; reflexivity]. }
  destruct (inv_done cf1 HN eq_refl (le_n _) s1 HI eq_refl Q1) as (D1 & D2). specialize (D2 eq_refl). cbn [hosts n_nodes] in D2.
  assert (Er : r = k).
  { pose proof (z_r _ _ _ Z). destruct (Nat.eq_dec r k) as [|Hne]; [assumption|]. pose proof (z_rot _ _ _ Z ltac:(lia) 0 ltac:(lia)) as G. rewrite D2 in G by lia. discriminate. }
  destruct (z_fin _ _ _ Z) as (old & E1 & E2 & _). split; [rewrite E1, app_length; lia|].
  intros p Hp. specialize (D2 p Hp). destruct (z_node _ _ _ Z p Hp) as [(E & _)|(_ & _ & E)]; [now rewrite E|rewrite E in D2; discriminate].
Qed.

(** One step of a run in step. *)
Definition in_step_next (s' s : pstate) : Prop := step cf s s' /\ rounds_apart cf s' /\ means_ahead s'.
Lemma rounds_acc : forall s r s1, rsim r s s1 -> rounds_apart cf s -> Acc in_step_next s.
Proof.
  assert (G : forall a b c d s r s1, rsim r s s1 -> rounds_apart cf s -> k - r = a -> P cf1 s1 = b -> W cf1 s1 = c -> ncomp s = d -> Acc in_step_next s); [|intros; eapply G; eauto].
  intros a. induction a as [a IHa] using (well_founded_induction lt_wf). intros b. induction b as [b IHb] using (well_founded_induction lt_wf).
  intros c. induction c as [c IHc] using (well_founded_induction lt_wf). intros d. induction d as [d IHd] using (well_founded_induction lt_wf).
  intros s r s1 Z HA Ea Eb Ec Ed. constructor. intros s' (Hs & HA' & HM'). destruct (rsim_step _ _ _ _ Z HA Hs HA' HM') as (r' & s1' & Z' & Ho).
  pose proof (z_r _ _ _ Z) as R1. pose proof (z_r _ _ _ Z') as R2.
  destruct Ho as [Hlt|(-> & [S1|(-> & Hlt)])].
  - eapply (IHa (k - r') ltac:(lia) _ _ _ s' r' s1' Z'); auto.
  - destruct (alone _ (z_reach _ _ _ Z)) as (HI & He & _).
    assert (He' : nobody_early cf1 s1) by (intros q Hq Hst; apply (He q Hq Hst)).
    destruct (decreases cf1 HN eq_refl (le_n _) s1 s1' HI He' S1) as [Hd|(Hd1 & Hd2)].
    + eapply (IHb (P cf1 s1') ltac:(lia) _ _ s' r s1' Z'); auto.
    + eapply (IHc (W cf1 s1') ltac:(lia) _ s' r s1' Z'); auto. lia.
  - eapply (IHd (ncomp s') ltac:(lia) s' r s1 Z'); auto.
Qed.
Lemma rounds_end : forall run : nat -> pstate, 1 <= k -> run 0 = initial cf ->
  ~ (forall i, step cf (run i) (run (S i)) /\ rounds_apart cf (run (S i)) /\ means_ahead (run (S i))).
Proof.
  intros run Hk H0 Hrun. assert (A : Acc in_step_next (run 0)) by (rewrite H0; eapply rounds_acc; [now apply rsim_init|exact apart_init]).
  clear H0. remember (run 0) as s eqn:E. revert E. generalize 0. induction A as [s _ IH]. intros i E. apply (IH (run (S i))) with (n := S i); [|reflexivity].
  rewrite E. exact (Hrun i).
Qed.

(** Behind the message that begins a channel a host has nothing but factors and means. *)
Lemma only_parts : forall s p m rest, 1 <= k -> reachable cf (fun s => rounds_apart cf s /\ means_ahead s) s -> p < N -> mail (nodes s p) = m :: rest ->
  m = Start \/ m = Done /\ n_reduced (nodes s p) < k -> forall x, In x rest -> (exists t c, x = R t c) \/ (exists i, x = Means i).
Proof.
  assert (B : forall r s s1 p m rest, rsim r s s1 -> p < N -> n_reduced (nodes s p) < r -> mail (nodes s p) = m :: rest -> old_msg m = Start ->
    forall x, In x rest -> (exists t c, x = R t c) \/ (exists i, x = Means i)).
  { intros r s s1 p m rest Z Hp Hlt Hm Eo x Hx. destruct (alone _ (z_reach _ _ _ Z)) as (HI & _ & HO).
    destruct (z_node _ _ _ Z p Hp) as [(E & _)|(Er & Ero & E1)]; [rewrite E in Hlt; cbn in Hlt; lia|].
    assert (Hm1 : mail (nodes s1 p) = Start :: map old_msg rest) by (rewrite E1, Hm; cbn; now rewrite Eo).
    destruct (start_once s1 p _ HI Hp Hm1) as (G & _). assert (Gx : In (old_msg x) (map old_msg rest)) by now apply in_map.
    destruct x; try (cbn [old_msg] in Gx; contradiction); eauto.
    exfalso. apply (no_setup s1 p HI HO Hp). apply mail_flight; [exact Hp|]. rewrite Hm1. right. exact Gx. }
  intros s p m rest Hk Hr Hp Hm Ht. destruct (rsim_reach s Hk Hr) as (_ & r & s1 & Z). destruct (alone _ (z_reach _ _ _ Z)) as (HI & _ & HO).
  assert (Eo : old_msg m = Start) by (destruct Ht as [->|(-> & _)]; reflexivity).
  destruct (Nat.lt_ge_cases (n_reduced (nodes s p)) r) as [Hlt|Hge]; [exact (B r s s1 p m rest Z Hp Hlt Hm Eo)|].
  destruct (z_node _ _ _ Z p Hp) as [(E & Est)|(Er & _)]; [|lia].
  assert (Hm1 : mail (nodes s1 p) = m :: rest) by (rewrite E in Hm; exact Hm).
  assert (HF : In (p, m) (flight N s1)) by (apply mail_flight; [exact Hp|rewrite Hm1; now left]).
  destruct Ht as [->|(-> & Hlt)]; [exfalso; exact (no_start s1 p HI Hp Est HF)|].
  assert (En : n_reduced (nodes s p) = r) by (rewrite E; reflexivity).
  destruct (end_all s1 p Done HI Hp HF I) as (Hf & _). destruct (switch r s s1 Z ltac:(lia) Hf) as (s2 & Z2).
  exact (B (S r) s s2 p Done rest Z2 Hp ltac:(lia) Hm eq_refl).
Qed.
End Rounds.
