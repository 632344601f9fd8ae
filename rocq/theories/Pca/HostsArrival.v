(** The column means of the hosts can reach the main host in every order, also when every pair of hosts is connected by an ordered channel. *)
From Coq Require Import List Arith Bool Lia Permutation.
From Verif.Base Require Import ListX.
From Verif.Pca Require Import Model Spec Tree Abs Proofs.
Import ListNotations.

Definition isMeans (m : pmsg) : bool := match m with Means _ => true | _ => false end.
Definition netids (l : list (nat * nat * pmsg)) : list nat := flat_map (fun x => match snd x with Means i => [i] | _ => [] end) l.
Lemma netids_app : forall a b, netids (a ++ b) = netids a ++ netids b.
Proof. intros. apply flat_map_app. Qed.

Section Hosts.
Variable N : nat.
Variable ordered : bool.
Hypothesis HN : 2 <= N.
Notation cf := (hosts N false ordered 1).
Notation Nge := (Nat.le_trans 1 2 N (le_S 1 1 (le_n 1)) HN : 1 <= n_nodes cf).

Lemma fold_net_hosts : forall p l s, net (fold_left (post cf p) l s) = net s ++ map (fun x => (p, fst x, snd x)) (filter (fun x => negb (fst x =? p)) l).
Proof.
  intros p l. induction l as [|[d m] l IH]; intros s; cbn [fold_left filter map]; [symmetry; apply app_nil_r|].
  rewrite IH. unfold post. cbn [helpers hosts orb fst]. destruct (d =? p); cbn [net negb]; [reflexivity|]. cbn [map fst snd]. now rewrite <- app_assoc.
Qed.
Lemma fold_mail_hosts : forall p l s q, mail (nodes (fold_left (post cf p) l s) q) = mail (nodes s q) ++ (if q =? p then map snd (filter (fun x => fst x =? p) l) else []).
Proof.
  intros p l. induction l as [|[d m] l IH]; intros s q; cbn [fold_left filter].
  - destruct (q =? p); symmetry; apply app_nil_r.
  - rewrite IH. unfold post. cbn [helpers hosts orb fst]. destruct (Nat.eqb_spec d p) as [->|Hd]; cbn [nodes].
    + destruct (Nat.eqb_spec q p) as [->|Hq]; [rewrite upd_eq; cbn [with_mail mail map snd]; now rewrite <- app_assoc|now rewrite upd_neq].
    + reflexivity.
Qed.

Lemma sof_msgs : forall p nd t d m, In (d, m) (e_sends (send_or_finalize cf p nd t)) -> isMeans m = false.
Proof.
  intros p nd t d m. unfold send_or_finalize. destruct (decide _ _ _) as [c a]. destruct a as [d' k| |]; cbn [no_effect e_sends].
  - destruct (_ && _); cbn; [intros [E|[]]; injection E as <- <-; reflexivity|intros []].
  - destruct (means nd); cbn [e_sends]; [|intros []]. unfold share. cbn [helpers hosts]. rewrite in_app_iff. intros [Hi|[E|[]]].
    + apply in_map_iff in Hi. destruct Hi as (j & E & _). injection E as <- <-. reflexivity.
    + injection E as <- <-. reflexivity.
  - intros [].
Qed.
Lemma sof_fin : forall p nd t m t', In (m, t') (e_finals (send_or_finalize cf p nd t)) -> means nd = Some m /\ p = 0.
Proof.
  intros p nd t m t'. unfold send_or_finalize. destruct (decide _ _ _) as [c a] eqn:D. destruct a as [d' k| |]; cbn [no_effect e_finals].
  - destruct (_ && _); intros [].
  - destruct (means nd); cbn [e_finals]; [|intros []]. intros [E|[]]. injection E as <- <-. split; [reflexivity|].
    unfold decide in D. repeat match type of D with context [if ?b then _ else _] => destruct b eqn:? end; try discriminate;
    repeat match goal with H : _ && _ = true |- _ => apply andb_true_iff in H; destruct H end; now apply Nat.eqb_eq.
  - intros [].
Qed.

Lemma setup_sends : forall p nd t, p < N -> r_count nd = 0 ->
  e_finals (send_or_finalize cf p nd t) = [] /\ (e_sends (send_or_finalize cf p nd t) = [] \/ exists d c, e_sends (send_or_finalize cf p nd t) = [(d, R t c)] /\ d < p).
Proof.
  intros p nd t Hp H0. assert (H1 : 1 <= N) by lia. unfold send_or_finalize. rewrite H0. cbn [n_nodes hosts]. pose proof (decide_spec N H1 p 0 Hp ltac:(lia)) as D.
  rewrite Nat.sub_0_r in D. specialize (D ltac:(pose proof (N_le N H1); lia)). destruct (decide N p 0) as [c a].
  destruct D as [(_ & _ & _ & E)|(_ & _ & [(-> & L1 & L2 & _)|(-> & _)])].
  - pose proof (K_pos N ltac:(lia)). lia.
  - pose proof (pow_pos (Nat.log2_up N - 1 - c)). destruct (_ && _); cbn; [split; [reflexivity|right]; eexists; eexists; split; [reflexivity|lia]|auto].
  - cbn. auto.
Qed.

(** Starting the hosts one after the other. *)
Record begun (k : nat) (s : pstate) : Prop := {
  b_reach : reachable cf (nobody_early cf) s;
  b_start : forall p, p < k -> started (nodes s p) = true;
  b_rest : forall p, k <= p -> nodes s p = idle_node;
  b_mail : forall p, mail (nodes s p) = [] /\ buffer (nodes s p) = [];
  b_main : 0 < k -> local (nodes s 0) = Some (Own 0) /\ means (nodes s 0) = Some [0];
  b_fin : finals s = [];
  b_net : exists extra, net s = map (fun p => (p, p, Start)) (seq k (N - k)) ++ extra /\ netids extra = seq 1 (k - 1)
     /\ (forall src d m, In (src, d, m) extra -> src < k /\ (isMeans m = true -> m = Means src /\ d = 0))
     /\ (forall before after q, extra = before ++ (q, 0, Means q) :: after -> forall m', ~ In (q, 0, m') before)
}.

Lemma begun_all : forall k, k <= N -> exists s, begun k s.
Proof.
  induction k as [|k IH]; intros Hk.
  - exists (initial cf). constructor; cbn; auto; try lia.
    + constructor.
    + exists []. rewrite app_nil_r, Nat.sub_0_r. split; [reflexivity|]. split; [reflexivity|]. split; [intros src d m []|]. intros before after q E. destruct before; discriminate.
  - destruct IH as (s & [B1 B2 B3 B4 B5 Bfin (extra & B6 & B7 & B8 & B9)]); [lia|]. replace (N - k) with (S (N - S k)) in B6 by lia. cbn [seq map app] in B6.
    set (nd0 := with_mail idle_node [Start]).
    set (s1 := {| nodes := upd (nodes s) k nd0; net := map (fun p => (p, p, Start)) (seq (S k) (N - S k)) ++ extra; finals := finals s; panicked := panicked s |}).
    assert (Ek : nodes s k = idle_node) by (apply B3; lia).
    assert (S1 : step cf s s1).
    { unfold s1, nd0. replace (with_mail idle_node [Start]) with (with_mail (nodes s k) (mail (nodes s k) ++ [Start])) by (rewrite Ek; reflexivity).
      apply (s_arrive cf s [] k k Start (map (fun p => (p, p, Start)) (seq (S k) (N - S k)) ++ extra)); [exact B6|intros _ m' []]. }
    assert (R1 : reachable cf (nobody_early cf) s1).
    { econstructor; [exact B1|exact S1|]. intros p Hp _. cbn [nodes s1]. destruct (Nat.eq_dec p k) as [->|Hne]; [rewrite upd_eq; reflexivity|]. rewrite upd_neq by exact Hne. apply B4. }
    assert (Hm : mail (nodes s1 k) = Start :: []) by (cbn [nodes s1]; rewrite upd_eq; reflexivity).
    assert (S2 : step cf s1 (process cf k s1 Start [])) by (apply s_process; [cbn; lia|exact Hm]).
    set (e := handle cf k (with_mail (nodes s1 k) []) Start). set (e0 := send_or_finalize cf k (with_means {| started := true; local := None; r_count := 0; means := None; buffer := []; means_buffer := []; n_reduced := 1; rotated := 0; mail := [] |} (Some [k])) (Own k)).
    assert (Ee : e = {| e_node := e_node e0; e_sends := (if k =? 0 then [] else [(0, Means k)]) ++ e_sends e0; e_finals := e_finals e0; e_panic := e_panic e0 |}).
    { unfold e. cbn [nodes s1]. rewrite upd_eq. reflexivity. }
    assert (En : e_node e = with_factor (with_means {| started := true; local := None; r_count := 0; means := None; buffer := []; means_buffer := []; n_reduced := 1; rotated := 0; mail := [] |} (Some [k])) (Some (Own k)) (fst (decide N k 0))).
    { rewrite Ee. cbn [e_node]. unfold e0. rewrite sof_node. reflexivity. }
    destruct (setup_sends k (with_means {| started := true; local := None; r_count := 0; means := None; buffer := []; means_buffer := []; n_reduced := 1; rotated := 0; mail := [] |} (Some [k])) (Own k) ltac:(lia) eq_refl) as (Fin & Snd). fold e0 in Fin, Snd.
    assert (Es : e_sends e = (if k =? 0 then [] else [(0, Means k)]) ++ e_sends e0) by (rewrite Ee; reflexivity).
    set (ex := map (fun x : nat * pmsg => (k, fst x, snd x)) (e_sends e)).
    assert (Hd : forall d m, In (d, m) (e_sends e) -> d <> k).
    { intros d m Hi. rewrite Es in Hi. apply in_app_iff in Hi. destruct Hi as [Hi|Hi].
      - destruct (Nat.eqb_spec k 0); [destruct Hi|]. destruct Hi as [E|[]]. injection E as <- <-. lia.
      - destruct Snd as [E|(d' & c' & E & Hlt)]; rewrite E in Hi; [destruct Hi|]. destruct Hi as [E'|[]]. injection E' as <- <-. lia. }
    assert (Flt : filter (fun x : nat * pmsg => negb (fst x =? k)) (e_sends e) = e_sends e /\ filter (fun x : nat * pmsg => fst x =? k) (e_sends e) = []).
    { revert Hd. generalize (e_sends e). intros l. induction l as [|[d m] l IH]; intros Hl; [auto|]. cbn [filter fst]. destruct (Nat.eqb_spec d k) as [E|_]; [exfalso; apply (Hl d m (or_introl eq_refl) E)|]. cbn [negb].
      destruct IH as (I1 & I2); [intros d' m' Hi; apply (Hl d' m'); now right|]. rewrite I1, I2. auto. }
    destruct Flt as (Flt1 & Flt2).
    assert (Net2 : net (process cf k s1 Start []) = net s1 ++ ex).
    { unfold process. fold e. rewrite fold_net_hosts. cbn [net]. change (helper_answer cf k (with_mail (nodes s1 k) []) Start) with (@nil (nat * nat * pmsg)). rewrite app_nil_r, Flt1. reflexivity. }
    assert (Mail2 : forall q, mail (nodes (process cf k s1 Start []) q) = []).
    { intros q. unfold process. fold e. rewrite fold_mail_hosts, Flt2. cbn [nodes]. destruct (Nat.eq_dec q k) as [->|Hq].
      - rewrite upd_eq, Nat.eqb_refl, En. reflexivity.
      - rewrite upd_neq by exact Hq. cbn [s1 nodes]. rewrite upd_neq by exact Hq. destruct (B4 q) as (-> & _). destruct (q =? k); reflexivity. }
    pose proof (process_core cf s1 k Start []) as Sn. fold e in Sn.
    assert (St : forall q, q < S k -> started (nodes (process cf k s1 Start []) q) = true).
    { intros q Hq. destruct (Sn q) as (-> & _). destruct (Nat.eqb_spec q k) as [->|Hne]; [rewrite En; reflexivity|]. cbn [s1 nodes]. rewrite upd_neq by exact Hne. apply B2. lia. }
    assert (Bf : forall q, buffer (nodes (process cf k s1 Start []) q) = []).
    { intros q. destruct (Sn q) as (_ & _ & _ & _ & -> & _). destruct (Nat.eqb_spec q k) as [->|Hne]; [rewrite En; reflexivity|]. cbn [s1 nodes]. rewrite upd_neq by exact Hne. apply B4. }
    exists (process cf k s1 Start []). constructor.
    + econstructor; [exact R1|exact S2|]. intros p Hp _. apply Bf.
    + exact St.
    + intros p Hp. assert (Hne : p <> k) by lia. unfold process. fold e.
      assert (Same : forall l s0, (forall d m, In (d, m) l -> d <> k) -> nodes (fold_left (post cf k) l s0) p = nodes s0 p).
      { induction l as [|[d m] l IH]; intros s0 Hl; [reflexivity|]. cbn [fold_left]. rewrite IH by (intros d' m' Hi; apply (Hl d' m'); now right). unfold post. cbn [helpers hosts orb].
        destruct (Nat.eqb_spec d k) as [E|]; [exfalso; apply (Hl d m (or_introl eq_refl) E)|reflexivity]. }
      rewrite Same by exact Hd. cbn [nodes]. rewrite upd_neq by exact Hne. cbn [s1 nodes]. rewrite upd_neq by exact Hne. apply B3. lia.
    + intros p. auto.
    + intros _. destruct (Sn 0) as (_ & -> & _ & -> & _). destruct (Nat.eqb_spec 0 k) as [<-|Hne]; [rewrite En; auto|]. cbn [s1 nodes]. rewrite upd_neq by lia. apply B5. lia.
    + unfold process. fold e. match goal with |- finals (fold_left _ ?l ?s0) = _ => destruct (fold_rest cf k l s0) as (Ef & _); rewrite Ef end. cbn [finals s1]. rewrite Bfin, Ee. cbn [e_finals app]. exact Fin.
    + assert (Ids : netids ex = if k =? 0 then [] else [k]).
      { unfold ex. rewrite Es. rewrite (map_app (fun x : nat * pmsg => (k, fst x, snd x))), netids_app. destruct Snd as [E|(d & c & E & _)]; rewrite E; cbn; rewrite ?app_nil_r; destruct (k =? 0); reflexivity. }
      assert (Exm : forall src d m, In (src, d, m) ex -> src = k /\ (isMeans m = true -> m = Means k /\ d = 0)).
      { intros src d m Hi. unfold ex in Hi. apply in_map_iff in Hi. destruct Hi as ([d' m'] & E & Hi). cbn [fst snd] in E. injection E as <- <- <-. split; [reflexivity|]. rewrite Es in Hi. apply in_app_iff in Hi. destruct Hi as [Hi|Hi].
        - destruct (k =? 0); [destruct Hi|]. destruct Hi as [E|[]]. injection E as <- <-. auto.
        - destruct Snd as [E|(d'' & c' & E & _)]; rewrite E in Hi; [destruct Hi|]. destruct Hi as [E'|[]]. injection E' as <- <-. discriminate. }
      exists (extra ++ ex). rewrite Net2. cbn [s1 net]. ssplit.
      * now rewrite app_assoc.
      * rewrite netids_app, B7, Ids. destruct (Nat.eqb_spec k 0) as [->|Hk0]; [reflexivity|]. replace (S k - 1) with (k - 1 + 1) by lia. rewrite seq_app. cbn [seq]. replace (1 + (k - 1)) with k by lia. reflexivity.
      * intros src d m Hi. apply in_app_iff in Hi. destruct Hi as [Hi|Hi].
        -- destruct (B8 _ _ _ Hi) as (L & M). split; [lia|exact M].
        -- destruct (Exm _ _ _ Hi) as (-> & M). split; [lia|exact M].
      * intros before after q E m' Hi. apply app_eq_app in E. destruct E as (l & [(E1 & E2)|(E1 & E2)]).
        -- destruct l as [|x l]; cbn [app] in E2.
           ++ rewrite app_nil_r in E1. subst before. assert (Hx : In (q, 0, Means q) ex) by (rewrite <- E2; now left). destruct (Exm _ _ _ Hx) as (-> & _). destruct (B8 _ _ _ Hi) as (L & _). lia.
           ++ injection E2 as <- E2. exact (B9 before l q E1 m' Hi).
        -- subst before. assert (Hx : In (q, 0, Means q) ex) by (rewrite E2; apply in_app_iff; right; now left). destruct (Exm _ _ _ Hx) as (-> & _).
           apply in_app_iff in Hi. destruct Hi as [Hi|Hi]; [destruct (B8 _ _ _ Hi) as (L & _); lia|].
           destruct l as [|x l]; [destruct Hi|]. unfold ex in E2. rewrite Es in E2. destruct (Nat.eqb_spec k 0) as [->|Hk0].
           ** cbn [app] in E2. destruct Snd as [E|(d & c & E & Hlt)]; [rewrite E in E2; discriminate|lia].
           ** cbn [app map fst snd] in E2. injection E2 as Ex E2. destruct Snd as [E|(d & c & E & _)]; rewrite E in E2; [destruct l; discriminate|]. destruct l as [|? [|? ?]]; discriminate.
Qed.

(** From one host to the main host nothing overtakes the means. *)
Definition apart (x y : nat * nat * pmsg) : Prop := isMeans (snd y) = true -> fst (fst x) = fst (fst y) -> snd (fst x) = 0 -> False.
Lemma apart_remove : forall a x b, ForallOrdPairs apart (a ++ x :: b) -> ForallOrdPairs apart (a ++ b).
Proof.
  induction a as [|y a IH]; intros x b H; cbn [app] in *; inversion H as [|? ? H1 H2]; subst; [exact H2|]. constructor; [|now apply (IH x)].
  apply Forall_app in H1. destruct H1 as (H1 & H3). inversion H3; subst. apply Forall_app. auto.
Qed.
Lemma apart_before : forall a y b, ForallOrdPairs apart (a ++ y :: b) -> forall x, In x a -> apart x y.
Proof.
  induction a as [|z a IH]; intros y b H x Hx; [destruct Hx|]. cbn [app] in H. inversion H as [|? ? H1 H2]; subst. destruct Hx as [<-|Hx]; [|now apply (IH y b)].
  apply Forall_app in H1. destruct H1 as (_ & H3). now inversion H3; subst.
Qed.
Lemma apart_of : forall l, (forall src d m, In (src, d, m) l -> isMeans m = true -> m = Means src /\ d = 0) ->
  (forall before after q, l = before ++ (q, 0, Means q) :: after -> forall m', ~ In (q, 0, m') before) -> ForallOrdPairs apart l.
Proof.
  induction l as [|x l IH]; intros H1 H2; constructor.
  - apply Forall_forall. intros [[src d] m] Hy M. cbn [fst snd] in *. destruct (H1 src d m (or_intror Hy) M) as (-> & ->). intros E1 E2.
    apply in_split in Hy. destruct Hy as (b & c & ->). destruct x as [[sx dx] mx]. cbn [fst snd] in *. subst sx dx. apply (H2 ((src, 0, mx) :: b) c src eq_refl mx). now left.
  - apply IH; [intros src d m Hi; apply H1; now right|]. intros b a q E m' Hi. apply (H2 (x :: b) a q ltac:(rewrite E; reflexivity) m'). now right.
Qed.

Record gathered (done rest : list nat) (s : pstate) : Prop := {
  g_reach : reachable cf (nobody_early cf) s;
  g_start : forall p, p < N -> started (nodes s p) = true;
  g_mail : forall p, mail (nodes s p) = [] /\ buffer (nodes s p) = [];
  g_main : means (nodes s 0) = Some (0 :: done);
  g_fin : finals s = [];
  g_ids : Permutation (netids (net s)) rest;
  g_form : forall src d m, In (src, d, m) (net s) -> isMeans m = true -> m = Means src /\ d = 0;
  g_apart : ForallOrdPairs apart (net s)
}.
Lemma gathered_none : exists s, gathered [] (seq 1 (N - 1)) s.
Proof.
  destruct (begun_all N (le_n _)) as (s & [B1 B2 B3 B4 B5 Bf (extra & B6 & B7 & B8 & B9)]). exists s. rewrite Nat.sub_diag in B6. cbn [seq map app] in B6. rewrite <- B6 in *.
  constructor; auto.
  - apply B5. lia.
  - rewrite B7. reflexivity.
  - intros src d m Hi. apply (B8 _ _ _ Hi).
  - apply apart_of; [intros src d m Hi; apply (B8 _ _ _ Hi)|exact B9].
Qed.
Lemma in_netids : forall l q, In q (netids l) -> exists src d, In (src, d, Means q) l.
Proof.
  intros l q H. unfold netids in H. apply in_flat_map in H. destruct H as ([[src d] m] & Hi & Hq). cbn [snd] in Hq. destruct m as [| |i| | |]; try destruct Hq as [<-|[]]; try destruct Hq. eauto.
Qed.
Lemma gathered_more : forall done q rest s, gathered done (q :: rest) s -> exists s', gathered (done ++ [q]) rest s'.
Proof.
  intros done q rest s [G1 G2 G3 G4 G5 G6 G7 G8].
  assert (Hq : In q (netids (net s))) by (apply (Permutation_in _ (Permutation_sym G6)); now left).
  destruct (in_netids _ _ Hq) as (src & d & Hi). destruct (G7 _ _ _ Hi eq_refl) as (E & ->). injection E as <-.
  apply in_split in Hi. destruct Hi as (before & after & En).
  set (s1 := {| nodes := upd (nodes s) 0 (with_mail (nodes s 0) (mail (nodes s 0) ++ [Means q])); net := before ++ after; finals := finals s; panicked := panicked s |}).
  assert (S1 : step cf s s1).
  { apply (s_arrive cf s before q 0 (Means q) after); [exact En|]. intros _ m' Hb. rewrite En in G8. exact (apart_before _ _ _ G8 _ Hb eq_refl eq_refl eq_refl). }
  assert (St1 : forall p, p < N -> started (nodes s1 p) = true).
  { intros p Hp. cbn [s1 nodes]. destruct (Nat.eq_dec p 0) as [->|Hne]; [rewrite upd_eq; cbn; apply G2; lia|rewrite upd_neq by exact Hne; now apply G2]. }
  assert (R1 : reachable cf (nobody_early cf) s1).
  { econstructor; [exact G1|exact S1|]. intros p Hp E. rewrite St1 in E by exact Hp. discriminate. }
  assert (Hm : mail (nodes s1 0) = Means q :: []) by (cbn [s1 nodes]; rewrite upd_eq; cbn; now destruct (G3 0) as (-> & _)).
  assert (S2 : step cf s1 (process cf 0 s1 (Means q) [])) by (apply s_process; [cbn; lia|exact Hm]).
  assert (Ee : handle cf 0 (with_mail (nodes s1 0) []) (Means q) = no_effect (with_means (with_mail (nodes s1 0) []) (Some ((0 :: done) ++ [q])))).
  { cbn [handle helpers hosts andb]. change (means (with_mail (nodes s1 0) [])) with (means (nodes s1 0)). cbn [s1 nodes]. rewrite upd_eq. cbn [with_mail means]. rewrite G4. reflexivity. }
  assert (Ep : process cf 0 s1 (Means q) [] = {| nodes := upd (nodes s1) 0 (with_means (with_mail (nodes s1 0) []) (Some ((0 :: done) ++ [q]))); net := net s1 ++ []; finals := finals s1 ++ []; panicked := panicked s1 || false |}).
  { unfold process. rewrite Ee. reflexivity. }
  assert (St2 : forall p, p < N -> started (nodes (process cf 0 s1 (Means q) []) p) = true).
  { intros p Hp. rewrite Ep. cbn [nodes]. destruct (Nat.eq_dec p 0) as [->|Hne]; [rewrite upd_eq; cbn; apply G2; lia|rewrite upd_neq by exact Hne; now apply St1]. }
  exists (process cf 0 s1 (Means q) []). constructor.
  - econstructor; [exact R1|exact S2|]. intros p Hp E. rewrite St2 in E by exact Hp. discriminate.
  - exact St2.
  - intros p. rewrite Ep. cbn [nodes]. destruct (Nat.eq_dec p 0) as [->|Hne]; [rewrite upd_eq; cbn; split; [reflexivity|apply G3]|]. rewrite upd_neq by exact Hne. cbn [s1 nodes]. rewrite upd_neq by exact Hne. apply G3.
  - rewrite Ep. cbn [nodes]. rewrite upd_eq. reflexivity.
  - rewrite Ep. cbn [finals s1]. now rewrite G5.
  - rewrite Ep. cbn [net s1]. rewrite app_nil_r. rewrite En, netids_app in G6. cbn [netids flat_map snd app] in G6. rewrite netids_app. apply (Permutation_cons_inv (a := q)). rewrite <- G6. apply Permutation_middle.
  - intros src d m Hi. rewrite Ep in Hi. cbn [net s1] in Hi. rewrite app_nil_r in Hi. apply (G7 src d m). rewrite En. apply in_app_iff in Hi. apply in_app_iff. destruct Hi; [now left|right; now right].
  - rewrite Ep. cbn [net s1]. rewrite app_nil_r. rewrite En in G8. now apply apart_remove in G8.
Qed.
Lemma gathered_all : forall rest done s, gathered done rest s -> exists s', gathered (done ++ rest) [] s'.
Proof.
  induction rest as [|q rest IH]; intros done s H; [exists s; now rewrite app_nil_r|]. destruct (gathered_more _ _ _ _ H) as (s1 & H1). destruct (IH _ _ H1) as (s2 & H2). exists s2. now rewrite <- app_assoc in H2.
Qed.
Lemma gathered_perm : forall done r r' s, Permutation r r' -> gathered done r s -> gathered done r' s.
Proof. intros done r r' s HP [G1 G2 G3 G4 G5 G6 G7 G8]. constructor; auto. now rewrite G6. Qed.

(** From there on nothing changes the means of the main host. *)
Record settled (o : list nat) (s : pstate) : Prop := {
  t_reach : reachable cf (nobody_early cf) s;
  t_start : forall p, p < N -> started (nodes s p) = true;
  t_means : means (nodes s 0) = Some (0 :: o);
  t_net : forall src d m, In (src, d, m) (net s) -> isMeans m = false;
  t_mail : forall p m, p < N -> In m (mail (nodes s p)) \/ In m (buffer (nodes s p)) -> isMeans m = false;
  t_fin : Forall (fun f => fst f = 0 :: o) (finals s)
}.
Lemma gathered_settled : forall o s, gathered o [] s -> settled o s.
Proof.
  intros o s [G1 G2 G3 G4 G5 G6 G7 G8]. constructor; auto.
  - intros src d m Hi. destruct m as [| |i| | |]; try reflexivity. exfalso. assert (H : In i (netids (net s))) by (unfold netids; apply in_flat_map; eexists; split; [exact Hi|now left]).
    apply (Permutation_in _ G6) in H. destruct H.
  - intros p m _ Hi. destruct (G3 p) as (E1 & E2). rewrite E1, E2 in Hi. destruct Hi as [[]|[]].
  - rewrite G5. constructor.
Qed.
Lemma settled_step : forall o s s', settled o s -> step cf s s' -> settled o s'.
Proof.
  intros o s s' [T1 T2 T3 T4 T5 T6] Hs. assert (HN1 : 1 <= n_nodes cf) by (cbn; lia). destruct (reach_inv cf HN1 eq_refl (le_n _) s T1) as (HI & He).
  assert (G : (forall p, p < N -> started (nodes s' p) = true) /\ means (nodes s' 0) = Some (0 :: o) /\ (forall src d m, In (src, d, m) (net s') -> isMeans m = false)
     /\ (forall p m, p < N -> In m (mail (nodes s' p)) \/ In m (buffer (nodes s' p)) -> isMeans m = false) /\ Forall (fun f => fst f = 0 :: o) (finals s')).
  2:{ destruct G as (A & B & C & D & E). constructor; auto. econstructor; [exact T1|exact Hs|]. intros p Hp F. rewrite A in F by exact Hp. discriminate. }
  destruct Hs as [s before src d m after En _|s p m rest Hp Hm].
  - cbn [nodes net finals]. assert (Hm : isMeans m = false) by (apply (T4 src d); rewrite En; apply in_app_iff; right; now left). ssplit.
    + intros q Hq. destruct (Nat.eq_dec q d) as [->|Hne]; [rewrite upd_eq; now apply T2|rewrite upd_neq by exact Hne; now apply T2].
    + destruct (Nat.eq_dec 0 d) as [<-|Hne]; [rewrite upd_eq; exact T3|rewrite upd_neq by exact Hne; exact T3].
    + intros src' d' m' Hi. apply (T4 src' d'). rewrite En. apply in_app_iff in Hi. apply in_app_iff. destruct Hi; [now left|right; now right].
    + intros q m' Hq Hi. destruct (Nat.eq_dec q d) as [->|Hne]; [rewrite upd_eq in Hi; cbn [with_mail mail buffer] in Hi|rewrite upd_neq in Hi by exact Hne; now apply (T5 q)].
      rewrite in_app_iff in Hi. destruct Hi as [[Hi|[<-|[]]]|Hi]; auto; apply (T5 d); auto.
    + exact T6.
  - change (p < N) in Hp. pose proof (in_flight cf HN1 eq_refl (le_n _) s p m rest Hp Hm) as Hin.
    set (nd := with_mail (nodes s p) rest). set (e := handle cf p nd m).
    assert (HL : local (nodes s p) <> None).
    { intros HL. destruct (v_node _ _ HI p Hp) as (_ & _ & _ & W & _). specialize (W (T2 p Hp) HL). discriminate. }
    assert (H0 : started (e_node e) = true /\ means (e_node e) = means (nodes s p) /\ (forall d m', In (d, m') (e_sends e) -> isMeans m' = false)
       /\ (forall m', In m' (buffer (e_node e)) -> isMeans m' = false) /\ mail (e_node e) = rest /\ helper_answer cf p nd m = [] /\ (forall f, In f (e_finals e) -> fst f = 0 :: o)).
    { assert (Hb : forall m', In m' (buffer (nodes s p)) -> isMeans m' = false) by (intros; apply (T5 p); auto). pose proof (T2 p Hp) as Hst.
      assert (Hm0 : isMeans m = false) by (apply (T5 p); [exact Hp|]; left; rewrite Hm; now left).
      destruct m as [| |i|t c|ms t|].
      - pose proof (cnt_pos _ (isStart p) _ _ Hin (Nat.eqb_refl p)) as HT. rewrite (v_start _ _ HI p Hp) in HT. unfold tokS in HT. rewrite Hst in HT. cbn in HT. lia.
      - pose proof (cnt_pos _ (isSetup p) _ _ Hin (Nat.eqb_refl p)) as HT. rewrite (v_setup _ _ HI p Hp) in HT. unfold tokU in HT. destruct (local (nodes s p)); [|contradiction]. cbn [isN] in HT. rewrite andb_false_r in HT. cbn in HT. lia.
      - discriminate.
      - unfold e. cbn [handle]. change (local nd) with (local (nodes s p)). destruct (local (nodes s p)) as [l|] eqn:El; [|contradiction]. change (r_count nd) with (r_count (nodes s p)).
        destruct (c =? r_count (nodes s p) + 1).
        + cbn [e_node e_sends e_finals with_buffers started means buffer mail]. rewrite sof_node. cbn [with_factor started means mail]. ssplit; auto.
          * intros d m' Hi. apply in_app_iff in Hi. destruct Hi as [Hi|Hi]; [now apply sof_msgs in Hi|]. unfold resolve in Hi. apply in_map_iff in Hi. destruct Hi as (m'' & E & Hi). injection E as <- <-. apply Hb. now apply in_rev.
          * intros m' [].
          * intros [mm t'] Hi. apply sof_fin in Hi. destruct Hi as (E & ->). cbn [with_factor means fst] in *. change (means nd) with (means (nodes s 0)) in E. rewrite T3 in E. now injection E.
        + cbn [no_effect e_node e_sends e_finals with_buffers started means buffer mail]. ssplit; auto; [intros d m' []| |intros f []]. intros m' Hi. apply in_app_iff in Hi. destruct Hi as [Hi|[<-|[]]]; [now apply Hb|reflexivity].
      - unfold e. cbn [handle e_node e_sends e_finals helper_answer]. ssplit; auto; [intros d m' [E|[]]; injection E as <- <-; reflexivity|intros f []].
      - assert (Hnr : n_reduced (nodes s p) = 1) by (destruct (v_node _ _ HI p Hp) as (_ & W2 & _); now apply W2).
        unfold e. cbn [handle helper_answer channels hosts multi andb]. change (n_reduced nd) with (n_reduced (nodes s p)). rewrite Hnr. cbn. ssplit; auto; [intros d m' []|intros f []]. }
    destruct H0 as (E1 & E2 & E3 & E4 & E5 & E6 & E7). pose proof (process_core cf s p m rest) as PC. fold nd e in PC. ssplit.
    + intros q Hq. destruct (PC q) as (-> & _). destruct (q =? p); [exact E1|now apply T2].
    + destruct (PC 0) as (_ & _ & _ & -> & _). destruct (Nat.eqb_spec 0 p) as [<-|]; [now rewrite E2|exact T3].
    + intros src d m' Hi. unfold process in Hi. fold nd e in Hi. rewrite fold_net_hosts in Hi. cbn [net] in Hi. rewrite E6, app_nil_r in Hi. apply in_app_iff in Hi. destruct Hi as [Hi|Hi]; [now apply (T4 src d)|].
      apply in_map_iff in Hi. destruct Hi as ([d' m''] & E & Hi). cbn [fst snd] in E. injection E as <- <- <-. apply filter_In in Hi. now apply (E3 d').
    + intros q m' Hq [Hi|Hi].
      * unfold process in Hi. fold nd e in Hi. rewrite fold_mail_hosts in Hi. cbn [nodes] in Hi. apply in_app_iff in Hi. destruct Hi as [Hi|Hi].
        -- destruct (Nat.eq_dec q p) as [->|Hne]; [rewrite upd_eq, E5 in Hi; apply (T5 p); [exact Hp|]; left; rewrite Hm; now right|rewrite upd_neq in Hi by exact Hne; apply (T5 q); auto].
        -- destruct (q =? p); [|destruct Hi]. apply in_map_iff in Hi. destruct Hi as ([d' m''] & <- & Hi). apply filter_In in Hi. now apply (E3 d').
      * destruct (PC q) as (_ & _ & _ & _ & Eb & _). rewrite Eb in Hi. destruct (q =? p); [now apply E4|apply (T5 q); auto].
    + unfold process. fold nd e. match goal with |- Forall _ (finals (fold_left _ ?l ?s0)) => destruct (fold_rest cf p l s0) as (Ef & _); rewrite Ef end. cbn [finals]. apply Forall_app. split; [exact T6|]. now apply Forall_forall.
Qed.

(** And every run can be carried to its end. *)
Lemma busy_steps : forall s, (forall src d m, In (src, d, m) (net s) -> d < N) -> quiescent cf s \/ exists s', step cf s s'.
Proof.
  intros s _. destruct (net s) as [|[[src d] m] after] eqn:En; [|right; eexists; apply (s_arrive cf s [] src d m after En); intros _ m' []].
  destruct (Exists_dec (fun p => mail (nodes s p) <> []) (seq 0 N)) as [E|E].
  { intros p. destruct (mail (nodes s p)); [right; intros G; now apply G|left; discriminate]. }
  - apply Exists_exists in E. destruct E as (p & Hp & E). apply in_seq in Hp. right. destruct (mail (nodes s p)) as [|m rest] eqn:Em; [contradiction|].
    eexists. apply (s_process cf s p m rest); [cbn; lia|exact Em].
  - left. split; [exact En|]. intros p Hp. cbn in Hp. destruct (mail (nodes s p)) as [|m rest] eqn:Em; [reflexivity|]. exfalso. apply E. apply Exists_exists. exists p. split; [apply in_seq; lia|]. rewrite Em. discriminate.
Qed.
Lemma settled_ends : forall o s, settled o s -> exists s', settled o s' /\ quiescent cf s'.
Proof.
  assert (HN1 : 1 <= n_nodes cf) by (cbn; lia). intros o.
  assert (G : forall a b s, P cf s = a -> W cf s = b -> settled o s -> exists s', settled o s' /\ quiescent cf s').
  { intros a. induction a as [a IHa] using lt_wf_ind. intros b. induction b as [b IHb] using lt_wf_ind. intros s Ea Eb T.
    destruct (reach_inv cf HN1 eq_refl (le_n _) s (t_reach _ _ T)) as (HI & He).
    destruct (busy_steps s) as [Q|(s1 & Hs)].
    - intros src d m Hi. pose proof (v_dst _ _ HI) as Hd. rewrite Forall_forall in Hd. exact (Hd _ Hi).
    - eauto.
    - pose proof (settled_step o s s1 T Hs) as T1. destruct (decreases cf HN1 eq_refl (le_n _) s s1 HI He Hs) as [Hd|(Hd1 & Hd2)].
      + apply (IHa (P cf s1) ltac:(lia) _ s1 eq_refl eq_refl T1).
      + apply (IHb (W cf s1) ltac:(lia) s1 ltac:(lia) eq_refl T1). }
  intros s T. eapply G; eauto.
Qed.

Lemma every_host_order : forall o, Permutation o (seq 1 (N - 1)) ->
  exists s t, reachable cf (nobody_early cf) s /\ quiescent cf s /\ finals s = [(0 :: o, t)].
Proof.
  intros o Ho. assert (HN1 : 1 <= n_nodes cf) by (cbn; lia). destruct gathered_none as (s0 & G0). apply (gathered_perm _ _ o) in G0; [|now symmetry].
  destruct (gathered_all _ _ _ G0) as (s1 & G1). destruct (settled_ends o s1 (gathered_settled o s1 G1)) as (s2 & T & Q).
  destruct (reach_inv cf HN1 eq_refl (le_n _) s2 (t_reach _ _ T)) as (HI & _). destruct (inv_done cf HN1 eq_refl (le_n _) s2 HI eq_refl Q) as (HF & _).
  pose proof (t_fin _ _ T) as TF. destruct (finals s2) as [|[m t] [|? ?]] eqn:EF; try discriminate. inversion TF as [|? ? E _]; subst. cbn [fst] in E. subst m. exists s2, t. ssplit; auto. apply (t_reach _ _ T).
Qed.
End Hosts.
