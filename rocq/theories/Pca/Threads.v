(** Several threads on every host: a host whose threads are at work looks like a host with one thread that has not begun the channel. *)
From Coq Require Import List Arith Bool Lia Permutation.
From Verif.Base Require Import ListX.
From Verif.Pca Require Import Model Spec Tree Abs Proofs Help Order Lost Rounds.
Import ListNotations.

Section Threads.
Variables (N k : nat) (ord : bool).
Hypothesis HN : 1 <= N.
Hypothesis Hk : 1 <= k.
Notation cfm := (hosts N true ord k).
Notation cf := (hosts N false ord k).
Notation ok := (fun s => rounds_apart cf s /\ means_ahead s).
Notation okm := (fun s => rounds_apart cfm s /\ means_ahead s /\ nothing_before cfm s).

(** The threads of the host are at work. *)
Definition waiting (n r : nat) (l : list pmsg) : node :=
  {| started := true; local := None; r_count := 0; means := None; buffer := []; means_buffer := []; n_reduced := n; rotated := r; mail := l |}.
Definition begins (nd : node) (m : pmsg) : Prop := m = Start \/ m = Done /\ n_reduced nd < k.
Definition clean (nd : node) : Prop := ~ In Setup (mail nd) /\ ~ In Setup (buffer nd) /\ ~ In Setup (means_buffer nd).
(** 2: the same; 1: the answer of the threads is on its way; 0: it is in the mailbox. *)
Inductive tnode : nat -> node -> node -> Prop :=
| t_ready : forall nd, clean nd -> tnode 2 nd nd
| t_away : forall nd1 m l, begins nd1 m -> mail nd1 = m :: l -> ~ In Setup l -> tnode 1 (waiting (n_reduced nd1 + 1) (rotated nd1) l) nd1
| t_back : forall nd1 m l0 l1, begins nd1 m -> mail nd1 = m :: l0 ++ l1 -> ~ In Setup (l0 ++ l1) -> tnode 0 (waiting (n_reduced nd1 + 1) (rotated nd1) (l0 ++ Setup :: l1)) nd1.

Definition isSet (x : nat * nat * pmsg) : bool := match snd x with Setup => true | _ => false end.
Definition setFor (p : nat) (x : nat * nat * pmsg) : bool := isSet x && (snd (fst x) =? p).
Record tsim (ph : nat -> nat) (s s1 : pstate) : Prop := {
  u_reach : reachable cf ok s1;
  u_fin : finals s = finals s1;
  u_pan : panicked s = panicked s1;
  u_net : net s1 = filter (fun x => negb (isSet x)) (net s);
  u_set : forall p, cnt (setFor p) (net s) = b2n (ph p =? 1);
  u_out : forall p, N <= p -> ph p = 2;
  u_node : forall p, tnode (ph p) (nodes s p) (nodes s1 p)
}.

Lemma tnode_reduced : forall h nd nd1, tnode h nd nd1 -> n_reduced nd1 <= n_reduced nd.
Proof. intros h nd nd1 [n H|n m l H E Hl|n m l0 l1 H E Hl]; cbn; lia. Qed.
Lemma tnode_R : forall h nd nd1 t c, tnode h nd nd1 -> In (R t c) (mail nd1) -> In (R t c) (mail nd).
Proof.
  intros h nd nd1 t c [n H|n m l H E Hl|n m l0 l1 H E Hl] Hi; [exact Hi| |]; rewrite E in Hi; cbn [waiting mail]; (destruct Hi as [Hi|Hi]; [destruct H as [->|(-> & _)]; discriminate|]); [exact Hi|].
  apply in_app_iff in Hi. apply in_app_iff. destruct Hi; [now left|right; now right].
Qed.
Lemma tnode_head : forall h nd nd1, tnode h nd nd1 -> match mail nd1 with R _ _ :: _ | Means _ :: _ => False | _ => True end \/ (nd1 = nd).
Proof. intros h nd nd1 [n H|n m l H E Hl|n m l0 l1 H E Hl]; [now right| |]; left; rewrite E; destruct H as [->|(-> & _)]; exact I. Qed.
Lemma tnode_app : forall h nd nd1 m, tnode h nd nd1 -> m <> Setup -> tnode h (with_mail nd (mail nd ++ [m])) (with_mail nd1 (mail nd1 ++ [m])).
Proof.
  intros h nd nd1 m H Hm. assert (K : forall l, ~ In Setup l -> ~ In Setup (l ++ [m])) by (intros l Hl Hi; apply in_app_iff in Hi; destruct Hi as [Hi|[Hi|[]]]; auto).
  destruct H as [n (C1 & C2 & C3)|n m0 l H E Hl|n m0 l0 l1 H E Hl].
  - constructor. split; [apply K; exact C1|split; assumption].
  - change (with_mail (waiting (n_reduced n + 1) (rotated n) l) (mail (waiting (n_reduced n + 1) (rotated n) l) ++ [m])) with (waiting (n_reduced (with_mail n (mail n ++ [m])) + 1) (rotated (with_mail n (mail n ++ [m]))) (l ++ [m])).
    apply (t_away _ m0); [exact H|cbn; rewrite E; reflexivity|now apply K].
  - change (with_mail (waiting (n_reduced n + 1) (rotated n) (l0 ++ Setup :: l1)) (mail (waiting (n_reduced n + 1) (rotated n) (l0 ++ Setup :: l1)) ++ [m]))
      with (waiting (n_reduced (with_mail n (mail n ++ [m])) + 1) (rotated (with_mail n (mail n ++ [m]))) ((l0 ++ Setup :: l1) ++ [m])).
    rewrite <- app_assoc. cbn [app]. apply (t_back _ m0); [exact H|cbn; rewrite E; cbn; now rewrite app_assoc|rewrite app_assoc; now apply K].
Qed.

(** The conditions of the runs with one thread. *)
Lemma tsim_ok : forall s s1, net s1 = filter (fun x => negb (isSet x)) (net s) -> (exists ph, forall p, tnode (ph p) (nodes s p) (nodes s1 p)) ->
  rounds_apart cfm s -> means_ahead s -> ok s1.
Proof.
  intros s s1 En (ph & Hn) HA HM. split.
  - intros p q Hp Hq Hlt. cbn [hosts n_nodes] in *. destruct (tnode_head _ _ _ (Hn p)) as [H|E]; [exact H|]. rewrite E in *. apply (HA p q Hp Hq).
    pose proof (tnode_reduced _ _ _ (Hn q)). lia.
  - intros t c q from Hi Hq Hin. apply (HM t c q from); [eapply tnode_R; eauto|exact Hq|]. rewrite En in Hin. apply filter_In in Hin. apply Hin.
Qed.

(** Handlers: the number of threads matters only for the beginning of a channel. *)
Lemma handle_same : forall p nd m, m <> Start -> m <> Setup -> (m = Done -> k <= n_reduced nd) -> handle cfm p nd m = handle cf p nd m.
Proof.
  intros p nd m H1 H2 H3. destruct m; try contradiction; try reflexivity. cbn [handle hosts channels].
  assert (E : n_reduced nd <? k = false) by (apply Nat.ltb_ge; auto). rewrite E. reflexivity.
Qed.
Lemma setup_same : forall p n r l, on_setup cfm p (waiting n r l) = on_setup cf p (waiting n r l).
Proof.
  intros p n r l. unfold on_setup. cbn [helpers multi hosts orb waiting buffer means_buffer]. unfold resolve. cbn [rev map]. rewrite !app_nil_r.
  change (send_or_finalize cfm p (with_means (waiting n r l) (Some [p])) (Own p)) with (send_or_finalize cf p (with_means (waiting n r l) (Some [p])) (Own p)).
  f_equal. rewrite sof_node. reflexivity.
Qed.
Lemma sof_clean : forall p nd t x, In x (e_sends (send_or_finalize cf p nd t)) -> snd x <> Setup.
Proof.
  intros p nd t x. unfold send_or_finalize. destruct (decide _ _ _) as (c, a). destruct a as [d j| |].
  - destruct (_ && _); cbn; [intros [<-|[]]; discriminate|intros []].
  - destruct (means nd); cbn; [|intros []]. unfold share. cbn [helpers hosts]. intros H. apply in_app_iff in H. destruct H as [H|[<-|[]]]; [|discriminate].
    apply in_map_iff in H. destruct H as (j & <- & _). discriminate.
  - intros [].
Qed.
Lemma setup_clean : forall p nd, clean nd -> clean (e_node (on_setup cf p nd)) /\ forall x, In x (e_sends (on_setup cf p nd)) -> snd x <> Setup.
Proof.
  intros p nd (C1 & C2 & C3). unfold on_setup. cbn [helpers multi hosts orb e_node e_sends]. split.
  - rewrite sof_node. split; [exact C1|]. split; [exact C2|exact C3].
  - intros x Hx. apply in_app_iff in Hx. destruct Hx as [Hx|Hx]; [|eapply sof_clean; exact Hx]. destruct (p =? 0); [destruct Hx|destruct Hx as [<-|[]]; discriminate].
Qed.
Lemma handle_clean : forall p nd m, m <> Setup -> clean nd -> clean (e_node (handle cf p nd m)) /\ forall x, In x (e_sends (handle cf p nd m)) -> snd x <> Setup.
Proof.
  assert (Run : forall p nd, clean nd -> clean (e_node (run_pca cf p nd)) /\ forall x, In x (e_sends (run_pca cf p nd)) -> snd x <> Setup).
  { intros p nd (C1 & C2 & C3). unfold run_pca. cbn [multi hosts]. apply setup_clean. split; [exact C1|]. split; intros []. }
  assert (App : forall m l, m <> Setup -> ~ In Setup l -> ~ In Setup (l ++ [m])) by (intros m l Hm Hl Hi; apply in_app_iff in Hi; destruct Hi as [Hi|[Hi|[]]]; auto).
  intros p nd m Hm C. pose proof C as (C1 & C2 & C3). destruct m; cbn [handle]; try contradiction.
  - now apply Run.
  - cbn [helpers hosts andb]. destruct (means nd); cbn; (split; [|intros x []]); split; auto; split; auto; apply App; auto.
  - destruct (local nd) as [l|]; [|cbn; split; [|intros x []]; split; auto; split; auto; apply App; auto].
    destruct (_ =? _); [|cbn; split; [|intros x []]; split; auto; split; auto; apply App; auto]. cbn [e_node e_sends]. split.
    + rewrite sof_node. split; [exact C1|]. split; [intros []|exact C3].
    + intros x Hx. apply in_app_iff in Hx. destruct Hx as [Hx|Hx]; [eapply sof_clean; exact Hx|]. unfold resolve in Hx. apply in_map_iff in Hx. destruct Hx as (y & <- & Hy).
      apply in_rev in Hy. cbn. intros ->. contradiction.
  - cbn. split; [exact C|]. intros x [<-|[]]. discriminate.
  - destruct (_ <? _); [now apply Run|]. cbn. split; [exact C|intros x []].
Qed.

Definition setph (ph : nat -> nat) (p v : nat) (q : nat) : nat := if q =? p then v else ph q.
Definition phases (ph : nat -> nat) : nat := sum (map ph (seq 0 N)).
Lemma phases_less : forall ph p v, p < N -> v < ph p -> phases (setph ph p v) < phases ph.
Proof.
  intros ph p v Hp Hv. unfold phases. assert (Hi : In p (seq 0 N)) by (apply in_seq; lia). pose proof (seq_NoDup N 0) as ND. apply in_split in Hi.
  destruct Hi as (a & b & Es). rewrite Es in *. rewrite !map_app. cbn [map]. apply NoDup_remove_2 in ND. unfold sum. rewrite !fold_right_app. cbn [fold_right].
  assert (Eab : forall l, ~ In p l -> map (setph ph p v) l = map ph l).
  { intros l Hl. apply map_ext_in. intros q Hq. unfold setph. destruct (Nat.eqb_spec q p) as [->|]; [contradiction|reflexivity]. }
  rewrite !Eab by (intros X; apply ND; apply in_app_iff; auto). unfold setph at 1. rewrite Nat.eqb_refl.
  assert (Hfold : forall l x y, x < y -> fold_right Nat.add x l < fold_right Nat.add y l) by (clear; induction l as [|h l IH]; intros x y Hxy; cbn; [exact Hxy|specialize (IH x y Hxy); lia]).
  apply Hfold. lia.
Qed.

(** Both do the same. *)
Lemma both_act : forall ph s s1 p m rest m1 rest1, tsim ph s s1 -> p < N -> mail (nodes s p) = m :: rest -> mail (nodes s1 p) = m1 :: rest1 ->
  handle cfm p (with_mail (nodes s p) rest) m = handle cf p (with_mail (nodes s1 p) rest1) m1 ->
  helper_answer cfm p (with_mail (nodes s p) rest) m = [] -> ph p <> 1 ->
  clean (e_node (handle cf p (with_mail (nodes s1 p) rest1) m1)) -> (forall x, In x (e_sends (handle cf p (with_mail (nodes s1 p) rest1) m1)) -> snd x <> Setup) ->
  okm (process cfm p s m rest) -> exists s1', step cf s1 s1' /\ ok s1' /\ tsim (setph ph p 2) (process cfm p s m rest) s1'.
Proof.
  intros ph s s1 p m rest m1 rest1 Z Hp Hm Hm1 He Ha Hph Hc Hsn (HA & HM & HB). set (e := handle cf p (with_mail (nodes s1 p) rest1) m1) in *.
  assert (Ha1 : helper_answer cf p (with_mail (nodes s1 p) rest1) m1 = []) by (destruct m1; reflexivity).
  assert (Ns : net (process cfm p s m rest) = net s ++ outgoing p (e_sends e)).
  { unfold process. rewrite He, Ha, fold_net_hosts by reflexivity. cbn [net]. now rewrite app_nil_r. }
  assert (Ns1 : net (process cf p s1 m1 rest1) = net s1 ++ outgoing p (e_sends e)).
  { unfold process. rewrite Ha1, fold_net_hosts by reflexivity. cbn [net]. now rewrite app_nil_r. }
  assert (Nd : forall q, nodes (process cfm p s m rest) q = if q =? p then with_mail (e_node e) (mail (e_node e) ++ own p (e_sends e)) else nodes s q).
  { intros q. unfold process. rewrite He, fold_nodes by reflexivity. cbn [nodes]. unfold upd. destruct (q =? p); reflexivity. }
  assert (Nd1 : forall q, nodes (process cf p s1 m1 rest1) q = if q =? p then with_mail (e_node e) (mail (e_node e) ++ own p (e_sends e)) else nodes s1 q).
  { intros q. unfold process. rewrite fold_nodes by reflexivity. cbn [nodes]. unfold upd. destruct (q =? p); reflexivity. }
  assert (Out : forall x, In x (outgoing p (e_sends e)) -> isSet x = false).
  { intros x Hx. unfold outgoing in Hx. apply in_map_iff in Hx. destruct Hx as (y & <- & Hy). apply filter_In in Hy. destruct Hy as (Hy & _). specialize (Hsn y Hy).
    unfold isSet. cbn. destruct (snd y); try reflexivity. contradiction. }
  assert (En : net (process cf p s1 m1 rest1) = filter (fun x => negb (isSet x)) (net (process cfm p s m rest))).
  { rewrite Ns, Ns1, filter_app, <- (u_net _ _ _ Z). f_equal. symmetry. clear -Out. induction (outgoing p (e_sends e)) as [|x l IH]; [reflexivity|]. cbn [filter].
    rewrite (Out x (or_introl eq_refl)). cbn [negb]. f_equal. apply IH. intros y Hy. apply Out. now right. }
  assert (Hnode : forall q, tnode (setph ph p 2 q) (nodes (process cfm p s m rest) q) (nodes (process cf p s1 m1 rest1) q)).
  { intros q. rewrite Nd, Nd1. unfold setph. destruct (q =? p); [|apply (u_node _ _ _ Z)]. constructor. destruct Hc as (C1 & C2 & C3). split; [|split; assumption].
    cbn [with_mail mail]. intros Hi. apply in_app_iff in Hi. destruct Hi as [Hi|Hi]; [contradiction|]. unfold own in Hi. apply in_map_iff in Hi. destruct Hi as (y & Ey & Hy).
    apply filter_In in Hy. destruct Hy as (Hy & _). exact (Hsn y Hy Ey). }
  assert (Ok1 : ok (process cf p s1 m1 rest1)) by (apply (tsim_ok (process cfm p s m rest)); eauto).
  assert (Stp : step cf s1 (process cf p s1 m1 rest1)) by now apply s_process.
  exists (process cf p s1 m1 rest1). split; [exact Stp|]. split; [exact Ok1|]. constructor.
  - eapply reach_step; [apply (u_reach _ _ _ Z)|exact Stp|exact Ok1].
  - unfold process. rewrite !(proj1 (fold_rest _ _ _ _)), He. cbn [finals]. now rewrite (u_fin _ _ _ Z).
  - unfold process. rewrite !(proj2 (fold_rest _ _ _ _)), He. cbn [panicked]. now rewrite (u_pan _ _ _ Z).
  - exact En.
  - intros q. rewrite Ns, cnt_app, (u_set _ _ _ Z). assert (cnt (setFor q) (outgoing p (e_sends e)) = 0) as ->.
    { apply cnt_zero. intros x Hx. unfold setFor. now rewrite (Out x Hx). }
    unfold setph. destruct (Nat.eqb_spec q p) as [->|]; [|lia]. destruct (Nat.eqb_spec (ph p) 1); [contradiction|reflexivity].
  - intros q Hq. unfold setph. destruct (q =? p); [reflexivity|now apply (u_out _ _ _ Z)].
  - exact Hnode.
Qed.

(** The threads are set to work. *)
Lemma sets_off : forall ph s s1 p m rest, tsim ph s s1 -> p < N -> ph p = 2 -> nodes s p = nodes s1 p -> clean (nodes s p) -> mail (nodes s p) = m :: rest -> begins (nodes s p) m ->
  tsim (setph ph p 1) (process cfm p s m rest) s1.
Proof.
  intros ph s s1 p m rest Z Hp Hph E C Hm Hb.
  assert (Eh : handle cfm p (with_mail (nodes s p) rest) m = no_effect (waiting (n_reduced (nodes s p) + 1) (rotated (nodes s p)) rest) /\ helper_answer cfm p (with_mail (nodes s p) rest) m = [(p, p, Setup)]).
  { destruct Hb as [->|(-> & Hlt)]; [split; reflexivity|]. apply Nat.ltb_lt in Hlt. cbn [handle helper_answer with_mail n_reduced hosts channels multi]. rewrite Hlt. split; reflexivity. }
  destruct Eh as (Eh & Ea). unfold process. rewrite Eh, Ea. cbn [no_effect e_sends e_node e_finals e_panic fold_left]. constructor; cbn [net nodes finals panicked].
  - exact (u_reach _ _ _ Z).
  - rewrite app_nil_r. exact (u_fin _ _ _ Z).
  - rewrite orb_false_r. exact (u_pan _ _ _ Z).
  - rewrite filter_app. cbn. rewrite app_nil_r. exact (u_net _ _ _ Z).
  - intros q. rewrite cnt_app, (u_set _ _ _ Z). unfold setph. rewrite cnt_cons, cnt_nil. unfold setFor. cbn [isSet snd fst andb]. rewrite (Nat.eqb_sym p q).
    destruct (Nat.eqb_spec q p) as [->|]; [rewrite Hph; reflexivity|cbn [b2n]; lia].
  - intros q Hq. unfold setph. destruct (Nat.eqb_spec q p) as [->|]; [lia|now apply (u_out _ _ _ Z)].
  - intros q. unfold setph, upd. destruct (Nat.eqb_spec q p) as [->|]; [|apply (u_node _ _ _ Z)]. rewrite E in *. apply (t_away _ m); [exact Hb|exact Hm|].
    destruct C as (C1 & _). rewrite Hm in C1. intros Hi. apply C1. now right.
Qed.

Lemma tsim_step : forall ph s s1 s', tsim ph s s1 -> step cfm s s' -> okm s' ->
  (exists ph' s1', step cf s1 s1' /\ ok s1' /\ tsim ph' s' s1') \/ (exists ph', tsim ph' s' s1 /\ phases ph' < phases ph).
Proof.
  intros ph s s1 s' Z Hs Ho. destruct Hs as [s before src d m after Hn Hf|s p m rest Hp Hm].
  - destruct (isSet (src, d, m)) eqn:Es.
    + right. assert (m = Setup) as -> by (unfold isSet in Es; cbn in Es; destruct m; try discriminate; reflexivity).
      pose proof (u_set _ _ _ Z) as S0. rewrite Hn in S0.
      assert (Hph : ph d = 1). { specialize (S0 d). rewrite cnt_app, cnt_cons in S0. unfold setFor at 2 in S0. cbn [isSet snd fst andb] in S0. rewrite Nat.eqb_refl in S0. cbn [b2n] in S0. destruct (Nat.eqb_spec (ph d) 1); [assumption|cbn in S0; lia]. }
      assert (Hd : d < N). { destruct (Nat.lt_ge_cases d N) as [|H]; [assumption|]. rewrite (u_out _ _ _ Z d H) in Hph. discriminate. }
      exists (setph ph d 0). split; [|apply phases_less; [exact Hd|lia]]. constructor; cbn [net nodes finals panicked].
      * exact (u_reach _ _ _ Z).
      * exact (u_fin _ _ _ Z).
      * exact (u_pan _ _ _ Z).
      * rewrite (u_net _ _ _ Z), Hn, !filter_app. cbn [filter]. reflexivity.
      * intros q. specialize (S0 q). rewrite cnt_app, cnt_cons in S0. rewrite cnt_app. unfold setFor at 2 in S0. cbn [isSet snd fst andb] in S0. unfold setph. rewrite (Nat.eqb_sym q d).
        destruct (Nat.eqb_spec d q) as [->|]; [rewrite Hph in S0; cbn in *; lia|cbn [b2n] in S0; lia].
      * intros q Hq. unfold setph. destruct (Nat.eqb_spec q d) as [->|]; [lia|now apply (u_out _ _ _ Z)].
      * intros q. unfold setph, upd. destruct (Nat.eqb_spec q d) as [->|]; [|apply (u_node _ _ _ Z)]. pose proof (u_node _ _ _ Z d) as T. rewrite Hph in T.
        remember (nodes s d) as nd eqn:End. remember (nodes s1 d) as nd1 eqn:End1. remember 1 as one eqn:E1. destruct T as [n H|n m l H E Hl|n m l0 l1 H E Hl]; try discriminate.
        cbn [waiting mail with_mail]. apply (t_back n m l []); [exact H|rewrite app_nil_r; exact E|rewrite app_nil_r; exact Hl].
    + left. assert (Hne : m <> Setup) by (intros ->; discriminate).
      set (s1' := {| nodes := upd (nodes s1) d (with_mail (nodes s1 d) (mail (nodes s1 d) ++ [m])); net := filter (fun x => negb (isSet x)) before ++ filter (fun x => negb (isSet x)) after; finals := finals s1; panicked := panicked s1 |}).
      assert (En1 : net s1 = filter (fun x => negb (isSet x)) before ++ (src, d, m) :: filter (fun x => negb (isSet x)) after).
      { rewrite (u_net _ _ _ Z), Hn, filter_app. cbn [filter]. rewrite Es. reflexivity. }
      assert (Stp : step cf s1 s1').
      { apply (s_arrive cf s1 _ src); [exact En1|]. intros Hff m' Hi. apply filter_In in Hi. destruct Hi as (Hi & _). exact (Hf Hff m' Hi). }
      assert (Hnode : forall q, tnode (ph q) (upd (nodes s) d (with_mail (nodes s d) (mail (nodes s d) ++ [m])) q) (nodes s1' q)).
      { intros q. cbn [s1' nodes]. unfold upd. destruct (Nat.eqb_spec q d) as [->|]; [apply tnode_app; [apply (u_node _ _ _ Z)|exact Hne]|apply (u_node _ _ _ Z)]. }
      destruct Ho as (HA & HM & HB).
      assert (Ok1 : ok s1').
      { match type of HM with means_ahead ?x => apply (tsim_ok x) end; [cbn [net s1']; now rewrite filter_app|exists ph; exact Hnode|exact HA|exact HM]. }
      exists ph, s1'. split; [exact Stp|]. split; [exact Ok1|]. constructor; cbn [net nodes finals panicked].
      * eapply reach_step; [apply (u_reach _ _ _ Z)|exact Stp|exact Ok1].
      * exact (u_fin _ _ _ Z).
      * exact (u_pan _ _ _ Z).
      * cbn [s1' net]. now rewrite filter_app.
      * intros q. rewrite <- (u_set _ _ _ Z), Hn, !cnt_app, cnt_cons. unfold setFor at 4. rewrite Es. cbn. lia.
      * exact (u_out _ _ _ Z).
      * exact Hnode.
  - cbn [hosts n_nodes] in Hp. pose proof (u_node _ _ _ Z p) as T. remember (ph p) as h eqn:Eh. remember (nodes s p) as nd eqn:End. remember (nodes s1 p) as nd1 eqn:End1.
    assert (Doomed : forall n l, nodes s p = waiting n (rotated (nodes s1 p)) (m :: rest) -> mail (nodes s1 p) = l -> (exists t c, m = R t c) \/ (exists i, m = Means i) -> False).
    { intros n l En _ Hk0. destruct Ho as (_ & _ & HB). specialize (HB p Hp). unfold process in HB. rewrite fold_nodes in HB by reflexivity. rewrite Nat.eqb_refl in HB. cbn [nodes] in HB.
      rewrite upd_eq, En in HB. destruct Hk0 as [(t & c & ->)|(i & ->)]; cbn in HB; destruct (HB eq_refl) as (B1 & B2); discriminate. }
    destruct T as [nd (C1 & C2 & C3)|nd1 tok l H E Hl|nd1 tok l0 l1 H E Hl].
    + assert (C : clean nd) by (split; [exact C1|split; assumption]).
      assert (Hns : m <> Setup) by (intros ->; apply C1; rewrite Hm; now left).
      assert (Cm : clean (with_mail nd rest)) by (split; [intros Hi; apply C1; rewrite Hm; now right|split; assumption]).
      assert (Hdec : begins nd m \/ (m <> Start /\ (m = Done -> k <= n_reduced nd))).
      { destruct m; try (right; split; [discriminate|]; discriminate); [left; now left|]. destruct (Nat.lt_ge_cases (n_reduced nd) k); [left; right; auto|right; split; [discriminate|auto]]. }
      destruct Hdec as [Hb|(H1 & H2)].
      * right. exists (setph ph p 1). split; [|apply phases_less; [exact Hp|lia]]. rewrite End in Hm, Hb, C. apply sets_off; auto; congruence.
      * left. exists (setph ph p 2). rewrite End in Hm. apply (both_act ph s s1 p m rest m rest Z Hp Hm); [congruence| | |lia| | |exact Ho].
        { rewrite <- End, <- End1. apply handle_same; auto. }
        { destruct m; try reflexivity; [contradiction|]. cbn [helper_answer with_mail n_reduced hosts channels multi]. rewrite <- End. assert (E0 : n_reduced nd <? k = false) by (apply Nat.ltb_ge; auto). rewrite E0. reflexivity. }
        { rewrite <- End1. apply handle_clean; auto. }
        { rewrite <- End1. apply handle_clean; auto. }
    + exfalso. cbn [waiting mail] in Hm. subst l. eapply Doomed; [rewrite <- End, <- End1; reflexivity|reflexivity|].
      eapply (only_parts N k ord HN s1 p tok (m :: rest) Hk (u_reach _ _ _ Z) Hp); [rewrite <- End1; exact E|rewrite <- End1; exact H|now left].
    + cbn [waiting mail] in Hm. destruct l0 as [|x l0].
      * left. exists (setph ph p 2). cbn [app] in Hm, E. injection Hm as <- <-.
        assert (Cw : clean (waiting (n_reduced nd1 + 1) (rotated nd1) l1)) by (split; [exact Hl|split; intros []]).
        assert (Er : handle cf p (with_mail nd1 l1) tok = on_setup cf p (waiting (n_reduced nd1 + 1) (rotated nd1) l1)).
        { destruct H as [->|(-> & Hlt)]; [reflexivity|]. apply Nat.ltb_lt in Hlt. cbn [handle with_mail n_reduced hosts channels]. rewrite Hlt. reflexivity. }
        apply (both_act ph s s1 p Setup l1 tok l1 Z Hp); [now rewrite <- End|now rewrite <- End1| |reflexivity|lia| | |exact Ho].
        { rewrite <- End, <- End1, Er. cbn [handle with_mail]. apply setup_same. }
        { rewrite <- End1, Er. now apply setup_clean. }
        { rewrite <- End1, Er. now apply setup_clean. }
      * exfalso. cbn [app] in Hm. injection Hm as -> <-. eapply Doomed; [rewrite <- End, <- End1; reflexivity|reflexivity|].
        eapply (only_parts N k ord HN s1 p tok ((m :: l0) ++ l1) Hk (u_reach _ _ _ Z) Hp); [rewrite <- End1; exact E|rewrite <- End1; exact H|now left].
Qed.

Lemma tsim_init : tsim (fun _ => 2) (initial cfm) (initial cf).
Proof.
  constructor; try reflexivity.
  - constructor.
  - cbn. induction (seq 0 N) as [|x l IH]; [reflexivity|]. cbn. now rewrite <- IH.
  - intros p. cbn. apply cnt_zero. intros x Hx. apply in_map_iff in Hx. destruct Hx as (q & <- & _). reflexivity.
  - intros p. constructor. split; [intros []|split; intros []].
Qed.

Lemma tsim_reach : forall s, reachable cfm okm s -> exists ph s1, tsim ph s s1.
Proof.
  intros s H. induction H as [|s s' H (ph & s1 & Z) Hs Ho]; [eexists _, _; exact tsim_init|].
  destruct (tsim_step ph s s1 s' Z Hs Ho) as [(ph' & s1' & _ & _ & Z')|(ph' & Z' & _)]; eauto.
Qed.

Lemma threads_safe : forall s, reachable cfm okm s -> panicked s = false /\ length (finals s) <= k /\ Forall (complete N) (finals s).
Proof. intros s H. destruct (tsim_reach s H) as (ph & s1 & Z). rewrite (u_fin _ _ _ Z), (u_pan _ _ _ Z). exact (rounds_safe N k ord HN s1 Hk (u_reach _ _ _ Z)). Qed.

Lemma threads_done : forall s, reachable cfm okm s -> quiescent cfm s -> length (finals s) = k /\ forall p, p < N -> rotated (nodes s p) = 1.
Proof.
  intros s H (Qn & Qm). destruct (tsim_reach s H) as (ph & s1 & Z). cbn [hosts n_nodes] in Qm.
  assert (Hn : forall p, p < N -> nodes s p = nodes s1 p).
  { intros p Hp. pose proof (u_node _ _ _ Z p) as T. pose proof (u_set _ _ _ Z p) as S0. rewrite Qn, cnt_nil in S0. specialize (Qm p Hp).
    destruct T as [n C|n m l Hb E Hl|n m l0 l1 Hb E Hl]; [reflexivity|discriminate|]. cbn in Qm. destruct l0; discriminate. }
  assert (Q1 : quiescent cf s1).
  { split; [rewrite (u_net _ _ _ Z), Qn; reflexivity|]. intros p Hp. cbn [hosts n_nodes] in Hp. rewrite <- (Hn p Hp). now apply Qm. }
  destruct (rounds_done N k ord HN s1 Hk (u_reach _ _ _ Z) Q1) as (D1 & D2). rewrite (u_fin _ _ _ Z). split; [exact D1|]. intros p Hp. rewrite (Hn p Hp). now apply D2.
Qed.

Lemma threads_end : forall run : nat -> pstate, run 0 = initial cfm -> ~ (forall i, step cfm (run i) (run (S i)) /\ okm (run (S i))).
Proof.
  intros run H0 Hrun.
  assert (G : forall s1, Acc (in_step_next N k ord) s1 -> forall c ph i, tsim ph (run i) s1 -> phases ph = c -> False).
  { intros s1 A. induction A as [s1 _ IH]. intros c. induction c as [c IHc] using (well_founded_induction lt_wf). intros ph i Z Ec. destruct (Hrun i) as (Hs & Ho).
    destruct (tsim_step ph (run i) s1 _ Z Hs Ho) as [(ph' & s1' & S1 & O1 & Z')|(ph' & Z' & Hlt)].
    - eapply (IH s1'); [exact (conj S1 O1)|exact Z'|reflexivity].
    - eapply (IHc (phases ph')); [lia|exact Z'|reflexivity]. }
  assert (A : Acc (in_step_next N k ord) (initial cf)).
  { exact (rounds_acc N k ord HN (initial cf) 1 _ (rsim_init N k ord HN Hk) (apart_init N k ord HN)). }
  apply (G (initial cf) A (phases (fun _ => 2)) (fun _ => 2) 0); [rewrite H0; exact tsim_init|reflexivity].
Qed.
End Threads.
