(** In which orders the column means of the helper threads can reach the main thread: in every order, its own first. *)
From Coq Require Import List Arith Bool Lia Permutation.
From Verif.Base Require Import ListX.
From Verif.Pca Require Import Model Spec Tree Abs Proofs Help.
Import ListNotations.

Definition mids (l : list pmsg) : list nat := flat_map (fun m => match m with Means i => [i] | _ => [] end) l.
Lemma mids_app : forall a b, mids (a ++ b) = mids a ++ mids b.
Proof. intros. apply flat_map_app. Qed.

Section Arrival.
Variable N : nat.
Hypothesis HN : 1 <= N.
Notation cf := (helper_threads N N).

(** The means the main thread has, followed by those waiting in its mailbox. *)
Definition queue (s : pstate) : list nat := (match local (nodes s 0) with None => [0] | Some _ => ms0 s end) ++ mids (mail (nodes s 0)).

Lemma helper_inv : forall s, reachable cf any_run s -> inv cf s /\ hinv N s /\ forall p, started (nodes s p) = true.
Proof.
  intros s Hr. split; [|split; [|apply (helpers_started cf s eq_refl Hr)]];
  induction Hr as [|s s' Hr IH Hs _]; try (apply inv_init; [exact HN|reflexivity|apply le_n]); try (apply hinv_init; exact HN).
  - destruct (helpers_started cf s eq_refl Hr) as (S1 & _). refine (inv_step cf HN eq_refl (le_n _) s s' IH _ Hs). intros p _ E. rewrite S1 in E. discriminate.
  - destruct (helpers_started cf s eq_refl Hr) as (S1 & S2). destruct (reach_inv cf HN eq_refl (le_n _) s S2) as (I1 & I2).
    apply (hinv_step N HN s s' I1 S1 IH Hs). exact (inv_step cf HN eq_refl (le_n _) s s' I1 I2 Hs).
Qed.

Lemma proc_mail : forall s p m rest q, mail (nodes (process cf p s m rest) q)
  = (if q =? p then rest else mail (nodes s q)) ++ map snd (filter (fun x => fst x =? q) (e_sends (handle cf p (with_mail (nodes s p) rest) m))).
Proof.
  intros s p m rest q. unfold process. rewrite fold_mail by reflexivity. cbn [nodes]. f_equal. unfold upd.
  destruct (q =? p); [|reflexivity]. rewrite handle_mail. reflexivity.
Qed.
Lemma proc_finals : forall s p m rest, finals (process cf p s m rest) = finals s ++ e_finals (handle cf p (with_mail (nodes s p) rest) m).
Proof.
  intros s p m rest. unfold process. match goal with |- finals (fold_left _ ?l ?s0) = _ => destruct (fold_rest cf p l s0) as (E & _); rewrite E end. reflexivity.
Qed.

(** Handling a message. *)
Lemma setup_effect : forall s p rest, reachable cf any_run s -> p < N -> mail (nodes s p) = Setup :: rest ->
  local (nodes s p) = None
  /\ let e := handle cf p (with_mail (nodes s p) rest) Setup in
     local (e_node e) = Some (Own p) /\ means (e_node e) = Some [p]
     /\ map snd (filter (fun x => fst x =? 0) (e_sends e)) = (if p =? 0 then [] else [Means p]) ++ filter (fun x => match x with R _ _ => true | _ => false end) (map snd (filter (fun x => fst x =? 0) (e_sends e)))
     /\ mids (map snd (filter (fun x => fst x =? 0) (e_sends e))) = (if p =? 0 then [] else [p])
     /\ (forall m t, In (m, t) (e_finals e) -> p = 0 /\ m = [p]).
Proof.
  intros s p rest Hr Hp Hm. destruct (helper_inv s Hr) as (HI & H & Hst). pose proof (in_flight cf HN eq_refl (le_n _) s p Setup rest Hp Hm) as Hin.
  assert (HL : local (nodes s p) = None).
  { pose proof (cnt_pos _ (isSetup p) _ _ Hin (Nat.eqb_refl p)) as HT. rewrite (v_setup _ _ HI p Hp) in HT. unfold tokU in HT.
    rewrite Hst in HT. destruct (local (nodes s p)); [cbn in HT; lia|reflexivity]. }
  split; [exact HL|]. cbn zeta. destruct (h_first N s H p Hp HL) as (Eb & Em & _). pose proof (h_mbuf N s H p Hp) as Emb.
  set (nd := with_mail (nodes s p) rest). cbn [handle]. unfold on_setup. cbn [helpers helper_threads orb].
  pose proof (sof_cases cf p (with_means nd (Some [p])) (Own p) eq_refl) as SC. cbn zeta in SC.
  pose proof (sof_node cf p (with_means nd (Some [p])) (Own p)) as SN.
  set (e0 := send_or_finalize cf p (with_means nd (Some [p])) (Own p)) in *.
  cbn [e_node e_sends e_finals with_buffers local means].
  change (buffer nd) with (buffer (nodes s p)). change (means_buffer nd) with (means_buffer (nodes s p)). rewrite Eb, Emb. cbn [resolve rev map]. rewrite !app_nil_r.
  rewrite SN. cbn [with_factor with_means local means]. split; [reflexivity|]. split; [reflexivity|].
  assert (G : forall tm, tm = (if p =? 0 then [] else [(0, Means p)]) ->
     map snd (filter (fun x : nat * pmsg => fst x =? 0) tm) = (if p =? 0 then [] else [Means p])) by (intros tm ->; destruct (p =? 0); reflexivity).
  rewrite filter_app, map_app, (G _ eq_refl).
  assert (F : forall l, (forall x, In x l -> exists t k, x = R t k) -> filter (fun x => match x with R _ _ => true | _ => false end) l = l /\ mids l = []).
  { induction l as [|x l IH]; intros Hl; [auto|]. destruct (Hl x (or_introl eq_refl)) as (t & k & ->). destruct IH as (E1 & E2); [intros y Hy; apply Hl; now right|].
    cbn. rewrite E1. auto. }
  assert (Fr : forall x, In x (map snd (filter (fun x : nat * pmsg => fst x =? 0) (e_sends e0))) -> exists t k, x = R t k).
  { intros x Hx. destruct SC as [(_ & [SE|(_ & d & k & SE)])|(_ & SE & _)]; rewrite SE in Hx; [destruct Hx| |destruct Hx].
    cbn [filter fst] in Hx. destruct (d =? 0); [|destruct Hx]. destruct Hx as [<-|[]]. cbn. eauto. }
  destruct (F _ Fr) as (F1 & F2). split; [|split].
  - rewrite filter_app, F1. f_equal. destruct (p =? 0); reflexivity.
  - rewrite mids_app, F2, app_nil_r. destruct (p =? 0); reflexivity.
  - intros m t Hi. destruct SC as [(SF & _)|(Hp0 & _ & mm & Emm & SF)]; rewrite SF in Hi; [destruct Hi|].
    destruct Hi as [E|[]]. injection E as <- <-. cbn in Emm. injection Emm as <-. auto.
Qed.

Lemma queue_step : forall s s', reachable cf any_run s -> step cf s s' ->
  (exists l, queue s' = queue s ++ l) /\ (forall m t, In (m, t) (finals s') -> In (m, t) (finals s) \/ exists l, queue s' = m ++ l).
Proof.
  intros s s' Hr Hs. destruct (helper_inv s Hr) as (HI & H & Hst). destruct Hs as [s before src d m after Hn _|s p m rest Hp Hm].
  - rewrite (h_net N s H) in Hn. destruct before; discriminate.
  - change (p < N) in Hp. pose proof (in_flight cf HN eq_refl (le_n _) s p m rest Hp Hm) as Hin.
    pose proof (proc_mail s p m rest 0) as HM. pose proof (proc_finals s p m rest) as HF. destruct (process_core cf s p m rest 0) as (_ & SL & _ & SM & _).
    set (e := handle cf p (with_mail (nodes s p) rest) m) in *. set (s' := process cf p s m rest) in *.
    assert (Q : (p <> 0 \/ (local (nodes s 0) <> None /\ local (e_node e) <> None /\ match means (e_node e) with Some l => l | None => [] end = ms0 s ++ mids [m]) ) ->
      queue s' = queue s ++ mids (map snd (filter (fun x => fst x =? 0) (e_sends e)))).
    { intros C. unfold queue. rewrite SL, HM, mids_app. unfold ms0 at 1. rewrite SM. destruct (Nat.eqb_spec 0 p) as [E0|E0].
      - subst p. destruct C as [C|(C1 & C2 & C3)]; [contradiction|]. rewrite C3. destruct (local (nodes s 0)) eqn:EL; [|contradiction]. destruct (local (e_node e)); [|contradiction].
        rewrite Hm. change (Setup :: rest) with ([Setup] ++ rest). change (m :: rest) with ([m] ++ rest). rewrite mids_app, <- !app_assoc. reflexivity.
      - rewrite <- app_assoc. f_equal. }
    destruct m as [| |i|t c|mm t|].
    + (* Start *) pose proof (cnt_pos _ (isStart p) _ _ Hin (Nat.eqb_refl p)) as HT. rewrite (v_start _ _ HI p Hp) in HT. unfold tokS in HT. rewrite Hst in HT. cbn in HT. lia.
    + (* Setup *) destruct (setup_effect s p rest Hr Hp Hm) as (HL & E1 & E2 & _ & E3 & E4). fold e in E1, E2, E3, E4.
      assert (Q0 : exists l, queue s' = queue s ++ l /\ (p = 0 -> exists l', queue s' = [0] ++ l')).
      { destruct (Nat.eq_dec p 0) as [->|Hp0]; [|exists (mids (map snd (filter (fun x => fst x =? 0) (e_sends e)))); split; [apply Q; now left|intros; contradiction]].
        exists []. rewrite app_nil_r. assert (Eq : queue s' = [0] ++ mids rest).
        { unfold queue. rewrite SL, HM, mids_app, E3. cbn [Nat.eqb]. rewrite app_nil_r. unfold ms0. rewrite SM. cbn [Nat.eqb]. rewrite E1, E2. reflexivity. }
        split; [|intros _; eauto]. rewrite Eq. unfold queue. rewrite HL, Hm. reflexivity. }
      destruct Q0 as (l & Q1 & Q2). split; [eauto|]. intros m t Hi. rewrite HF in Hi. apply in_app_iff in Hi. destruct Hi as [Hi|Hi]; [now left|].
      right. destruct (E4 m t Hi) as (Ep & ->). destruct (Q2 Ep) as (l' & Q3). exists l'. rewrite Ep. exact Q3.
    + (* Means *) destruct (h_range N s H p i Hp) as (Ep & _); [rewrite Hm; now left|]. subst p.
      assert (HL : local (nodes s 0) <> None).
      { intros HL. destruct (h_first N s H 0 Hp HL) as (_ & _ & r & E). rewrite Hm in E. discriminate. }
      pose proof (v_node _ _ HI 0 Hp) as (_ & _ & W3 & _). destruct (local (nodes s 0)) as [l|] eqn:El; [|contradiction].
      destruct (means (nodes s 0)) as [ms|] eqn:Em; [|exfalso; now apply (W3 HL)].
      assert (Ee : e = no_effect (with_means (with_mail (nodes s 0) rest) (Some (ms ++ [i])))).
      { unfold e. cbn [handle helpers helper_threads]. change (local (with_mail (nodes s 0) rest)) with (local (nodes s 0)). rewrite El. cbn [andb].
        change (means (with_mail (nodes s 0) rest)) with (means (nodes s 0)). rewrite Em. reflexivity. }
      split.
      * eexists. apply Q. right. rewrite Ee. cbn. ssplit; try congruence. unfold ms0. rewrite Em. reflexivity.
      * intros m t Hi. rewrite HF, Ee in Hi. cbn in Hi. rewrite app_nil_r in Hi. now left.
    + (* R *)
      assert (HL : local (nodes s p) <> None).
      { intros HL. destruct (h_first N s H p Hp HL) as (_ & _ & r & E). rewrite Hm in E. discriminate. }
      destruct (local (nodes s p)) as [l|] eqn:El; [|contradiction].
      assert (D : e = no_effect (with_buffers (with_mail (nodes s p) rest) (buffer (nodes s p) ++ [R t c]) (means_buffer (nodes s p)))
        \/ e = (let e := send_or_finalize cf p (with_factor (with_mail (nodes s p) rest) (Some l) c) (Combine l t) in
                {| e_node := with_buffers (e_node e) [] (means_buffer (e_node e)); e_sends := e_sends e ++ resolve p (buffer (nodes s p)); e_finals := e_finals e; e_panic := e_panic e |})).
      { unfold e. cbn [handle]. change (local (with_mail (nodes s p) rest)) with (local (nodes s p)). rewrite El. destruct (c =? _); auto. }
      assert (EM : means (e_node e) = means (nodes s p) /\ local (e_node e) <> None).
      { destruct D as [D|D]; rewrite D; cbn [no_effect e_node with_buffers means local]; [split; [reflexivity|]; cbn; congruence|]. rewrite sof_node. cbn. split; [reflexivity|discriminate]. }
      destruct EM as (EM & EL).
      assert (Q' : queue s' = queue s ++ mids (map snd (filter (fun x => fst x =? 0) (e_sends e)))).
      { apply Q. destruct (Nat.eq_dec p 0) as [->|]; [right|now left]. ssplit; try congruence. rewrite EM. cbn. now rewrite app_nil_r. }
      split; [eauto|]. intros m t' Hi. rewrite HF in Hi. apply in_app_iff in Hi. destruct Hi as [Hi|Hi]; [now left|]. right.
      destruct D as [D|D]; rewrite D in Hi; [destruct Hi|]. cbn [e_finals] in Hi.
      pose proof (sof_cases cf p (with_factor (with_mail (nodes s p) rest) (Some l) c) (Combine l t) eq_refl) as SC. cbn zeta in SC.
      destruct SC as [(SF & _)|(Hp0 & _ & ms & Ems & SF)]; rewrite SF in Hi; [destruct Hi|]. destruct Hi as [E|[]]. injection E as <- <-. cbn in Ems. subst p.
      exists (mids (mail (nodes s 0)) ++ mids (map snd (filter (fun x => fst x =? 0) (e_sends e)))). rewrite Q'. unfold queue. rewrite El. unfold ms0. rewrite Ems. now rewrite <- app_assoc.
    + (* Components *)
      pose proof (cnt_pos _ (isCD p) _ _ Hin (Nat.eqb_refl p)) as HT. pose proof (v_comp _ _ HI p Hp) as HC. cbn [helpers helper_threads n_nodes] in *. lia.
    + pose proof (cnt_pos _ (isCD p) _ _ Hin (Nat.eqb_refl p)) as HT. pose proof (v_comp _ _ HI p Hp) as HC. cbn [helpers helper_threads n_nodes] in *. lia.
Qed.

Lemma queue_init : queue (initial cf) = [0].
Proof. unfold queue, initial. cbn [helpers helper_threads nodes local mail n_setup]. destruct (Nat.ltb_spec 0 N); [reflexivity|lia]. Qed.

Lemma continues_reach : forall s s', reachable cf any_run s -> continues cf s s' -> reachable cf any_run s'.
Proof. intros s s' Hr Hc. induction Hc as [|s1 s2 _ IH Hs]; [exact Hr|]. econstructor; [exact IH|exact Hs|exact I]. Qed.
Lemma queue_grows : forall s s', reachable cf any_run s -> continues cf s s' -> exists l, queue s' = queue s ++ l.
Proof.
  intros s s' Hr Hc. induction Hc as [|s1 s2 Hc (l & IH) Hs]; [exists []; now rewrite app_nil_r|].
  destruct (queue_step s1 s2 (continues_reach _ _ Hr Hc) Hs) as ((l' & E) & _). exists (l ++ l'). rewrite E, IH. now rewrite app_assoc.
Qed.
Lemma reach_continues : forall s, reachable cf any_run s -> continues cf (initial cf) s.
Proof. intros s Hr. induction Hr as [|s s' _ IH Hs _]; [constructor|econstructor; eauto]. Qed.

(** The means of the result are the first of the queue. *)
Lemma result_prefix : forall s m t, reachable cf any_run s -> In (m, t) (finals s) -> exists l, queue s = m ++ l.
Proof.
  intros s m t Hr. induction Hr as [|s s' Hr IH Hs _]; intros Hi; [destruct Hi|].
  destruct (queue_step s s' Hr Hs) as ((l & E) & F). destruct (F m t Hi) as [G|G]; [|exact G].
  destruct (IH G) as (l' & E'). exists (l' ++ l). rewrite E, E'. now rewrite app_assoc.
Qed.

Lemma own_first : forall s m t, reachable cf any_run s -> In (m, t) (finals s) -> exists o, m = 0 :: o /\ Permutation o (seq 1 (N - 1)).
Proof.
  intros s m t Hr Hi. pose proof (helper_means N HN s Hr) as HP. rewrite Forall_forall in HP. specialize (HP _ Hi). cbn [fst] in HP.
  destruct (result_prefix s m t Hr Hi) as (l & E). destruct (queue_grows _ _ (reach_init _ _) (reach_continues s Hr)) as (l' & E'). rewrite queue_init in E'.
  destruct m as [|x o]; [apply Permutation_length in HP; rewrite seq_length in HP; cbn in HP; lia|].
  rewrite E' in E. injection E as <- _. exists o. split; [reflexivity|]. apply (Permutation_cons_inv (a := 0)). rewrite HP. destruct N as [|n]; [lia|]. cbn [seq]. now rewrite Nat.sub_succ, Nat.sub_0_r.
Qed.

(** Every run can be carried to its end. *)
Lemma idle_dec : forall s, reachable cf any_run s -> quiescent cf s \/ exists s', step cf s s'.
Proof.
  intros s Hr. destruct (helper_inv s Hr) as (_ & H & _).
  destruct (Exists_dec (fun p => mail (nodes s p) <> []) (seq 0 N)) as [E|E].
  { intros p. destruct (mail (nodes s p)); [right; intros G; now apply G|left; discriminate]. }
  - apply Exists_exists in E. destruct E as (p & Hp & E). apply in_seq in Hp. right. destruct (mail (nodes s p)) as [|m rest] eqn:Em; [contradiction|].
    eexists. apply (s_process cf s p m rest); [cbn; lia|exact Em].
  - left. split; [apply (h_net N s H)|]. intros p Hp. cbn in Hp. destruct (mail (nodes s p)) as [|m rest] eqn:Em; [reflexivity|]. exfalso. apply E. apply Exists_exists. exists p. split; [apply in_seq; lia|]. rewrite Em. discriminate.
Qed.
Lemma completes : forall s, reachable cf any_run s -> exists s', continues cf s s' /\ quiescent cf s'.
Proof.
  assert (G : forall a b s, P cf s = a -> W cf s = b -> reachable cf any_run s -> exists s', continues cf s s' /\ quiescent cf s').
  { intros a. induction a as [a IHa] using lt_wf_ind. intros b. induction b as [b IHb] using lt_wf_ind. intros s Ea Eb Hr.
    destruct (idle_dec s Hr) as [Q|(s1 & Hs)]; [exists s; split; [constructor|exact Q]|].
    destruct (helpers_started cf s eq_refl Hr) as (_ & Hr'). destruct (reach_inv cf HN eq_refl (le_n _) s Hr') as (HI & He).
    assert (Hr1 : reachable cf any_run s1) by (econstructor; [exact Hr|exact Hs|exact I]).
    assert (T : forall s2, continues cf s1 s2 -> continues cf s s2).
    { intros s2 Hc. induction Hc as [|x y _ IH Hxy]; [econstructor; [constructor|exact Hs]|econstructor; eauto]. }
    destruct (decreases cf HN eq_refl (le_n _) s s1 HI He Hs) as [Hd|(Hd1 & Hd2)].
    - destruct (IHa (P cf s1) ltac:(lia) _ s1 eq_refl eq_refl Hr1) as (s2 & C & Q). eauto.
    - destruct (IHb (W cf s1) ltac:(lia) s1 ltac:(lia) eq_refl Hr1) as (s2 & C & Q). eauto. }
  intros s Hr. eapply G; eauto.
Qed.

(** The threads can finish their own factors in any order. *)
Lemma launch : forall l, NoDup l -> (forall p, In p l -> 1 <= p /\ p < N) ->
  exists s, reachable cf any_run s /\ queue s = 0 :: l /\ forall q, q < N -> ~ In q l -> local (nodes s q) = None.
Proof.
  induction l as [|p l IH] using rev_ind; intros Hd Hl.
  - exists (initial cf). split; [constructor|]. split; [apply queue_init|]. reflexivity.
  - apply NoDup_remove in Hd. rewrite app_nil_r in Hd. destruct Hd as (Hd & Hp).
    destruct IH as (s & Hr & Hq & HL); [exact Hd|intros q Hi; apply Hl, in_app_iff; now left|].
    destruct (Hl p) as (Hp1 & Hp2); [apply in_app_iff; right; now left|].
    destruct (helper_inv s Hr) as (HI & H & Hst). destruct (h_first N s H p Hp2 (HL p Hp2 Hp)) as (_ & _ & rest & Hm).
    exists (process cf p s Setup rest). assert (Hs : step cf s (process cf p s Setup rest)) by (apply s_process; [exact Hp2|exact Hm]).
    split; [econstructor; [exact Hr|exact Hs|exact I]|]. destruct (setup_effect s p rest Hr Hp2 Hm) as (_ & _ & _ & _ & E3 & _).
    split.
    + pose proof (proc_mail s p Setup rest 0) as HM. destruct (process_core cf s p Setup rest 0) as (_ & SL & _ & SM & _).
      destruct (Nat.eqb_spec 0 p) as [|_]; [lia|]. unfold queue in *. unfold ms0 in *. rewrite SL, SM, HM, mids_app, E3, app_assoc, Hq. destruct (Nat.eqb_spec p 0); [lia|]. reflexivity.
    + intros q Hq' Hn. destruct (process_core cf s p Setup rest q) as (_ & SL & _). rewrite SL. rewrite in_app_iff in Hn. destruct (Nat.eqb_spec q p) as [->|]; [exfalso; apply Hn; right; now left|]. apply HL; auto.
Qed.

Lemma every_order : forall o, Permutation o (seq 1 (N - 1)) -> exists s t, reachable cf any_run s /\ quiescent cf s /\ finals s = [(0 :: o, t)].
Proof.
  intros o Ho. destruct (launch o) as (s & Hr & Hq & _).
  { eapply Permutation_NoDup; [symmetry; exact Ho|apply seq_NoDup]. }
  { intros p Hi. apply (Permutation_in _ Ho) in Hi. apply in_seq in Hi. lia. }
  destruct (completes s Hr) as (s' & Hc & Q). pose proof (continues_reach _ _ Hr Hc) as Hr'. exists s'.
  destruct (helpers_started cf s' eq_refl Hr') as (_ & Hn). destruct (reach_inv cf HN eq_refl (le_n _) s' Hn) as (HI & _).
  destruct (inv_done cf HN eq_refl (le_n _) s' HI eq_refl Q) as (HF & _).
  destruct (finals s') as [|[m t] [|? ?]] eqn:EF; try discriminate. exists t. split; [exact Hr'|]. split; [exact Q|].
  destruct (result_prefix s' m t Hr') as (l & E); [rewrite EF; now left|]. destruct (queue_grows s s' Hr Hc) as (l' & E'). rewrite Hq, E in E'.
  pose proof (helper_means N HN s' Hr') as HP. rewrite EF in HP. inversion HP as [|? ? HP' _]; subst. cbn [fst] in HP'.
  assert (EL : length m = length (0 :: o)). { rewrite (Permutation_length HP'). cbn [length]. rewrite (Permutation_length Ho), !seq_length. lia. }
  assert (Em : m = 0 :: o). { assert (F : firstn (length m) (m ++ l) = firstn (length (0 :: o)) ((0 :: o) ++ l')) by now rewrite E', EL. now rewrite !firstn_app, !Nat.sub_diag, !firstn_all, !app_nil_r in F. }
  now rewrite Em.
Qed.
End Arrival.
