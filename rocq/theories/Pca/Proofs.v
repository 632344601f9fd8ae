From Coq Require Import List Arith Bool Lia Permutation.
From Verif.Base Require Import ListX.
From Verif.Pca Require Import Model Spec Tree Abs.
Import ListNotations.

Definition b2n (b : bool) : nat := if b then 1 else 0.
Definition cnt {A} (f : A -> bool) (l : list A) := length (filter f l).
Lemma cnt_app : forall A (f : A -> bool) l l', cnt f (l ++ l') = cnt f l + cnt f l'.
Proof. intros. unfold cnt. now rewrite filter_app, app_length. Qed.
Lemma cnt_cons : forall A (f : A -> bool) x l, cnt f (x :: l) = b2n (f x) + cnt f l.
Proof. intros. unfold cnt. cbn [filter]. destruct (f x); cbn; lia. Qed.
Lemma cnt_nil : forall A (f : A -> bool), cnt f [] = 0.
Proof. reflexivity. Qed.
Lemma cnt_perm : forall A (f : A -> bool) l l', Permutation l l' -> cnt f l = cnt f l'.
Proof. intros. now apply filter_length_perm. Qed.
Lemma cnt_zero : forall A (f : A -> bool) l, (forall x, In x l -> f x = false) -> cnt f l = 0.
Proof. intros. unfold cnt. now rewrite filter_nil. Qed.
Lemma cnt_pos : forall A (f : A -> bool) l x, In x l -> f x = true -> 1 <= cnt f l.
Proof.
  intros A f l x H E. apply in_split in H. destruct H as (l1 & l2 & ->). rewrite cnt_app, cnt_cons, E. cbn. lia.
Qed.

(** Messages waiting anywhere, with their destination (buffered means are not needed). *)
Definition contents (nd : node) : list pmsg := mail nd ++ buffer nd.
Definition dm (x : nat * nat * pmsg) : nat * pmsg := let '(_, d, m) := x in (d, m).
Definition flight (N : nat) (s : pstate) : list (nat * pmsg) :=
  map dm (net s) ++ flat_map (fun p => map (pair p) (contents (nodes s p))) (seq 0 N).

(** All fields but the mailbox agree. *)
Definition sameC (a b : node) : Prop :=
  started a = started b /\ local a = local b /\ r_count a = r_count b /\ means a = means b /\ buffer a = buffer b
  /\ means_buffer a = means_buffer b /\ n_reduced a = n_reduced b /\ rotated a = rotated b.
Lemma sameC_refl : forall a, sameC a a.
Proof. intros. unfold sameC. ssplit; reflexivity. Qed.
Lemma sameC_trans : forall a b c, sameC a b -> sameC b c -> sameC a c.
Proof. unfold sameC. intros a b c H1 H2. decompose [and] H1. decompose [and] H2. ssplit; congruence. Qed.

Lemma upd_eq : forall f p v, upd f p v p = v.
Proof. intros. unfold upd. now rewrite Nat.eqb_refl. Qed.
Lemma upd_neq : forall f p v q, q <> p -> upd f p v q = f q.
Proof. intros. unfold upd. destruct (Nat.eqb_spec q p); [contradiction|reflexivity]. Qed.

Lemma flat_map_upd : forall N (g : node -> list pmsg) f p v, p < N ->
  exists Y, Permutation (flat_map (fun q => map (pair q) (g (f q))) (seq 0 N)) (map (pair p) (g (f p)) ++ Y)
         /\ Permutation (flat_map (fun q => map (pair q) (g (upd f p v q))) (seq 0 N)) (map (pair p) (g v) ++ Y).
Proof.
  intros N g f p v Hp.
  assert (Es : seq 0 N = seq 0 p ++ p :: seq (S p) (N - S p)).
  { replace N with (p + S (N - S p)) at 1 by lia. rewrite seq_app. reflexivity. }
  assert (Eo : forall l, ~ In p l -> flat_map (fun q => map (pair q) (g (upd f p v q))) l = flat_map (fun q => map (pair q) (g (f q))) l).
  { intros l Hl. induction l as [|a t IH]; [reflexivity|]. cbn [flat_map]. rewrite IH by (intros Hi; apply Hl; now right).
    rewrite upd_neq; [reflexivity|]. intros ->. apply Hl. now left. }
  exists (flat_map (fun q => map (pair q) (g (f q))) (seq 0 p) ++ flat_map (fun q => map (pair q) (g (f q))) (seq (S p) (N - S p))).
  rewrite Es, !flat_map_app. cbn [flat_map]. rewrite upd_eq, !Eo by (rewrite in_seq; lia).
  split; apply Permutation_app_swap_app.
Qed.

Lemma flight_post : forall cf N src s d m, d < N -> Permutation (flight N (post cf src s (d, m))) ((d, m) :: flight N s).
Proof.
  intros cf N src s d m Hd. unfold post. destruct (helpers cf || (d =? src)).
  - unfold flight. cbn [nodes net].
    destruct (flat_map_upd N contents (nodes s) d (with_mail (nodes s d) (mail (nodes s d) ++ [m])) Hd) as (Y & P1 & P2).
    rewrite P1, P2. unfold contents at 1. cbn [with_mail mail buffer].
    unfold contents. rewrite !map_app. cbn [map]. rewrite <- !app_assoc. cbn [app].
    rewrite !(app_assoc (map dm (net s))). symmetry. apply Permutation_middle.
  - unfold flight. cbn [nodes net]. rewrite map_app. cbn [map dm]. rewrite <- app_assoc. cbn [app].
    symmetry. apply Permutation_middle.
Qed.

Lemma flight_fold : forall cf N src l s, Forall (fun x => fst x < N) l ->
  Permutation (flight N (fold_left (post cf src) l s)) (l ++ flight N s).
Proof.
  intros cf N src l. induction l as [|[d m] t IH]; intros s H; cbn [fold_left app]; [reflexivity|].
  inversion H as [|? ? H1 H2]; subst. cbn in H1. rewrite IH by exact H2. rewrite (flight_post cf N src s d m H1).
  symmetry. apply Permutation_middle.
Qed.

Lemma post_core : forall cf src s x q, sameC (nodes (post cf src s x) q) (nodes s q).
Proof.
  intros cf src s [d m] q. unfold post. destruct (helpers cf || (d =? src)); cbn [nodes]; [|apply sameC_refl].
  destruct (Nat.eq_dec q d) as [->|]; [rewrite upd_eq|rewrite upd_neq by assumption; apply sameC_refl].
  unfold sameC. cbn. ssplit; reflexivity.
Qed.
Lemma fold_core : forall cf src l s q, sameC (nodes (fold_left (post cf src) l s) q) (nodes s q).
Proof.
  intros cf src l. induction l as [|x t IH]; intros s q; cbn [fold_left]; [apply sameC_refl|].
  eapply sameC_trans; [apply IH|apply post_core].
Qed.
Lemma fold_rest : forall cf src l s, finals (fold_left (post cf src) l s) = finals s /\ panicked (fold_left (post cf src) l s) = panicked s.
Proof.
  intros cf src l. induction l as [|[d m] t IH]; intros s; cbn [fold_left]; [auto|].
  destruct (IH (post cf src s (d, m))) as (E1 & E2). rewrite E1, E2. unfold post. destruct (helpers cf || (d =? src)); auto.
Qed.
Lemma fold_net : forall cf N src l s, Forall (fun x => fst x < N) l -> Forall (fun x => fst (dm x) < N) (net s) ->
  Forall (fun x => fst (dm x) < N) (net (fold_left (post cf src) l s)).
Proof.
  intros cf N src l. induction l as [|[d m] t IH]; intros s H Hn; cbn [fold_left]; [exact Hn|].
  inversion H as [|? ? H1 H2]; subst. cbn in H1. apply IH; [exact H2|].
  unfold post. destruct (helpers cf || (d =? src)); cbn [net]; [exact Hn|]. rewrite Forall_app. split; [exact Hn|]. repeat constructor. exact H1.
Qed.

Lemma sof_mail : forall cf p nd t, mail (e_node (send_or_finalize cf p nd t)) = mail nd.
Proof.
  intros. unfold send_or_finalize. destruct (decide _ _ _) as [c a]. destruct a; cbn; [destruct (_ && _)|destruct (means nd)|]; reflexivity.
Qed.
Lemma on_setup_mail : forall cf p nd, mail (e_node (on_setup cf p nd)) = mail nd.
Proof.
  intros. unfold on_setup. destruct (helpers cf || multi cf); cbn; now rewrite sof_mail.
Qed.
Lemma run_pca_mail : forall cf p nd, mail (e_node (run_pca cf p nd)) = mail nd.
Proof.
  intros. unfold run_pca. destruct (multi cf); cbn [no_effect e_node mail]; [reflexivity|]. now rewrite on_setup_mail.
Qed.
Lemma handle_mail : forall cf p nd m, mail (e_node (handle cf p nd m)) = mail nd.
Proof.
  intros cf p nd m. destruct m; cbn [handle].
  - apply run_pca_mail.
  - apply on_setup_mail.
  - destruct (helpers cf && _); [reflexivity|]. destruct (means nd); reflexivity.
  - destruct (local nd); [|reflexivity]. destruct (count =? r_count nd + 1); [|reflexivity].
    cbn [e_node with_buffers mail]. now rewrite sof_mail.
  - reflexivity.
  - destruct (n_reduced nd <? channels cf); [apply run_pca_mail|reflexivity].
Qed.

(** What happens to the messages when [p] handles [m]. *)
Lemma process_flight : forall cf N p s m rest, p < N -> mail (nodes s p) = m :: rest ->
  let nd := with_mail (nodes s p) rest in let e := handle cf p nd m in
  Forall (fun x => fst x < N) (e_sends e) ->
  exists Y, Permutation (flight N s) ((p, m) :: map (pair p) (buffer (nodes s p)) ++ Y)
         /\ Permutation (flight N (process cf p s m rest))
                        (e_sends e ++ map dm (helper_answer cf p nd m) ++ map (pair p) (buffer (e_node e)) ++ Y).
Proof.
  intros cf N p s m rest Hp Hm nd e Hs. unfold process. fold nd. fold e.
  destruct (flat_map_upd N contents (nodes s) p (e_node e) Hp) as (Y & P1 & P2).
  assert (Em : mail (e_node e) = rest) by (unfold e; rewrite handle_mail; reflexivity).
  exists (map dm (net s) ++ map (pair p) rest ++ Y). split.
  - unfold flight. rewrite P1. unfold contents. rewrite Hm, map_app. cbn [map app].
    symmetry. apply Permutation_cons_app. rewrite <- app_assoc.
    rewrite !(app_assoc (map (pair p) (buffer (nodes s p)))), (Permutation_app_comm (map (pair p) (buffer (nodes s p)))).
    rewrite <- !app_assoc. apply Permutation_app_head.
    rewrite !app_assoc. apply Permutation_app_tail. apply Permutation_app_comm.
  - rewrite flight_fold by exact Hs. apply Permutation_app_head. unfold flight. cbn [nodes net]. rewrite P2.
    unfold contents. rewrite Em, !map_app. rewrite <- !app_assoc.
    etransitivity; [apply Permutation_app_swap_app|]. apply Permutation_app_head.
    set (n := map dm (net s)). set (r := map (pair p) rest). set (b := map (pair p) (buffer (e_node e))).
    rewrite (app_assoc n r (b ++ Y)). etransitivity; [apply Permutation_app_swap_app|]. rewrite <- app_assoc. reflexivity.
Qed.

Definition isRm (x : nat * pmsg) : bool := match x with (_, R _ _) => true | _ => false end.
Definition isStart (p : nat) (x : nat * pmsg) : bool := match x with (d, Start) => d =? p | _ => false end.
Definition isSetup (p : nat) (x : nat * pmsg) : bool := match x with (d, Setup) => d =? p | _ => false end.
Definition isCD (p : nat) (x : nat * pmsg) : bool := match x with (d, Components _ _) | (d, Done) => d =? p | _ => false end.

Lemma In_isRm : forall F p t c, In (p, R t c) F <-> In (p, R t c) (filter isRm F).
Proof. intros. rewrite filter_In. cbn. tauto. Qed.
Lemma cntR_isRm : forall F p c, cntR F p c = cntR (filter isRm F) p c.
Proof.
  intros F p c. unfold cntR. induction F as [|[d m] t IH]; [reflexivity|]. cbn [filter].
  destruct m; cbn [isR isRm]; auto. cbn [filter isR]. destruct ((d =? p) && (count =? c)); cbn; auto.
Qed.

Lemma ainv_ext : forall N L C F fin L' C' F', ainv N L C F fin -> (forall p, L' p = L p) -> (forall p, C' p = C p) ->
  Permutation (filter isRm F') (filter isRm F) -> ainv N L' C' F' fin.
Proof.
  intros N L C F fin L' C' F' [H1 H2 H3 H4 H5 H6 H7 H8 H9] EL EC EF.
  assert (EI : forall p t c, In (p, R t c) F' <-> In (p, R t c) F).
  { intros. rewrite (In_isRm F'), (In_isRm F). split; intros Hi; [eapply Permutation_in; [exact EF|exact Hi]|eapply Permutation_in; [symmetry; exact EF|exact Hi]]. }
  assert (ES : forall q c, sentc N L' C' q c <-> sentc N L C q c) by (intros; unfold sentc; now rewrite EL, EC).
  constructor.
  - intros p t Hp. rewrite EL, EC. auto.
  - intros p. rewrite EL, EC. auto.
  - intros p t c Hi. apply EI in Hi. destruct (H3 _ _ _ Hi) as (G1 & G2 & G3 & G4 & G5 & G6 & G7).
    unfold flight_ok. rewrite ES, EL, EC. ssplit; auto.
  - intros p c. rewrite cntR_isRm. unfold cntR. rewrite (filter_length_perm _ _ _ _ EF).
    specialize (H4 p c). rewrite cntR_isRm in H4. exact H4.
  - intros q c Hq Hs. apply ES in Hs. rewrite EL, EC. destruct (H5 q c Hq Hs) as [?|(t & Ht)]; [auto|]. right. exists t. now apply EI.
  - intros p t q. rewrite !EL. apply H6.
  - intros p t c q Hi. rewrite EL. apply EI in Hi. eauto.
  - intros p c Hp. rewrite EL, EC, ES. auto.
  - rewrite EL, EC. exact H9.
Qed.

Section Inv.
Variable cf : config.
Hypothesis HN : 1 <= n_nodes cf.
Hypothesis Hch : channels cf = 1.
Hypothesis Hset : n_setup cf <= n_nodes cf.
Notation N := (n_nodes cf).

Definition Lf (s : pstate) (p : nat) := local (nodes s p).
Definition Cf (s : pstate) (p : nat) := r_count (nodes s p).
Definition isN {A} (o : option A) : bool := match o with None => true | Some _ => false end.

Definition nodeinv (nd : node) : Prop :=
  (started nd = false -> local nd = None /\ n_reduced nd = 0)
  /\ (started nd = true -> n_reduced nd = 1)
  /\ (local nd <> None -> means nd <> None)
  /\ (started nd = true -> local nd = None -> helpers cf || multi cf = true)
  /\ (forall t c, local nd <> None -> In (R t c) (buffer nd) -> c <> r_count nd + 1)
  /\ (forall m, In m (buffer nd) -> match m with R _ _ | Means _ => True | _ => False end)
  /\ (forall m, In m (means_buffer nd) -> match m with Means _ => True | _ => False end).

Definition tokS (p : nat) (nd : node) : nat := b2n (negb (started nd) && (p <? n_setup cf)).
Definition tokU (p : nat) (nd : node) : nat := b2n (started nd && isN (local nd) && (p <? n_setup cf)).

Record inv (s : pstate) : Prop := {
  v_panic : panicked s = false;
  v_a : ainv N (Lf s) (Cf s) (flight N s) (finals s);
  v_dst : Forall (fun x => fst (dm x) < N) (net s);
  v_node : forall p, p < N -> nodeinv (nodes s p);
  v_start : forall p, p < N -> cnt (isStart p) (flight N s) = tokS p (nodes s p);
  v_setup : forall p, p < N -> cnt (isSetup p) (flight N s) = tokU p (nodes s p);
  v_comp : forall p, p < N -> cnt (isCD p) (flight N s) + rotated (nodes s p) = if helpers cf then 0 else length (finals s)
}.

Lemma inv_update : forall s s' p nd' A B Y fin',
  inv s -> p < N ->
  Permutation (flight N s) (A ++ Y) -> Permutation (flight N s') (B ++ Y) ->
  sameC (nodes s' p) nd' -> (forall q, q <> p -> sameC (nodes s' q) (nodes s q)) ->
  finals s' = fin' -> panicked s' = false -> Forall (fun x => fst (dm x) < N) (net s') ->
  ainv N (updf (Lf s) p (local nd')) (updf (Cf s) p (r_count nd')) (B ++ Y) fin' ->
  nodeinv nd' ->
  (forall q, q < N -> cnt (isStart q) B + tokS q (nodes s q) = cnt (isStart q) A + tokS q (if q =? p then nd' else nodes s q)) ->
  (forall q, q < N -> cnt (isSetup q) B + tokU q (nodes s q) = cnt (isSetup q) A + tokU q (if q =? p then nd' else nodes s q)) ->
  (forall q, q < N -> cnt (isCD q) B + (rotated (if q =? p then nd' else nodes s q)) + (if helpers cf then 0 else length (finals s))
                      = cnt (isCD q) A + rotated (nodes s q) + (if helpers cf then 0 else length fin')) ->
  inv s'.
Proof.
  intros s s' p nd' A B Y fin' [V1 V2 V3 V4 V5 V6 V7] Hp PF PF' Sp Sq Ef Ep Hd Ha Hn TS TU TC.
  assert (Sall : forall q, sameC (nodes s' q) (if q =? p then nd' else nodes s q)).
  { intros q. destruct (Nat.eqb_spec q p) as [->|]; auto. }
  constructor.
  - exact Ep.
  - rewrite Ef. eapply ainv_ext; [exact Ha| | |].
    + intros q. unfold Lf at 1, updf. destruct (Sall q) as (_ & E & _). rewrite E. destruct (q =? p); reflexivity.
    + intros q. unfold Cf at 1, updf. destruct (Sall q) as (_ & _ & E & _). rewrite E. destruct (q =? p); reflexivity.
    + apply filter_perm. exact PF'.
  - exact Hd.
  - intros q Hq. assert (G : nodeinv (if q =? p then nd' else nodes s q)) by (destruct (q =? p); auto).
    destruct (Sall q) as (E1 & E2 & E3 & E4 & E5 & E6 & E7 & E8). unfold nodeinv in *. rewrite E1, E2, E3, E4, E5, E6, E7. exact G.
  - intros q Hq. rewrite (cnt_perm _ _ _ _ PF'), cnt_app. specialize (TS q Hq). specialize (V5 q Hq).
    rewrite (cnt_perm _ _ _ _ PF), cnt_app in V5. destruct (Sall q) as (E1 & E2 & _).
    replace (tokS q (nodes s' q)) with (tokS q (if q =? p then nd' else nodes s q)) by (unfold tokS; now rewrite E1). lia.
  - intros q Hq. rewrite (cnt_perm _ _ _ _ PF'), cnt_app. specialize (TU q Hq). specialize (V6 q Hq).
    rewrite (cnt_perm _ _ _ _ PF), cnt_app in V6. destruct (Sall q) as (E1 & E2 & _).
    replace (tokU q (nodes s' q)) with (tokU q (if q =? p then nd' else nodes s q)) by (unfold tokU; now rewrite E1, E2). lia.
  - intros q Hq. rewrite (cnt_perm _ _ _ _ PF'), cnt_app. specialize (TC q Hq). specialize (V7 q Hq).
    rewrite (cnt_perm _ _ _ _ PF), cnt_app in V7. destruct (Sall q) as (_ & _ & _ & _ & _ & _ & _ & E8). rewrite E8, Ef. lia.
Qed.

(** Replaying a handler. *)
Lemma inv_process : forall s p m rest nd',
  inv s -> p < N -> mail (nodes s p) = m :: rest ->
  let nd := with_mail (nodes s p) rest in let e := handle cf p nd m in
  sameC (e_node e) nd' -> e_panic e = false ->
  Forall (fun x => fst x < N) (e_sends e) ->
  let B := e_sends e ++ map dm (helper_answer cf p nd m) ++ map (pair p) (buffer nd') in
  let A := (p, m) :: map (pair p) (buffer (nodes s p)) in
  (forall Y, Permutation (flight N s) (A ++ Y) ->
     ainv N (updf (Lf s) p (local nd')) (updf (Cf s) p (r_count nd')) (B ++ Y) (finals s ++ e_finals e)) ->
  nodeinv nd' ->
  (forall q, q < N -> cnt (isStart q) B + tokS q (nodes s q) = cnt (isStart q) A + tokS q (if q =? p then nd' else nodes s q)) ->
  (forall q, q < N -> cnt (isSetup q) B + tokU q (nodes s q) = cnt (isSetup q) A + tokU q (if q =? p then nd' else nodes s q)) ->
  (forall q, q < N -> cnt (isCD q) B + (rotated (if q =? p then nd' else nodes s q)) + (if helpers cf then 0 else length (finals s))
                      = cnt (isCD q) A + rotated (nodes s q) + (if helpers cf then 0 else length (finals s ++ e_finals e))) ->
  inv (process cf p s m rest).
Proof.
  intros s p m rest nd' HI Hp Hm nd e Sn Ep Hs B A Ha Hn TS TU TC.
  destruct (process_flight cf N p s m rest Hp Hm Hs) as (Y & P1 & P2). fold nd in P2. fold e in P2.
  assert (Eb : buffer (e_node e) = buffer nd') by (destruct Sn as (_ & _ & _ & _ & E & _); exact E). rewrite Eb in P2.
  assert (E0 : process cf p s m rest = fold_left (post cf p) (e_sends e)
    {| nodes := upd (nodes s) p (e_node e); net := net s ++ helper_answer cf p nd m; finals := finals s ++ e_finals e;
       panicked := panicked s || e_panic e |}) by reflexivity.
  destruct (fold_rest cf p (e_sends e)
    {| nodes := upd (nodes s) p (e_node e); net := net s ++ helper_answer cf p nd m; finals := finals s ++ e_finals e;
       panicked := panicked s || e_panic e |}) as (E1 & E2). rewrite <- E0 in E1, E2. cbn [finals panicked] in E1, E2.
  apply (inv_update s (process cf p s m rest) p nd' A B Y (finals s ++ e_finals e)); auto.
  - rewrite P2. unfold B. rewrite <- !app_assoc. reflexivity.
  - rewrite E0. eapply sameC_trans; [apply fold_core|]. cbn [nodes]. rewrite upd_eq. exact Sn.
  - intros q Hq. rewrite E0. eapply sameC_trans; [apply fold_core|]. cbn [nodes]. rewrite upd_neq by exact Hq. apply sameC_refl.
  - rewrite E2, Ep, (v_panic _ HI). reflexivity.
  - rewrite E0. apply fold_net; [exact Hs|]. cbn [net]. rewrite Forall_app. split; [apply (v_dst _ HI)|].
    unfold helper_answer. destruct m; try constructor; [destruct (multi cf)|destruct (multi cf && _)]; repeat constructor; exact Hp.
Qed.

Definition quiet (x : nat * pmsg) : Prop := match snd x with R _ _ | Means _ => True | _ => False end.
Lemma cnt_quiet : forall q l, Forall quiet l -> cnt (isStart q) l = 0 /\ cnt (isSetup q) l = 0 /\ cnt (isCD q) l = 0.
Proof.
  intros q l H. rewrite Forall_forall in H. ssplit; apply cnt_zero; intros [d m] Hx; specialize (H _ Hx); destruct m; cbn in *; tauto.
Qed.

Definition acts (a : action) (m : list nat) (t : rtree) : list (nat * pmsg) :=
  match a with ASend d k => [(d, R t k)] | AFinalize => share cf m t | AWait => [] end.
Definition fins (a : action) (m : list nat) (t : rtree) : list outcome :=
  match a with AFinalize => [(m, t)] | _ => [] end.

Lemma sof_eq : forall p nd t c' a m, decide N p (r_count nd) = (c', a) -> means nd = Some m ->
  (forall d k, a = ASend d k -> d < N /\ d <> p) ->
  send_or_finalize cf p nd t
  = {| e_node := with_factor nd (Some t) c'; e_sends := acts a m t; e_finals := fins a m t; e_panic := false |}.
Proof.
  intros p nd t c' a m Hd Hm Hv. unfold send_or_finalize. rewrite Hd. destruct a as [d k| |]; cbn [acts fins].
  - destruct (Hv d k eq_refl) as (H1 & H2). apply Nat.ltb_lt in H1. apply Nat.eqb_neq in H2. rewrite H1, H2. reflexivity.
  - rewrite Hm. reflexivity.
  - reflexivity.
Qed.

Lemma share_cnt : forall q m t, q < N ->
  cnt (isStart q) (share cf m t) = 0 /\ cnt (isSetup q) (share cf m t) = 0 /\ cnt (isCD q) (share cf m t) = if helpers cf then 0 else 1.
Proof.
  intros q m t Hq. unfold share. destruct (helpers cf); [auto|].
  assert (G : forall f, (forall j, f (j, Components m t) = false) -> cnt f (map (fun j => (j, Components m t)) (seq 1 (N - 1)) ++ [(0, Components m t)]) = 0).
  { intros f Hf. apply cnt_zero. intros x Hx. rewrite in_app_iff, in_map_iff in Hx. destruct Hx as [(j & <- & _)|[<-|[]]]; apply Hf. }
  ssplit; [apply G; reflexivity|apply G; reflexivity|].
  rewrite cnt_app, cnt_cons, cnt_nil.
  assert (H : forall n a, cnt (isCD q) (map (fun j => (j, Components m t)) (seq a n)) = if (a <=? q) && (q <? a + n) then 1 else 0).
  { induction n as [|n IH]; intros a; cbn [seq map].
    - rewrite cnt_nil. destruct (Nat.leb_spec a q), (Nat.ltb_spec q (a + 0)); cbn; lia.
    - rewrite cnt_cons, IH. cbn [isCD].
      destruct (Nat.eqb_spec a q), (Nat.leb_spec (S a) q), (Nat.leb_spec a q), (Nat.ltb_spec q (S a + n)), (Nat.ltb_spec q (a + S n)); cbn; lia. }
  rewrite H. cbn [isCD]. destruct (Nat.eqb_spec 0 q), (Nat.leb_spec 1 q), (Nat.ltb_spec q (1 + (N - 1))); cbn; lia.
Qed.

Lemma share_dst : forall m t, Forall (fun x => fst x < N) (share cf m t).
Proof.
  intros m t. unfold share. destruct (helpers cf); [constructor|]. rewrite Forall_app. split.
  - rewrite Forall_forall. intros x Hx. apply in_map_iff in Hx. destruct Hx as (j & <- & Hj). apply in_seq in Hj. cbn. lia.
  - repeat constructor. cbn. lia.
Qed.
Lemma share_noR : forall m t, filter isRm (share cf m t) = [].
Proof.
  intros m t. apply filter_nil. unfold share. destruct (helpers cf); [intros x []|].
  intros x Hx. rewrite in_app_iff, in_map_iff in Hx. destruct Hx as [(j & <- & _)|[<-|[]]]; reflexivity.
Qed.
Lemma acts_dst : forall a m t, (forall d k, a = ASend d k -> d < N) -> Forall (fun x => fst x < N) (acts a m t).
Proof. intros [d k| |] m t H; cbn [acts]; [repeat constructor; cbn; eapply H; reflexivity|apply share_dst|constructor]. Qed.
Lemma acts_cnt : forall q a m t, q < N -> cnt (isStart q) (acts a m t) = 0 /\ cnt (isSetup q) (acts a m t) = 0
  /\ cnt (isCD q) (acts a m t) = if helpers cf then 0 else length (fins a m t).
Proof.
  intros q [d k| |] m t Hq; cbn [acts fins length].
  - destruct (helpers cf); cbn; auto.
  - now apply share_cnt.
  - destruct (helpers cf); cbn; auto.
Qed.

Lemma quiet_map : forall p l, (forall m, In m l -> match m with R _ _ | Means _ => True | _ => False end) -> Forall quiet (map (pair p) l).
Proof. intros p l H. rewrite Forall_forall. intros x Hx. apply in_map_iff in Hx. destruct Hx as (m & <- & Hm). exact (H m Hm). Qed.
Lemma resolve_dst : forall p b, p < N -> Forall (fun x => fst x < N) (resolve p b).
Proof. intros p b Hp. rewrite Forall_forall. intros x Hx. apply in_map_iff in Hx. destruct Hx as (m & <- & _). exact Hp. Qed.
Lemma resolve_perm : forall p b, Permutation (resolve p b) (map (pair p) b).
Proof. intros. unfold resolve. apply Permutation_map. symmetry. apply Permutation_rev. Qed.

(** The invariant after the first factor of [p]; [nd] is the state of [p] in which [on_setup] runs. *)
Lemma inv_setup : forall s p m rest nd ha,
  inv s -> p < N -> mail (nodes s p) = m :: rest ->
  handle cf p (with_mail (nodes s p) rest) m = on_setup cf p nd ->
  helper_answer cf p (with_mail (nodes s p) rest) m = ha -> ha = [] ->
  local (nodes s p) = None -> local nd = None -> r_count nd = 0 -> buffer nd = buffer (nodes s p) ->
  started nd = true -> n_reduced nd = 1 -> rotated nd = rotated (nodes s p) ->
  (forall x, In x (means_buffer nd) -> match x with Means _ => True | _ => False end) ->
  (helpers cf || multi cf = true \/ buffer nd = []) ->
  (forall q, q < N -> cnt (isStart q) [(p, m)] + (if q =? p then 0 else tokS q (nodes s q)) = tokS q (nodes s q)) ->
  (forall q, q < N -> cnt (isSetup q) [(p, m)] + (if q =? p then 0 else tokU q (nodes s q)) = tokU q (nodes s q)) ->
  (forall q, cnt (isCD q) [(p, m)] = 0) -> isRm (p, m) = false ->
  inv (process cf p s m rest).
Proof.
  intros s p m rest nd ha HI Hp Hm Hh Hans Hans0 HL HLn Hr Hb Hst Hnr Hrot Hmb Hflag TS TU TC HmR.
  pose proof (v_node _ HI p Hp) as (W1 & W2 & W3 & W4 & W5 & W6 & W7).
  pose proof (grow_setup N HN (Lf s) (Cf s) (flight N s) (finals s) p (v_a _ HI) Hp HL) as G.
  destruct (decide N p 0) as [c' a] eqn:Ed.
  assert (Hv : forall d k, a = ASend d k -> d < N /\ d <> p) by (intros d k ->; destruct G as (G1 & G2 & _); auto).
  set (nd1 := with_means nd (Some [p])).
  assert (Esof : send_or_finalize cf p nd1 (Own p)
    = {| e_node := with_factor nd1 (Some (Own p)) c'; e_sends := acts a [p] (Own p); e_finals := fins a [p] (Own p); e_panic := false |}).
  { apply sof_eq; [cbn; now rewrite Hr|reflexivity|exact Hv]. }
  set (tm := if p =? 0 then [] else [(0, Means p)]).
  assert (Htm : Forall quiet tm) by (unfold tm; destruct (p =? 0); repeat constructor).
  assert (Htmd : Forall (fun x => fst x < N) tm) by (unfold tm; destruct (p =? 0); repeat constructor; cbn; lia).
  assert (HtmR : filter isRm tm = []) by (unfold tm; destruct (p =? 0); reflexivity).
  set (fl := helpers cf || multi cf) in *.
  set (b := buffer nd) in *. set (mb := means_buffer nd) in *.
  assert (HeS : e_sends (on_setup cf p nd) = tm ++ acts a [p] (Own p) ++ (if fl then resolve p b ++ resolve p mb else [])).
  { unfold on_setup. fold nd1. rewrite Esof. fold tm fl b mb. destruct fl; cbn [e_sends]; [reflexivity|now rewrite app_nil_r]. }
  assert (HeF : e_finals (on_setup cf p nd) = fins a [p] (Own p)).
  { unfold on_setup. fold nd1. rewrite Esof. fold fl. destruct fl; reflexivity. }
  assert (HeP : e_panic (on_setup cf p nd) = false).
  { unfold on_setup. fold nd1. rewrite Esof. fold fl. destruct fl; reflexivity. }
  assert (Qb : Forall quiet (map (pair p) b)) by (apply quiet_map; rewrite Hb; exact W6).
  assert (Qmb : Forall quiet (map (pair p) mb)).
  { apply quiet_map. intros x Hx. apply Hmb in Hx. destruct x; tauto. }
  assert (Rmb : filter isRm (map (pair p) mb) = []).
  { apply filter_nil. intros x Hx. apply in_map_iff in Hx. destruct Hx as (y & <- & Hy). apply Hmb in Hy. destruct y; cbn; tauto. }
  eapply (inv_process s p m rest (e_node (on_setup cf p nd))); auto; rewrite ?Hh, ?Hans, ?Hans0, ?HeS, ?HeF.
  - apply sameC_refl.
  - exact HeP.
  - rewrite !Forall_app. ssplit; [exact Htmd|apply acts_dst; intros d k E; now apply Hv in E|].
    destruct fl; [rewrite Forall_app; split; now apply resolve_dst|constructor].
  - (* the reduction invariant *)
    intros Y PY. cbn [map app].
    assert (EbB : buffer (e_node (on_setup cf p nd)) = if fl then [] else b).
    { unfold on_setup. fold nd1. rewrite Esof. fold fl. destruct fl; reflexivity. }
    assert (ElB : local (e_node (on_setup cf p nd)) = Some (Own p)).
    { unfold on_setup. fold nd1. rewrite Esof. fold fl. destruct fl; reflexivity. }
    assert (ErB : r_count (e_node (on_setup cf p nd)) = c').
    { unfold on_setup. fold nd1. rewrite Esof. fold fl. destruct fl; reflexivity. }
    rewrite EbB, ElB, ErB.
    assert (PR : Permutation (filter isRm (((tm ++ acts a [p] (Own p) ++ (if fl then resolve p b ++ resolve p mb else []))
                    ++ map (pair p) (if fl then [] else b)) ++ Y)) (filter isRm (acts a [p] (Own p) ++ flight N s))).
    { assert (PY' : Permutation (filter isRm (flight N s)) (filter isRm (map (pair p) b ++ Y))).
      { rewrite (filter_perm _ isRm _ _ PY). cbn [filter app]. rewrite HmR, <- Hb. reflexivity. }
      rewrite !filter_app, HtmR. cbn [app]. rewrite <- !app_assoc. apply Permutation_app_head.
      rewrite PY'. rewrite filter_app. destruct fl; cbn [map filter app].
      - rewrite filter_app. rewrite (filter_perm _ isRm _ _ (resolve_perm p b)), (filter_perm _ isRm _ _ (resolve_perm p mb)), Rmb. 
        rewrite app_nil_r. reflexivity.
      - reflexivity. }
    destruct a as [d k| |]; cbn [acts fins] in *.
    + destruct G as (_ & _ & _ & _ & _ & G). rewrite app_nil_r. eapply ainv_ext; [exact G|reflexivity|reflexivity|]. exact PR.
    + destruct G as (_ & Ef & _ & G). rewrite Ef. cbn [app]. eapply ainv_ext; [exact (G [p])|reflexivity|reflexivity|].
      rewrite PR, filter_app, share_noR. reflexivity.
    + destruct G as (_ & _ & G). rewrite app_nil_r. eapply ainv_ext; [exact G|reflexivity|reflexivity|]. exact PR.
  - (* the node *)
    unfold on_setup. fold nd1. rewrite Esof. fold fl. unfold nodeinv.
    assert (Hnb : fl = false -> b = []) by (destruct Hflag as [Hf|Hf]; [congruence|auto]).
    unfold nd1. destruct fl; cbn [e_node with_buffers with_factor with_means started local n_reduced means buffer r_count means_buffer].
    + rewrite Hst. ssplit; try discriminate; auto; intros; try contradiction; cbn in *; tauto.
    + rewrite Hst. fold b mb. rewrite Hnb by reflexivity. ssplit; try discriminate; auto; intros; cbn in *; try tauto; try contradiction; auto.
  - intros q Hq. cbn [map app]. destruct (acts_cnt q a [p] (Own p) Hq) as (A1 & A2 & A3).
    destruct (cnt_quiet q _ Htm) as (T1 & T2 & T3). destruct (cnt_quiet q _ Qb) as (B1 & B2 & B3). destruct (cnt_quiet q _ Qmb) as (M1 & M2 & M3).
    specialize (TS q Hq). rewrite cnt_cons, cnt_nil in TS. rewrite cnt_cons, <- Hb. fold b. rewrite !cnt_app, A1, T1, B1.
    replace (cnt (isStart q) (if fl then resolve p b ++ resolve p mb else [])) with 0.
    2:{ destruct fl; [|reflexivity]. rewrite cnt_app, (cnt_perm _ _ _ _ (resolve_perm p b)), (cnt_perm _ _ _ _ (resolve_perm p mb)). lia. }
    replace (cnt (isStart q) (map (pair p) (buffer (e_node (on_setup cf p nd))))) with 0.
    2:{ unfold on_setup. fold nd1. rewrite Esof. fold fl. destruct fl; [reflexivity|]. cbn. symmetry. exact B1. }
    replace (tokS q (if q =? p then e_node (on_setup cf p nd) else nodes s q)) with (if q =? p then 0 else tokS q (nodes s q)).
    2:{ destruct (q =? p); [|reflexivity]. unfold on_setup. fold nd1. rewrite Esof. fold fl. unfold tokS.
        destruct fl; cbn [e_node with_buffers with_factor with_means nd1 started]; rewrite Hst; reflexivity. }
    lia.
  - intros q Hq. cbn [map app]. destruct (acts_cnt q a [p] (Own p) Hq) as (A1 & A2 & A3).
    destruct (cnt_quiet q _ Htm) as (T1 & T2 & T3). destruct (cnt_quiet q _ Qb) as (B1 & B2 & B3). destruct (cnt_quiet q _ Qmb) as (M1 & M2 & M3).
    specialize (TU q Hq). rewrite cnt_cons, cnt_nil in TU. rewrite cnt_cons, <- Hb. fold b. rewrite !cnt_app, A2, T2, B2.
    replace (cnt (isSetup q) (if fl then resolve p b ++ resolve p mb else [])) with 0.
    2:{ destruct fl; [|reflexivity]. rewrite cnt_app, (cnt_perm _ _ _ _ (resolve_perm p b)), (cnt_perm _ _ _ _ (resolve_perm p mb)). lia. }
    replace (cnt (isSetup q) (map (pair p) (buffer (e_node (on_setup cf p nd))))) with 0.
    2:{ unfold on_setup. fold nd1. rewrite Esof. fold fl. destruct fl; [reflexivity|]. cbn. symmetry. exact B2. }
    replace (tokU q (if q =? p then e_node (on_setup cf p nd) else nodes s q)) with (if q =? p then 0 else tokU q (nodes s q)).
    2:{ destruct (q =? p); [|reflexivity]. unfold on_setup. fold nd1. rewrite Esof. fold fl. unfold tokU.
        destruct fl; cbn [e_node with_buffers with_factor with_means nd1 started local isN]; rewrite Hst; reflexivity. }
    lia.
  - intros q Hq. cbn [map app]. destruct (acts_cnt q a [p] (Own p) Hq) as (A1 & A2 & A3).
    destruct (cnt_quiet q _ Htm) as (T1 & T2 & T3). destruct (cnt_quiet q _ Qb) as (B1 & B2 & B3). destruct (cnt_quiet q _ Qmb) as (M1 & M2 & M3).
    specialize (TC q). rewrite cnt_cons, cnt_nil in TC. rewrite cnt_cons, <- Hb. fold b. rewrite !cnt_app, A3, T3, B3, app_length.
    replace (cnt (isCD q) (if fl then resolve p b ++ resolve p mb else [])) with 0.
    2:{ destruct fl; [|reflexivity]. rewrite cnt_app, (cnt_perm _ _ _ _ (resolve_perm p b)), (cnt_perm _ _ _ _ (resolve_perm p mb)). lia. }
    replace (cnt (isCD q) (map (pair p) (buffer (e_node (on_setup cf p nd))))) with 0.
    2:{ unfold on_setup. fold nd1. rewrite Esof. fold fl. destruct fl; [reflexivity|]. cbn. symmetry. exact B3. }
    replace (rotated (if q =? p then e_node (on_setup cf p nd) else nodes s q)) with (rotated (nodes s q)).
    2:{ destruct (Nat.eqb_spec q p) as [->|]; [|reflexivity]. unfold on_setup. fold nd1. rewrite Esof. fold fl.
        destruct fl; cbn [e_node with_buffers with_factor with_means nd1 rotated]; now rewrite Hrot. }
    destruct (helpers cf); lia.
Qed.

(** The expected factor. *)
Lemma inv_merge : forall s p t c l rest,
  inv s -> p < N -> mail (nodes s p) = R t c :: rest -> local (nodes s p) = Some l -> c = r_count (nodes s p) + 1 ->
  inv (process cf p s (R t c) rest).
Proof.
  intros s p t c l rest HI Hp Hm HL Hc.
  pose proof (v_node _ HI p Hp) as (W1 & W2 & W3 & W4 & W5 & W6 & W7).
  set (nd := with_mail (nodes s p) rest).
  destruct (means (nodes s p)) as [ms|] eqn:Ems; [|exfalso; apply W3; [congruence|reflexivity]].
  set (b := buffer (nodes s p)) in *.
  assert (Hin : In (p, R t c) (flight N s)).
  { unfold flight. apply in_app_iff. right. apply in_flat_map. exists p. split; [apply in_seq; lia|].
    apply in_map. unfold contents. rewrite Hm. now left. }
  destruct (in_split _ _ Hin) as (X1 & X2 & EX).
  assert (PX0 : Permutation (flight N s) ((p, R t c) :: X1 ++ X2)) by (rewrite EX; symmetry; apply Permutation_middle).
  pose proof (grow_merge N HN (Lf s) (Cf s) (flight N s) (X1 ++ X2) (finals s) p l t c (v_a _ HI) PX0 HL Hc) as G0.
  destruct (decide N p c) as [c' a] eqn:Ed.
  assert (Hv : forall d k, a = ASend d k -> d < N /\ d <> p) by (intros d k ->; destruct G0 as (G1 & G2 & _); auto).
  set (tt := Combine l t).
  assert (Esof : send_or_finalize cf p (with_factor nd (Some l) c) tt
    = {| e_node := with_factor (with_factor nd (Some l) c) (Some tt) c'; e_sends := acts a ms tt; e_finals := fins a ms tt; e_panic := false |}).
  { apply sof_eq; [exact Ed|exact Ems|exact Hv]. }
  assert (He : handle cf p nd (R t c)
    = {| e_node := with_buffers (with_factor (with_factor nd (Some l) c) (Some tt) c') [] (means_buffer nd);
         e_sends := acts a ms tt ++ resolve p b; e_finals := fins a ms tt; e_panic := false |}).
  { cbn [handle]. replace (local nd) with (Some l) by (symmetry; exact HL).
    replace (r_count nd) with (r_count (nodes s p)) by reflexivity. rewrite Hc, Nat.eqb_refl. rewrite <- Hc.
    fold tt. rewrite Esof. reflexivity. }
  assert (Qb : Forall quiet (map (pair p) b)) by (apply quiet_map; exact W6).
  set (nd' := with_buffers (with_factor (with_factor nd (Some l) c) (Some tt) c') [] (means_buffer nd)) in *.
  eapply (inv_process s p (R t c) rest nd'); auto; fold nd; rewrite ?He; cbn [e_node e_sends e_finals e_panic helper_answer map app].
  - apply sameC_refl.
  - reflexivity.
  - rewrite Forall_app. split; [apply acts_dst; intros d k E; now apply Hv in E|now apply resolve_dst].
  - intros Y PY.
    assert (PX : Permutation (X1 ++ X2) (map (pair p) b ++ Y)).
    { eapply Permutation_cons_inv. rewrite <- PX0. exact PY. }
    change (local nd') with (Some tt). change (r_count nd') with c'. change (buffer nd') with (@nil pmsg). cbn [map].
    rewrite app_nil_r.
    assert (PR : Permutation (filter isRm ((acts a ms tt ++ resolve p b) ++ Y)) (filter isRm (acts a ms tt ++ X1 ++ X2))).
    { rewrite <- app_assoc, !(filter_app _ (acts a ms tt)). apply Permutation_app_head. apply filter_perm. rewrite PX, resolve_perm. reflexivity. }
    destruct a as [d k| |]; cbn [acts fins] in *.
    + destruct G0 as (_ & _ & _ & _ & _ & G). rewrite app_nil_r. eapply ainv_ext; [exact G|reflexivity|reflexivity|]. exact PR.
    + destruct G0 as (_ & Ef & _ & G). rewrite Ef. cbn [app]. eapply ainv_ext; [exact (G ms)|reflexivity|reflexivity|].
      rewrite PR, filter_app, share_noR. reflexivity.
    + destruct G0 as (_ & _ & G). rewrite app_nil_r. eapply ainv_ext; [exact G|reflexivity|reflexivity|]. exact PR.
  - unfold nodeinv. change (started nd') with (started (nodes s p)). change (local nd') with (Some tt).
    change (n_reduced nd') with (n_reduced (nodes s p)). change (means nd') with (means (nodes s p)). rewrite Ems.
    change (buffer nd') with (@nil pmsg). change (means_buffer nd') with (means_buffer (nodes s p)).
    ssplit; try discriminate; auto.
    + intros Hst. destruct (W1 Hst) as (E & _). congruence.
    + intros ? [].
  - intros q Hq. destruct (acts_cnt q a ms tt Hq) as (A1 & A2 & A3). destruct (cnt_quiet q _ Qb) as (B1 & B2 & B3).
    rewrite cnt_cons, !cnt_app, A1, (cnt_perm _ _ _ _ (resolve_perm p b)), B1. fold b. rewrite ?B1. change (buffer nd') with (@nil pmsg).
    replace (tokS q (if q =? p then nd' else nodes s q)) with (tokS q (nodes s q)); [cbn [map isStart b2n]; rewrite ?cnt_nil; lia|].
    destruct (Nat.eqb_spec q p) as [->|]; reflexivity.
  - intros q Hq. destruct (acts_cnt q a ms tt Hq) as (A1 & A2 & A3). destruct (cnt_quiet q _ Qb) as (B1 & B2 & B3).
    rewrite cnt_cons, !cnt_app, A2, (cnt_perm _ _ _ _ (resolve_perm p b)), B2. fold b. rewrite ?B2. change (buffer nd') with (@nil pmsg).
    replace (tokU q (if q =? p then nd' else nodes s q)) with (tokU q (nodes s q)); [cbn [map isSetup b2n]; rewrite ?cnt_nil; lia|].
    destruct (Nat.eqb_spec q p) as [->|]; [|reflexivity]. unfold tokU. rewrite HL. reflexivity.
  - intros q Hq. destruct (acts_cnt q a ms tt Hq) as (A1 & A2 & A3). destruct (cnt_quiet q _ Qb) as (B1 & B2 & B3).
    rewrite cnt_cons, !cnt_app, A3, (cnt_perm _ _ _ _ (resolve_perm p b)), B3, app_length. fold b. rewrite ?B3. change (buffer nd') with (@nil pmsg).
    replace (rotated (if q =? p then nd' else nodes s q)) with (rotated (nodes s q)); [cbn [map isCD b2n]; rewrite ?cnt_nil; destruct (helpers cf); lia|].
    destruct (Nat.eqb_spec q p) as [->|]; reflexivity.
Qed.

(** Handlers that only move messages around or change fields the reduction does not look at. *)
Lemma inv_passive : forall s p m rest nd',
  inv s -> p < N -> mail (nodes s p) = m :: rest ->
  let nd := with_mail (nodes s p) rest in let e := handle cf p nd m in
  e_node e = nd' -> e_panic e = false -> e_finals e = [] -> helper_answer cf p nd m = [] ->
  Forall (fun x => fst x < N) (e_sends e) ->
  started nd' = started nd -> local nd' = local nd -> r_count nd' = r_count nd ->
  nodeinv nd' ->
  Permutation (filter isRm (e_sends e ++ map (pair p) (buffer nd'))) (filter isRm ((p, m) :: map (pair p) (buffer nd))) ->
  (forall q, q < N -> cnt (isStart q) (e_sends e) = cnt (isStart q) [(p, m)]) ->
  (forall q, q < N -> cnt (isSetup q) (e_sends e) = cnt (isSetup q) [(p, m)]) ->
  (forall q, q < N -> cnt (isCD q) (e_sends e) + rotated (if q =? p then nd' else nodes s q) = cnt (isCD q) [(p, m)] + rotated (nodes s q)) ->
  inv (process cf p s m rest).
Proof.
  intros s p m rest nd' HI Hp Hm nd e En Epn Ef Ea Hd E1 E2 E3 Hn PR TS TU TC.
  pose proof (v_node _ HI p Hp) as (W1 & W2 & W3 & W4 & W5 & W6 & W7).
  assert (Qb : Forall quiet (map (pair p) (buffer (nodes s p)))) by (apply quiet_map; exact W6).
  assert (Qb' : Forall quiet (map (pair p) (buffer nd'))) by (apply quiet_map; apply Hn).
  eapply (inv_process s p m rest nd'); auto; fold nd; fold e; rewrite ?Ea, ?Ef; cbn [map app].
  - rewrite En. apply sameC_refl.
  - intros Y PY. rewrite app_nil_r. eapply ainv_ext; [exact (v_a _ HI)| | |].
    + intros q. unfold updf. destruct (Nat.eqb_spec q p) as [->|]; [rewrite E2; reflexivity|reflexivity].
    + intros q. unfold updf. destruct (Nat.eqb_spec q p) as [->|]; [rewrite E3; reflexivity|reflexivity].
    + assert (HA : Permutation (filter isRm (flight N s)) (filter isRm ((p, m) :: map (pair p) (buffer nd)) ++ filter isRm Y)).
      { rewrite <- filter_app. apply filter_perm. exact PY. }
      rewrite HA, filter_app. apply Permutation_app_tail. exact PR.
  - intros q Hq. destruct (cnt_quiet q _ Qb) as (B1 & _). destruct (cnt_quiet q _ Qb') as (B1' & _).
    rewrite cnt_cons, cnt_app, B1, B1'. specialize (TS q Hq). rewrite cnt_cons, cnt_nil in TS. rewrite TS.
    replace (tokS q (if q =? p then nd' else nodes s q)) with (tokS q (nodes s q)); [lia|].
    destruct (Nat.eqb_spec q p) as [->|]; [unfold tokS; rewrite E1; reflexivity|reflexivity].
  - intros q Hq. destruct (cnt_quiet q _ Qb) as (_ & B1 & _). destruct (cnt_quiet q _ Qb') as (_ & B1' & _).
    rewrite cnt_cons, cnt_app, B1, B1'. specialize (TU q Hq). rewrite cnt_cons, cnt_nil in TU. rewrite TU.
    replace (tokU q (if q =? p then nd' else nodes s q)) with (tokU q (nodes s q)); [lia|].
    destruct (Nat.eqb_spec q p) as [->|]; [unfold tokU; rewrite E1, E2; reflexivity|reflexivity].
  - intros q Hq. destruct (cnt_quiet q _ Qb) as (_ & _ & B1). destruct (cnt_quiet q _ Qb') as (_ & _ & B1').
    rewrite cnt_cons, cnt_app, B1, B1', app_nil_r. specialize (TC q Hq). rewrite cnt_cons, cnt_nil in TC. destruct (helpers cf); lia.
Qed.

Lemma in_flight : forall s p m rest, p < N -> mail (nodes s p) = m :: rest -> In (p, m) (flight N s).
Proof.
  intros s p m rest Hp Hm. unfold flight. apply in_app_iff. right. apply in_flat_map. exists p. split; [apply in_seq; lia|].
  apply in_map. unfold contents. rewrite Hm. now left.
Qed.

Lemma fin_all : forall s, inv s -> finals s <> [] -> forall p, p < N -> local (nodes s p) <> None.
Proof.
  intros s HI Hf p Hp. destruct (a_fin _ _ _ _ _ (v_a _ HI)) as [(E & _)|(m & t & _ & E2 & E3)]; [contradiction|].
  apply (a_leafL _ _ _ _ _ (v_a _ HI) 0 t p E2).
  destruct (a_node _ _ _ _ _ (v_a _ HI) 0 t ltac:(lia) E2) as (PL & _). rewrite E3, seg_K in PL.
  eapply Permutation_in; [symmetry; exact PL|]. apply in_seq. lia.
Qed.

Lemma inv_step : forall s s', inv s -> nobody_early cf s -> step cf s s' -> inv s'.
Proof.
  intros s s' HI Hearly Hs. destruct Hs as [s before src d m after Hn _|s p m rest Hp Hm].
  - (* arrival *)
    assert (Hd : d < N).
    { pose proof (v_dst _ HI) as Hd. rewrite Hn, Forall_app in Hd. destruct Hd as (_ & Hd). inversion Hd; subst. cbn in *. assumption. }
    set (s' := {| nodes := upd (nodes s) d (with_mail (nodes s d) (mail (nodes s d) ++ [m])); net := before ++ after; finals := finals s; panicked := panicked s |}).
    assert (PF : Permutation (flight N s') (flight N s)).
    { set (s0 := {| nodes := nodes s; net := before ++ after; finals := finals s; panicked := panicked s |}).
      assert (E : Permutation (flight N s) ((d, m) :: flight N s0)).
      { unfold flight. rewrite Hn. cbn [nodes net s0]. rewrite !map_app. cbn [map dm]. rewrite <- !app_assoc. cbn [app]. symmetry. apply Permutation_middle. }
      rewrite E. rewrite <- (flight_post cf N d s0 d m Hd). unfold post. rewrite Nat.eqb_refl, orb_true_r. reflexivity. }
    assert (Sn : forall q, sameC (nodes s' q) (nodes s q)).
    { intros q. cbn [nodes s']. destruct (Nat.eq_dec q d) as [->|]; [rewrite upd_eq|rewrite upd_neq by assumption; apply sameC_refl].
      unfold sameC. cbn. ssplit; reflexivity. }
    apply (inv_update s s' d (nodes s d) (flight N s) (flight N s) [] (finals s)); auto; rewrite ?app_nil_r; auto.
    + exact (v_panic _ HI).
    + cbn [net s']. pose proof (v_dst _ HI) as Hd0. rewrite Hn, Forall_app in Hd0. rewrite Forall_app. destruct Hd0 as (H1 & H2). inversion H2; subst. auto.
    + eapply ainv_ext; [exact (v_a _ HI)| | |reflexivity]; intros q; unfold updf; destruct (Nat.eqb_spec q d) as [->|]; reflexivity.
    + exact (v_node _ HI d Hd).
    + intros q Hq. destruct (Nat.eqb_spec q d) as [->|]; reflexivity.
    + intros q Hq. destruct (Nat.eqb_spec q d) as [->|]; reflexivity.
    + intros q Hq. destruct (Nat.eqb_spec q d) as [->|]; reflexivity.
  - pose proof (in_flight s p m rest Hp Hm) as Hin.
    pose proof (v_node _ HI p Hp) as (W1 & W2 & W3 & W4 & W5 & W6 & W7).
    set (nd := with_mail (nodes s p) rest).
    destruct m as [| |i|t c|ms t|].
    + (* Start *)
      pose proof (cnt_pos _ (isStart p) _ _ Hin (Nat.eqb_refl p)) as HT. rewrite (v_start _ HI p Hp) in HT.
      assert (Hst : started (nodes s p) = false) by (unfold tokS in HT; destruct (started (nodes s p)); [cbn in HT; lia|reflexivity]).
      assert (Hps : (p <? n_setup cf) = true) by (unfold tokS in HT; destruct (p <? n_setup cf); [reflexivity|rewrite andb_false_r in HT; cbn in HT; lia]).
      destruct (W1 Hst) as (HL & Hnr). pose proof (Hearly p Hp Hst) as Hb.
      destruct (multi cf) eqn:Emul.
      * set (nd1 := {| started := true; local := None; r_count := 0; means := None; buffer := []; means_buffer := [];
                n_reduced := n_reduced nd + 1; rotated := rotated nd; mail := mail nd |}).
        assert (He : handle cf p nd Start = no_effect nd1) by (cbn [handle]; unfold run_pca; rewrite Emul; reflexivity).
        eapply (inv_process s p Start rest nd1); auto; fold nd; rewrite ?He; cbn [helper_answer no_effect e_node e_sends e_finals e_panic map app]; rewrite ?Emul.
        -- apply sameC_refl.
        -- reflexivity.
        -- constructor.
        -- intros Y PY. rewrite (app_nil_r (finals s)). eapply ainv_ext; [exact (v_a _ HI)| | |].
           ++ intros q. unfold updf. destruct (Nat.eqb_spec q p) as [->|]; [symmetry; exact HL|reflexivity].
           ++ intros q. unfold updf. destruct (Nat.eqb_spec q p) as [->|]; [symmetry; apply (a_none _ _ _ _ _ (v_a _ HI)); exact HL|reflexivity].
           ++ rewrite (filter_perm _ isRm _ _ PY), Hb. reflexivity.
        -- unfold nodeinv. cbn [nd1 started local n_reduced means buffer means_buffer r_count]. change (n_reduced nd) with (n_reduced (nodes s p)).
           rewrite Hnr. ssplit; try discriminate; auto; try contradiction; try (intros ? ? _ []); try (intros ? []).
           all: intros; rewrite Emul; apply orb_true_r.
        -- intros q Hq. rewrite Hb. cbn [map app dm nd1 buffer]. rewrite !cnt_cons, !cnt_nil. cbn [isStart].
           unfold tokS. destruct (Nat.eqb_spec q p) as [->|Hqp].
           ++ cbn [nd1 started]. rewrite Hst, Hps, Nat.eqb_refl. reflexivity.
           ++ replace (p =? q) with false by (symmetry; apply Nat.eqb_neq; auto). cbn. lia.
        -- intros q Hq. rewrite Hb. cbn [map app dm nd1 buffer]. rewrite !cnt_cons, !cnt_nil. cbn [isSetup].
           unfold tokU. destruct (Nat.eqb_spec q p) as [->|Hqp].
           ++ cbn [nd1 started local isN]. rewrite ?Hst, ?Hps, ?Nat.eqb_refl. reflexivity.
           ++ replace (p =? q) with false by (symmetry; apply Nat.eqb_neq; auto). cbn. lia.
        -- intros q Hq. rewrite Hb. cbn [map app dm nd1 buffer]. rewrite !cnt_cons, !cnt_nil. cbn [isCD].
           destruct (Nat.eqb_spec q p) as [->|Hqp]; cbn; destruct (helpers cf); rewrite ?app_nil_r; lia.
      * eapply (inv_setup s p Start rest {| started := true; local := None; r_count := 0; means := None; buffer := []; means_buffer := [];
                n_reduced := n_reduced nd + 1; rotated := rotated nd; mail := mail nd |} []); auto; cbn [handle helper_answer].
        -- unfold run_pca. rewrite Emul. reflexivity.
        -- rewrite Emul. reflexivity.
        -- cbn [n_reduced]. change (n_reduced nd) with (n_reduced (nodes s p)). rewrite Hnr. reflexivity.
        -- intros x [].
        -- intros q Hq. rewrite cnt_cons, cnt_nil. cbn [isStart]. unfold tokS. rewrite Nat.eqb_sym. destruct (Nat.eqb_spec q p) as [->|]; [rewrite Hst, Hps; reflexivity|cbn; lia].
        -- intros q Hq. rewrite cnt_cons, cnt_nil. cbn [isSetup]. unfold tokU. destruct (Nat.eqb_spec q p) as [->|]; [rewrite Hst; reflexivity|cbn; lia].
    + (* Setup *)
      pose proof (cnt_pos _ (isSetup p) _ _ Hin (Nat.eqb_refl p)) as HT. rewrite (v_setup _ HI p Hp) in HT. unfold tokU in HT.
      assert (Hst : started (nodes s p) = true) by (destruct (started (nodes s p)); [reflexivity|cbn in HT; lia]).
      assert (HL : local (nodes s p) = None) by (destruct (local (nodes s p)); [rewrite Hst in HT; cbn in HT; lia|reflexivity]).
      assert (Hps : (p <? n_setup cf) = true) by (destruct (p <? n_setup cf); [reflexivity|rewrite andb_false_r in HT; cbn in HT; lia]).
      eapply (inv_setup s p Setup rest nd []); auto.
      * apply (a_none _ _ _ _ _ (v_a _ HI)). exact HL.
      * intros q Hq. rewrite cnt_cons, cnt_nil. cbn [isStart]. unfold tokS. destruct (Nat.eqb_spec q p) as [->|]; [rewrite Hst; reflexivity|cbn; lia].
      * intros q Hq. rewrite cnt_cons, cnt_nil. cbn [isSetup]. unfold tokU. rewrite Nat.eqb_sym. destruct (Nat.eqb_spec q p) as [->|]; [rewrite Hst, HL, Hps; reflexivity|cbn; lia].
    + (* Means *)
      assert (Hh : exists nd', handle cf p nd (Means i) = no_effect nd' /\ started nd' = started nd /\ local nd' = local nd /\ r_count nd' = r_count nd
                  /\ n_reduced nd' = n_reduced nd /\ rotated nd' = rotated nd /\ (means nd <> None -> means nd' <> None)
                  /\ (buffer nd' = buffer nd \/ buffer nd' = buffer nd ++ [Means i])
                  /\ (means_buffer nd' = means_buffer nd \/ means_buffer nd' = means_buffer nd ++ [Means i])).
      { cbn [handle]. destruct (helpers cf && _); [|destruct (means nd) eqn:Em]; eexists; (split; [reflexivity|]); cbn; ssplit; auto; try discriminate; congruence. }
      destruct Hh as (nd' & Eh & E1 & E2 & E3 & E4 & E5 & E6 & E7 & E8).
      eapply (inv_passive s p (Means i) rest nd'); auto; fold nd; rewrite ?Eh; cbn [no_effect e_node e_sends e_finals e_panic]; auto.
      * unfold nodeinv. rewrite E1, E2, E3, E4. ssplit; auto.
        -- intros t c Hl Hin'. destruct E7 as [E7|E7]; rewrite E7 in Hin'; [eapply W5; eauto|]. apply in_app_iff in Hin'. destruct Hin' as [Hin'|[Hin'|[]]]; [eapply W5; eauto|discriminate].
        -- intros x Hx. destruct E7 as [E7|E7]; rewrite E7 in Hx; [exact (W6 x Hx)|]. apply in_app_iff in Hx. destruct Hx as [Hx|[<-|[]]]; [exact (W6 x Hx)|exact I].
        -- intros x Hx. destruct E8 as [E8|E8]; rewrite E8 in Hx; [exact (W7 x Hx)|]. apply in_app_iff in Hx. destruct Hx as [Hx|[<-|[]]]; [exact (W7 x Hx)|exact I].
      * cbn [app filter isRm]. destruct E7 as [E7|E7]; rewrite E7; [reflexivity|]. rewrite map_app, filter_app. cbn [map filter isRm]. rewrite app_nil_r. reflexivity.
      * intros q Hq. cbn. destruct (Nat.eqb_spec q p) as [->|]; [rewrite E5; reflexivity|reflexivity].
    + (* R *)
      destruct (local (nodes s p)) as [l|] eqn:HL.
      * destruct (Nat.eq_dec c (r_count (nodes s p) + 1)) as [Ec|Ec].
        -- eapply inv_merge; eauto.
        -- assert (Eh : handle cf p nd (R t c) = no_effect (with_buffers nd (buffer nd ++ [R t c]) (means_buffer nd))).
           { cbn [handle]. replace (local nd) with (Some l) by (symmetry; exact HL). replace (r_count nd) with (r_count (nodes s p)) by reflexivity.
             destruct (Nat.eqb_spec c (r_count (nodes s p) + 1)); [contradiction|reflexivity]. }
           eapply (inv_passive s p (R t c) rest (with_buffers nd (buffer nd ++ [R t c]) (means_buffer nd))); auto; fold nd; rewrite ?Eh; cbn [no_effect e_node e_sends e_finals e_panic]; auto.
           ++ unfold nodeinv. cbn [with_buffers nd with_mail started local n_reduced means buffer means_buffer r_count]. rewrite HL. ssplit; auto.
              ** intros t' c' Hl Hin'. apply in_app_iff in Hin'. destruct Hin' as [Hin'|[Hin'|[]]]; [eapply W5; eauto|]. injection Hin' as <- <-. exact Ec.
              ** intros x Hx. apply in_app_iff in Hx. destruct Hx as [Hx|[<-|[]]]; [exact (W6 x Hx)|exact I].
           ++ cbn [app with_buffers buffer]. rewrite map_app. cbn [map]. apply filter_perm. symmetry. apply Permutation_cons_append.
           ++ intros q Hq. cbn. destruct (Nat.eqb_spec q p) as [->|]; reflexivity.
      * assert (Eh : handle cf p nd (R t c) = no_effect (with_buffers nd (buffer nd ++ [R t c]) (means_buffer nd))).
        { cbn [handle]. replace (local nd) with (@None rtree) by (symmetry; exact HL). reflexivity. }
        eapply (inv_passive s p (R t c) rest (with_buffers nd (buffer nd ++ [R t c]) (means_buffer nd))); auto; fold nd; rewrite ?Eh; cbn [no_effect e_node e_sends e_finals e_panic]; auto.
        -- unfold nodeinv. cbn [with_buffers nd with_mail started local n_reduced means buffer means_buffer r_count]. rewrite HL. ssplit; auto.
           ++ intros x Hx. apply in_app_iff in Hx. destruct Hx as [Hx|[<-|[]]]; [exact (W6 x Hx)|exact I].
        -- cbn [app with_buffers buffer]. rewrite map_app. cbn [map]. apply filter_perm. symmetry. apply Permutation_cons_append.
        -- intros q Hq. cbn. destruct (Nat.eqb_spec q p) as [->|]; reflexivity.
    + (* Components *)
      eapply (inv_passive s p (Components ms t) rest nd); auto; fold nd; cbn [handle e_node e_sends e_finals e_panic]; auto.
      * exact (v_node _ HI p Hp).
      * intros q Hq. rewrite !cnt_cons, !cnt_nil. cbn [isCD]. destruct (Nat.eqb_spec q p) as [->|]; reflexivity.
    + (* Done *)
      pose proof (cnt_pos _ (isCD p) _ _ Hin (Nat.eqb_refl p)) as HT. pose proof (v_comp _ HI p Hp) as HC.
      assert (Hf : finals s <> []) by (destruct (helpers cf); [lia|]; destruct (finals s); [cbn in HC; lia|discriminate]).
      pose proof (fin_all s HI Hf p Hp) as HL.
      assert (Hst : started (nodes s p) = true) by (destruct (started (nodes s p)); [reflexivity|destruct (W1 eq_refl); contradiction]).
      assert (Hnr : (n_reduced nd <? channels cf) = false) by (change (n_reduced nd) with (n_reduced (nodes s p)); rewrite (W2 Hst), Hch; reflexivity).
      set (nd' := {| started := started nd; local := local nd; r_count := r_count nd; means := means nd; buffer := buffer nd;
                     means_buffer := means_buffer nd; n_reduced := n_reduced nd; rotated := rotated nd + 1; mail := mail nd |}).
      assert (Eh : handle cf p nd Done = no_effect nd') by (cbn [handle]; rewrite Hnr; reflexivity).
      eapply (inv_passive s p Done rest nd'); auto; fold nd; rewrite ?Eh; cbn [no_effect e_node e_sends e_finals e_panic helper_answer]; auto.
      * rewrite Hnr, andb_false_r. reflexivity.
      * exact (v_node _ HI p Hp).
      * intros q Hq. rewrite cnt_cons, !cnt_nil. cbn [isCD]. rewrite (Nat.eqb_sym p q). destruct (Nat.eqb_spec q p) as [->|]; cbn [nd' rotated b2n]; try change (rotated nd) with (rotated (nodes s p)); lia.
Qed.

Lemma flat_map_nil : forall A B (f : A -> list B) l, (forall x, In x l -> f x = []) -> flat_map f l = [].
Proof. intros A B f l H. induction l as [|a t IH]; [reflexivity|]. cbn. rewrite (H a), IH; cbn; auto. intros. apply H. cbn. auto. Qed.

Lemma cnt_seq : forall (f : nat -> nat * pmsg) g p n a, (forall j, g (f j) = (j =? p)) ->
  cnt g (map f (seq a n)) = b2n ((a <=? p) && (p <? a + n)).
Proof.
  intros f g p n. induction n as [|n IH]; intros a Hg; cbn [seq map].
  - rewrite cnt_nil. destruct (Nat.leb_spec a p), (Nat.ltb_spec p (a + 0)); cbn; lia.
  - rewrite cnt_cons, IH, Hg by exact Hg.
    destruct (Nat.eqb_spec a p), (Nat.leb_spec (S a) p), (Nat.leb_spec a p), (Nat.ltb_spec p (S a + n)), (Nat.ltb_spec p (a + S n)); cbn; lia.
Qed.

Lemma inv_init : inv (initial cf).
Proof.
  unfold initial. destruct (helpers cf) eqn:Eh.
  - set (s := {| nodes := _ |}).
    assert (EF : flight N s = map (fun p => (p, Setup)) (seq 0 (n_setup cf))).
    { unfold flight, s, contents. cbn [net nodes mail buffer map app].
      replace N with (n_setup cf + (N - n_setup cf)) by lia. rewrite seq_app, flat_map_app.
      rewrite (flat_map_nil _ _ _ (seq (0 + n_setup cf) (N - n_setup cf))).
      2:{ intros x Hx. apply in_seq in Hx. destruct (Nat.ltb_spec x (n_setup cf)); [lia|reflexivity]. }
      rewrite app_nil_r.
      assert (G : forall l, (forall x, In x l -> x < n_setup cf) ->
        flat_map (fun p => map (pair p) ((if p <? n_setup cf then [Setup] else []) ++ [])) l = map (fun p => (p, Setup)) l).
      { induction l as [|a t IH]; intros Hl; [reflexivity|]. cbn [flat_map map].
        rewrite IH by (intros; apply Hl; now right). destruct (Nat.ltb_spec a (n_setup cf)); [reflexivity|].
        specialize (Hl a (or_introl eq_refl)). lia. }
      apply G. intros x Hx. apply in_seq in Hx. lia. }
    assert (HnoR : forall p t c, ~ In (p, R t c) (flight N s)).
    { intros p t c Hi. rewrite EF in Hi. apply in_map_iff in Hi. destruct Hi as (x & E & _). discriminate. }
    constructor; auto.
    + constructor; cbn [finals s]; try (intros; exfalso; eapply HnoR; eassumption); unfold Lf, Cf, s; cbn [nodes local r_count]; try (intros; discriminate); auto.
      * intros p c. rewrite cntR_zero; [lia|]. intros t. apply HnoR.
      * intros q c _ (A & _). exfalso. now apply A.
      * intros p c _ A. now contradict A.
      * left. split; [reflexivity|]. intros A. now contradict A.
    + constructor.
    + intros p Hp. unfold nodeinv, s. cbn [nodes started local n_reduced means buffer means_buffer]. rewrite Eh. ssplit; auto; try discriminate; try contradiction; try (intros ? ? _ []); intros ? [].
    + intros p Hp. rewrite EF. unfold tokS. cbn. apply cnt_zero. intros x Hx. apply in_map_iff in Hx. destruct Hx as (y & <- & _). reflexivity.
    + intros p Hp. rewrite EF. unfold tokU. cbn [s nodes started local isN andb]. rewrite (cnt_seq _ _ p) by reflexivity. cbn. reflexivity.
    + intros p Hp. rewrite EF, Eh. cbn [s nodes rotated]. rewrite cnt_zero; [reflexivity|]. intros x Hx. apply in_map_iff in Hx. destruct Hx as (y & <- & _). reflexivity.
  - set (s := {| nodes := _ |}).
    assert (EF : flight N s = map (fun p => (p, Start)) (seq 0 (n_setup cf))).
    { unfold flight, s, contents. cbn [net nodes idle_node mail buffer map app].
      rewrite (flat_map_nil _ _ _ (seq 0 N)) by reflexivity. rewrite app_nil_r, map_map. reflexivity. }
    assert (HnoR : forall p t c, ~ In (p, R t c) (flight N s)).
    { intros p t c Hi. rewrite EF in Hi. apply in_map_iff in Hi. destruct Hi as (x & E & _). discriminate. }
    constructor; auto.
    + constructor; cbn [finals s]; try (intros; exfalso; eapply HnoR; eassumption); unfold Lf, Cf, s; cbn [nodes idle_node local r_count]; try (intros; discriminate); auto.
      * intros p c. rewrite cntR_zero; [lia|]. intros t. apply HnoR.
      * intros q c _ (A & _). exfalso. now apply A.
      * intros p c _ A. now contradict A.
      * left. split; [reflexivity|]. intros A. now contradict A.
    + cbn [s net]. rewrite Forall_forall. intros x Hx. apply in_map_iff in Hx. destruct Hx as (y & <- & Hy). apply in_seq in Hy. cbn. lia.
    + intros p Hp. unfold nodeinv, s. cbn [nodes idle_node started local n_reduced means buffer means_buffer]. ssplit; auto; try discriminate; try contradiction; try (intros ? ? _ []); intros ? [].
    + intros p Hp. rewrite EF. unfold tokS. cbn [s nodes idle_node started negb andb]. rewrite (cnt_seq _ _ p) by reflexivity. reflexivity.
    + intros p Hp. rewrite EF. unfold tokU. cbn. apply cnt_zero. intros x Hx. apply in_map_iff in Hx. destruct Hx as (y & <- & _). reflexivity.
    + intros p Hp. rewrite EF, Eh. cbn [s nodes idle_node rotated finals length]. rewrite cnt_zero; [reflexivity|]. intros x Hx. apply in_map_iff in Hx. destruct Hx as (y & <- & _). reflexivity.
Qed.

Lemma early_init : nobody_early cf (initial cf).
Proof. intros p Hp. unfold initial. destruct (helpers cf); cbn; [discriminate|reflexivity]. Qed.

Lemma reach_inv : forall s, reachable cf (nobody_early cf) s -> inv s /\ nobody_early cf s.
Proof.
  intros s H. induction H as [|s s' _ (I1 & I2) Hs Hok]; [split; [apply inv_init|apply early_init]|].
  split; [eapply inv_step; eauto|exact Hok].
Qed.

Lemma inv_safe : forall s, inv s ->
  panicked s = false /\ length (finals s) <= 1 /\ Forall (fun o => Permutation (leaves (snd o)) (seq 0 N)) (finals s).
Proof.
  intros s HI. split; [apply (v_panic _ HI)|].
  destruct (a_fin _ _ _ _ _ (v_a _ HI)) as [(E & _)|(m & t & E & E2 & E3)]; rewrite E; cbn [length]; split; try lia; repeat constructor.
  cbn [snd]. destruct (a_node _ _ _ _ _ (v_a _ HI) 0 t ltac:(lia) E2) as (PL & _). now rewrite E3, seg_K in PL.
Qed.

Lemma inv_done : forall s, inv s -> n_setup cf = N -> quiescent cf s ->
  length (finals s) = 1 /\ (helpers cf = false -> forall p, p < N -> rotated (nodes s p) = 1).
Proof.
  intros s HI HsN (Qn & Qm).
  assert (HF : forall p m, In (p, m) (flight N s) -> p < N /\ In m (buffer (nodes s p))).
  { intros p m Hi. unfold flight in Hi. rewrite Qn in Hi. cbn [map app] in Hi. apply in_flat_map in Hi.
    destruct Hi as (q & Hq & Hi). apply in_seq in Hq. apply in_map_iff in Hi. destruct Hi as (m' & E & Hi). injection E as -> ->.
    unfold contents in Hi. rewrite Qm in Hi by lia. split; [lia|exact Hi]. }
  assert (Qf : Forall quiet (flight N s)).
  { rewrite Forall_forall. intros [p m] Hi. destruct (HF _ _ Hi) as (Hp & Hb). destruct (v_node _ HI p Hp) as (_ & _ & _ & _ & _ & W6 & _).
    exact (W6 m Hb). }
  assert (Hall : forall p, p < N -> Lf s p <> None).
  { intros p Hp. destruct (cnt_quiet p _ Qf) as (C1 & C2 & _). rewrite (v_start _ HI p Hp) in C1. rewrite (v_setup _ HI p Hp) in C2.
    unfold tokS in C1. unfold tokU in C2. assert (Hl : (p <? n_setup cf) = true) by (apply Nat.ltb_lt; lia). rewrite Hl in *.
    unfold Lf. destruct (started (nodes s p)); [|cbn in C1; lia]. destruct (local (nodes s p)); [discriminate|cbn in C2; lia]. }
  destruct (all_sent N HN _ _ _ _ (v_a _ HI) Hall) as (m & t & E & _).
  { intros p t c Hi. destruct (HF _ _ Hi) as (Hp & Hb). destruct (v_node _ HI p Hp) as (_ & _ & _ & _ & W5 & _).
    apply (W5 t c); [apply Hall; exact Hp|exact Hb]. }
  split; [now rewrite E|]. intros Eh p Hp. pose proof (v_comp _ HI p Hp) as VC. rewrite Eh, E in VC.
  destruct (cnt_quiet p _ Qf) as (_ & _ & C3). cbn in VC. lia.
Qed.


Lemma process_core : forall s p m rest q,
  sameC (nodes (process cf p s m rest) q) (if q =? p then e_node (handle cf p (with_mail (nodes s p) rest) m) else nodes s q).
Proof.
  intros. unfold process. eapply sameC_trans; [apply fold_core|]. cbn [nodes]. unfold upd. apply sameC_refl.
Qed.

(** A node that is never set up never has a factor. *)
Lemma never_step : forall s s' p0, inv s -> step cf s s' -> p0 < N -> n_setup cf <= p0 -> local (nodes s p0) = None -> local (nodes s' p0) = None.
Proof.
  intros s s' p0 HI Hs Hp0 Hge HL. destruct Hs as [s before src d m after Hn _|s p m rest Hp Hm].
  - cbn [nodes]. unfold upd. destruct (Nat.eqb_spec p0 d) as [->|]; [exact HL|exact HL].
  - destruct (process_core s p m rest p0) as (_ & E & _). rewrite E. destruct (Nat.eqb_spec p0 p) as [->|]; [|exact HL].
    pose proof (in_flight s p m rest Hp Hm) as Hin.
    assert (Hlt : (p <? n_setup cf) = false) by (apply Nat.ltb_ge; lia).
    destruct m as [| |i|t c|ms t|]; cbn [handle].
    + pose proof (cnt_pos _ (isStart p) _ _ Hin (Nat.eqb_refl p)) as HT. rewrite (v_start _ HI p Hp) in HT. unfold tokS in HT.
      rewrite Hlt, andb_false_r in HT. cbn in HT. lia.
    + pose proof (cnt_pos _ (isSetup p) _ _ Hin (Nat.eqb_refl p)) as HT. rewrite (v_setup _ HI p Hp) in HT. unfold tokU in HT.
      rewrite Hlt, andb_false_r in HT. cbn in HT. lia.
    + destruct (helpers cf && _); [exact HL|]. destruct (means _); exact HL.
    + change (local (with_mail (nodes s p) rest)) with (local (nodes s p)). rewrite HL. exact HL.
    + exact HL.
    + pose proof (cnt_pos _ (isCD p) _ _ Hin (Nat.eqb_refl p)) as HT. pose proof (v_comp _ HI p Hp) as HC.
      assert (Hf : finals s <> []) by (destruct (helpers cf); [lia|]; destruct (finals s); [cbn in HC; lia|discriminate]).
      now apply (fin_all s HI Hf) in HL.
Qed.

Lemma never_reach : forall s p0, reachable cf (nobody_early cf) s -> p0 < N -> n_setup cf <= p0 -> finals s = [].
Proof.
  intros s p0 H Hp0 Hge.
  assert (HL : local (nodes s p0) = None).
  { induction H as [|s s' Hr IH Hs Hok].
    - unfold initial. destruct (helpers cf); reflexivity.
    - eapply never_step; eauto. now apply reach_inv. }
  destruct (reach_inv s H) as (HI & _). destruct (finals s) eqn:E; [reflexivity|]. exfalso.
  apply (fin_all s HI) in HL; [exact HL|congruence|exact Hp0].
Qed.

(** ** Termination *)
Definition Wm (m : pmsg) : nat := match m with Components _ _ => 2 | _ => 1 end.
Definition sum (l : list nat) := fold_right Nat.add 0 l.
Definition wmail (nd : node) := sum (map Wm (mail nd)).
Definition W (s : pstate) : nat := sum (map (fun x => S (Wm (snd (dm x)))) (net s)) + sum (map (fun p => wmail (nodes s p)) (seq 0 N)).
Definition pn (nd : node) : nat := b2n (negb (started nd)) + b2n (isN (local nd)) + (Nat.log2_up N + 1 - r_count nd).
Definition P (s : pstate) : nat := sum (map (fun p => pn (nodes s p)) (seq 0 N)).

Lemma sum_app : forall a b, sum (a ++ b) = sum a + sum b.
Proof. unfold sum. induction a as [|x t IH]; intros b; cbn; [reflexivity|]. rewrite IH. lia. Qed.

Lemma sum_upd : forall (f : node -> nat) g p v, p < N ->
  sum (map (fun q => f (upd g p v q)) (seq 0 N)) + f (g p) = sum (map (fun q => f (g q)) (seq 0 N)) + f v.
Proof.
  intros f g p v Hp. replace N with (p + S (N - S p)) by lia. rewrite seq_app, !map_app, !sum_app. cbn [seq map].
  replace (0 + p) with p by lia. rewrite upd_eq.
  assert (G : forall l, ~ In p l -> map (fun q => f (upd g p v q)) l = map (fun q => f (g q)) l).
  { intros l Hl. apply map_ext_in. intros q Hq. rewrite upd_neq; [reflexivity|]. intros ->. contradiction. }
  rewrite !G by (rewrite in_seq; lia).
  change (sum (f v :: map (fun q => f (g q)) (seq (S p) (N - S p)))) with (f v + sum (map (fun q => f (g q)) (seq (S p) (N - S p)))).
  change (sum (f (g p) :: map (fun q => f (g q)) (seq (S p) (N - S p)))) with (f (g p) + sum (map (fun q => f (g q)) (seq (S p) (N - S p)))). lia.
Qed.

Lemma decide_mono : forall p c, c <= fst (decide N p c).
Proof.
  intros p c. unfold decide. destruct (_ && _); cbn; [lia|]. destruct (c =? 0) eqn:E; cbn; [|lia]. apply Nat.eqb_eq in E.
  destruct (_ <=? _); cbn; lia.
Qed.

Lemma sof_node : forall p nd t, e_node (send_or_finalize cf p nd t) = with_factor nd (Some t) (fst (decide N p (r_count nd))).
Proof.
  intros. unfold send_or_finalize. destruct (decide _ _ _) as [c a]. destruct a; cbn; [destruct (_ && _)|destruct (means nd)|]; reflexivity.
Qed.

Lemma on_setup_pn : forall p nd, local nd = None -> r_count nd = 0 -> started nd = true -> pn (e_node (on_setup cf p nd)) < Nat.log2_up N + 2.
Proof.
  intros p nd HL Hr Hst. unfold on_setup, pn. destruct (helpers cf || multi cf); cbn [e_node with_buffers started local r_count isN];
    rewrite sof_node; cbn [with_factor with_means started local r_count isN]; rewrite Hst; cbn; lia.
Qed.

Lemma W_process_quiet : forall s p m rest e, p < N -> mail (nodes s p) = m :: rest ->
  handle cf p (with_mail (nodes s p) rest) m = e -> helper_answer cf p (with_mail (nodes s p) rest) m = [] ->
  (e_sends e = [] \/ exists ms t, m = Components ms t /\ e_sends e = [(p, Done)]) ->
  W (process cf p s m rest) < W s.
Proof.
  intros s p m rest e Hp Hm He Ha Hs. unfold process. rewrite He, Ha, app_nil_r.
  assert (Em : mail (e_node e) = rest) by (rewrite <- He, handle_mail; reflexivity).
  pose proof (sum_upd wmail (nodes s) p (e_node e) Hp) as S1.
  assert (E1 : wmail (nodes s p) = Wm m + sum (map Wm rest)) by (unfold wmail; rewrite Hm; reflexivity).
  assert (E2 : wmail (e_node e) = sum (map Wm rest)) by (unfold wmail; now rewrite Em).
  destruct Hs as [Hs|(ms & t & -> & Hs)]; rewrite Hs; cbn [fold_left].
  - unfold W. cbn [net nodes]. assert (1 <= Wm m) by (destruct m; cbn; lia). lia.
  - unfold post. rewrite Nat.eqb_refl, orb_true_r. unfold W. cbn [net nodes].
    pose proof (sum_upd wmail (upd (nodes s) p (e_node e)) p (with_mail (upd (nodes s) p (e_node e) p) (mail (upd (nodes s) p (e_node e) p) ++ [Done])) Hp) as S2.
    rewrite !upd_eq in *.
    assert (E3 : wmail (with_mail (e_node e) (mail (e_node e) ++ [Done])) = sum (map Wm rest) + 1).
    { unfold wmail. cbn [with_mail mail]. rewrite map_app, sum_app, Em. reflexivity. }
    rewrite E3 in S2. cbn [Wm] in E1. lia.
Qed.

Lemma decreases : forall s s', inv s -> nobody_early cf s -> step cf s s' -> P s' < P s \/ (P s' = P s /\ W s' < W s).
Proof.
  intros s s' HI Hearly Hs. destruct Hs as [s before src d m after Hn _|s p m rest Hp Hm].
  - right.
    assert (Hd : d < N).
    { pose proof (v_dst _ HI) as Hd. rewrite Hn, Forall_app in Hd. destruct Hd as (_ & Hd). inversion Hd; subst. cbn in *. assumption. }
    unfold P, W. cbn [nodes net]. rewrite Hn, !map_app, !sum_app.
    pose proof (sum_upd pn (nodes s) d (with_mail (nodes s d) (mail (nodes s d) ++ [m])) Hd) as S1.
    pose proof (sum_upd wmail (nodes s) d (with_mail (nodes s d) (mail (nodes s d) ++ [m])) Hd) as S2.
    assert (E1 : pn (with_mail (nodes s d) (mail (nodes s d) ++ [m])) = pn (nodes s d)) by reflexivity.
    assert (E2 : wmail (with_mail (nodes s d) (mail (nodes s d) ++ [m])) = wmail (nodes s d) + Wm m).
    { unfold wmail. cbn [with_mail mail]. rewrite map_app, sum_app. cbn. lia. }
    change (sum (map (fun x => S (Wm (snd (dm x)))) ((src, d, m) :: after))) with (S (Wm m) + sum (map (fun x => S (Wm (snd (dm x)))) after)). lia.
  - set (nd := with_mail (nodes s p) rest). set (e := handle cf p nd m).
    assert (EP : P (process cf p s m rest) + pn (nodes s p) = P s + pn (e_node e)).
    { unfold P. rewrite <- (sum_upd pn (nodes s) p (e_node e) Hp). f_equal. f_equal. apply map_ext. intros q.
      destruct (process_core s p m rest q) as (E1 & E2 & E3 & _). unfold pn. rewrite E1, E2, E3. unfold upd. reflexivity. }
    pose proof (in_flight s p m rest Hp Hm) as Hin.
    pose proof (v_node _ HI p Hp) as (W1 & W2 & W3 & W4 & W5 & W6 & W7).
    assert (Hquiet : e_sends e = [] \/ (exists ms t, m = Components ms t /\ e_sends e = [(p, Done)]) -> helper_answer cf p nd m = [] -> pn (e_node e) = pn (nodes s p) ->
              P (process cf p s m rest) = P s /\ W (process cf p s m rest) < W s).
    { intros Hq Ha Epn. split; [lia|]. eapply W_process_quiet; eauto. }
    destruct m as [| |i|t c|ms t|].
    + left. pose proof (cnt_pos _ (isStart p) _ _ Hin (Nat.eqb_refl p)) as HT. rewrite (v_start _ HI p Hp) in HT. unfold tokS in HT.
      assert (Hst : started (nodes s p) = false) by (destruct (started (nodes s p)); [cbn in HT; lia|reflexivity]).
      destruct (W1 Hst) as (HL & _). assert (Hr : r_count (nodes s p) = 0) by (apply (a_none _ _ _ _ _ (v_a _ HI)); exact HL).
      assert (Eold : pn (nodes s p) = Nat.log2_up N + 3) by (unfold pn; rewrite Hst, HL, Hr; cbn; lia).
      assert (pn (e_node e) < Nat.log2_up N + 3); [|lia].
      unfold e. cbn [handle]. unfold run_pca. destruct (multi cf).
      * cbn. lia.
      * eapply Nat.lt_le_trans; [apply on_setup_pn; reflexivity|lia].
    + left. pose proof (cnt_pos _ (isSetup p) _ _ Hin (Nat.eqb_refl p)) as HT. rewrite (v_setup _ HI p Hp) in HT. unfold tokU in HT.
      assert (Hst : started (nodes s p) = true) by (destruct (started (nodes s p)); [reflexivity|cbn in HT; lia]).
      assert (HL : local (nodes s p) = None) by (destruct (local (nodes s p)); [rewrite Hst in HT; cbn in HT; lia|reflexivity]).
      assert (Hr : r_count (nodes s p) = 0) by (apply (a_none _ _ _ _ _ (v_a _ HI)); exact HL).
      assert (Eold : pn (nodes s p) = Nat.log2_up N + 2) by (unfold pn; rewrite Hst, HL, Hr; cbn; lia).
      assert (pn (e_node e) < Nat.log2_up N + 2); [|lia]. unfold e. cbn [handle]. apply on_setup_pn; assumption.
    + right. apply Hquiet; unfold e; cbn [handle].
      * left. destruct (helpers cf && _); [reflexivity|]. destruct (means nd); reflexivity.
      * reflexivity.
      * destruct (helpers cf && _); [reflexivity|]. destruct (means nd); reflexivity.
    + destruct (local (nodes s p)) as [l|] eqn:HL.
      * destruct (Nat.eqb c (r_count nd + 1)) eqn:Ec.
        -- left. apply Nat.eqb_eq in Ec. change (r_count nd) with (r_count (nodes s p)) in Ec.
           destruct (a_node _ _ _ _ _ (v_a _ HI) p l Hp HL) as (_ & Hr & _). unfold Cf in Hr.
           assert (pn (e_node e) < pn (nodes s p)); [|lia].
           unfold e. cbn [handle]. change (local nd) with (local (nodes s p)). rewrite HL. change (r_count nd) with (r_count (nodes s p)).
           rewrite <- Ec, Nat.eqb_refl. cbn [e_node]. rewrite sof_node. unfold pn. cbn [with_buffers with_factor started local r_count isN].
           pose proof (decide_mono p c). rewrite HL. cbn [isN]. change (started nd) with (started (nodes s p)). lia.
        -- right. apply Hquiet; unfold e; cbn [handle]; change (local nd) with (local (nodes s p)); rewrite ?HL, ?Ec; auto.
      * right. apply Hquiet; unfold e; cbn [handle]; change (local nd) with (local (nodes s p)); rewrite ?HL; auto.
    + right. apply Hquiet; unfold e; cbn [handle]; eauto.
    + right. pose proof (cnt_pos _ (isCD p) _ _ Hin (Nat.eqb_refl p)) as HT. pose proof (v_comp _ HI p Hp) as HC.
      assert (Hf : finals s <> []) by (destruct (helpers cf); [lia|]; destruct (finals s); [cbn in HC; lia|discriminate]).
      pose proof (fin_all s HI Hf p Hp) as HL.
      assert (Hst : started (nodes s p) = true) by (destruct (started (nodes s p)); [reflexivity|destruct (W1 eq_refl); contradiction]).
      assert (Hnr : (n_reduced nd <? channels cf) = false) by (change (n_reduced nd) with (n_reduced (nodes s p)); rewrite (W2 Hst), Hch; reflexivity).
      apply Hquiet; unfold e; cbn [handle helper_answer]; rewrite Hnr, ?andb_false_r; auto.
Qed.

Lemma no_infinite_run : forall run : nat -> pstate,
  run 0 = initial cf -> ~ (forall i, step cf (run i) (run (S i)) /\ nobody_early cf (run (S i))).
Proof.
  intros run H0 Hrun.
  assert (Hr : forall i, reachable cf (nobody_early cf) (run i)).
  { induction i as [|i IH]; [rewrite H0; constructor|]. destruct (Hrun i). econstructor; eauto. }
  assert (G : forall a b i, P (run i) = a -> W (run i) = b -> False).
  { intros a. induction a as [a IHa] using (well_founded_induction lt_wf). intros b.
    induction b as [b IHb] using (well_founded_induction lt_wf). intros i Ea Eb.
    destruct (reach_inv _ (Hr i)) as (HI & He). destruct (Hrun i) as (Hs & _).
    destruct (decreases _ _ HI He Hs) as [Hd|(Hd1 & Hd2)].
    - apply (IHa (P (run (S i)))) with (b := W (run (S i))) (i := S i); lia.
    - apply (IHb (W (run (S i)))) with (i := S i); lia. }
  eapply (G _ _ 0); reflexivity.
Qed.
End Inv.

Lemma helpers_started : forall cf s, helpers cf = true -> reachable cf any_run s -> (forall p, started (nodes s p) = true) /\ reachable cf (nobody_early cf) s.
Proof.
  intros cf s Hh H. induction H as [|s s' Hr (IH & IHr) Hs _].
  - split; [|constructor]. intros p. unfold initial. rewrite Hh. reflexivity.
  - assert (G : forall p, started (nodes s' p) = true).
    { intros q. destruct Hs as [s before src d m after Hn _|s p m rest Hp Hm].
      - cbn [nodes]. unfold upd. destruct (q =? d); apply IH.
      - destruct (process_core cf s p m rest q) as (E & _). rewrite E. destruct (q =? p); [|apply IH].
        assert (Eset : forall nd, started nd = true -> started (e_node (on_setup cf p nd)) = true).
        { intros nd E0. unfold on_setup. destruct (helpers cf || multi cf); cbn [e_node with_buffers started]; rewrite sof_node; exact E0. }
        assert (Erun : forall nd, started (e_node (run_pca cf p nd)) = true).
        { intros nd. unfold run_pca. destruct (multi cf); [reflexivity|]. now apply Eset. }
        destruct m as [| |i|t c|ms t|]; cbn [handle].
        + apply Erun.
        + apply Eset. apply IH.
        + destruct (helpers cf && _); [apply IH|]. destruct (means _); apply IH.
        + destruct (local _); [|apply IH]. destruct (c =? _); [|apply IH]. cbn [e_node with_buffers started]. rewrite sof_node. apply IH.
        + apply IH.
        + destruct (n_reduced _ <? channels cf); [apply Erun|apply IH]. }
    split; [exact G|]. econstructor; [exact IHr|exact Hs|]. intros p _ E. rewrite G in E. discriminate.
Qed.
