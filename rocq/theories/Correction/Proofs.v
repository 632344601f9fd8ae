(** Proofs about Correction/Model.v: the decision, and the two cases as executions of Segmentation/Handover.v. *)
From Coq Require Import List Arith ZArith Bool Lia Permutation.
From Verif.Base Require Import Res Params Assoc ListX.
From Verif.Topology Require Import Model.
From Verif.Transition Require Import Spec.
From Verif.Segmentation Require Import Model Spec Blocks Proofs PathProofs Handover HandoverProofs.
From Verif.Protocol Require Import Model Exchange Ring RingProofs.
From Verif.Shutdown Require Proofs.
From Verif.Properties Require Segmentation.
From Verif.Correction Require Import Model Spec.
Import ListNotations.

Local Notation set_same := HandoverProofs.set_same.
Local Notation set_other := HandoverProofs.set_other.

(** ** What a host builds, whatever the clockwise count *)
Definition similar (a b : segmentation) : Prop :=
  transitions a = transitions b /\ asked a = asked b /\ last_point a = last_point b /\ last_transition a = last_transition b.
Lemma similar_refl : forall a, similar a a. Proof. intros. unfold similar. auto. Qed.
Lemma similar_taken_out : forall a b, similar a b -> similar (taken_out a) b. Proof. intros a b H. exact H. Qed.

Lemma first_point_similar : forall p k a t g g' m, similar g g' ->
  match first_point p k a t g m, first_point p k a t g' m with
  | Ok (x, fx), Ok (y, fy) => similar x y /\ fx = fy
  | Panic e, Panic e' => e = e'
  | _, _ => False
  end.
Proof.
  intros p k a t g g' m (E1 & E2 & E3 & E4). unfold first_point. rewrite <- E1, <- E2, <- E3, <- E4. destruct (last_point g) as [lp|]; cbn [unwrap bind]; [|reflexivity].
  destruct (last_transition g) as [lt|] eqn:El; cbn [unwrap bind]; [|reflexivity]. destruct (is_usable p (lp, a)).
  - destruct (segment_id_to_assignment p (from_segment (lp, a))) as [f|]; cbn [bind]; [|reflexivity].
    destruct (segment_id_to_assignment p (to_segment (lp, a))) as [f'|]; cbn [bind]; [|reflexivity].
    destruct (segment_id_to_assignment p (to_segment lt)) as [f''|]; cbn [bind]; [|reflexivity].
    destruct (find_splits p (Some lt) (Some f'') (lp, a) f f' (asked g)) as [q|]; cbn [bind]; [|reflexivity]. split; [|reflexivity]. unfold similar. cbn. auto.
  - destruct (segment_id_to_assignment p (from_segment t)) as [f|]; cbn [bind]; [|reflexivity].
    destruct (segment_id_to_assignment p (to_segment lt)) as [f''|]; cbn [bind]; [|reflexivity].
    destruct (split_between p (Some lt) t f f'' (asked g)) as [q|]; cbn [bind]; [|reflexivity]. split; [|reflexivity]. unfold similar. cbn. auto.
Qed.

Section C.
Variable p : params.
Hypothesis HN : 2 <= n_cluster_nodes p <= rate p.
Notation N := (n_cluster_nodes p).
Lemma HN1 : 1 <= N <= rate p. Proof. lia. Qed.

Lemma build_cleared : forall own points v, all_fine p points ->
  exists g, build_segments p own points (cleared v) = Ok (g, snd (built p own points)) /\ similar g (fst (built p own points)) /\
    send_point g = send_point (fst (built p own points)) /\ send_transition g = send_transition (fst (built p own points)).
Proof.
  intros own [|x points] v Hf; unfold build_segments, built, cleared, similar.
  - cbn. destruct (own =? 0); cbn; eexists; ssplit; reflexivity.
  - cbn [foldM]. unfold scan_point at 1. cbn [s_last_point s_transitions s_asked s_send_point s_send_transition s_invalid s_foreign s_last_to_node s_last_transition bind].
    rewrite (scan_ok p HN1 own points x); [|assumption|reflexivity|reflexivity]. cbn [bind]. eexists. ssplit; reflexivity.
Qed.

(** ** The decision *)
Variable part mirrored : nat -> list pt.
Variable early : delivery.
Hypothesis Hpart : forall k, k < N -> all_fine p (part k).
Notation contribution := (fun i => report p i (part i)).

Lemma add_up_sum : forall l own, add_up own l = (fst own + list_sum (map (fun m => fst (snd m)) l), snd own + list_sum (map (fun m => snd (snd m)) l)).
Proof.
  unfold add_up. induction l as [|m l IH]; intros (a, b); cbn [fold_left]; [cbn; now rewrite !Nat.add_0_r|]. rewrite IH. unfold list_sum. cbn [fst snd map fold_right]. f_equal; lia.
Qed.
Lemma list_sum_perm : forall l l', Permutation l l' -> list_sum l = list_sum l'.
Proof. induction 1; cbn in *; unfold list_sum in *; cbn [fold_right] in *; lia. Qed.
Lemma list_sum_split : forall (f : nat -> nat) L k, NoDup L -> In k L -> f k + list_sum (map f (filter (fun q => negb (q =? k)) L)) = list_sum (map f L).
Proof.
  intros f L k ND Hi. assert (G : forall x y, list_sum (x ++ y) = list_sum x + list_sum y) by (intros; apply list_sum_app).
  pose proof (concat_split_perm nat (fun i => [f i]) L k ND Hi) as P. apply list_sum_perm in P. rewrite G in P.
  assert (E : forall M, concat (map (fun i => [f i]) M) = map f M) by (induction M; cbn; congruence). rewrite !E in P. cbn in P |- *. lia.
Qed.

Hypothesis Hc : self_correction p = true.
Lemma report_counts : forall k, k < N -> report p k (part k) = (usable_count p part k, back_count p part k).
Proof.
  intros k Hk. unfold report. destruct (Properties.Segmentation.C53_cluster_report_partial p k (part k) HN1 (Hpart k Hk)) as (g & m & E & Ec). rewrite E, Ec. unfold usable_count. f_equal.
  rewrite build_ok in E by (exact HN1 || exact (Hpart k Hk)). assert (Eg : g = fst (built p k (part k))) by now injection E as <- _. rewrite Eg. cbn [built fst invalid_directions].
  unfold back_count. f_equal. apply filter_ext_in. intros t Ht.
  assert (G : In (fst t) (part k) /\ In (snd t) (part k)).
  { clear -Ht. induction (part k) as [|x [|y l] IH]; [destruct Ht|destruct Ht|]. change (pairs (x :: y :: l)) with ((x, y) :: pairs (y :: l)) in Ht. destruct Ht as [<-|Ht]; [cbn; tauto|].
    specialize (IH Ht). split; right; apply IH. }
  apply Properties.Segmentation.wrong_way_backwards; [exact Hc|apply (Hpart k Hk), G|apply (Hpart k Hk), G].
Qed.
Lemma decision : forall k l, k < N -> Permutation l (map (msg contribution) (filter (fun q => negb (q =? k)) (seq 0 N))) ->
  mirrors (fst (add_up (report p k (part k)) l)) (snd (add_up (report p k (part k)) l)) = should_mirror p part.
Proof.
  intros k l Hk P. rewrite add_up_sum. cbn [fst snd]. unfold mirrors, should_mirror.
  rewrite (list_sum_perm _ _ (Permutation_map (fun m => fst (snd m)) P)), (list_sum_perm _ _ (Permutation_map (fun m => snd (snd m)) P)). rewrite !map_map. unfold msg. cbn [snd].
  assert (G : forall f g : nat -> nat, (forall q, q < N -> f q = g q) -> f k + list_sum (map f (filter (fun q => negb (q =? k)) (seq 0 N))) = list_sum (map g (seq 0 N))).
  { intros f g Hfg. rewrite list_sum_split by (apply seq_NoDup || (apply in_seq; lia)). f_equal. apply map_ext_in. intros q Hq. apply in_seq in Hq. apply Hfg. lia. }
  rewrite (G (fun x => fst (report p x (part x))) (usable_count p part)), (G (fun x => snd (report p x (part x))) (back_count p part)); [reflexivity| |]; intros q Hq; now rewrite report_counts by exact Hq.
Qed.

(** ** The hosts and their ring *)
Definition linked (w : cworld) : Prop :=
  rreachable N contribution not_overtaken (counts w) /\
  (forall k, k < N -> match c_mode (host_of w k) with
     | Idle => begun (node_of (counts w) k) = false
     | Counting => begun (node_of (counts w) k) = true /\ finished (node_of (counts w) k) = 0
     | Decided => finished (node_of (counts w) k) = 1
     | Crashed _ => True
     end) /\
  (points_sent w <> [] -> exists q, q < N /\ 1 <= finished (node_of (counts w) q)).

Lemma linked_ring : forall w, linked w -> rinv N contribution (counts w).
Proof. intros w (R & _). apply rinv_reachable; [lia|exact R]. Qed.

Lemma segment_ok : forall k h, k < N -> segment p k (part k) h = {| c_mode := Counting; c_seg := fst (built p k (part k)); c_pending := snd (built p k (part k)); c_sent := c_sent h |}.
Proof. intros k h Hk. unfold segment. rewrite build_ok by (exact HN1 || exact (Hpart k Hk)). now rewrite (surjective_pairing (built p k (part k))). Qed.

Lemma hand_on_mode : forall k g m h, c_mode (hand_on p k g m h) = Decided.
Proof. intros. unfold hand_on. now destruct (k =? N - 1). Qed.
Lemma decide_mode : forall k pts s h, match c_mode (fst (decide p k pts s h)) with Decided | Crashed _ => True | _ => False end.
Proof.
  intros k pts s h. unfold decide. destruct (mirrors _ _); [destruct (build_segments _ _ _ _) as [(g, m)|]|]; cbn [fst]; try rewrite hand_on_mode; exact I.
Qed.
Lemma take_in_finished : forall (m : message (nat * nat)) d, finished d <= finished (fst (take_in m d)) <= S (finished d).
Proof. intros m d. unfold take_in. destruct (received m (rproto d)) as (pr, [|]); [destruct (is_running pr)|]; cbn; lia. Qed.
Lemma take_in_begun : forall (m : message (nat * nat)) d, begun (fst (take_in m d)) = begun d.
Proof. intros m d. unfold take_in. destruct (received m (rproto d)) as (pr, [|]); [destruct (is_running pr)|]; reflexivity. Qed.

Lemma linked_initial : linked cinitial.
Proof. unfold linked. ssplit; [constructor|reflexivity|cbn; congruence]. Qed.

Lemma linked_step : forall w w', linked w -> cstep p part mirrored early w w' -> linked w'.
Proof.
  intros w w' HL St. pose proof (linked_ring w HL) as HI. destruct HL as (R & M & P). destruct St as [w k Hk Hm Hno|w k m r Hk Ht|w k m r Hk Ha Hm e d|w k a t l r En Ha He].
  - pose proof (M k Hk) as Mk. rewrite Hm in Mk. rewrite segment_ok by exact Hk. cbn [c_mode]. unfold linked; ssplit; cbn [counts host_of points_sent].
    + eapply r_after; [exact R|]. now apply begins.
    + intros q Hq. destruct (Nat.eq_dec q k) as [->|Hne]; [rewrite set_same, put_node_same by lia; cbn [c_mode]|rewrite set_other, put_node_other by lia; exact (M q Hq)].
      destruct (HI k Hk) as (P1 & _). destruct (P1 Mk) as (_ & _ & F). split; [reflexivity|exact F].
    + intros Hp. destruct (P Hp) as (q & Hq & F). exists q. split; [exact Hq|]. destruct (Nat.eq_dec q k) as [->|Hne]; [rewrite put_node_same by lia; exact F|rewrite put_node_other by lia; exact F].
  - unfold linked; ssplit; cbn [counts host_of points_sent node_of transit].
    + eapply r_after; [exact R|]. now apply (arrives N contribution not_overtaken (counts w) k m r).
    + intros q Hq. destruct (Nat.eq_dec q k) as [->|Hne]; [rewrite set_same; unfold pop; cbn [begun finished]|rewrite set_other by lia]; exact (M _ Hq).
    + intros Hp. destruct (P Hp) as (q & Hq & F). exists q. split; [exact Hq|]. destruct (Nat.eq_dec q k) as [->|Hne]; [rewrite set_same; exact F|rewrite set_other by lia; exact F].
  - assert (R' : rreachable N contribution not_overtaken (put N (counts w) k e)) by (eapply r_after; [exact R|]; now apply (takes_in N contribution not_overtaken (counts w) k m r)).
    pose proof (take_in_finished m (pop (node_of (counts w) k) r)) as F. fold e in F. change (finished (pop (node_of (counts w) k) r)) with (finished (node_of (counts w) k)) in F.
    assert (Fk : finished (node_of (counts w) k) = 0).
    { destruct (Nat.eq_dec (finished (node_of (counts w) k)) 0) as [E|E]; [exact E|]. destruct (Shutdown.Proofs.finished_all N contribution ltac:(lia) (counts w) k HI Hk) as (_ & _ & _ & X & _); [lia|]. congruence. }
    unfold linked; ssplit; cbn [counts host_of points_sent]; [exact R'| |].
    + intros q Hq. destruct (Nat.eq_dec q k) as [->|Hne]; [rewrite set_same, put_node_same by lia|rewrite set_other, put_node_other by lia; exact (M q Hq)].
      unfold d. destruct (Nat.ltb_spec (finished (node_of (counts w) k)) (finished (fst e))) as [L|L].
      * pose proof (decide_mode k (mirrored k) (add_up (report p k (part k)) (taken (fst e))) (host_of w k)) as D.
        destruct (c_mode (fst (decide _ _ _ _ _))); try (destruct D); [lia|exact I].
      * cbn [fst]. pose proof (M k Hk) as Mk. unfold alive in Ha. destruct (c_mode (host_of w k)); [| |lia|exact I].
        -- unfold e. rewrite take_in_begun. exact Mk.
        -- unfold e at 1. rewrite take_in_begun. split; [apply Mk|lia].
    + intros Hp. destruct (Nat.ltb_spec (finished (node_of (counts w) k)) (finished (fst e))) as [L|L].
      * exists k. split; [exact Hk|]. rewrite put_node_same by lia. lia.
      * unfold d in Hp. cbn [snd] in Hp. rewrite app_nil_r in Hp. destruct (P Hp) as (q & Hq & Fq). exists q. split; [exact Hq|]. destruct (Nat.eq_dec q k) as [->|Hne]; [lia|rewrite put_node_other by lia; exact Fq].
  - unfold linked; ssplit; cbn [counts host_of points_sent]; [exact R| |].
    + intros q Hq. destruct (Nat.eq_dec q k) as [->|Hne]; [rewrite set_same|rewrite set_other by lia; exact (M q Hq)].
      unfold gets_first_point. destruct (first_point _ _ _ _ _ _) as [(g, f)|]; cbn [c_mode]; [exact (M _ Hq)|exact I].
    + intros _. apply P. rewrite En. destruct l; discriminate.
Qed.
Lemma linked_reachable : forall w, creachable p part mirrored early w -> linked w.
Proof. intros w. induction 1; [apply linked_initial|]. eapply linked_step; eauto. Qed.

(** A host takes its decision: it was adding up, and all hosts decide alike. *)
Lemma at_decision : forall w k m r, linked w -> k < N -> alive (host_of w k) -> mailbox (node_of (counts w) k) = m :: r ->
  finished (node_of (counts w) k) < finished (fst (take_in m (pop (node_of (counts w) k) r))) ->
  c_mode (host_of w k) = Counting /\
  mirrors (fst (add_up (report p k (part k)) (taken (fst (take_in m (pop (node_of (counts w) k) r))))))
          (snd (add_up (report p k (part k)) (taken (fst (take_in m (pop (node_of (counts w) k) r)))))) = should_mirror p part.
Proof.
  intros w k m r HL Hk Ha Hm L. pose proof (linked_ring w HL) as HI. destruct HL as (R & M & P). set (e := take_in m (pop (node_of (counts w) k) r)) in *.
  assert (R' : rreachable N contribution not_overtaken (put N (counts w) k e)) by (eapply r_after; [exact R|]; now apply (takes_in N contribution not_overtaken (counts w) k m r)).
  pose proof (rinv_reachable N contribution ltac:(lia) _ R') as HI'.
  destruct (Shutdown.Proofs.finished_all N contribution ltac:(lia) _ k HI' Hk) as (B & Lt & F & _ & _); [rewrite put_node_same by lia; lia|]. rewrite put_node_same in B, Lt, F by lia.
  split.
  - pose proof (M k Hk) as Mk. unfold alive in Ha. unfold e in B. rewrite take_in_begun in B. unfold pop in B. cbn [begun] in B. destruct (c_mode (host_of w k)); [congruence|reflexivity|lia|destruct Ha].
  - apply decision; [exact Hk|]. pose proof (taken_all N contribution ltac:(lia) _ k HI' Hk) as T. rewrite put_node_same in T by lia. exact (T Lt).
Qed.

(** ** Nothing is left to do: all hosts have decided and no first point is under way *)
Lemma stuck_all : forall w, linked w -> (forall k, k < N -> alive (host_of w k)) -> (forall x, In x (points_sent w) -> fst x < N) -> cstuck p part mirrored early w ->
  (forall k, k < N -> c_mode (host_of w k) = Decided) /\ points_sent w = [].
Proof.
  intros w HL Ha Hrec St. pose proof (linked_ring w HL) as HI. destruct HL as (R & M & P).
  assert (Hmail : forall k, k < N -> mailbox (node_of (counts w) k) = []).
  { intros k Hk. destruct (mailbox (node_of (counts w) k)) as [|m r] eqn:E; [reflexivity|]. exfalso. eapply St. eapply (c_counts p part mirrored early w k m r); auto. }
  assert (RS : rstuck N contribution (counts w)).
  { intros v Hv. inversion Hv as [u k Hk Hb _|u k m r Hk Ht|u k m r Hk Hm]; subst.
    - pose proof (M k Hk) as Mk. pose proof (Ha k Hk) as Hal. unfold alive in Hal. destruct (c_mode (host_of w k)) eqn:Em; [|destruct Mk; congruence| |destruct Hal].
      + eapply St. apply (c_segments p part mirrored early w k Hk Em). right. now apply Hmail.
      + destruct (HI k Hk) as (P1 & _). destruct (P1 Hb) as (_ & _ & F). congruence.
    - eapply St. eapply (c_arrives p part mirrored early w k m r); auto.
    - rewrite (Hmail k Hk) in Hm. discriminate. }
  assert (D : forall k, k < N -> c_mode (host_of w k) = Decided).
  { intros k Hk. pose proof (stuck_complete N contribution ltac:(lia) (counts w) HI RS k Hk) as L. destruct (stuck_facts N contribution (counts w) RS k Hk) as (B & _).
    destruct (HI k Hk) as (_ & P2 & _). destruct (P2 B) as (_ & F). rewrite L, Nat.eqb_refl in F. pose proof (M k Hk) as Mk. pose proof (Ha k Hk) as Hal. unfold alive in Hal.
    destruct (c_mode (host_of w k)); [congruence|destruct Mk; congruence|reflexivity|destruct Hal]. }
  split; [exact D|]. destruct (points_sent w) as [|(k, (a, t)) l] eqn:E; [reflexivity|]. exfalso. pose proof (Hrec (k, (a, t)) (or_introl eq_refl)) as Hk. cbn [fst] in Hk.
  eapply St. eapply (c_first_point p part mirrored early w k a t [] l); [exact E|now apply Ha|]. unfold may_handle. destruct early; [exact I| |now apply D].
  split; [now apply Hmail|]. intros _. exact (proj1 (proj2 (stuck_facts N contribution (counts w) RS k Hk))).
Qed.

(** ** The points are kept *)
Section Kept.
Hypothesis Hkeep : should_mirror p part = false.
Hypothesis Husable : forall k, k < N -> usable_pairs (rate p) (part k) <> [].

Definition unsent (w : cworld) (k : nat) : list (nat * (pt * transition)) := match c_mode (host_of w k) with Counting => first_of p k (c_seg (host_of w k)) | _ => [] end.
Definition rel1 (k : nat) (c : chost) (f : phase) : Prop :=
  match f with
  | Before => c_mode c = Idle /\ c_sent c = []
  | Waiting g m => (c_mode c = Counting \/ c_mode c = Decided) /\ k <> N - 1 /\ similar (c_seg c) g /\ c_pending c = m /\ c_sent c = []
  | Distributing g m => transitions (c_seg c) = transitions g /\ asked (c_seg c) = asked g /\
      ((k = N - 1 /\ c_mode c = Counting /\ c_pending c = m /\ c_sent c = []) \/ ((c_mode c = Decided \/ (k <> N - 1 /\ c_mode c = Counting)) /\ c_sent c = [m]))
  | Dead _ => False
  end.
Definition kept (w : cworld) (h : hworld) : Prop :=
  hreachable p part false h /\ (forall k, k < N -> rel1 k (host_of w k) (phase_of h k)) /\
  Permutation (first_points h) (points_sent w ++ concat (map (unsent w) (seq 0 N))).

Lemma unsent_split : forall w k, k < N -> Permutation (unsent w k ++ concat (map (unsent w) (filter (fun q => negb (q =? k)) (seq 0 N)))) (concat (map (unsent w) (seq 0 N))).
Proof. intros w k Hk. apply concat_split_perm; [apply seq_NoDup|apply in_seq; lia]. Qed.
Lemma unsent_others : forall w w' k, (forall q, q < N -> q <> k -> host_of w' q = host_of w q) ->
  concat (map (unsent w') (filter (fun q => negb (q =? k)) (seq 0 N))) = concat (map (unsent w) (filter (fun q => negb (q =? k)) (seq 0 N))).
Proof.
  intros w w' k H. f_equal. apply map_ext_in. intros q Hq. apply filter_In in Hq. destruct Hq as (Hq & Hne). apply in_seq in Hq. apply negb_true_iff, Nat.eqb_neq in Hne. unfold unsent. now rewrite H by lia.
Qed.
(** One host changes: only its own unsent message matters. *)
Lemma unsent_change : forall w w' k, k < N -> (forall q, q < N -> q <> k -> host_of w' q = host_of w q) ->
  Permutation (unsent w k ++ concat (map (unsent w') (seq 0 N))) (unsent w' k ++ concat (map (unsent w) (seq 0 N))).
Proof.
  intros w w' k Hk H. rewrite <- (unsent_split w k Hk), <- (unsent_split w' k Hk), (unsent_others w w' k H). rewrite !app_assoc. apply Permutation_app_tail, Permutation_app_comm.
Qed.

Lemma kept_step : forall w w' h, linked w -> kept w h -> cstep p part mirrored early w w' -> exists h', kept w' h'.
Proof.
  intros w w' h HL (R & Rel & Pm) St. pose proof (hinv_reachable p HN1 part Hpart Husable h R) as HI. destruct HI as (I1 & I2 & I3 & I5 & I4).
  destruct St as [w k Hk Hm Hno|w k m r Hk Ht|w k m r Hk Ha Hm e d|w k a t l r En Ha He].
  - pose proof (Rel k Hk) as Rk. assert (Hb : phase_of h k = Before).
    { unfold rel1 in Rk. destruct (phase_of h k); [reflexivity| | |destruct Rk]; rewrite Hm in Rk; [destruct Rk as ([X|X] & _); discriminate|].
      destruct Rk as (_ & _ & [(_ & X & _)|([X|(_ & X)] & _)]); discriminate. }
    rewrite Hb in Rk. destruct Rk as (_ & Es). eexists. split; [|split]; [eapply h_after; [exact R|apply (segment_step p part false h k Hk Hb)]| |]; cbn [phase_of first_points counts host_of points_sent].
    + intros q Hq. destruct (Nat.eq_dec q k) as [->|Hne]; [|rewrite !set_other by lia; exact (Rel q Hq)]. rewrite !set_same, segment_ok by exact Hk. unfold segments. rewrite build_ok by (exact HN1 || exact (Hpart k Hk)).
      rewrite (surjective_pairing (built p k (part k))). cbn [fst]. destruct (Nat.eqb_spec k (N - 1)) as [El|El]; unfold rel1; cbn [c_mode c_seg c_pending c_sent transitions asked fst].
      * ssplit; [reflexivity|reflexivity|]. left. auto.
      * ssplit; auto. unfold similar. cbn. auto.
    + set (w' := {| counts := _; host_of := _; points_sent := _ |}). assert (Ho : forall q, q < N -> q <> k -> host_of w' q = host_of w q) by (intros q _ Hne; unfold w'; cbn [host_of]; now apply set_other).
      pose proof (unsent_change w w' k Hk Ho) as U. assert (E0 : unsent w k = []) by (unfold unsent; now rewrite Hm). rewrite E0 in U. cbn [app] in U.
      assert (E1 : unsent w' k = snd (segments p k (part k))).
      { unfold unsent, w'. cbn [host_of]. rewrite set_same, segment_ok by exact Hk. cbn [c_mode c_seg]. unfold segments, first_of. rewrite build_ok by (exact HN1 || exact (Hpart k Hk)).
        now rewrite (surjective_pairing (built p k (part k))). }
      rewrite Pm, U, E1, <- app_assoc. apply Permutation_app_head, Permutation_app_comm.
  - exists h. split; [exact R|]. split; [exact Rel|exact Pm].
  - destruct (Nat.ltb_spec (finished (node_of (counts w) k)) (finished (fst e))) as [L|L].
    + destruct (at_decision w k m r HL Hk Ha Hm L) as (Ec & Ed). fold e in Ed. rewrite Hkeep in Ed.
      assert (Edd : d = (hand_on p k (c_seg (host_of w k)) (c_pending (host_of w k)) (host_of w k), first_of p k (c_seg (host_of w k)))).
      { unfold d, decide. now rewrite Ed. }
      exists h. split; [exact R|]. split; cbn [host_of points_sent counts].
      * intros q Hq. destruct (Nat.eq_dec q k) as [->|Hne]; [|rewrite set_other by lia; exact (Rel q Hq)]. rewrite set_same, Edd. cbn [fst]. pose proof (Rel k Hk) as Rk.
        unfold rel1, hand_on in *. destruct (phase_of h k) as [|g f|g f|why]; [rewrite Ec in Rk; destruct Rk; discriminate| | |destruct Rk].
        -- destruct Rk as (_ & Hl & Hs & Hp & Hse). destruct (Nat.eqb_spec k (N - 1)) as [El|El]; [contradiction|]. cbn [c_mode c_seg c_pending c_sent]. ssplit; auto.
        -- destruct Rk as (T & A & C). destruct (Nat.eqb_spec k (N - 1)) as [El|El]; cbn [c_mode c_seg c_pending c_sent taken_out transitions asked]; (split; [exact T|split; [exact A|]]); right.
           ++ destruct C as [(_ & _ & Hp & Hse)|([X|(X & _)] & _)]; [|congruence|contradiction]. rewrite Hp, Hse. auto.
           ++ destruct C as [(X & _)|(_ & Hse)]; [contradiction|]. auto.
      * set (w' := {| counts := _; host_of := _; points_sent := _ |}). assert (Ho : forall q, q < N -> q <> k -> host_of w' q = host_of w q) by (intros q _ Hne; unfold w'; cbn [host_of]; now apply set_other).
        pose proof (unsent_change w w' k Hk Ho) as U. assert (E0 : unsent w k = first_of p k (c_seg (host_of w k))) by (unfold unsent; now rewrite Ec).
        assert (E1 : unsent w' k = []) by (unfold unsent, w'; cbn [host_of]; rewrite set_same, Edd; cbn [fst]; now rewrite hand_on_mode).
        rewrite E0, E1 in U. cbn [app] in U. rewrite Edd. cbn [snd]. rewrite <- app_assoc. rewrite Pm. now rewrite U.
    + exists h. assert (Edd : d = (host_of w k, [])) by (unfold d; destruct (Nat.ltb_spec (finished (node_of (counts w) k)) (finished (fst e))); [lia|reflexivity]). rewrite Edd. cbn [fst snd]. rewrite app_nil_r.
      split; [exact R|]. split; cbn [host_of points_sent counts].
      * intros q Hq. destruct (Nat.eq_dec q k) as [->|Hne]; [rewrite set_same|rewrite set_other by lia]; exact (Rel _ Hq).
      * rewrite Pm. apply Permutation_app_head. match goal with |- Permutation ?a ?b => cut (a = b); [intros ->; reflexivity|] end. f_equal. apply map_ext_in. intros q _. unfold unsent. cbn [host_of].
        destruct (Nat.eq_dec q k) as [->|Hne]; [now rewrite set_same|now rewrite set_other by lia].
  - assert (Hin : In (k, (a, t)) (first_points h)).
    { eapply Permutation_in; [symmetry; exact Pm|]. apply in_or_app. left. rewrite En. apply in_or_app. right. now left. }
    destruct (I1 k a t Hin) as (Hk & _ & Hd & _). pose proof (Rel k ltac:(lia)) as Rk. pose proof (in_split _ _ Hin) as (l1 & l2 & Eh).
    assert (Hnb : phase_of h k <> Before).
    { intros Hb. rewrite Hb in Rk. destruct Rk as (Hi & _). destruct (linked_ring w HL k ltac:(lia)) as (_ & _ & _). destruct HL as (RR & M & P). 
      destruct P as (q & Hq & F); [rewrite En; destruct l; discriminate|]. pose proof (M k ltac:(lia)) as Mk. rewrite Hi in Mk.
      rewrite (Shutdown.Proofs.finished_begun N contribution ltac:(lia) (counts w) q k (rinv_reachable N contribution ltac:(lia) _ RR) Hq ltac:(lia) F) in Mk. discriminate. }
    pose proof (first_point_step p part false h k a t l1 l2 Eh (or_intror Hnb)) as Sh. pose proof (h_after _ _ _ _ _ R Sh) as R'.
    pose proof (hinv_reachable p HN1 part Hpart Husable _ R') as (_ & _ & _ & _ & I4'). specialize (I4' k ltac:(lia)). cbn [phase_of] in I4'. rewrite set_same in I4'.
    destruct (phase_of h k) as [|g f|g f|why] eqn:Ep; [congruence| |discriminate|destruct Rk].
    destruct Rk as (Hmode & Hl & Hs & Hp & Hse). pose proof (first_point_similar p k a t (c_seg (host_of w k)) g f Hs) as Fs. unfold hands_over in I4'. cbn [segmentation_of foreign_of] in I4'.
    destruct (first_point p k a t g f) as [(g', f')|] eqn:Eg; [|destruct I4'].
    destruct (first_point p k a t (c_seg (host_of w k)) f) as [(g2, f2)|] eqn:E2; [|destruct Fs]. destruct Fs as ((T & A & _) & ->).
    assert (Hg : gets_first_point p k a t (host_of w k) = {| c_mode := c_mode (host_of w k); c_seg := g2; c_pending := []; c_sent := [f'] |}).
    { unfold gets_first_point. rewrite Hp, E2, Hse. reflexivity. }
    eexists. split; [exact R'|]. split; cbn [host_of points_sent counts phase_of first_points].
    + intros q Hq. destruct (Nat.eq_dec q k) as [->|Hne]; [|rewrite !set_other by lia; exact (Rel q Hq)]. rewrite !set_same, Hg. unfold hands_over. cbn [segmentation_of foreign_of]. rewrite Eg. unfold rel1. cbn [c_mode c_seg c_pending c_sent].
      split; [exact T|]. split; [exact A|]. right. split; [|reflexivity]. destruct Hmode; [right; auto|left; assumption].
    + assert (P1 : Permutation (l1 ++ l2) ((l ++ r) ++ concat (map (unsent w) (seq 0 N)))).
      { apply (Permutation_cons_inv (a := (k, (a, t)))). rewrite Permutation_middle, <- Eh, Pm, En, <- !app_assoc. cbn [app]. now rewrite <- Permutation_middle. }
      rewrite P1. apply Permutation_app_head.
      set (w' := {| counts := _; host_of := _; points_sent := _ |}). assert (Ho : forall q, q < N -> q <> k -> host_of w' q = host_of w q) by (intros q _ Hne; unfold w'; cbn [host_of]; now apply set_other).
      pose proof (unsent_change w w' k ltac:(lia) Ho) as U. assert (E0 : unsent w' k = unsent w k).
      { unfold unsent, w'. cbn [host_of]. rewrite set_same, Hg. cbn [c_mode c_seg]. unfold first_of. 
        assert (Es : send_point g2 = send_point (c_seg (host_of w k)) /\ send_transition g2 = send_transition (c_seg (host_of w k))).
        { clear -E2. unfold first_point in E2. repeat (match type of E2 with context [bind ?x _] => destruct x; cbn [bind] in E2; [|discriminate] end).
          destruct (is_usable _ _); repeat (match type of E2 with context [bind ?x _] => destruct x; cbn [bind] in E2; [|discriminate] end); injection E2 as <- _; auto. }
        destruct Es as (-> & ->). reflexivity. }
      rewrite E0 in U. apply Permutation_app_inv_l in U. now rewrite U.
Qed.

Lemma kept_reachable : forall w, creachable p part mirrored early w -> exists h, kept w h.
Proof.
  induction 1 as [|w w' Hr (h & Hh) St].
  - exists hinitial. split; [constructor|]. split; [intros k Hk; cbn; auto|]. cbn. unfold unsent. cbn. assert (E : forall n s, concat (map (fun _ : nat => @nil (nat * (pt * transition))) (seq s n)) = []) by (induction n; intros; cbn; auto). now rewrite E.
  - eapply kept_step; eauto. now apply linked_reachable.
Qed.

Lemma kept_alive : forall w h, kept w h -> forall k, k < N -> alive (host_of w k).
Proof.
  intros w h (_ & Rel & _) k Hk. pose proof (Rel k Hk) as Rk. unfold alive, rel1 in *. destruct (c_mode (host_of w k)); try exact I. destruct (phase_of h k); try tauto; [destruct Rk; discriminate|destruct Rk as ([X|X] & _); discriminate|].
  destruct Rk as (_ & _ & [(_ & X & _)|([X|(_ & X)] & _)]); discriminate.
Qed.

Lemma kept_end : forall w, creachable p part mirrored early w -> cstuck p part mirrored early w -> forall k, k < N ->
  c_mode (host_of w k) = Decided /\ transitions (c_seg (host_of w k)) = transitions (fst (built p k (extended part N k))) /\ c_sent (host_of w k) = [snd (built p k (extended part N k))] /\
  asked (c_seg (host_of w k)) = record p (collected p part N k) [].
Proof.
  intros w Hr St. destruct (kept_reachable w Hr) as (h & Hh). pose proof (linked_reachable w Hr) as HL. pose proof (kept_alive w h Hh) as Ha. destruct Hh as (R & Rel & Pm).
  pose proof (hinv_reachable p HN1 part Hpart Husable h R) as HI.
  assert (Hrec : forall x, In x (points_sent w) -> fst x < N).
  { intros (k, (a, t)) Hx. destruct HI as (I1 & _). destruct (I1 k a t) as (X & _); [|cbn; lia]. eapply Permutation_in; [symmetry; exact Pm|]. apply in_or_app. now left. }
  destruct (stuck_all w HL Ha Hrec St) as (D & E). rewrite E in Pm. cbn [app] in Pm.
  assert (E0 : concat (map (unsent w) (seq 0 N)) = []).
  { assert (G : forall L, (forall q, In q L -> q < N) -> concat (map (unsent w) L) = []).
    { induction L as [|q L IH]; intros HLq; [reflexivity|]. cbn [map concat]. rewrite IH by (intros; apply HLq; now right). unfold unsent. rewrite D by (apply HLq; now left). reflexivity. }
    apply G. intros q Hq. apply in_seq in Hq. lia. }
  rewrite E0 in Pm. apply Permutation_sym, Permutation_nil in Pm.
  assert (HS : hstuck p part false h).
  { intros h' Hh'. inversion Hh' as [v k Hk Hb|v k a t l1 l2 Ef _]; subst; [|rewrite Pm in Ef; destruct l1; discriminate]. pose proof (Rel k Hk) as Rk. rewrite Hb in Rk. destruct Rk as (X & _). rewrite D in X by exact Hk. discriminate. }
  intros k Hk. pose proof (hstuck_done p HN1 part Hpart Husable h HI HS k Hk) as Hd. pose proof (Rel k Hk) as Rk. destruct HI as (_ & _ & _ & _ & I4). pose proof (I4 k Hk) as Ik.
  destruct (phase_of h k) as [|g f|g f|why]; try discriminate. destruct Ik as (T & F & Q). destruct Rk as (T' & A' & C). pose proof (D k Hk) as Dk. ssplit; [exact Dk|congruence| |congruence].
  destruct C as [(_ & X & _)|(_ & X)]; congruence.
Qed.
End Kept.

(** ** The points are mirrored *)
Section Mirrored.
Hypothesis Hmirror : should_mirror p part = true.
Hypothesis Hlate : forall w k, k < N -> linked w -> points_sent w <> [] -> alive (host_of w k) -> may_handle p early w k -> c_mode (host_of w k) = Decided.
Hypothesis Hmpart : forall k, k < N -> all_fine p (mirrored k).
Hypothesis Husable : forall k, k < N -> usable_pairs (rate p) (mirrored k) <> [].

Definition rel2 (k : nat) (c : chost) (f : phase) : Prop :=
  match f with
  | Before => (c_mode c = Idle \/ c_mode c = Counting) /\ c_sent c = []
  | Waiting g m => c_mode c = Decided /\ k <> N - 1 /\ similar (c_seg c) g /\ c_pending c = m /\ c_sent c = []
  | Distributing g m => c_mode c = Decided /\ transitions (c_seg c) = transitions g /\ asked (c_seg c) = asked g /\ c_sent c = [m]
  | Dead _ => False
  end.
Definition turned (w : cworld) (h : hworld) : Prop :=
  hreachable p mirrored false h /\ (forall k, k < N -> rel2 k (host_of w k) (phase_of h k)) /\ first_points h = points_sent w.

Lemma turned_step : forall w w' h, linked w -> turned w h -> cstep p part mirrored early w w' -> exists h', turned w' h'.
Proof.
  intros w w' h HL (R & Rel & Pm) St. pose proof (hinv_reachable p HN1 mirrored Hmpart Husable h R) as HI. destruct HI as (I1 & I2 & I3 & I5 & I4).
  destruct St as [w k Hk Hm Hno|w k m r Hk Ht|w k m r Hk Ha Hm e d|w k a t l r En Ha He].
  - exists h. split; [exact R|]. split; [|exact Pm]. cbn [host_of]. intros q Hq. destruct (Nat.eq_dec q k) as [->|Hne]; [|rewrite set_other by lia; exact (Rel q Hq)]. rewrite set_same, segment_ok by exact Hk.
    pose proof (Rel k Hk) as Rk. unfold rel2 in *. rewrite Hm in Rk. destruct (phase_of h k); [|destruct Rk; discriminate|destruct Rk; discriminate|destruct Rk]. cbn [c_mode c_sent]. destruct Rk as (_ & X). auto.
  - exists h. split; [exact R|]. split; [exact Rel|exact Pm].
  - destruct (Nat.ltb_spec (finished (node_of (counts w) k)) (finished (fst e))) as [L|L].
    + destruct (at_decision w k m r HL Hk Ha Hm L) as (Ec & Ed). fold e in Ed. rewrite Hmirror in Ed.
      set (s := add_up (report p k (part k)) (taken (fst e))) in *. destruct (build_cleared k (mirrored k) (snd s) (Hmpart k Hk)) as (g & Eb & Hs & E1 & E2).
      assert (Edd : d = (hand_on p k g (snd (built p k (mirrored k))) (host_of w k), first_of p k g)).
      { unfold d, decide. fold s. rewrite Ed, Eb. reflexivity. }
      pose proof (Rel k Hk) as Rk. assert (Hb : phase_of h k = Before /\ c_sent (host_of w k) = []).
      { unfold rel2 in Rk. rewrite Ec in Rk. destruct (phase_of h k); [split; [reflexivity|apply Rk]|destruct Rk; discriminate|destruct Rk; discriminate|destruct Rk]. }
      destruct Hb as (Hb & Hse). eexists. split; [eapply h_after; [exact R|apply (segment_step p mirrored false h k Hk Hb)]|]. split; cbn [host_of points_sent counts phase_of first_points].
      * intros q Hq. destruct (Nat.eq_dec q k) as [->|Hne]; [|rewrite !set_other by lia; exact (Rel q Hq)]. rewrite !set_same, Edd. cbn [fst]. unfold segments. rewrite build_ok by (exact HN1 || exact (Hmpart k Hk)).
        rewrite (surjective_pairing (built p k (mirrored k))). cbn [fst]. unfold hand_on. destruct Hs as (T & A & Lp & Lt). destruct (Nat.eqb_spec k (N - 1)) as [El|El]; unfold rel2; cbn [c_mode c_seg c_pending c_sent taken_out transitions asked].
        -- rewrite Hse. ssplit; auto.
        -- ssplit; auto. unfold similar. cbn. auto.
      * rewrite Edd, Pm. cbn [snd]. f_equal. unfold segments, first_of. rewrite build_ok by (exact HN1 || exact (Hmpart k Hk)). rewrite (surjective_pairing (built p k (mirrored k))). cbn [snd]. now rewrite E1, E2.
    + exists h. assert (Edd : d = (host_of w k, [])) by (unfold d; destruct (Nat.ltb_spec (finished (node_of (counts w) k)) (finished (fst e))); [lia|reflexivity]). rewrite Edd. cbn [fst snd]. rewrite app_nil_r.
      split; [exact R|]. split; [|exact Pm]. cbn [host_of]. intros q Hq. destruct (Nat.eq_dec q k) as [->|Hne]; [rewrite set_same|rewrite set_other by lia]; exact (Rel _ Hq).
  - rewrite En in Pm.
    assert (Hin : In (k, (a, t)) (first_points h)) by (rewrite Pm; apply in_or_app; right; now left).
    destruct (I1 k a t Hin) as (Hk & _ & Hd & _). pose proof (Rel k ltac:(lia)) as Rk.
    assert (Hdec : c_mode (host_of w k) = Decided) by (apply Hlate; [lia|exact HL|rewrite En; destruct l; discriminate|exact Ha|exact He]).
    destruct (phase_of h k) as [|g f|g f|why] eqn:Ep; [destruct Rk as ([X|X] & _); congruence| |discriminate|destruct Rk].
    assert (Hnb : phase_of h k <> Before) by congruence.
    pose proof (first_point_step p mirrored false h k a t l r Pm (or_intror Hnb)) as Sh. pose proof (h_after _ _ _ _ _ R Sh) as R'.
    pose proof (hinv_reachable p HN1 mirrored Hmpart Husable _ R') as (_ & _ & _ & _ & I4'). specialize (I4' k ltac:(lia)). cbn [phase_of] in I4'. rewrite set_same, Ep in I4'.
    destruct Rk as (Hmode & Hl & Hs & Hp & Hse). pose proof (first_point_similar p k a t (c_seg (host_of w k)) g f Hs) as Fs. unfold hands_over in I4'. cbn [segmentation_of foreign_of] in I4'.
    destruct (first_point p k a t g f) as [(g', f')|] eqn:Eg; [|destruct I4'].
    destruct (first_point p k a t (c_seg (host_of w k)) f) as [(g2, f2)|] eqn:E2; [|destruct Fs]. destruct Fs as ((T & A & _) & ->).
    eexists. split; [exact R'|]. split; cbn [host_of points_sent counts phase_of first_points]; [|reflexivity].
    intros q Hq. destruct (Nat.eq_dec q k) as [->|Hne]; [|rewrite !set_other by lia; exact (Rel q Hq)]. rewrite !set_same. unfold hands_over. rewrite Ep. cbn [segmentation_of foreign_of]. rewrite Eg.
    unfold gets_first_point. rewrite Hp, E2, Hse. unfold rel2. cbn [c_mode c_seg c_pending c_sent app]. auto.
Qed.

Lemma turned_reachable : forall w, creachable p part mirrored early w -> exists h, turned w h.
Proof.
  induction 1 as [|w w' Hr (h & Hh) St].
  - exists hinitial. split; [constructor|]. split; [intros k Hk; cbn; auto|reflexivity].
  - eapply turned_step; eauto. now apply linked_reachable.
Qed.

Lemma turned_end : forall w, creachable p part mirrored early w -> cstuck p part mirrored early w -> forall k, k < N ->
  c_mode (host_of w k) = Decided /\ transitions (c_seg (host_of w k)) = transitions (fst (built p k (extended mirrored N k))) /\ c_sent (host_of w k) = [snd (built p k (extended mirrored N k))] /\
  asked (c_seg (host_of w k)) = record p (collected p mirrored N k) [].
Proof.
  intros w Hr St. destruct (turned_reachable w Hr) as (h & R & Rel & Pm). pose proof (linked_reachable w Hr) as HL.
  assert (Ha : forall k, k < N -> alive (host_of w k)).
  { intros k Hk. pose proof (Rel k Hk) as Rk. unfold alive, rel2 in *. destruct (c_mode (host_of w k)); try exact I. destruct (phase_of h k); try tauto; [destruct Rk as ([X|X] & _)| |]; try discriminate; destruct Rk; discriminate. }
  pose proof (hinv_reachable p HN1 mirrored Hmpart Husable h R) as HI.
  assert (Hrec : forall x, In x (points_sent w) -> fst x < N).
  { intros (k, (a, t)) Hx. destruct HI as (I1 & _). destruct (I1 k a t) as (X & _); [now rewrite Pm|cbn; lia]. }
  destruct (stuck_all w HL Ha Hrec St) as (D & E). rewrite E in Pm.
  assert (HS : hstuck p mirrored false h).
  { intros h' Hh'. inversion Hh' as [v k Hk Hb|v k a t l1 l2 Ef _]; subst; [|rewrite Pm in Ef; destruct l1; discriminate]. pose proof (Rel k Hk) as Rk. rewrite Hb in Rk. destruct Rk as (X & _). rewrite D in X by exact Hk. destruct X; discriminate. }
  intros k Hk. pose proof (hstuck_done p HN1 mirrored Hmpart Husable h HI HS k Hk) as Hd. pose proof (Rel k Hk) as Rk. destruct HI as (_ & _ & _ & _ & I4). pose proof (I4 k Hk) as Ik.
  destruct (phase_of h k) as [|g f|g f|why]; try discriminate. destruct Ik as (T & F & Q). destruct Rk as (X & T' & A' & C). ssplit; congruence.
Qed.
End Mirrored.

(** ** Two hosts: the count takes the same way as the first point, and comes first *)
Lemma two_hosts_late : N = 2 -> early = In_order -> forall w k, k < N -> linked w -> points_sent w <> [] -> alive (host_of w k) -> may_handle p early w k -> c_mode (host_of w k) = Decided.
Proof.
  intros E2 Ee w k Hk HL Hp Ha Hm. rewrite Ee in Hm. destruct Hm as (Em & Et). specialize (Et E2). pose proof (linked_ring w HL) as HI. destruct HL as (R & M & P).
  destruct (P Hp) as (q & Hq & F). assert (Hall : forall z, z < N -> begun (node_of (counts w) z) = true) by (intros z Hz; eapply (Shutdown.Proofs.finished_begun N contribution ltac:(lia) (counts w) q z); eauto).
  destruct (HI k Hk) as (_ & P2 & P3). destruct (P2 (Hall k Hk)) as (Epr & Ef). rewrite Em, Et, Epr in P3. cbn [buffer app] in P3. rewrite app_nil_r in P3. apply (f_equal (@length _)) in P3.
  unfold sent_list in P3. rewrite map_length, seq_length in P3. unfold sends in P3. rewrite (Hall (prev N k)) in P3 by (apply prev_lt; lia).
  assert (L : length (taken (node_of (counts w) k)) = N - 1) by lia. rewrite L, Nat.eqb_refl in Ef. pose proof (M k Hk) as Mk. unfold alive in Ha.
  destruct (c_mode (host_of w k)); [rewrite Hall in Mk by exact Hk; discriminate|destruct Mk; congruence|reflexivity|destruct Ha].
Qed.

(** ** Every run ends *)
Definition cmeasure (w : cworld) : nat := 2 * rweight N (counts w) + length (points_sent w).
Lemma first_of_length : forall k g, length (first_of p k g) <= 1.
Proof. intros. unfold first_of. destruct (send_point g), (send_transition g); cbn; lia. Qed.
Lemma decide_length : forall k pts s h, length (snd (decide p k pts s h)) <= 1.
Proof.
  intros. unfold decide. destruct (mirrors _ _); [destruct (build_segments _ _ _ _) as [(g, m)|]|]; cbn [snd]; try apply first_of_length. cbn; lia.
Qed.
Lemma cmeasure_step : forall w w', linked w -> cstep p part mirrored early w w' -> cmeasure w' < cmeasure w.
Proof.
  intros w w' HL St. assert (LI : linv N (counts w)) by (eapply (linv_reachable N contribution); [lia|]; exact (proj1 HL)). destruct HL as (R & M & P). unfold cmeasure.
  destruct St as [w k Hk Hm Hno|w k m r Hk Ht|w k m r Hk Ha Hm e d|w k a t l r En Ha He]; cbn [counts points_sent].
  - rewrite segment_ok by exact Hk. cbn [c_mode]. pose proof (M k Hk) as Mk. rewrite Hm in Mk. destruct (linv_step N contribution ltac:(lia) not_overtaken _ _ LI (begins N contribution not_overtaken (counts w) k Hk Mk Hno)) as (_ & X). lia.
  - destruct (linv_step N contribution ltac:(lia) not_overtaken _ _ LI (arrives N contribution not_overtaken (counts w) k m r Hk Ht)) as (_ & X). lia.
  - destruct (linv_step N contribution ltac:(lia) not_overtaken _ _ LI (takes_in N contribution not_overtaken (counts w) k m r Hk Hm)) as (_ & X). fold e in X.
    rewrite app_length. assert (length (snd d) <= 1) by (unfold d; destruct (_ <? _); [apply decide_length|cbn; lia]). lia.
  - rewrite En, !app_length. cbn [length]. lia.
Qed.
Lemma c_no_infinite : forall run : nat -> cworld, run 0 = cinitial -> ~ (forall i, cstep p part mirrored early (run i) (run (S i))).
Proof.
  intros run H0 H. assert (Hr : forall i, creachable p part mirrored early (run i)) by (induction i as [|i IH]; [rewrite H0; constructor|eapply c_after; [exact IH|apply H]]).
  assert (G : forall i, cmeasure (run i) + i <= cmeasure (run 0)).
  { induction i as [|i IH]; [lia|]. pose proof (cmeasure_step _ _ (linked_reachable _ (Hr i)) (H i)). lia. }
  specialize (G (S (cmeasure (run 0)))). lia.
Qed.
End C.
