(** C80: the crossings of the series reach the hosts that own their segments. *)
From Coq Require Import List Arith Bool Lia Permutation.
From Verif.Base Require Import Res Params ListX.
From Verif.Base Require Assoc.
From Verif.Protocol Require Import Exchange ExchangeProofs Spec.
From Verif.Segmentation Require Import Model Spec Handover.
From Verif.Transition Require Import Model.
From Verif.Nodes Require Import Model Spec.
From Verif.Intersections Require Import Model Proofs.
From Verif.Transposition Require Proofs.
From Verif.Properties Require Import Segmentation.
From Verif.Properties Require Protocol.
Import ListNotations.

(** What host [h] has received, each message as the list of its entries in some order. *)
Definition received_as {C} (w : world (@by_segment C)) (h : nat) (messages : list by_segment) : Prop :=
  Forall2 (fun m e => Permutation m (snd e)) messages (processed (state w h)).

(** ** C80 *)
(** The hosts hold the usable transitions [U] of the series between them, each transition on the host of its first segment.  All crossings can be computed.
    Then in every complete execution the store of every host holds exactly the crossings of the path in its segments, each once, with the coordinates computed for it. *)
Theorem C80_crossings_reach_their_owner : forall C (cross : list transition -> transition -> nat -> res C) p U ts others,
  1 <= n_cluster_nodes p <= rate p ->
  (forall t, In t U -> pseg (fst t) < rate p /\ pseg (snd t) < rate p /\ usable (rate p) t = true) ->
  (forall h, h < n_cluster_nodes p -> Permutation (ts h) (filter (fun t => owner p (pseg (fst t)) =? h) U)) ->
  (forall h t s, h < n_cluster_nodes p -> In t (ts h) -> In (from_id t, s) (visits (rate p) t) -> exists c, cross (ts h) t s = Ok c) ->
  (forall h, h < n_cluster_nodes p -> other_hosts p h (others h)) ->
  exists kept sent,
    (forall h, h < n_cluster_nodes p -> start_stage cross p h (others h) (ts h) = Ok (kept h, sent h)) /\
    forall w, reachable (crossing_exchange p sent) w -> stuck (crossing_exchange p sent) w ->
    forall h messages, h < n_cluster_nodes p -> received_as w h messages ->
    exists store, end_stage p h (kept h) messages = Ok store /\ holds_crossings p h (path (rate p) U) store /\
      forall c, In c store -> exists k t, k < n_cluster_nodes p /\ In t (ts k) /\ c_id c = from_id t /\ In (c_id c, c_segment c) (visits (rate p) t) /\ cross (ts k) t (c_segment c) = Ok (c_coordinates c).
Proof.
  intros C cross p U ts others HN HU Hts Hc Ho. set (N := n_cluster_nodes p) in *. set (r := rate p) in *.
  assert (HtsU : forall h t, h < N -> In t (ts h) -> In t U). { intros h t Hh Ht. apply (Permutation_in _ (Hts h Hh)) in Ht. now apply filter_In in Ht. }
  assert (Hres : forall h, h < N -> exists rs, results cross p (ts h) = Ok rs).
  { intros h Hh. apply mapM_total. intros (t & s) Hi. apply in_rev in Hi. unfold tasks_of in Hi. apply in_flat_map in Hi. destruct Hi as (t' & Ht & Hi). apply in_map_iff in Hi. destruct Hi as (s' & Es & Hs). injection Es as -> ->.
    destruct (HU t (HtsU h t Hh Ht)) as (A & B & Us). destruct (Hc h t s Hh Ht) as (c & Ec).
    - unfold r. rewrite <- (crossed_by_visits p t A B Us). unfold crossed_by. apply in_map_iff. exists s. now split.
    - exists {| c_id := from_id t; c_segment := s; c_coordinates := c |}. unfold cross_task. cbn [fst snd]. now rewrite Ec. }
  set (rs := fun h => match results cross p (ts h) with Ok l => l | Panic _ => [] end).
  assert (Ers : forall h, h < N -> results cross p (ts h) = Ok (rs h)). { intros h Hh. destruct (Hres h Hh) as (l & E). unfold rs. now rewrite E. }
  assert (Hseg : forall h c, h < N -> In c (rs h) -> c_segment c < r). { intros h c Hh Hi. destruct (results_source cross p _ _ _ (Ers h Hh) Hi) as (t & _ & _ & Hs & _). now apply (crossed_bound cross p HN t). }
  exists (fun h => filter (fun c => owner p (c_segment c) =? h) (rs h)), (fun h => map (fun id => (id, message_to p (rs h) id)) (others h)). split.
  - intros h Hh. destruct (Ho h Hh) as (ND & Hin). apply (start_ok cross p HN); [exact ND| |now apply Ers]. intros Hi. apply Hin in Hi. now destruct Hi.
  - intros w Rw Sw h messages Hh Hm. destruct (Protocol.C29_every_bucket_exactly_once _ _ w Rw Sw h Hh) as (P & _). cbn [crossing_exchange hosts to_self bucket] in P.
    assert (PB : Permutation (processed (state w h)) (map (fun q => (q, message_to p (rs q) h)) (filter (fun q => negb (q =? h)) (seq 0 N)))).
    { etransitivity; [exact P|]. unfold buckets_for. cbn [orb]. match goal with |- Permutation ?a ?b => cut (a = b); [intros ->; reflexivity|] end. apply map_ext_in. intros q Hq. apply filter_In in Hq. destruct Hq as (Hq & Hne). apply in_seq in Hq.
      apply negb_true_iff, Nat.eqb_neq in Hne. f_equal. assert (Hh' : In h (others q)) by (apply (proj2 (Ho q ltac:(lia))); split; [exact Hh|congruence]).
      assert (El : Assoc.lookup Nat.eqb h (map (fun id => (id, message_to p (rs q) id)) (others q)) = Some (message_to p (rs q) h)).
      { apply Assoc.In_lookup; [intros; apply Nat.eqb_spec| |apply in_map_iff; now exists h]. unfold Assoc.keys. rewrite map_map. cbn [fst]. rewrite map_id. exact (proj1 (Ho q ltac:(lia))). }
      match goal with |- match ?u with Some _ => _ | None => _ end = _ => replace u with (Some (message_to p (rs q) h)) by (symmetry; exact El) end. reflexivity. }
    assert (Hflat : Permutation (flat_map (flat_map snd) messages) (flat_map (fun e => flat_map snd (snd e)) (processed (state w h)))).
    { clear -Hm. unfold received_as in Hm. induction Hm as [|m e l l' He _ IH]; [constructor|]. cbn [flat_map]. apply Permutation_app; [now apply Permutation_flat_map|exact IH]. }
    assert (Hown : forall msg x, In msg messages -> In x msg -> owner p (fst x) = h).
    { intros msg x Hi Hx. unfold received_as in Hm. destruct (in_split _ _ Hi) as (l1 & l2 & ->). apply Forall2_app_inv_l in Hm. destruct Hm as (a & b & _ & Hb & Ep). inversion Hb; subst. apply (Permutation_in _ H1) in Hx.
      assert (Hy : In y (processed (state w h))) by (rewrite Ep; apply in_or_app; right; now left). apply (Permutation_in _ PB) in Hy. apply in_map_iff in Hy. destruct Hy as (q & <- & _). cbn [snd] in Hx. now apply message_to_owner in Hx. }
    set (kept := filter (fun c => owner p (c_segment c) =? h) (rs h)).
    exists (kept ++ flat_map (flat_map snd) messages).
    assert (Hall : Permutation (kept ++ flat_map (flat_map snd) messages) (flat_map (fun q => filter (fun c => owner p (c_segment c) =? h) (rs q)) (seq 0 N))).
    { etransitivity; [apply Permutation_app_head; etransitivity; [exact Hflat|apply Permutation_flat_map; exact PB]|].
      etransitivity; [|apply Permutation_flat_map; apply Transposition.Proofs.own_and_others; exact Hh]. cbn [flat_map]. apply Permutation_app_head.
      assert (G : forall L, (forall q, In q L -> q < N) -> Permutation (flat_map (fun e => flat_map snd (snd e)) (map (fun q => (q, message_to p (rs q) h)) L)) (flat_map (fun q => filter (fun c => owner p (c_segment c) =? h) (rs q)) L)).
      { induction L as [|q L IH]; intros HL; [constructor|]. cbn [map flat_map snd]. apply Permutation_app; [apply (message_content p HN); intros c Hi; apply (Hseg q c (HL q (or_introl eq_refl)) Hi)|apply IH; intros; apply HL; now right]. }
      apply G. intros q Hq. apply filter_In in Hq. destruct Hq as (Hq & _). apply in_seq in Hq. lia. }
    ssplit.
    + unfold end_stage. rewrite (take_in_all p HN h messages kept Hown). reflexivity.
    + unfold holds_crossings. etransitivity; [apply Permutation_map; exact Hall|].
      assert (G : forall L, (forall q, In q L -> q < N) -> Permutation (map (fun c => (c_id c, c_segment c)) (flat_map (fun q => filter (fun c => owner p (c_segment c) =? h) (rs q)) L)) (filter (fun c => owner p (snd c) =? h) (path r (flat_map ts L)))).
      { induction L as [|q L IH]; intros HL; [constructor|]. cbn [flat_map]. rewrite map_app. unfold path. rewrite map_app, concat_app, filter_app. apply Permutation_app; [|apply IH; intros; apply HL; now right].
        specialize (HL q (or_introl eq_refl)). pose proof (results_keys cross p _ _ (Ers q HL)) as K.
        assert (Ev : flat_map (crossed_by p) (ts q) = concat (map (visits r) (ts q))).
        { rewrite flat_map_concat_map. f_equal. apply map_ext_in. intros t Ht. destruct (HU t (HtsU q t HL Ht)) as (A & B & Us). now apply crossed_by_visits. }
        rewrite Ev in K. apply (filter_perm _ (fun c => owner p (snd c) =? h)) in K. etransitivity; [|exact K]. match goal with |- Permutation ?a ?b => cut (a = b); [intros ->; reflexivity|] end.
        clear. induction (rs q) as [|c l IH]; [reflexivity|]. cbn [filter map]. cbn [snd]. destruct (owner p (c_segment c) =? h); cbn [map]; now rewrite IH. }
      etransitivity; [apply G; intros q Hq; apply in_seq in Hq; lia|]. apply filter_perm. unfold path. rewrite <- !flat_map_concat_map. apply Permutation_flat_map.
      assert (G2 : forall L, (forall q, In q L -> q < N) -> Permutation (flat_map ts L) (flat_map (fun q => filter (fun t => owner p (pseg (fst t)) =? q) U) L)).
      { induction L as [|q L IH]; intros HL; [constructor|]. cbn [flat_map]. apply Permutation_app; [apply Hts, HL; now left|apply IH; intros; apply HL; now right]. }
      etransitivity; [apply G2; intros q Hq; apply in_seq in Hq; lia|]. rewrite flat_map_concat_map. apply (classes_perm _ (fun t : transition => owner p (pseg (fst t)))). intros t _. now apply owner_bound.
    + intros c Hi. apply (Permutation_in _ Hall) in Hi. apply in_flat_map in Hi. destruct Hi as (q & Hq & Hi). apply in_seq in Hq. apply filter_In in Hi. destruct Hi as (Hi & _).
      destruct (results_source cross p _ _ _ (Ers q ltac:(lia)) Hi) as (t & Ht & Eid & Hs & Ec). exists q, t. ssplit; auto; [lia|].
      destruct (HU t (HtsU q t ltac:(lia) Ht)) as (A & B & Us). change (visits r t) with (visits (rate p) t). rewrite <- (crossed_by_visits p t A B Us). unfold crossed_by. rewrite Eid. now apply in_map.
Qed.

(** Every run of the exchange ends. *)
Theorem C80_no_infinite_run : forall C p (sent : nat -> list (nat * @by_segment C)) (run : nat -> world by_segment),
  run 0 = initial -> ~ (forall i, step (crossing_exchange p sent) (run i) (run (S i))).
Proof. intros. now apply Protocol.C29_no_infinite_run. Qed.

(** The crossings of one machine: it keeps all of them, latest first, and sends nothing. *)
Theorem C80_one_machine : forall C (cross : list transition -> transition -> nat -> res C) p points,
  n_cluster_nodes p = 1 -> 1 <= rate p -> segments_ok p points -> let ts := usable_pairs (rate p) points in
  (forall t s, In t ts -> In (from_id t, s) (visits (rate p) t) -> exists c, cross ts t s = Ok c) ->
  exists store, start_stage cross p 0 [] ts = Ok (store, []) /\ map (fun c => (c_id c, c_segment c)) store = rev (path (rate p) ts) /\
    forall c, In c store -> exists t, In t ts /\ c_id c = from_id t /\ In (c_id c, c_segment c) (visits (rate p) t) /\ cross ts t (c_segment c) = Ok (c_coordinates c).
Proof.
  intros C cross p points HN1 Hr Hp ts Hc. assert (HN : 1 <= n_cluster_nodes p <= rate p) by lia.
  assert (HU : forall t, In t ts -> pseg (fst t) < rate p /\ pseg (snd t) < rate p /\ usable (rate p) t = true).
  { intros t Ht. pose proof (PathProofs.fine_pairs p HN points t Hp Ht) as ((A & B) & Us). now ssplit. }
  assert (Hres : exists rs, results cross p ts = Ok rs).
  { apply mapM_total. intros (t & s) Hi. apply in_rev in Hi. unfold tasks_of in Hi. apply in_flat_map in Hi. destruct Hi as (t' & Ht & Hi). apply in_map_iff in Hi. destruct Hi as (s' & Es & Hs). injection Es as -> ->.
    destruct (HU t Ht) as (A & B & Us). destruct (Hc t s Ht) as (c & Ec); [rewrite <- (crossed_by_visits p t A B Us); unfold crossed_by; apply in_map_iff; exists s; now split|].
    exists {| c_id := from_id t; c_segment := s; c_coordinates := c |}. unfold cross_task. cbn [fst snd]. now rewrite Ec. }
  destruct Hres as (rs & Ers). exists rs. rewrite (start_ok cross p HN 0 [] ts rs (NoDup_nil _) (fun F => F) Ers). cbn [map].
  rewrite filter_all_true by (intros c _; unfold owner; rewrite HN1; now rewrite Nat.min_0_r). ssplit; [reflexivity| |intros c Hi; destruct (results_source cross p _ _ _ Ers Hi) as (t & Ht & Eid & Hs & Ec); exists t; ssplit; auto; destruct (HU t Ht) as (A & B & Us); rewrite <- (crossed_by_visits p t A B Us); unfold crossed_by; rewrite Eid; now apply in_map].
  apply mapM_inv in Ers.
  assert (Em : map (fun c => (c_id c, c_segment c)) rs = map (fun task => (from_id (fst task), snd task)) (rev (tasks_of p ts))).
  { clear -Ers. induction Ers as [|task c l l' Hc _ IH]; [reflexivity|]. cbn [map]. rewrite IH. f_equal. unfold cross_task in Hc. destruct (cross ts (fst task) (snd task)); [|discriminate]. cbn in Hc. injection Hc as <-. reflexivity. }
  rewrite Em, map_rev. f_equal. unfold tasks_of, path. assert (G : forall L, (forall t, In t L -> In t ts) -> map (fun task => (from_id (fst task), snd task)) (flat_map (fun t => map (fun s => (t, s)) (crossed_segments (rate p) (from_segment t) (to_segment t))) L) = concat (map (visits (rate p)) L)).
  { induction L as [|t L IH]; intros HL; [reflexivity|]. cbn [flat_map map concat]. rewrite map_app, IH by (intros; apply HL; now right). f_equal. rewrite map_map. cbn [fst snd]. destruct (HU t (HL t (or_introl eq_refl))) as (A & B & Us). exact (crossed_by_visits p t A B Us). }
  apply G. auto.
Qed.

(** From the partitions of the points to the crossings in the stores. *)
Theorem C80_from_the_points : forall C (cross : list transition -> transition -> nat -> res C) p part hw x others,
  2 <= n_cluster_nodes p <= rate p ->
  (forall k, k < n_cluster_nodes p -> segments_ok p (part k)) -> (forall k, k < n_cluster_nodes p -> usable_pairs (rate p) (part k) <> []) ->
  hreachable p part false hw -> hstuck p part false hw ->
  reachable (transition_exchange p hw) x -> stuck (transition_exchange p hw) x ->
  (forall h t s, h < n_cluster_nodes p -> In t (stored hw x h) -> In (from_id t, s) (visits (rate p) t) -> exists c, cross (stored hw x h) t s = Ok c) ->
  (forall h, h < n_cluster_nodes p -> other_hosts p h (others h)) ->
  exists kept sent,
    (forall h, h < n_cluster_nodes p -> start_stage cross p h (others h) (stored hw x h) = Ok (kept h, sent h)) /\
    forall w, reachable (crossing_exchange p sent) w -> stuck (crossing_exchange p sent) w ->
    forall h messages, h < n_cluster_nodes p -> received_as w h messages ->
    exists store, end_stage p h (kept h) messages = Ok store /\
      holds_crossings p h (path (rate p) (usable_pairs (rate p) (concat (map part (seq 0 (n_cluster_nodes p)))))) store.
Proof.
  intros C cross p part hw x others HN Hf Hu Hr Hs Rx Sx Hc Ho. set (points := concat (map part (seq 0 (n_cluster_nodes p)))).
  assert (Hok : segments_ok p points). { intros y Hy. apply in_concat in Hy. destruct Hy as (l & Hl & Hy). apply in_map_iff in Hl. destruct Hl as (k & <- & Hk). apply in_seq in Hk. apply (Hf k ltac:(lia) y Hy). }
  destruct (C80_crossings_reach_their_owner C cross p (usable_pairs (rate p) points) (stored hw x) others) as (kept & sent & Es & H); try assumption; try lia.
  - intros t Ht. pose proof (PathProofs.fine_pairs p ltac:(lia) points t Hok Ht) as ((A & B) & Us). now ssplit.
  - intros h Hh. now apply (C27_distributed_segmentation p part hw x).
  - exists kept, sent. split; [exact Es|]. intros w Rw Sw h messages Hh Hm. destruct (H w Rw Sw h messages Hh Hm) as (store & E & Hs' & _). exists store. now split.
Qed.

(** A crossing that cannot be computed: the host never starts the exchange ... *)
Theorem C80_failed_crossing_stops_the_host : forall C (cross : list transition -> transition -> nat -> res C) p own others ts t s e,
  In t ts -> In s (crossed_segments (rate p) (from_segment t) (to_segment t)) -> cross ts t s = Panic e -> exists e', start_stage cross p own others ts = Panic e'.
Proof.
  intros C cross p own others ts t s e Ht Hs E. assert (G : exists e', results cross p ts = Panic e').
  { unfold results. assert (Hi : In (t, s) (rev (tasks_of p ts))) by (apply -> in_rev; unfold tasks_of; apply in_flat_map; exists t; split; [exact Ht|apply in_map_iff; now exists s]).
    induction (rev (tasks_of p ts)) as [|y l IH]; [destruct Hi|]. cbn [mapM]. destruct (cross_task cross ts y) as [v|e'] eqn:Ey; [|cbn; eauto]. destruct Hi as [->|Hi].
    - unfold cross_task in Ey. cbn [fst snd] in Ey. rewrite E in Ey. discriminate.
    - destruct (IH Hi) as (e' & El). rewrite El. cbn. eauto. }
  destruct G as (e' & E'). exists e'. unfold start_stage, calculate. now rewrite E'.
Qed.
(** ... and then no host of the cluster ever leaves this stage. *)
Theorem C80_one_stopped_host_stops_all : forall C p (sent : nat -> list (nat * @by_segment C)) w q, q < n_cluster_nodes p ->
  reachable (crossing_exchange p sent) w -> entered (state w q) = false -> forall h, h < n_cluster_nodes p -> left (state w h) = 0.
Proof.
  intros C p sent w q Hq Hr Hne h Hh. set (x := crossing_exchange p sent) in *. destruct (inv_reachable x w Hr) as (_ & HI). destruct (HI h Hh) as (P1 & P2 & P3).
  destruct (entered (state w h)) eqn:Eh; [|now apply P1]. destruct (P2 eq_refl) as (_ & El). rewrite El. destruct (Nat.leb_spec 1 (length (addressees x h))); [|reflexivity]. cbn [andb].
  destruct (Nat.leb_spec (length (addressees x h)) (length (processed (state w h)))) as [L|]; [|reflexivity]. exfalso.
  pose proof (Permutation_length P3) as PL. rewrite app_length in PL. unfold incoming in PL. rewrite map_length in PL. unfold addressees in L. cbn [x crossing_exchange to_self orb hosts] in *.
  assert (S : length (filter (fun k => entered (state w k) && negb (k =? h)) (seq 0 (n_cluster_nodes p))) < length (filter (fun k => negb (k =? h)) (seq 0 (n_cluster_nodes p)))).
  { assert (Hqh : q <> h) by congruence. assert (Hin : In q (seq 0 (n_cluster_nodes p))) by (apply in_seq; lia). clear -Hne Hqh Hin. set (n := n_cluster_nodes p) in *. clearbody n. revert Hin. generalize (seq 0 n).
    assert (Le : forall l, length (filter (fun k => entered (state w k) && negb (k =? h)) l) <= length (filter (fun k => negb (k =? h)) l)) by (induction l as [|k l IH]; [cbn; lia|]; cbn [filter]; destruct (entered (state w k)), (negb (k =? h)); cbn [andb length]; lia).
    induction l as [|k l IH]; [easy|]. intros [->|Hi]; cbn [filter].
    - rewrite Hne. cbn [andb]. destruct (Nat.eqb_spec q h); [contradiction|]. cbn [negb length]. specialize (Le l). lia.
    - specialize (IH Hi). destruct (entered (state w k)), (negb (k =? h)); cbn [andb length]; lia. }
  lia.
Qed.

(** Two hosts, rate 4: the first host holds the transitions from segment 0, the second the ones from segments 2 and 3; each sends the other one a crossing. *)
Definition c80_transition (i a b : nat) : transition := ({| pid := i; pseg := a |}, {| pid := i + 1; pseg := b |}).
Definition c80_all : list transition := [c80_transition 0 0 2; c80_transition 2 2 3; c80_transition 5 3 1; c80_transition 7 3 0].
Definition c80_ts (h : nat) : list transition := filter (fun t => owner (with_rate_nodes 4 2) (pseg (fst t)) =? h) c80_all.
Definition c80_cross (ts : list transition) (t : transition) (s : nat) : res nat := Ok (length ts + from_id t + s).
Example C80_case : let p := with_rate_nodes 4 2 in
  (forall t, In t c80_all -> pseg (fst t) < rate p /\ pseg (snd t) < rate p /\ usable (rate p) t = true) /\
  exists kept0 kept1 m0 m1, start_stage c80_cross p 0 [1] (c80_ts 0) = Ok (kept0, [(1, m0)]) /\ start_stage c80_cross p 1 [0] (c80_ts 1) = Ok (kept1, [(0, m1)]) /\
    map (fun '(s, l) => (s, map (@c_id nat) l)) m1 = [(0, [7; 5]); (1, [5])] /\
    exists store, end_stage p 0 kept0 [m1] = Ok store /\ map (fun c => (c_id c, c_segment c)) store = [(0, 1); (7, 0); (5, 0); (5, 1)].
Proof. cbv zeta. split; [intros t [<-|[<-|[<-|[<-|[]]]]]; vm_compute; repeat split; lia|]. do 4 eexists. ssplit; try (vm_compute; reflexivity). eexists. split; vm_compute; reflexivity. Qed.

Print Assumptions C80_crossings_reach_their_owner.
Print Assumptions C80_no_infinite_run.
Print Assumptions C80_one_machine.
Print Assumptions C80_from_the_points.
Print Assumptions C80_failed_crossing_stops_the_host.
Print Assumptions C80_one_stopped_host_stops_all.
