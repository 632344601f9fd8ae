(** C82: self-correction on a cluster. *)
From Coq Require Import List Arith ZArith Bool Lia Permutation.
From Verif.Base Require Import Res Params ListX.
From Verif.Transition Require Import Spec.
From Verif.Segmentation Require Import Model Spec Blocks Proofs PathProofs Handover HandoverProofs.
From Verif.Protocol Require Import Model Exchange Ring RingProofs.
From Verif.Protocol Require Spec.
From Verif.Correction Require Import Model Spec Proofs.
From Verif.Properties Require Protocol Segmentation.
Import ListNotations.

(** The points of all hosts, one after the other. *)
Definition whole (p : params) (part : nat -> list pt) : list pt := concat (map part (seq 0 (n_cluster_nodes p))).
(** The exchange of transitions that follows: host [k] sends host [j] what it collected for it, in all the distributions it starts. *)
Definition correction_exchange (p : params) (w : cworld) : exchange (list transition) :=
  {| hosts := n_cluster_nodes p; to_self := false; bucket := fun k j => concat (map (bucket_for j) (c_sent (host_of w k))) |}.
(** The transitions in the store of host [j] in the end: its own and the received ones. *)
Definition transitions_at (w : cworld) (x : world (list transition)) (j : nat) : list transition :=
  transitions (c_seg (host_of w j)) ++ concat (map snd (processed (state x j))).
(** Every host started one distribution, and all hosts together hold the usable pairs of the series [points], each at the owner of its start segment. *)
Definition segmented_as (p : params) (w : cworld) (points : list pt) : Prop :=
  (forall k, k < n_cluster_nodes p -> c_mode (host_of w k) = Decided /\ length (c_sent (host_of w k)) = 1) /\
  forall x, reachable (correction_exchange p w) x -> stuck (correction_exchange p w) x -> forall j, j < n_cluster_nodes p ->
    Permutation (transitions_at w x j) (filter (fun t => owner p (pseg (fst t)) =? j) (usable_pairs (rate p) points)).

Lemma ends_segmented : forall p pts w, 2 <= n_cluster_nodes p <= rate p -> (forall k, k < n_cluster_nodes p -> all_fine p (pts k)) -> (forall k, k < n_cluster_nodes p -> usable_pairs (rate p) (pts k) <> []) ->
  (forall k, k < n_cluster_nodes p -> c_mode (host_of w k) = Decided /\ transitions (c_seg (host_of w k)) = transitions (fst (built p k (extended pts (n_cluster_nodes p) k))) /\
     c_sent (host_of w k) = [snd (built p k (extended pts (n_cluster_nodes p) k))] /\ asked (c_seg (host_of w k)) = record p (collected p pts (n_cluster_nodes p) k) []) ->
  segmented_as p w (whole p pts).
Proof.
  intros p pts w HN Hf Hu H. assert (HN' : 1 <= n_cluster_nodes p <= rate p) by lia. split.
  - intros k Hk. destruct (H k Hk) as (M & _ & S & _). split; [exact M|now rewrite S].
  - intros x Rx Sx j Hj. unfold transitions_at. destruct (H j Hj) as (_ & -> & _). cbn [built fst transitions].
    destruct (Protocol.C29_every_bucket_exactly_once _ _ x Rx Sx j Hj) as (P & _). etransitivity; [|apply (own_and_received p HN' pts Hf Hu j Hj)].
    apply Permutation_app_head. rewrite <- flat_map_concat_map. rewrite P. rewrite flat_map_concat_map. cbn [correction_exchange hosts to_self bucket]. unfold Spec.buckets_for.
    rewrite map_map. cbn [snd orb]. match goal with |- Permutation ?a ?b => cut (a = b); [intros ->; reflexivity|] end. f_equal. apply map_ext_in. intros k Hk. apply filter_In in Hk. destruct Hk as (Hk & _). apply in_seq in Hk.
    destruct (H k ltac:(lia)) as (_ & _ & -> & _). cbn [map concat]. rewrite app_nil_r. cbn [built snd]. rewrite bucket_push. reflexivity.
Qed.

(** Not more clockwise than usable pairs, counted as the hosts do: the points are kept, in every execution. *)
Theorem C82_kept : forall p part mirrored order w,
  2 <= n_cluster_nodes p <= rate p -> self_correction p = true ->
  (forall k, k < n_cluster_nodes p -> Segmentation.segments_ok p (part k)) ->
  (forall k, k < n_cluster_nodes p -> usable_pairs (rate p) (part k) <> []) ->
  should_mirror p part = false ->
  creachable p part mirrored order w -> cstuck p part mirrored order w ->
  segmented_as p w (whole p part).
Proof.
  intros p part mirrored order w HN Hc Hf Hu Hk Hr Hs. apply ends_segmented; auto. intros k Hlt. eapply (kept_end p HN part mirrored order); eauto.
Qed.
(** More clockwise pairs: all hosts mirror, provided first points are handled only by hosts that have decided. *)
Theorem C82_mirrored_partial : forall p part mirrored w,
  2 <= n_cluster_nodes p <= rate p -> self_correction p = true ->
  (forall k, k < n_cluster_nodes p -> Segmentation.segments_ok p (part k) /\ Segmentation.segments_ok p (mirrored k)) ->
  (forall k, k < n_cluster_nodes p -> usable_pairs (rate p) (mirrored k) <> []) ->
  should_mirror p part = true ->
  creachable p part mirrored After_decision w -> cstuck p part mirrored After_decision w ->
  segmented_as p w (whole p mirrored).
Proof.
  intros p part mirrored w HN Hc Hf Hu Hm Hr Hs. apply ends_segmented; auto; [intros k Hk; apply (Hf k Hk)|]. intros k Hlt.
  eapply (turned_end p HN part mirrored After_decision); eauto; intros; try (apply Hf; assumption).
Qed.
(** Two hosts: the proviso holds by itself. *)
Theorem C82_two_hosts : forall p part mirrored w,
  n_cluster_nodes p = 2 -> 2 <= rate p -> self_correction p = true ->
  (forall k, k < 2 -> Segmentation.segments_ok p (part k) /\ Segmentation.segments_ok p (mirrored k)) ->
  (forall k, k < 2 -> usable_pairs (rate p) (part k) <> [] /\ usable_pairs (rate p) (mirrored k) <> []) ->
  creachable p part mirrored In_order w -> cstuck p part mirrored In_order w ->
  segmented_as p w (whole p (if should_mirror p part then mirrored else part)).
Proof.
  intros p part mirrored w E2 Hrate Hc Hf Hu Hr Hs. assert (HN : 2 <= n_cluster_nodes p <= rate p) by lia. rewrite <- E2 in Hf, Hu. destruct (should_mirror p part) eqn:Em.
  - apply ends_segmented; auto; [intros k Hk; apply (Hf k Hk)|intros k Hk; apply (Hu k Hk)|]. intros k Hlt.
    assert (Hpart : forall k, k < n_cluster_nodes p -> all_fine p (part k)) by (intros z Hz; apply (Hf z Hz)).
    apply (turned_end p HN part mirrored In_order Hpart Hc Em); auto; [apply (two_hosts_late p HN part mirrored In_order Hpart Hc E2 eq_refl)|intros z Hz; apply (Hf z Hz)|intros z Hz; apply (Hu z Hz)].
  - eapply C82_kept; eauto; intros k Hk; [apply (Hf k Hk)|apply (Hu k Hk)].
Qed.
(** Every execution ends, whatever the order of delivery. *)
Theorem C82_every_run_ends : forall p part mirrored order (run : nat -> cworld),
  2 <= n_cluster_nodes p <= rate p -> self_correction p = true -> (forall k, k < n_cluster_nodes p -> Segmentation.segments_ok p (part k)) ->
  run 0 = cinitial -> ~ (forall i, cstep p part mirrored order (run i) (run (S i))).
Proof. intros p part mirrored order run HN Hc Hf. now apply c_no_infinite. Qed.

(** ** Concrete executions *)
Inductive event := Segments (k : nat) | Arrives (k : nat) | Counts (k : nat) | First_point (k : nat).
Section Runs.
Variable p : params. Variable part mirrored : nat -> list pt.
Definition allows (order : delivery) (w : cworld) (k : nat) : bool :=
  match order with
  | Anyhow => true
  | In_order => match mailbox (node_of (counts w) k) with [] => (negb (n_cluster_nodes p =? 2)) || match transit (counts w) k with [] => true | _ => false end | _ => false end
  | After_decision => match c_mode (host_of w k) with Decided => true | _ => false end
  end.
Definition happens (order : delivery) (w : cworld) (e : event) : option cworld :=
  match e with
  | Segments k => match k <? n_cluster_nodes p, c_mode (host_of w k), buffer (rproto (node_of (counts w) k)) with
      | true, Idle, [] => Some {| counts := match c_mode (segment p k (part k) (host_of w k)) with
                   | Counting => put (n_cluster_nodes p) (counts w) k (begin_ring (n_cluster_nodes p) (fun i => report p i (part i)) k (node_of (counts w) k))
                   | _ => counts w
                   end;
         host_of := set (host_of w) k (segment p k (part k) (host_of w k)); points_sent := points_sent w |}
      | _, _, _ => None end
  | Arrives k => match k <? n_cluster_nodes p, transit (counts w) k with
      | true, m :: r => Some {| counts := {| node_of := set (node_of (counts w)) k (pop (node_of (counts w) k) (mailbox (node_of (counts w) k) ++ [m])); transit := set (transit (counts w)) k r |};
         host_of := host_of w; points_sent := points_sent w |}
      | _, _ => None end
  | Counts k => match k <? n_cluster_nodes p, c_mode (host_of w k), mailbox (node_of (counts w) k) with
      | false, _, _ | _, Crashed _, _ | _, _, [] => None
      | _, _, m :: r =>
        let e := take_in m (pop (node_of (counts w) k) r) in
        let d := if finished (node_of (counts w) k) <? finished (fst e)
             then decide p k (mirrored k) (add_up (report p k (part k)) (taken (fst e))) (host_of w k) else (host_of w k, []) in
        Some {| counts := put (n_cluster_nodes p) (counts w) k e; host_of := set (host_of w) k (fst d); points_sent := points_sent w ++ snd d |} end
  | First_point k => match points_sent w, c_mode (host_of w k) with
      | [], _ | _, Crashed _ => None
      | (k', (a, t)) :: r, _ => if (k' =? k) && allows order w k
          then Some {| counts := counts w; host_of := set (host_of w) k (gets_first_point p k a t (host_of w k)); points_sent := r |} else None end
  end.
Lemma happens_step : forall order w e w', happens order w e = Some w' -> cstep p part mirrored order w w'.
Proof.
  intros order w e w' H. destruct e as [k|k|k|k]; cbn [happens] in H.
  - destruct (Nat.ltb_spec k (n_cluster_nodes p)) as [Hk|]; [|discriminate]. destruct (c_mode (host_of w k)) eqn:Em; try discriminate. destruct (buffer _) eqn:Eb; [|discriminate]. injection H as <-.
    apply c_segments; auto. now left.
  - destruct (Nat.ltb_spec k (n_cluster_nodes p)) as [Hk|]; [|discriminate]. destruct (transit (counts w) k) as [|m r] eqn:Et; [discriminate|]. injection H as <-. now apply (c_arrives p part mirrored order w k m r).
  - destruct (Nat.ltb_spec k (n_cluster_nodes p)) as [Hk|]; [|destruct (c_mode (host_of w k)); discriminate].
    assert (Ha : (match c_mode (host_of w k) with Crashed _ => False | _ => True end) \/ exists y, c_mode (host_of w k) = Crashed y) by (destruct (c_mode (host_of w k)); eauto).
    destruct Ha as [Ha|(y & Ey)]; [|rewrite Ey in H; discriminate].
    destruct (mailbox (node_of (counts w) k)) as [|m r] eqn:Em; [destruct (c_mode (host_of w k)); discriminate|].
    assert (E : w' = {| counts := put (n_cluster_nodes p) (counts w) k (take_in m (pop (node_of (counts w) k) r));
      host_of := set (host_of w) k (fst (if finished (node_of (counts w) k) <? finished (fst (take_in m (pop (node_of (counts w) k) r)))
         then decide p k (mirrored k) (add_up (report p k (part k)) (taken (fst (take_in m (pop (node_of (counts w) k) r))))) (host_of w k) else (host_of w k, [])));
      points_sent := points_sent w ++ snd (if finished (node_of (counts w) k) <? finished (fst (take_in m (pop (node_of (counts w) k) r)))
         then decide p k (mirrored k) (add_up (report p k (part k)) (taken (fst (take_in m (pop (node_of (counts w) k) r))))) (host_of w k) else (host_of w k, [])) |}).
    { destruct (c_mode (host_of w k)); try (destruct Ha); now injection H as <-. }
    rewrite E. now apply (c_counts p part mirrored order w k m r).
  - destruct (points_sent w) as [|(k', (a, t)) r] eqn:Ep; [discriminate|].
    assert (Ha : alive (host_of w k)) by (unfold alive; destruct (c_mode (host_of w k)); auto; discriminate).
    assert (H' : (if (k' =? k) && allows order w k then Some {| counts := counts w; host_of := set (host_of w) k (gets_first_point p k a t (host_of w k)); points_sent := r |} else None) = Some w').
    { unfold alive in Ha. destruct (c_mode (host_of w k)); try exact H. destruct Ha. }
    clear H. destruct (Nat.eqb_spec k' k) as [->|]; [|discriminate]. destruct (allows order w k) eqn:Eal; [|discriminate]. injection H' as <-.
    apply (c_first_point p part mirrored order w k a t [] r); [exact Ep|exact Ha|]. unfold allows in Eal. unfold may_handle. destruct order; [exact I| |now destruct (c_mode (host_of w k))].
    destruct (mailbox (node_of (counts w) k)); [|discriminate]. split; [reflexivity|]. intros E. rewrite E in Eal. destruct (transit (counts w) k); [reflexivity|discriminate].
Qed.
Fixpoint runs (order : delivery) (l : list event) (w : cworld) : option cworld := match l with [] => Some w | e :: l => match happens order w e with Some w' => runs order l w' | None => None end end.
Lemma runs_reachable : forall order l w w', creachable p part mirrored order w -> runs order l w = Some w' -> creachable p part mirrored order w'.
Proof.
  intros order l. induction l as [|e l IH]; intros w w' Hr H; cbn [runs] in H; [now injection H as <-|]. destruct (happens order w e) as [v|] eqn:E; [|discriminate].
  eapply IH; [|exact H]. eapply c_after; [exact Hr|]. eapply happens_step; eauto.
Qed.
Lemma runs_ends : forall order l A (look : cworld -> A) a, match runs order l cinitial with Some v => Some (look v) | None => None end = Some a ->
  exists w, creachable p part mirrored order w /\ look w = a.
Proof. intros order l A look a H. destruct (runs order l cinitial) as [w|] eqn:E; [|discriminate]. injection H as H. exists w. split; [|exact H]. eapply runs_reachable; [constructor|exact E]. Qed.
(** Nothing can happen any more. *)
Definition at_rest (w : cworld) : bool :=
  match points_sent w with [] => true | _ => false end &&
  forallb (fun k => match c_mode (host_of w k), transit (counts w) k, mailbox (node_of (counts w) k) with Decided, [], [] => true | _, _, _ => false end) (seq 0 (n_cluster_nodes p)).
Lemma at_rest_stuck : forall order w, at_rest w = true -> cstuck p part mirrored order w.
Proof.
  intros order w H. unfold at_rest in H. apply andb_true_iff in H. destruct H as (Hp & Hf). rewrite forallb_forall in Hf.
  assert (G : forall k, k < n_cluster_nodes p -> c_mode (host_of w k) = Decided /\ transit (counts w) k = [] /\ mailbox (node_of (counts w) k) = []).
  { intros k Hk. specialize (Hf k ltac:(apply in_seq; lia)). destruct (c_mode (host_of w k)), (transit (counts w) k), (mailbox (node_of (counts w) k)); try discriminate. auto. }
  intros w' St. destruct St as [w k Hk Hm Hno|w k m r Hk Ht|w k m r Hk Ha Hm|w k a t l r En Ha He].
  - destruct (G k Hk) as (E & _). congruence.
  - destruct (G k Hk) as (_ & E & _). congruence.
  - destruct (G k Hk) as (_ & _ & E). congruence.
  - rewrite En in Hp. destruct l; discriminate.
Qed.
End Runs.

Definition numbered (s : nat) (segs : list nat) : list pt := map (fun '(i, g) => {| pid := i; pseg := g |}) (combine (seq s (length segs)) segs).
(** Mirrored at the second axis: segment [s] of six becomes segment [2 - s]. *)
Definition mirror6 (segs : list nat) : list nat := map (fun s => (8 - s) mod 6) segs.

(** Three hosts, two segments owned by each. *)
Definition segs3 (k : nat) : list nat := match k with 0 => [2; 3; 2; 1; 0; 5; 4] | 1 => [4; 5; 4] | _ => [0; 1; 0] end.
Definition part3 (k : nat) : list pt := numbered (10 * k) (segs3 k).
Definition mirrored3 (k : nat) : list pt := numbered (10 * k) (mirror6 (segs3 k)).
Definition p3 : params := Segmentation.self_correcting 6 3.

(** The proviso of [C82_mirrored_partial] can be met. *)
Definition one_after_the_other : list event :=
  [Segments 0; Segments 1; Segments 2; Arrives 0; Arrives 1; Arrives 2; Counts 0; Counts 1; Counts 2; Arrives 0; Arrives 1; Arrives 2; Counts 1; Counts 2; Counts 0; First_point 0; First_point 1].
Example C82_mirrored_case : exists w, creachable p3 part3 mirrored3 After_decision w /\ cstuck p3 part3 mirrored3 After_decision w /\ should_mirror p3 part3 = true /\
  (forall k, k < 3 -> (forall x, In x (part3 k) -> pseg x < 6) /\ (forall x, In x (mirrored3 k) -> pseg x < 6) /\ usable_pairs 6 (mirrored3 k) <> []).
Proof.
  destruct (runs_ends p3 part3 mirrored3 After_decision one_after_the_other _ (at_rest p3) true) as (w & Hr & Ht); [vm_compute; reflexivity|]. exists w. ssplit.
  - exact Hr.
  - now apply at_rest_stuck.
  - vm_compute. reflexivity.
  - intros k Hk. assert (Hk' : k = 0 \/ k = 1 \/ k = 2) by lia. destruct Hk' as [->|[->| ->]]; ssplit; try (vm_compute; discriminate); intros x Hx; vm_compute in Hx; repeat (destruct Hx as [<-|Hx]; [vm_compute; lia|]); destruct Hx.
Qed.
(** Two hosts, in the order of their messages; the points of the first case are mirrored, those of the second are kept. *)
Definition p2 : params := Segmentation.self_correcting 6 2.
Definition turning (k : nat) : list nat := match k with 0 => [4; 5; 4; 3; 2; 1] | _ => [1; 0; 5; 0] end.
Definition going (k : nat) : list nat := match k with 0 => [4; 5; 0; 2; 1] | _ => [1; 3; 4; 3] end.
Example C82_two_hosts_case : forall turns, exists w, let segs := if turns : bool then turning else going in
  let part := fun k => numbered (10 * k) (segs k) in let mirrored := fun k => numbered (10 * k) (mirror6 (segs k)) in
  creachable p2 part mirrored In_order w /\ cstuck p2 part mirrored In_order w /\ should_mirror p2 part = turns /\
  (forall k, k < 2 -> (forall x, In x (part k) -> pseg x < 6) /\ (forall x, In x (mirrored k) -> pseg x < 6) /\ usable_pairs 6 (part k) <> [] /\ usable_pairs 6 (mirrored k) <> []).
Proof.
  intros turns. set (segs := if turns then turning else going).
  destruct (runs_ends p2 (fun k => numbered (10 * k) (segs k)) (fun k => numbered (10 * k) (mirror6 (segs k))) In_order
    [Segments 0; Segments 1; Arrives 0; Arrives 1; Counts 1; Counts 0; First_point 0] _ (at_rest p2) true) as (w & Hr & Ht); [destruct turns; vm_compute; reflexivity|].
  exists w. cbv zeta. fold segs. ssplit.
  - exact Hr.
  - now apply at_rest_stuck.
  - destruct turns; vm_compute; reflexivity.
  - intros k Hk. assert (Hk' : k = 0 \/ k = 1) by lia. destruct turns, Hk' as [->| ->]; ssplit; try (vm_compute; discriminate); intros x Hx; vm_compute in Hx; repeat (destruct Hx as [<-|Hx]; [vm_compute; lia|]); destruct Hx.
Qed.
(** Refuted for three hosts, even though messages arrive in order: host 1 has all counts while those of host 1 itself are still on their way to host 0; host 1 mirrors its
    points and sends the first one to host 0, which takes it for the successor of its last, unmirrored point, and distributes its unmirrored transitions.  When the last
    counts come, host 0 mirrors its points, too, and waits for a first point that has come already. *)
Definition in_nobodys_order : list event :=
  [Segments 0; Segments 1; Segments 2; Arrives 0; Counts 0; Arrives 1; Counts 1; Arrives 1; Counts 1; First_point 0;
   Arrives 2; Counts 2; Arrives 2; Counts 2; First_point 1; Arrives 0; Counts 0].
Theorem C82_mirrored_refuted : exists p part mirrored w,
  2 <= n_cluster_nodes p <= rate p /\ self_correction p = true /\ should_mirror p part = true /\
  (forall k, k < n_cluster_nodes p -> Segmentation.segments_ok p (part k) /\ Segmentation.segments_ok p (mirrored k)) /\
  (forall k, k < n_cluster_nodes p -> usable_pairs (rate p) (part k) <> [] /\ usable_pairs (rate p) (mirrored k) <> []) /\
  creachable p part mirrored In_order w /\ cstuck p part mirrored In_order w /\
  forall x, reachable (correction_exchange p w) x -> stuck (correction_exchange p w) x ->
    (exists j t, j < n_cluster_nodes p /\ In t (transitions_at w x j) /\ ~ In t (usable_pairs (rate p) (whole p mirrored))) /\
    (exists t, In t (usable_pairs (rate p) (whole p mirrored)) /\ forall j, j < n_cluster_nodes p -> ~ In t (transitions_at w x j)).
Proof.
  exists p3, part3, mirrored3.
  assert (Hsmall : forall k, k < n_cluster_nodes p3 -> k = 0 \/ k = 1 \/ k = 2) by (intros k Hk; vm_compute in Hk; lia).
  set (a := {| pid := 2; pseg := 0 |}). set (b := {| pid := 3; pseg := 1 |}). set (c := {| pid := 4; pseg := 2 |}). set (d := {| pid := 11; pseg := 3 |}). set (e := {| pid := 12; pseg := 4 |}).
  set (u := ({| pid := 0; pseg := 2 |}, {| pid := 1; pseg := 3 |})). set (v := ({| pid := 21; pseg := 1 |}, {| pid := 22; pseg := 2 |})).
  destruct (runs_ends p3 part3 mirrored3 In_order in_nobodys_order _
    (fun w => (at_rest p3 w, map (fun k => transitions (c_seg (host_of w k))) [0; 1; 2], map (fun k => c_sent (host_of w k)) [0; 1; 2]))
    (true, [[(a, b); (b, c)]; [(d, e)]; []], [[[(1, [u])]]; [[(1, [(d, e)])]]; [[(0, [v])]]])) as (w & Hr & Hw); [vm_compute; reflexivity|].
  injection Hw as Hrest T0 T1 T2 S0 S1 S2. exists w. ssplit; try (vm_compute; lia); try reflexivity.
  - intros k Hk. destruct (Hsmall k Hk) as [->|[->| ->]]; split; intros x Hx; vm_compute in Hx; repeat (destruct Hx as [<-|Hx]; [vm_compute; lia|]); destruct Hx.
  - intros k Hk. destruct (Hsmall k Hk) as [->|[->| ->]]; split; vm_compute; discriminate.
  - exact Hr.
  - now apply at_rest_stuck.
  - intros x Rx Sx.
    assert (P : forall j, j < 3 -> Permutation (processed (state x j)) (map (fun k => (k, concat (map (bucket_for j) (c_sent (host_of w k))))) (filter (fun k => negb (k =? j)) [0; 1; 2]))).
    { intros j Hj. destruct (Protocol.C29_every_bucket_exactly_once _ _ x Rx Sx j Hj) as (P & _). exact P. }
    split.
    + exists 1, u. ssplit; [vm_compute; lia| |vm_compute; intuition discriminate]. unfold transitions_at. apply in_or_app. right. apply in_concat. exists [u]. split; [|now left].
      apply in_map_iff. exists (0, [u]). split; [reflexivity|]. eapply Permutation_in; [symmetry; apply (P 1); lia|]. cbn [filter Nat.eqb negb map]. rewrite S0. left. reflexivity.
    + exists (c, {| pid := 5; pseg := 3 |}). split; [vm_compute; tauto|]. intros j Hj Hin. unfold transitions_at in Hin. apply in_app_or in Hin. destruct Hin as [Hin|Hin].
      * destruct (Hsmall j Hj) as [->|[->| ->]]; rewrite ?T0, ?T1, ?T2 in Hin; vm_compute in Hin; intuition discriminate.
      * apply in_concat in Hin. destruct Hin as (l & Hl & Hin). apply in_map_iff in Hl. destruct Hl as ((q, l') & El & Hl). cbn [snd] in El. subst l'.
        eapply Permutation_in in Hl; [|apply (P j); exact Hj]. apply in_map_iff in Hl. destruct Hl as (q' & Eq & Hq). injection Eq as -> <-. apply filter_In in Hq. destruct Hq as (Hq & _).
        destruct Hq as [<-|[<-|[<-|[]]]]; rewrite ?S0, ?S1, ?S2 in Hin; destruct (Hsmall j Hj) as [->|[->| ->]]; vm_compute in Hin; intuition discriminate.
Qed.
Print Assumptions C82_kept.
Print Assumptions C82_mirrored_partial.
Print Assumptions C82_two_hosts.
Print Assumptions C82_every_run_ends.
Print Assumptions C82_mirrored_refuted.
