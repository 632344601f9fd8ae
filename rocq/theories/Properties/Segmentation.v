(** C26, C27, C28, C33, C34, C53: transitions of the point sequence, their distribution, and the questions between hosts. *)
From Coq Require Import List Arith ZArith Bool Lia Permutation.
From Verif.Base Require Import Res Params ListX.
From Verif.Transition Require Import Spec.
From Verif.Protocol Require Import Model Exchange.
From Verif.Protocol Require Spec.
From Verif.Segmentation Require Import Model Spec Blocks Proofs PathProofs Handover HandoverProofs HandoverExact.
From Verif.Properties Require Protocol.
Import ListNotations.

Definition segments_ok (p : params) (points : list pt) : Prop := forall x, In x points -> pseg x < rate p.

(** ** C26 *)
Theorem C26_single_machine_records_usable_pairs : forall p points, n_cluster_nodes p = 1 -> 1 <= rate p -> segments_ok p points ->
  exists g foreign, build_segments p 0 points new_segmentation = Ok (g, foreign) /\ transitions g = usable_pairs (rate p) points.
Proof.
  intros p points HN Hr Hf. exists (fst (built p 0 points)), (snd (built p 0 points)). split.
  - rewrite build_ok; [now rewrite <- surjective_pairing|lia|exact Hf].
  - unfold built. cbn [fst transitions]. apply filter_all_true. intros t _. unfold owner. rewrite HN. now rewrite Nat.min_0_r.
Qed.
(** Every recorded transition joins two neighbours of the sequence, and carries the number of the first one. *)
Theorem C26_transition_ids : forall p points s, n_cluster_nodes p = 1 -> 1 <= rate p -> segments_ok p points -> map pid points = seq s (length points) ->
  exists g foreign, build_segments p 0 points new_segmentation = Ok (g, foreign) /\
    forall t, In t (transitions g) <-> exists i, nth_error points i = Some (fst t) /\ nth_error points (i + 1) = Some (snd t) /\ pid (fst t) = s + i /\
      1 <= ccw (rate p) (pseg (fst t)) (pseg (snd t)) <= rate p / 2.
Proof.
  intros p points s HN Hr Hf Hid. destruct (C26_single_machine_records_usable_pairs p points HN Hr Hf) as (g & m & E & Et). exists g, m. split; [exact E|]. intros t. rewrite Et.
  assert (Ip : In t (pairs points) <-> exists i, nth_error points i = Some (fst t) /\ nth_error points (i + 1) = Some (snd t)).
  { clear. induction points as [|x l IH]; [split; [intros []|intros ([|i] & A & _); discriminate]|]. destruct l as [|y l].
    - split; [intros []|]. intros ([|i] & A & B); cbn in A, B; [discriminate|destruct i; discriminate].
    - change (pairs (x :: y :: l)) with ((x, y) :: pairs (y :: l)). cbn [In]. rewrite IH. split.
      + intros [<-|(i & A & B)]; [exists 0; now split|]. exists (S i). now split.
      + intros ([|i] & A & B); [left; cbn in A, B; injection A as A; injection B as B; destruct t; cbn in *; congruence|]. right. exists i. now split. }
  unfold usable_pairs. rewrite filter_In. unfold usable. rewrite andb_true_iff, !Nat.leb_le, Ip. split.
  - intros ((i & A & B) & H1 & H2). exists i. ssplit; auto. apply (map_nth_error pid) in A. rewrite Hid in A. assert (Hi : i < length points).
    { destruct (le_lt_dec (length points) i) as [L|L]; [|exact L]. rewrite (proj2 (nth_error_None _ _)) in A by (rewrite seq_length; exact L). discriminate. }
    rewrite nth_error_seq in A by exact Hi. injection A as A. symmetry. exact A.
  - intros (i & A & B & _ & H1 & H2). split; [exists i; now split|split; assumption].
Qed.
Example C26_case : let p := with_rate_nodes 8 1 in
  let points := map (fun '(i, s) => {| pid := i; pseg := s |}) [(0, 6); (1, 6); (2, 1); (3, 0); (4, 4); (5, 1)] in
  exists g m, build_segments p 0 points new_segmentation = Ok (g, m) /\ map (fun t => (from_id t, from_segment t, to_segment t)) (transitions g) = [(1, 6, 1); (3, 0, 4)].
Proof. eexists _, _. split; vm_compute; reflexivity. Qed.
Print Assumptions C26_single_machine_records_usable_pairs.
Print Assumptions C26_transition_ids.

(** ** C27 *)
(** The exchange of transitions that follows the hand-over: host [k] sends host [j] the transitions collected for it. *)
Definition transition_exchange (p : params) (w : hworld) : exchange (list transition) :=
  {| hosts := n_cluster_nodes p; to_self := false; bucket := fun k j => bucket_for j (foreign_of (phase_of w k)) |}.
(** The transitions in the store of host [j] in the end: its own and the received ones. *)
Definition stored (w : hworld) (x : world (list transition)) (j : nat) : list transition :=
  transitions (segmentation_of (phase_of w j)) ++ concat (map snd (processed (state x j))).

Theorem C27_distributed_segmentation : forall p part w x,
  2 <= n_cluster_nodes p <= rate p ->
  (forall k, k < n_cluster_nodes p -> segments_ok p (part k)) ->
  (forall k, k < n_cluster_nodes p -> usable_pairs (rate p) (part k) <> []) ->
  hreachable p part false w -> hstuck p part false w ->
  reachable (transition_exchange p w) x -> stuck (transition_exchange p w) x ->
  forall j, j < n_cluster_nodes p ->
    Permutation (stored w x j) (filter (fun t => owner p (pseg (fst t)) =? j) (usable_pairs (rate p) (concat (map part (seq 0 (n_cluster_nodes p)))))).
Proof.
  intros p part w x HN Hf Hu Hr Hs Rx Sx j Hj.
  assert (HN' : 1 <= n_cluster_nodes p <= rate p) by lia.
  pose proof (hinv_reachable p HN' part Hf Hu w Hr) as HI. pose proof (hstuck_done p HN' part Hf Hu w HI Hs) as Hd. destruct HI as (_ & _ & _ & _ & I4).
  assert (Hph : forall k, k < n_cluster_nodes p -> transitions (segmentation_of (phase_of w k)) = transitions (fst (built p k (extended part (n_cluster_nodes p) k))) /\
     foreign_of (phase_of w k) = snd (built p k (extended part (n_cluster_nodes p) k))).
  { intros k Hk. specialize (I4 k Hk). specialize (Hd k Hk). destruct (phase_of w k); try discriminate. destruct I4 as (A & B & _). now split. }
  unfold stored. rewrite (proj1 (Hph j Hj)). cbn [built fst transitions].
  destruct (Protocol.C29_every_bucket_exactly_once _ _ x Rx Sx j Hj) as (P & _). etransitivity; [|apply (own_and_received p HN' part Hf Hu j Hj)].
  apply Permutation_app_head. rewrite <- flat_map_concat_map. rewrite P. rewrite flat_map_concat_map. cbn [transition_exchange hosts to_self bucket]. unfold Spec.buckets_for.
  rewrite map_map. cbn [snd orb]. apply Permutation_refl'. f_equal. apply map_ext_in. intros k Hk. apply filter_In in Hk. destruct Hk as (Hk & _). apply in_seq in Hk.
  rewrite (proj2 (Hph k ltac:(lia))). cbn [built snd]. rewrite bucket_push. reflexivity.
Qed.
(** The union over all hosts: no transition lost, none duplicated. *)
Theorem C27_union : forall p part w x,
  2 <= n_cluster_nodes p <= rate p ->
  (forall k, k < n_cluster_nodes p -> segments_ok p (part k)) ->
  (forall k, k < n_cluster_nodes p -> usable_pairs (rate p) (part k) <> []) ->
  hreachable p part false w -> hstuck p part false w ->
  reachable (transition_exchange p w) x -> stuck (transition_exchange p w) x ->
  Permutation (concat (map (stored w x) (seq 0 (n_cluster_nodes p)))) (usable_pairs (rate p) (concat (map part (seq 0 (n_cluster_nodes p))))).
Proof.
  intros p part w x HN Hf Hu Hr Hs Rx Sx. set (all := usable_pairs _ _).
  assert (HN' : 1 <= n_cluster_nodes p <= rate p) by lia.
  etransitivity.
  - instantiate (1 := concat (map (fun j => filter (fun t => owner p (pseg (fst t)) =? j) all) (seq 0 (n_cluster_nodes p)))).
    assert (G : forall L, (forall j, In j L -> j < n_cluster_nodes p) -> Permutation (concat (map (stored w x) L)) (concat (map (fun j => filter (fun t => owner p (pseg (fst t)) =? j) all) L))).
    { induction L as [|j L IH]; intros HL; [reflexivity|]. cbn [map concat]. apply Permutation_app; [apply (C27_distributed_segmentation p part w x HN Hf Hu Hr Hs Rx Sx); apply HL; now left|apply IH; intros; apply HL; now right]. }
    apply G. intros j Hj. apply in_seq in Hj. lia.
  - assert (G : forall l : list transition, Permutation (concat (map (fun j => filter (fun t => owner p (pseg (fst t)) =? j) l) (seq 0 (n_cluster_nodes p)))) l).
    { induction l as [|t l IH].
      - cbn [filter]. assert (E : forall n s, concat (map (fun _ : nat => @nil transition) (seq s n)) = []) by (induction n; intros; cbn; auto). now rewrite E.
      - pose proof (owner_lt p HN' (pseg (fst t))) as Ho. set (o := owner p (pseg (fst t))) in *.
        assert (E : forall L, NoDup L -> Permutation (concat (map (fun j => filter (fun t => owner p (pseg (fst t)) =? j) (t :: l)) L))
                 ((if in_dec Nat.eq_dec o L then [t] else []) ++ concat (map (fun j => filter (fun t => owner p (pseg (fst t)) =? j) l) L))).
        { induction L as [|j L IHL]; intros ND; [destruct (in_dec Nat.eq_dec o []) as [[]|]; reflexivity|]. inversion ND; subst. specialize (IHL H2). cbn [map concat]. change (filter (fun t => owner p (pseg (fst t)) =? j) (t :: l)) with (if o =? j then t :: filter (fun t => owner p (pseg (fst t)) =? j) l else filter (fun t => owner p (pseg (fst t)) =? j) l).
          destruct (Nat.eqb_spec o j) as [->|Hne].
          - destruct (in_dec Nat.eq_dec j (j :: L)) as [_|H]; [|exfalso; apply H; now left]. destruct (in_dec Nat.eq_dec j L) as [H|_]; [contradiction|]. cbn [app] in *. apply perm_skip. now apply Permutation_app_head.
          - assert (Ei : (if in_dec Nat.eq_dec o (j :: L) then [t] else []) = if in_dec Nat.eq_dec o L then [t] else []).
            { destruct (in_dec Nat.eq_dec o (j :: L)) as [H|H], (in_dec Nat.eq_dec o L) as [H'|H']; try reflexivity; [destruct H; [congruence|contradiction]|exfalso; apply H; now right]. }
            rewrite Ei. rewrite IHL. apply Permutation_app_swap_app. }
        rewrite E by apply seq_NoDup. destruct (in_dec Nat.eq_dec o (seq 0 (n_cluster_nodes p))) as [_|H]; [|exfalso; apply H; apply in_seq; lia]. cbn [app]. now apply perm_skip. }
    apply G.
Qed.
Print Assumptions C27_distributed_segmentation.
Print Assumptions C27_union.

(** ** C28 *)
(** Refuted: the points of the last host cross no segment, it sends nothing, and the other host waits forever. *)
Theorem C28_waits_forever_refuted : exists p part w, 2 <= n_cluster_nodes p <= rate p /\ (forall k, k < n_cluster_nodes p -> segments_ok p (part k) /\ part k <> []) /\
  hreachable p part true w /\ hstuck p part true w /\ exists k g m, k < n_cluster_nodes p /\ phase_of w k = Waiting g m.
Proof.
  set (p := with_rate_nodes 4 2). set (part := fun k => if k =? 0 then [{| pid := 0; pseg := 0 |}; {| pid := 1; pseg := 1 |}] else [{| pid := 2; pseg := 1 |}; {| pid := 3; pseg := 1 |}]).
  exists p, part.
  assert (R1 : hreachable p part true {| phase_of := set (fun _ => Before) 0 (fst (segments p 0 (part 0))); first_points := [] |}).
  { eapply h_after; [constructor|]. apply (segment_step p part true hinitial 0); [vm_compute; lia|reflexivity]. }
  eassert (R2 : hreachable p part true _). { eapply h_after; [exact R1|]. apply (segment_step p part true _ 1); [vm_compute; lia|reflexivity]. }
  cbv beta iota zeta in R2. match type of R2 with hreachable _ _ _ ?w => exists w end. ssplit; try (vm_compute; lia).
  - intros k Hk. split; [|unfold part; now destruct (k =? 0)]. intros x Hx. unfold part in Hx. destruct (k =? 0); destruct Hx as [<-|[<-|[]]]; vm_compute; lia.
  - exact R2.
  - intros w' St. inversion St as [w0 k Hk Hb|w0 k a t l rr En He]; subst.
    + assert (k < 2) by exact Hk. destruct k as [|[|k]]; [vm_compute in Hb; discriminate|vm_compute in Hb; discriminate|lia].
    + vm_compute in En. destruct l; discriminate.
  - exists 0. eexists _, _. split; [vm_compute; lia|]. vm_compute. reflexivity.
Qed.
(** Refuted: a first point that arrives before the receiver has segmented its own points aborts the receiver. *)
Theorem C28_early_first_point_aborts_refuted : exists p part w, 2 <= n_cluster_nodes p <= rate p /\ (forall k, k < n_cluster_nodes p -> segments_ok p (part k) /\ usable_pairs (rate p) (part k) <> []) /\
  hreachable p part true w /\ phase_of w 0 = Dead UnwrapNone.
Proof.
  set (p := with_rate_nodes 4 2). set (part := fun k => if k =? 0 then [{| pid := 0; pseg := 0 |}; {| pid := 1; pseg := 1 |}] else [{| pid := 2; pseg := 1 |}; {| pid := 3; pseg := 2 |}]).
  exists p, part.
  eassert (R1 : hreachable p part true _). { eapply h_after; [constructor|]. apply (segment_step p part true hinitial 1); [vm_compute; lia|reflexivity]. }
  eassert (R2 : hreachable p part true _). { eapply h_after; [exact R1|]. apply (first_point_step p part true _ 0 {| pid := 2; pseg := 1 |} ({| pid := 2; pseg := 1 |}, {| pid := 3; pseg := 2 |}) [] []); [vm_compute; reflexivity|now left]. }
  match type of R2 with hreachable _ _ _ ?w => exists w end. ssplit; try (vm_compute; lia).
  - intros k Hk. split; [|unfold part; destruct (k =? 0); vm_compute; discriminate]. intros x Hx. unfold part in Hx. destruct (k =? 0); destruct Hx as [<-|[<-|[]]]; vm_compute; lia.
  - exact R2.
  - vm_compute. reflexivity.
Qed.
(** What holds: if every partition has a usable transition and no first point arrives early, every maximal run ends with all hosts distributing their transitions... *)
Theorem C28_completes_partial : forall p part w, 2 <= n_cluster_nodes p <= rate p ->
  (forall k, k < n_cluster_nodes p -> segments_ok p (part k)) -> (forall k, k < n_cluster_nodes p -> usable_pairs (rate p) (part k) <> []) ->
  hreachable p part false w ->
  (forall k e, k < n_cluster_nodes p -> phase_of w k <> Dead e) /\
  (hstuck p part false w -> forall k, k < n_cluster_nodes p -> exists g m, phase_of w k = Distributing g m).
Proof.
  intros p part w HN Hf Hu Hr. assert (HN' : 1 <= n_cluster_nodes p <= rate p) by lia. pose proof (hinv_reachable p HN' part Hf Hu w Hr) as HI. split.
  - intros k e Hk E. destruct HI as (_ & _ & _ & _ & I4). specialize (I4 k Hk). now rewrite E in I4.
  - intros Hs k Hk. pose proof (hstuck_done p HN' part Hf Hu w HI Hs k Hk) as Hd. destruct (phase_of w k) as [| |g m|]; try discriminate. now exists g, m.
Qed.
(** If no first point arrives early, this is how every maximal run ends, for all partitions: the last host distributes; any other host waits forever if the next
    partition has no usable transition, aborts if the next one has and its own has none, and distributes otherwise. *)
Theorem C28_ends_exactly : forall p part w k, 1 <= n_cluster_nodes p <= rate p ->
  (forall i, i < n_cluster_nodes p -> segments_ok p (part i)) ->
  hreachable p part false w -> hstuck p part false w -> k < n_cluster_nodes p ->
  if k =? n_cluster_nodes p - 1 then exists g m, phase_of w k = Distributing g m
  else match usable_pairs (rate p) (part (k + 1)), usable_pairs (rate p) (part k) with
       | [], _ => exists g m, phase_of w k = Waiting g m
       | _ :: _, [] => phase_of w k = Dead UnwrapNone
       | _ :: _, _ :: _ => exists g m, phase_of w k = Distributing g m
       end.
Proof. intros p part w k HN Hf. exact (ends_exactly p part HN Hf w k). Qed.
(** Three hosts; the middle one has no usable transition: the first one waits forever, the middle one aborts, the last one distributes. *)
Example C28_ends_case : let p := with_rate_nodes 6 3 in
  let part := fun k => nth k [[{| pid := 0; pseg := 0 |}; {| pid := 1; pseg := 2 |}]; [{| pid := 2; pseg := 4 |}; {| pid := 3; pseg := 4 |}]; [{| pid := 4; pseg := 1 |}; {| pid := 5; pseg := 3 |}]] [] in
  exists w, hreachable p part false w /\ hstuck p part false w /\ (exists g m, phase_of w 0 = Waiting g m) /\ phase_of w 1 = Dead UnwrapNone /\ distributing (phase_of w 2) = true.
Proof.
  intros p part.
  eassert (R1 : hreachable p part false _). { eapply h_after; [constructor|]. apply (segment_step p part false hinitial 0); [vm_compute; lia|reflexivity]. }
  eassert (R2 : hreachable p part false _). { eapply h_after; [exact R1|]. apply (segment_step p part false _ 1); [vm_compute; lia|reflexivity]. }
  eassert (R3 : hreachable p part false _). { eapply h_after; [exact R2|]. apply (segment_step p part false _ 2); [vm_compute; lia|reflexivity]. }
  eassert (R4 : hreachable p part false _).
  { eapply h_after; [exact R3|]. apply (first_point_step p part false _ 1 {| pid := 4; pseg := 1 |} ({| pid := 4; pseg := 1 |}, {| pid := 5; pseg := 3 |}) [] []); [vm_compute; reflexivity|right; vm_compute; discriminate]. }
  match type of R4 with hreachable _ _ _ ?w => exists w end. ssplit; [exact R4| |eexists _, _; vm_compute; reflexivity|vm_compute; reflexivity|vm_compute; reflexivity].
  intros w' St. inversion St as [w0 k Hk Hb|w0 k a t l rr En He]; subst.
  - assert (k < 3) by exact Hk. destruct k as [|[|[|k]]]; [vm_compute in Hb; discriminate|vm_compute in Hb; discriminate|vm_compute in Hb; discriminate|lia].
  - vm_compute in En. destruct l; discriminate.
Qed.
(** ... and no run is infinite. *)
Theorem C28_no_infinite_run : forall p part early (run : nat -> hworld), ~ (forall i, hstep p part early (run i) (run (S i))).
Proof. exact h_no_infinite. Qed.

(** Three hosts, the first points handed over as intended: all hosts distribute. *)
Example C28_case : let p := with_rate_nodes 6 3 in
  let part := fun k => nth k [[{| pid := 0; pseg := 0 |}; {| pid := 1; pseg := 2 |}]; [{| pid := 2; pseg := 4 |}; {| pid := 3; pseg := 5 |}]; [{| pid := 4; pseg := 1 |}; {| pid := 5; pseg := 3 |}]] [] in
  exists w, hreachable p part false w /\ (forall k, k < 3 -> distributing (phase_of w k) = true) /\ map from_id (transitions (segmentation_of (phase_of w 0))) = [0] /\
    map (fun e => (fst e, map from_id (snd e))) (foreign_of (phase_of w 1)) = [(2, [2; 3])].
Proof.
  intros p part.
  eassert (R1 : hreachable p part false _). { eapply h_after; [constructor|]. apply (segment_step p part false hinitial 0); [vm_compute; lia|reflexivity]. }
  eassert (R2 : hreachable p part false _). { eapply h_after; [exact R1|]. apply (segment_step p part false _ 1); [vm_compute; lia|reflexivity]. }
  eassert (R3 : hreachable p part false _). { eapply h_after; [exact R2|]. apply (segment_step p part false _ 2); [vm_compute; lia|reflexivity]. }
  eassert (R4 : hreachable p part false _).
  { eapply h_after; [exact R3|]. apply (first_point_step p part false _ 0 {| pid := 2; pseg := 4 |} ({| pid := 2; pseg := 4 |}, {| pid := 3; pseg := 5 |}) [] [(1, ({| pid := 4; pseg := 1 |}, ({| pid := 4; pseg := 1 |}, {| pid := 5; pseg := 3 |})))]);
    [vm_compute; reflexivity|right; vm_compute; discriminate]. }
  eassert (R5 : hreachable p part false _).
  { eapply h_after; [exact R4|]. apply (first_point_step p part false _ 1 {| pid := 4; pseg := 1 |} ({| pid := 4; pseg := 1 |}, {| pid := 5; pseg := 3 |}) [] []); [vm_compute; reflexivity|right; vm_compute; discriminate]. }
  match type of R5 with hreachable _ _ _ ?w => exists w end. ssplit; [exact R5| |vm_compute; reflexivity|vm_compute; reflexivity].
  intros k Hk. destruct k as [|[|[|k]]]; [vm_compute; reflexivity|vm_compute; reflexivity|vm_compute; reflexivity|lia].
Qed.
Print Assumptions C28_waits_forever_refuted.
Print Assumptions C28_early_first_point_aborts_refuted.
Print Assumptions C28_completes_partial.
Print Assumptions C28_no_infinite_run.
Print Assumptions C28_ends_exactly.

(** ** C33 *)
(** The questions of [a] for [b] are the steps of the walk that lead from a segment of [a] to a segment of [b]; the walk starts in the segment of the first usable transition's first point. *)
Theorem C33_questions : forall p own points, 1 <= n_cluster_nodes p <= rate p -> segments_ok p points -> NoDup (map pid points) ->
  exists g foreign, build_segments p own points new_segmentation = Ok (g, foreign) /\
    forall a b, questions_of (asked g) b a =
      filter (between_hosts p a b) (map as_question (match usable_pairs (rate p) points with [] => [] | t :: _ => pairs ((pid (fst t), pseg (fst t)) :: path (rate p) (usable_pairs (rate p) points)) end)).
Proof.
  intros p own points HN Hf ND. exists (fst (built p own points)), (snd (built p own points)). split; [rewrite build_ok; [now rewrite <- surjective_pairing|assumption|exact Hf]|].
  intros a b. rewrite built_questions by assumption. f_equal. rewrite steps_all_pairs; [|exact HN|intros t Ht; eapply fine_pairs; eauto]. destruct (usable_pairs (rate p) points); reflexivity.
Qed.
(** If the first usable transition does not start in the last segment of its owner, these are exactly the steps of the path through the graph. *)
Theorem C33_exactly_the_host_changes_partial : forall p own points, 1 <= n_cluster_nodes p <= rate p -> segments_ok p points -> NoDup (map pid points) ->
  (forall t, hd_error (usable_pairs (rate p) points) = Some t -> owner p (pseg (fst t)) = owner p ((pseg (fst t) + 1) mod rate p)) ->
  exists g foreign, build_segments p own points new_segmentation = Ok (g, foreign) /\
    forall a b, questions_of (asked g) b a = filter (between_hosts p a b) (map as_question (pairs (path (rate p) (usable_pairs (rate p) points)))).
Proof.
  intros p own points HN Hf ND Hfirst. destruct (C33_questions p own points HN Hf ND) as (g & m & E & Q). exists g, m. split; [exact E|]. intros a b. rewrite Q. clear Q E.
  destruct (usable_pairs (rate p) points) as [|t us] eqn:Eu; [reflexivity|].
  assert (Ht : In t (usable_pairs (rate p) points)) by (rewrite Eu; now left). destruct (fine_pairs p HN points t Hf Ht) as (_ & Ut). pose proof (usable_span p t Ut) as Hs.
  specialize (Hfirst t eq_refl). unfold path. cbn [map concat]. unfold visits at 1 3. change (ccw (rate p) (pseg (fst t)) (pseg (snd t))) with (span p t). destruct (span p t) as [|d]; [lia|].
  cbn [seq map app]. match goal with |- context [pairs (?x :: ?y :: ?l)] => change (pairs (x :: y :: l)) with ((x, y) :: pairs (y :: l)) end. cbn [map filter].
  destruct (between_hosts p a b (as_question _)) eqn:B at 1; [|reflexivity]. exfalso. apply (bh_spec p HN) in B. cbn [as_question fst snd q_prev_segment q_segment] in B. destruct B as (B1 & B2 & B3). congruence.
Qed.
(** Refuted without this condition: the question is about a predecessor that is no crossing. *)
Theorem C33_extra_question_refuted : exists p own points g foreign a b q, 1 <= n_cluster_nodes p <= rate p /\ segments_ok p points /\ NoDup (map pid points) /\
  build_segments p own points new_segmentation = Ok (g, foreign) /\ In q (questions_of (asked g) b a) /\
  ~ In q (map as_question (pairs (path (rate p) (usable_pairs (rate p) points)))) /\ ~ In (q_prev_id q, q_prev_segment q) (path (rate p) (usable_pairs (rate p) points)).
Proof.
  exists (with_rate_nodes 4 2), 0, [{| pid := 0; pseg := 1 |}; {| pid := 1; pseg := 2 |}; {| pid := 2; pseg := 3 |}]. eexists _, _. exists 0, 1, {| q_prev_id := 0; q_prev_segment := 1; q_id := 0; q_segment := 2 |}. ssplit; try (vm_compute; lia).
  - intros x [<-|[<-|[<-|[]]]]; vm_compute; lia.
  - repeat constructor; cbn; intuition lia.
  - vm_compute. reflexivity.
  - vm_compute. now left.
  - vm_compute. intuition discriminate.
  - vm_compute. intuition discriminate.
Qed.
Example C33_case : let p := with_rate_nodes 6 3 in
  let points := map (fun '(i, s) => {| pid := i; pseg := s |}) [(0, 0); (1, 3); (2, 5); (3, 1)] in
  exists g m, build_segments p 0 points new_segmentation = Ok (g, m) /\
    map (fun '(a, b) => map (fun q => (q_prev_id q, q_prev_segment q, q_id q, q_segment q)) (questions_of (asked g) b a)) [(0, 1); (1, 2); (2, 0)] = [[(0, 1, 0, 2)]; [(0, 3, 1, 4)]; [(1, 5, 2, 0)]].
Proof. eexists _, _. split; vm_compute; reflexivity. Qed.
Print Assumptions C33_questions.
Print Assumptions C33_exactly_the_host_changes_partial.
Print Assumptions C33_extra_question_refuted.

(** ** C34 *)
(** Two neighbouring partitions [P0], [P1]: a step of the complete path between two hosts is asked for on one of the two sides, except possibly the step into the first crossing
    of the first usable transition [t1] of [P1]: it is lost if the pair spanning the border is usable, or if [t1] starts at the host where the path arrived. *)
Theorem C34_border_partial : forall p k P0 P1 a t1 g0 m0 g0' m0' g1 m1, 1 <= n_cluster_nodes p <= rate p ->
  segments_ok p P0 -> segments_ok p P1 -> usable_pairs (rate p) P0 <> [] -> hd_error P1 = Some a -> hd_error (usable_pairs (rate p) P1) = Some t1 ->
  build_segments p k P0 new_segmentation = Ok (g0, m0) -> first_point p k a t1 g0 m0 = Ok (g0', m0') -> build_segments p (k + 1) P1 new_segmentation = Ok (g1, m1) ->
  let before := last (usable_pairs (rate p) (P0 ++ [a])) t1 in
  forall x y q, In q (map as_question (pairs (path (rate p) (usable_pairs (rate p) (P0 ++ P1))))) -> between_hosts p x y q = true ->
    In q (questions_of (asked g0') y x) \/ In q (questions_of (asked g1) y x) \/
    (q = as_question ((pid (fst before), pseg (snd before)), (pid (fst t1), (pseg (fst t1) + 1) mod rate p)) /\
     (usable (rate p) (last P0 a, a) = true \/ owner p (pseg (fst t1)) = owner p (pseg (snd before)))).
Proof. intros p k P0 P1 a t1 g0 m0 g0' m0' g1 m1 HN F0 F1 U0 Ha Ht1 B0 Fp B1. exact (proj1 (border p HN k P0 P1 a t1 g0 m0 g0' m0' g1 m1 F0 F1 U0 Ha Ht1 B0 Fp B1)). Qed.
(** The first host asks for nothing else than steps of the complete path. *)
Theorem C34_nothing_invented : forall p k P0 P1 a t1 g0 m0 g0' m0' g1 m1 t, 1 <= n_cluster_nodes p <= rate p ->
  segments_ok p P0 -> segments_ok p P1 -> usable_pairs (rate p) P0 <> [] -> hd_error P1 = Some a -> hd_error (usable_pairs (rate p) P1) = Some t1 ->
  build_segments p k P0 new_segmentation = Ok (g0, m0) -> first_point p k a t1 g0 m0 = Ok (g0', m0') -> build_segments p (k + 1) P1 new_segmentation = Ok (g1, m1) ->
  hd_error (usable_pairs (rate p) P0) = Some t ->
  forall x y q, In q (questions_of (asked g0') y x) ->
    In q (map as_question (pairs ((pid (fst t), pseg (fst t)) :: path (rate p) (usable_pairs (rate p) (P0 ++ P1))))) /\ between_hosts p x y q = true.
Proof. intros p k P0 P1 a t1 g0 m0 g0' m0' g1 m1 t HN F0 F1 U0 Ha Ht1 B0 Fp B1 Ht x y q. exact (proj2 (border p HN k P0 P1 a t1 g0 m0 g0' m0' g1 m1 F0 F1 U0 Ha Ht1 B0 Fp B1) x y q t Ht). Qed.

Definition lost_step (p : params) (P0 P1 : list pt) : Prop :=
  exists a t1 g0 m0 g0' m0' g1 m1 x y q, hd_error P1 = Some a /\ hd_error (usable_pairs (rate p) P1) = Some t1 /\
  build_segments p 0 P0 new_segmentation = Ok (g0, m0) /\ first_point p 0 a t1 g0 m0 = Ok (g0', m0') /\ build_segments p 1 P1 new_segmentation = Ok (g1, m1) /\
  In q (map as_question (pairs (path (rate p) (usable_pairs (rate p) (P0 ++ P1))))) /\ between_hosts p x y q = true /\
  ~ In q (questions_of (asked g0') y x) /\ ~ In q (questions_of (asked g1) y x).
(** Refuted: the pair spanning the border is usable. *)
Theorem C34_spanning_transition_refuted : exists p P0 P1, n_cluster_nodes p = 2 /\ usable_pairs (rate p) P0 <> [] /\ lost_step p P0 P1.
Proof.
  exists (with_rate_nodes 4 2), [{| pid := 0; pseg := 0 |}; {| pid := 1; pseg := 1 |}], [{| pid := 2; pseg := 3 |}; {| pid := 3; pseg := 0 |}].
  split; [reflexivity|]. split; [vm_compute; discriminate|].
  eexists _, _, _, _, _, _, _, _. exists 1, 0, {| q_prev_id := 1; q_prev_segment := 3; q_id := 2; q_segment := 0 |}.
  ssplit; [vm_compute; reflexivity..|vm_compute; tauto|vm_compute; reflexivity|vm_compute; intuition discriminate|vm_compute; intuition discriminate].
Qed.
(** Refuted: the pair spanning the border is not usable. *)
Theorem C34_no_spanning_transition_refuted : exists p P0 P1, n_cluster_nodes p = 2 /\ usable_pairs (rate p) P0 <> [] /\ lost_step p P0 P1.
Proof.
  exists (with_rate_nodes 4 2), [{| pid := 0; pseg := 2 |}; {| pid := 1; pseg := 3 |}], [{| pid := 2; pseg := 3 |}; {| pid := 3; pseg := 0 |}].
  split; [reflexivity|]. split; [vm_compute; discriminate|].
  eexists _, _, _, _, _, _, _, _. exists 1, 0, {| q_prev_id := 0; q_prev_segment := 3; q_id := 2; q_segment := 0 |}.
  ssplit; [vm_compute; reflexivity..|vm_compute; tauto|vm_compute; reflexivity|vm_compute; intuition discriminate|vm_compute; intuition discriminate].
Qed.
Print Assumptions C34_border_partial.
Print Assumptions C34_nothing_invented.
Print Assumptions C34_spanning_transition_refuted.
Print Assumptions C34_no_spanning_transition_refuted.

(** ** C53 *)
(** A pair that turns clockwise over at least one segment border. *)
Definition backwards (rate : nat) (t : pt * pt) : bool := negb (ccw rate (pseg (fst t)) (pseg (snd t)) <=? rate / 2).
Lemma wrong_way_backwards : forall p t, self_correction p = true -> pseg (fst t) < rate p -> pseg (snd t) < rate p -> wrong_way p t = backwards (rate p) t.
Proof.
  intros p t Hc Hf Ht. unfold wrong_way, backwards. rewrite Hc. cbn [andb]. change (from_segment t) with (pseg (fst t)). change (to_segment t) with (pseg (snd t)).
  apply eq_true_iff_eq. rewrite andb_true_iff, !negb_true_iff. rewrite <- !not_true_iff_false, Transition.Proofs.valid_iff, Nat.leb_le by assumption.
  unfold Transition.Model.crosses_segments. rewrite negb_true_iff, Nat.eqb_neq. split; [tauto|]. intros H. split; [|exact H]. intros E. apply H.
  destruct (Transition.Proofs.ccw_cases (rate p) _ _ Hf Ht) as [(_ & ->)|(L & _)]; lia.
Qed.
(** One machine: the points are mirrored iff there are more clockwise than usable pairs. *)
Theorem C53_single_machine_decision_partial : forall p points, n_cluster_nodes p = 1 -> 1 <= rate p -> self_correction p = true -> segments_ok p points ->
  exists g foreign, build_segments p 0 points new_segmentation = Ok (g, foreign) /\
    (mirrors (reported_count true g foreign) (invalid_directions g) = true <-> length (usable_pairs (rate p) points) < length (filter (backwards (rate p)) (pairs points))).
Proof.
  intros p points HN Hr Hc Hf. destruct (C26_single_machine_records_usable_pairs p points HN Hr Hf) as (g & m & E & Et). exists g, m. split; [exact E|].
  rewrite build_ok in E; [|lia|exact Hf]. assert (Eb : built p 0 points = (g, m)) by congruence. assert (Eg : g = fst (built p 0 points)) by now rewrite Eb.
  unfold mirrors, reported_count. rewrite Et, Nat.ltb_lt, Eg. cbn [built fst invalid_directions].
  assert (Ef : filter (wrong_way p) (pairs points) = filter (backwards (rate p)) (pairs points)).
  { apply filter_ext_in. intros t Ht. assert (G : In (fst t) points /\ In (snd t) points).
    { clear -Ht. induction points as [|x [|y l] IH]; [destruct Ht|destruct Ht|]. change (pairs (x :: y :: l)) with ((x, y) :: pairs (y :: l)) in Ht. destruct Ht as [<-|Ht]; [cbn; tauto|].
      specialize (IH Ht). split; right; apply IH. }
    apply wrong_way_backwards; [exact Hc|apply Hf, G|apply Hf, G]. }
  rewrite Ef. reflexivity.
Qed.
(** A host of a cluster reports its usable pairs, and those starting in its own segments once more. *)
Theorem C53_cluster_report_partial : forall p own points, 1 <= n_cluster_nodes p <= rate p -> segments_ok p points ->
  exists g foreign, build_segments p own points new_segmentation = Ok (g, foreign) /\
    reported_count false g foreign = length (usable_pairs (rate p) points) + length (filter (fun t => owner p (pseg (fst t)) =? own) (usable_pairs (rate p) points)).
Proof.
  intros p own points HN Hf. exists (fst (built p own points)), (snd (built p own points)). split; [rewrite build_ok; [now rewrite <- surjective_pairing|assumption|exact Hf]|].
  unfold reported_count. cbn [built fst snd transitions]. rewrite Nat.add_comm. f_equal.
  assert (G : forall ts m, list_sum (map (fun e => length (snd e)) (push_all p ts m)) = length ts + list_sum (map (fun e => length (snd e)) m)).
  { induction ts as [|t ts IH]; intros m; [reflexivity|]. change (push_all p (t :: ts) m) with (push_all p ts (push_for (owner p (from_segment t)) t m)). rewrite IH. cbn [length].
    assert (G2 : list_sum (map (fun e => length (snd e)) (push_for (owner p (from_segment t)) t m)) = S (list_sum (map (fun e => length (snd e)) m))).
    { unfold push_for. generalize (owner p (from_segment t)) as k. intros k. induction m as [|(k', l) m IHm]; cbn [Assoc.lookup]; [reflexivity|].
      destruct (Nat.eqb_spec k k') as [->|Hne]; cbn [Assoc.insert].
      - rewrite Nat.eqb_refl. cbn [map snd list_sum fold_right]. unfold list_sum. cbn [fold_right]. rewrite app_length. cbn [length]. lia.
      - destruct (Assoc.lookup Nat.eqb k m); cbn [Assoc.insert]; destruct (Nat.eqb_spec k k'); try congruence; unfold list_sum in *; cbn [map fold_right snd] in *; lia. }
    lia. }
  rewrite G. cbn. lia.
Qed.
(** Refuted: the same series is mirrored on one machine but not on two. *)
Definition self_correcting (r n : nat) : params :=
  {| rate := r; n_threads := 1; n_cluster_nodes := n; pattern_length := 50; latent := 16; query_length := 75; column_start := 0; column_end := 0%Z; self_correction := true |}.
Theorem C53_cluster_decides_differently_refuted : exists r P0 P1 g m g0 m0 g1 m1, segments_ok (self_correcting r 1) (P0 ++ P1) /\
  build_segments (self_correcting r 1) 0 (P0 ++ P1) new_segmentation = Ok (g, m) /\
  build_segments (self_correcting r 2) 0 P0 new_segmentation = Ok (g0, m0) /\ build_segments (self_correcting r 2) 1 P1 new_segmentation = Ok (g1, m1) /\
  mirrors (reported_count true g m) (invalid_directions g) = true /\
  mirrors (reported_count false g0 m0 + reported_count false g1 m1) (invalid_directions g0 + invalid_directions g1) = false.
Proof.
  exists 6, (map (fun '(i, s) => {| pid := i; pseg := s |}) [(0, 0); (1, 2); (2, 1); (3, 0); (4, 5)]), (map (fun '(i, s) => {| pid := i; pseg := s |}) [(5, 5); (6, 0); (7, 5)]).
  eexists _, _, _, _, _, _. ssplit; try (vm_compute; reflexivity). intros x Hx. cbn in Hx. repeat (destruct Hx as [<-|Hx]; [vm_compute; lia|]). destruct Hx.
Qed.
Print Assumptions C53_single_machine_decision_partial.
Print Assumptions C53_cluster_report_partial.
Print Assumptions C53_cluster_decides_differently_refuted.
