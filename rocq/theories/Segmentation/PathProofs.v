From Coq Require Import List Arith ZArith Bool Lia.
From Verif.Base Require Import Res Params Assoc ListX.
From Verif.Topology Require Import Model Proofs.
From Verif.Transition Require Import Model Spec Proofs.
From Verif.Segmentation Require Import Model Spec Blocks Proofs.
Import ListNotations.

Lemma last_default : forall A (l : list A) a b, l <> [] -> last l a = last l b.
Proof. intros A l a b. induction l as [|x l IH]; intros H; [congruence|]. destruct l; [reflexivity|]. cbn [last] in *. apply IH. discriminate. Qed.

Section S.
Variable p : params.
Hypothesis HN : 1 <= n_cluster_nodes p <= rate p.
Notation N := (n_cluster_nodes p).
Notation r := (rate p).

(** ** The result of build_segments *)
Definition built (own : nat) (points : list pt) : segmentation * for_nodes :=
  let us := usable_pairs r points in
  ({| transitions := filter (fun t => owner p (from_segment t) =? own) us;
      asked := record p (asks_all p None us) [];
      send_point := if own =? 0 then None else hd_error points;
      send_transition := hd_error us;
      last_point := match points with [] => None | x :: l => Some (last l x) end;
      last_transition := last_opt None us;
      invalid_directions := length (filter (wrong_way p) (pairs points)) |},
   push_all p us []).

Lemma build_ok : forall own points, all_fine p points -> build_segments p own points new_segmentation = Ok (built own points).
Proof.
  intros own [|x points] Hf; unfold build_segments, built.
  - cbn. destruct (own =? 0); reflexivity.
  - cbn [foldM]. unfold scan_point at 1. cbn [s_last_point s_transitions s_asked s_send_point s_send_transition s_invalid s_foreign s_last_to_node s_last_transition bind].
    rewrite (scan_ok p HN own points x); [|assumption|reflexivity|reflexivity]. cbn [bind]. unfold scanned.
    cbn [s_transitions s_asked s_send_point s_send_transition s_invalid s_foreign s_last_point s_last_to_node s_last_transition new_segmentation transitions asked send_point send_transition last_point last_transition invalid_directions app hd_error].
    now rewrite Nat.add_0_r.
Qed.

(** ** The questions are the steps of the path *)
Definition steps1 (prev : option transition) (t : transition) : list question := map (within_question p prev t) (seq 0 (span p t)).

Lemma bh_spec : forall a b q, between_hosts p a b q = true <-> owner p (q_prev_segment q) = a /\ owner p (q_segment q) = b /\ a <> b.
Proof. intros a b q. unfold between_hosts. rewrite !andb_true_iff, negb_true_iff, !Nat.eqb_eq, Nat.eqb_neq. tauto. Qed.

Lemma change_iff : forall a l, change p a l = true <-> owner p ((a + l) mod r) <> owner p ((a + l + 1) mod r).
Proof. intros a l. unfold change. rewrite negb_true_iff, Nat.eqb_neq. split; intros H E; apply H; congruence. Qed.

Lemma inner_filter : forall a b t L, 
  filter (between_hosts p a b) (map (inner_question p t) (filter (change p (from_segment t)) L)) = filter (between_hosts p a b) (map (inner_question p t) L).
Proof.
  intros a b t L. induction L as [|l L IH]; [reflexivity|]. cbn [filter]. destruct (change p (from_segment t) l) eqn:C; cbn [map filter]; [now rewrite IH|].
  rewrite IH. destruct (between_hosts p a b (inner_question p t l)) eqn:B; [|reflexivity]. exfalso. apply bh_spec in B. cbn [inner_question q_prev_segment q_segment] in B.
  assert (change p (from_segment t) l = true) by (apply change_iff; intros E; destruct B as (B1 & B2 & B3); apply B3; congruence). congruence.
Qed.
Lemma within_inner : forall prev t L, (forall l, In l L -> l <> 0) -> map (within_question p prev t) L = map (inner_question p t) L.
Proof. intros prev t L H. apply map_ext_in. intros l Hl. unfold within_question. destruct prev; [|reflexivity]. destruct (Nat.eqb_spec l 0); [now apply H in Hl|reflexivity]. Qed.

Lemma asks_steps : forall a b prev t, fine p t -> usable r t = true ->
  stutter (filter (between_hosts p a b) (asks p prev t)) (filter (between_hosts p a b) (steps1 prev t)).
Proof.
  intros a b prev t (Hf & Ht) Hu. pose proof (usable_span p t Hu) as Hs. unfold asks, steps1, changes. destruct (span p t) as [|d]; [lia|].
  assert (Hnz : forall l, In l (seq 1 d) -> l <> 0) by (intros l Hl; apply in_seq in Hl; lia).
  destruct prev as [pv|].
  2:{ cbn [between_asks app within_question]. rewrite (map_ext (within_question p None t) (inner_question p t)) by reflexivity. rewrite inner_filter. apply stutter_refl. }
  cbn [seq filter]. rewrite filter_app. cbn [map filter]. rewrite (within_inner _ _ (seq 1 d)) by exact Hnz. cbn [within_question]. rewrite Nat.eqb_refl.
  set (X := filter (between_hosts p a b) (map (inner_question p t) (seq 1 d))).
  set (q := first_question p pv t).
  assert (EX : forall z, filter (between_hosts p a b) (map (within_question p (Some pv) t) (if z : bool then 0 :: filter (change p (from_segment t)) (seq 1 d) else filter (change p (from_segment t)) (seq 1 d)))
               = (if z && between_hosts p a b q then [q] else []) ++ X).
  { intros z. assert (E : map (within_question p (Some pv) t) (filter (change p (from_segment t)) (seq 1 d)) = map (inner_question p t) (filter (change p (from_segment t)) (seq 1 d))).
    { apply within_inner. intros l Hl. apply filter_In in Hl. apply Hnz. apply Hl. }
    destruct z; cbn [map filter]; rewrite E; change (within_question p (Some pv) t 0) with q; destruct (between_hosts p a b q); cbn [andb app]; rewrite inner_filter; reflexivity. }
  rewrite EX. unfold between_asks. fold q. 
  destruct (between_hosts p a b q) eqn:B.
  - apply bh_spec in B. unfold q in B. cbn [first_question q_prev_segment q_segment] in B. fold q in B. destruct B as (B1 & B2 & B3).
    destruct (Nat.eqb_spec (owner p (from_segment t)) (owner p (to_segment pv))) as [E|E]; cbn [filter app].
    + assert (C : change p (from_segment t) 0 = true).
      { apply change_iff. rewrite Nat.add_0_r, (Nat.mod_small (from_segment t)) by assumption. congruence. }
      rewrite C. cbn [andb app]. apply stutter_refl.
    + assert (B' : between_hosts p a b q = true) by (apply bh_spec; unfold q; cbn [first_question q_prev_segment q_segment]; auto). rewrite B'.
      destruct (change p (from_segment t) 0); cbn [andb app]; [apply st_two|apply st_one]; apply stutter_refl.
  - destruct (_ =? _); cbn [filter app]; rewrite ?B; rewrite andb_false_r; cbn [app]; apply stutter_refl.
Qed.

Fixpoint steps_all (prev : option transition) (ts : list transition) : list question :=
  match ts with [] => [] | t :: l => steps1 prev t ++ steps_all (Some t) l end.

Lemma asks_all_steps : forall a b ts prev, (forall t, In t ts -> fine p t /\ usable r t = true) ->
  stutter (filter (between_hosts p a b) (asks_all p prev ts)) (filter (between_hosts p a b) (steps_all prev ts)).
Proof.
  intros a b ts. induction ts as [|t ts IH]; intros prev H; [constructor|]. cbn [asks_all steps_all]. rewrite !filter_app. apply stutter_app.
  - apply asks_steps; apply (H t); now left.
  - apply IH. intros x Hx. apply H. now right.
Qed.

(** The node a transition leaves from / arrives at. *)
Definition departure (t : transition) : nat * nat := (from_id t, from_segment t).
Definition arrival (t : transition) : nat * nat := (from_id t, to_segment t).

Lemma pairs_seq : forall A (f : nat -> A) s d, pairs (map f (seq s (S d))) = map (fun l => (f l, f (S l))) (seq s d).
Proof. intros A f s d. revert s. induction d as [|d IH]; intros s; [reflexivity|].
  change (pairs (map f (seq s (S (S d))))) with ((f s, f (S s)) :: pairs (map f (seq (S s) (S d)))). rewrite IH. reflexivity. Qed.

Lemma visits_last : forall t d, fine p t -> usable r t = true -> last (visits r t) d = arrival t.
Proof.
  intros t d (Hf & Ht) Hu. pose proof (usable_span p t Hu) as Hs. unfold visits. change (ccw r (pseg (fst t)) (pseg (snd t))) with (span p t).
  destruct (span p t) as [|n] eqn:E; [lia|]. rewrite seq_S, map_app. cbn [map]. rewrite last_last. unfold arrival, from_id. f_equal.
  unfold span in E. replace (1 + n) with (ccw r (from_segment t) (to_segment t)) by lia. apply ccw_to; assumption.
Qed.

Definition start_of (prev : option transition) (t : transition) : nat * nat := match prev with Some pv => arrival pv | None => departure t end.

Lemma steps1_pairs : forall prev t, fine p t -> usable r t = true -> steps1 prev t = map as_question (pairs (start_of prev t :: visits r t)).
Proof.
  intros prev t (Hf & Ht) Hu. pose proof (usable_span p t Hu) as Hs. unfold steps1, visits. change (ccw r (pseg (fst t)) (pseg (snd t))) with (span p t).
  destruct (span p t) as [|d]; [lia|]. set (g := fun lag => (pid (fst t), (pseg (fst t) + lag) mod r)).
  change (pairs (start_of prev t :: map g (seq 1 (S d)))) with ((start_of prev t, g 1) :: pairs (map g (seq 1 (S d)))).
  rewrite pairs_seq. unfold g. cbn [seq map]. rewrite map_map. f_equal.
  - unfold within_question, start_of, as_question. destruct prev; [rewrite Nat.eqb_refl; reflexivity|]. unfold inner_question, departure. cbn [fst snd]. rewrite Nat.add_0_r.
    rewrite (Nat.mod_small (from_segment t)) by exact Hf. reflexivity.
  - rewrite within_inner by (intros l Hl; apply in_seq in Hl; lia). apply map_ext. intros l. unfold inner_question, as_question. cbn [fst snd].
    unfold from_id, from_segment. replace (pseg (fst t) + l + 1) with (pseg (fst t) + S l) by lia. reflexivity.
Qed.

Lemma pairs_concat : forall A (x : A) l m d, l <> [] -> pairs (x :: l ++ m) = pairs (x :: l) ++ pairs (last l d :: m).
Proof.
  intros A x l. revert x. induction l as [|y l IH]; intros x m d H; [congruence|]. destruct l as [|z l]; [reflexivity|].
  specialize (IH y m d ltac:(discriminate)). cbn [app] in *. change (pairs (x :: y :: z :: l ++ m)) with ((x, y) :: pairs (y :: z :: l ++ m)). rewrite IH. reflexivity.
Qed.
Lemma visits_nonempty : forall t, usable r t = true -> visits r t <> [].
Proof. intros t Hu. pose proof (usable_span p t Hu) as Hs. unfold visits. change (ccw r (pseg (fst t)) (pseg (snd t))) with (span p t). destruct (span p t); [lia|discriminate]. Qed.

Lemma steps_all_pairs : forall ts prev, (forall t, In t ts -> fine p t /\ usable r t = true) ->
  steps_all prev ts = match ts with [] => [] | t :: _ => map as_question (pairs (start_of prev t :: path r ts)) end.
Proof.
  induction ts as [|t ts IH]; intros prev H; [reflexivity|]. cbn [steps_all]. destruct (H t (or_introl eq_refl)) as (Ft & Ut).
  unfold path. cbn [map concat]. rewrite (pairs_concat _ _ _ _ (0, 0)) by (apply visits_nonempty, Ut). rewrite map_app, steps1_pairs by assumption. f_equal.
  rewrite visits_last by assumption. rewrite IH by (intros; apply H; now right). destruct ts as [|t' ts]; reflexivity.
Qed.

(** ** No question twice *)
Lemma in_visits : forall t x, In x (visits r t) -> fst x = from_id t.
Proof. intros t x H. unfold visits in H. apply in_map_iff in H. destruct H as (l & <- & _). reflexivity. Qed.
Lemma visits_nodup : forall t, usable r t = true -> NoDup (visits r t).
Proof.
  intros t Hu. pose proof (usable_span p t Hu) as Hs. pose proof (half_bounds r) as Hh. unfold visits. change (ccw r (pseg (fst t)) (pseg (snd t))) with (span p t).
  assert (G : forall n s, s + n <= r -> NoDup (map (fun lag => (pid (fst t), (pseg (fst t) + lag) mod r)) (seq s n))).
  { induction n as [|n IH]; intros s Hn; [constructor|]. cbn [seq map]. constructor; [|apply IH; lia]. intros I. apply in_map_iff in I. destruct I as (l & E & Hl). apply in_seq in Hl.
    injection E as E. symmetry in E. assert (s = l); [|lia]. eapply (mod_inj_window r (pseg (fst t))); [| |exact E]; lia. }
  apply G. lia.
Qed.
Lemma path_nodup : forall ts, (forall t, In t ts -> usable r t = true) -> NoDup (map from_id ts) -> NoDup (path r ts).
Proof.
  induction ts as [|t ts IH]; intros Hu ND; [constructor|]. unfold path. cbn [map concat]. inversion ND; subst. apply NoDup_app_intro.
  - apply visits_nodup, Hu. now left.
  - apply IH; [intros; apply Hu; now right|assumption].
  - intros x Hx Hy. apply in_visits in Hx. apply in_concat in Hy. destruct Hy as (v & Hv & Hxv). apply in_map_iff in Hv. destruct Hv as (t' & <- & Ht'). apply in_visits in Hxv.
    apply H1. rewrite <- Hx, Hxv. now apply in_map.
Qed.
Lemma pairs_snd : forall A (x : A) l, map snd (pairs (x :: l)) = l.
Proof. intros A x l. revert x. induction l as [|y l IH]; intros x; [reflexivity|]. change (pairs (x :: y :: l)) with ((x, y) :: pairs (y :: l)). cbn [map snd]. now rewrite IH. Qed.
Lemma NoDup_map_of : forall A B (f : A -> B) l, NoDup (map f l) -> NoDup l.
Proof. intros A B f l. induction l as [|x l IH]; intros H; [constructor|]. cbn in H. inversion H; subst. constructor; [|auto]. intros I. apply H2. now apply in_map. Qed.
Lemma steps_nodup : forall ts prev, (forall t, In t ts -> fine p t /\ usable r t = true) -> NoDup (map from_id ts) -> NoDup (steps_all prev ts).
Proof.
  intros ts prev H ND. rewrite steps_all_pairs by assumption. destruct ts as [|t ts]; [constructor|].
  apply (NoDup_map_of _ _ (fun q => (q_id q, q_segment q))). rewrite map_map.
  rewrite (map_ext _ snd) by (intros (u, (v1, v2)); reflexivity). rewrite pairs_snd. apply path_nodup; [intros; now apply H|assumption].
Qed.

Lemma fine_pairs : forall points t, all_fine p points -> In t (usable_pairs r points) -> fine p t /\ usable r t = true.
Proof.
  intros points t Hf H. unfold usable_pairs in H. apply filter_In in H. destruct H as (H & U). split; [|exact U].
  assert (G : In (fst t) points /\ In (snd t) points).
  { clear Hf U. induction points as [|x [|y l] IH]; [destruct H|destruct H|]. change (pairs (x :: y :: l)) with ((x, y) :: pairs (y :: l)) in H. destruct H as [<-|H]; [cbn; tauto|].
    specialize (IH H). split; right; apply IH. }
  split; apply Hf; apply G.
Qed.
Lemma pairs_ids_nodup : forall points, NoDup (map pid points) -> NoDup (map from_id (usable_pairs r points)).
Proof.
  intros points ND. assert (G : NoDup (map from_id (pairs points))).
  { assert (I : forall l x, In x (map from_id (pairs l)) -> In x (map pid l)).
    { induction l as [|u [|v l] IH]; intros x H; [destruct H|destruct H|]. change (pairs (u :: v :: l)) with ((u, v) :: pairs (v :: l)) in H. destruct H as [<-|H]; [now left|right; auto]. }
    induction points as [|u [|v l] IH]; [constructor|constructor|]. change (pairs (u :: v :: l)) with ((u, v) :: pairs (v :: l)). cbn [map]. inversion ND; subst. constructor; [|auto].
    intros H. apply H1. exact (I _ _ H). }
  unfold usable_pairs. revert G. generalize (pairs points) as l. induction l as [|t l IH]; intros G; [constructor|]. cbn [filter]. cbn [map] in G. inversion G; subst.
  destruct (usable r t); [|auto]. cbn [map]. constructor; [|auto]. intros H. apply H1. apply in_map_iff in H. destruct H as (y & Ey & Hy). apply filter_In in Hy. rewrite <- Ey. apply in_map. apply Hy.
Qed.

Lemma built_questions : forall own points a b, all_fine p points -> NoDup (map pid points) ->
  questions_of (asked (fst (built own points))) b a = filter (between_hosts p a b) (steps_all None (usable_pairs r points)).
Proof.
  intros own points a b Hf ND. unfold built. cbn [fst asked]. rewrite questions_of_record_nil. apply dedup_stutter.
  - apply asks_all_steps. intros t Ht. eapply fine_pairs; eauto.
  - apply NoDup_filter. apply steps_nodup; [intros t Ht; eapply fine_pairs; eauto|now apply pairs_ids_nodup].
Qed.
End S.
