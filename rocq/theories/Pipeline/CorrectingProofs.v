(** An execution with self correction goes on as one without, of the points the hosts have decided for. *)
From Coq Require Import List Arith Bool Lia Permutation.
From Verif.Base Require Import Res Params ListX Float32.
From Verif.Segmentation Require Import Model Spec Proofs PathProofs Handover HandoverProofs.
From Verif.Protocol Require Import Model Exchange ExchangeProofs Ring RingProofs.
From Verif.Nodes Require Import Model.
From Verif.Correction Require Import Model Spec Proofs.
From Verif.Pipeline Require Import Cluster RunProofs Correcting.
From Verif.Properties Require Import Segmentation Intersections Correction.
Import ListNotations.

(** ** Stages depend on what the hosts hold only *)
Lemma each_gives_ext : forall A N (R R' : nat -> A -> Prop) (k k' : _ -> Prop), (forall h a, h < N -> R h a <-> R' h a) -> (forall r, (forall h, h < N -> R h (r h)) -> k r -> k' r) -> each_gives N R k -> each_gives N R' k'.
Proof.
  intros A N R R' k k' E Hk (H1 & H2). split.
  - intros h Hh. destruct (H1 h Hh) as (a & Ha). exists a. now apply E.
  - intros r Hr. assert (Hr' : forall h, h < N -> R h (r h)) by (intros h Hh; apply E; auto). apply Hk; auto.
Qed.
Lemma each_host_ext : forall A N (f f' : nat -> res A) (k k' : _ -> Prop), (forall h, h < N -> f h = f' h) -> (forall r, k r -> k' r) -> each_host N f k -> each_host N f' k'.
Proof. intros A N f f' k k' E Hk. apply each_gives_ext; [|auto]. intros h a Hh. now rewrite E. Qed.
Lemma foldM_ext_in : forall A B (f g : A -> B -> res A) l a, (forall a x, In x l -> f a x = g a x) -> foldM f l a = foldM g l a.
Proof. intros A B f g. induction l as [|x l IH]; intros a H; [reflexivity|]. cbn [foldM]. rewrite H by now left. destruct (g a x); [|reflexivity]. cbn [bind]. apply IH. intros b y Hy. apply H. now right. Qed.

Lemma crossing_stage_ext : forall C (cross : list transition -> transition -> nat -> res C) p ts ts' (k k' : _ -> Prop), (forall h, h < n_cluster_nodes p -> ts h = ts' h) -> (forall x, k x -> k' x) ->
  crossing_stage cross p ts k -> crossing_stage cross p ts' k'.
Proof.
  intros C cross p ts ts' k k' E Hk H others Ho. specialize (H others Ho). revert H. apply each_host_ext; [intros h Hh; now rewrite E|]. intros r H w Rw Sw messages Hm. specialize (H w Rw Sw messages Hm). revert H. apply each_host_ext; auto.
Qed.
Lemma node_stage_ext : forall C (cluster : list C -> res (list nat)) p crossings qs qs' (k k' : _ -> _ -> Prop), (forall h, h < n_cluster_nodes p -> qs h = qs' h) -> (forall x y, k x y -> k' x y) ->
  node_stage cluster p crossings qs k -> node_stage cluster p crossings qs' k'.
Proof.
  intros C cluster p crossings qs qs' k k' E Hk. apply each_host_ext; [reflexivity|]. intros stores H others ask_order answer_order Ho Ha Hn. specialize (H others ask_order answer_order Ho Ha Hn). revert H.
  apply each_host_ext; [|auto]. intros h Hh. unfold answers_at. apply foldM_ext_in. intros a x Hx. apply (Permutation_in _ (Ha h Hh)) in Hx. apply in_seq in Hx. now rewrite E by lia.
Qed.
Lemma edge_stage_ext : forall p n stores foreign (k k' : _ -> Prop), (forall x, k x -> k' x) -> edge_stage p n stores foreign k -> edge_stage p n stores foreign k'.
Proof. intros p n stores foreign k k' Hk. apply each_host_ext; auto. Qed.
Lemma transposition_stage_ext : forall p n edges (k k' : _ -> _ -> Prop), (forall x y, k x y -> k' x y) -> transposition_stage p n edges k -> transposition_stage p n edges k'.
Proof. intros p n edges k k' Hk. apply each_host_ext; [reflexivity|]. intros r H w Rw Sw. apply Hk. now apply H. Qed.
Lemma weight_stage_ext : forall p part part' edges start E (k : _ -> Prop), (forall h, h < n_cluster_nodes p -> length (part h) = length (part' h)) ->
  weight_stage p part edges start E k -> weight_stage p part' edges start E k.
Proof. intros p part part' edges start E k Hl. apply each_host_ext; [|auto]. intros h Hh. now rewrite Hl. Qed.

(** ** The end of an execution *)
Section End.
Variable p : params.
Variables part mirrored : nat -> list pt.
Variable order : delivery.
Local Notation N := (n_cluster_nodes p).
Hypothesis HN : 2 <= N <= rate p.
Hypothesis Hc : self_correction p = true.
Hypothesis Hpart : forall k, k < N -> segments_ok p (part k).
Local Notation contribution := (fun i => report p i (part i)).

(** The points the hosts go on with. *)
Definition chosen : nat -> list pt := if should_mirror p part then mirrored else part.
(** The order of delivery suffices (C82). *)
Definition delivered_well : Prop := should_mirror p part = false \/ order = After_decision \/ (N = 2 /\ order = In_order).

Hypothesis Hord : delivered_well.
Hypothesis Hchosen : forall k, k < N -> segments_ok p (chosen k) /\ usable_pairs (rate p) (chosen k) <> [].

(** A host of the execution ended as the host of the hand-over did. *)
Definition ended_as (w : cworld) (h : hworld) : Prop :=
  hreachable p chosen false h /\ hstuck p chosen false h /\ forall k, k < N ->
    c_mode (host_of w k) = Decided /\ transitions (c_seg (host_of w k)) = transitions (segmentation_of (phase_of h k)) /\ asked (c_seg (host_of w k)) = asked (segmentation_of (phase_of h k)) /\
    c_sent (host_of w k) = [foreign_of (phase_of h k)].

Lemma ends_as : forall w, creachable p part mirrored order w -> cstuck p part mirrored order w -> exists h, ended_as w h.
Proof.
  intros w Hr St. pose proof (linked_reachable p HN part mirrored order Hpart Hc w Hr) as HL. unfold ended_as. pose proof Hchosen as Hch. unfold chosen in Hch |- *. assert (HN1 : 1 <= N <= rate p) by lia. destruct (should_mirror p part) eqn:Em.
  - assert (Hlate : forall w k, k < N -> linked p part w -> points_sent w <> [] -> alive (host_of w k) -> may_handle p order w k -> c_mode (host_of w k) = Decided).
    { intros v k Hk Lv Pv Av Mv. destruct Hord as [E|[E|(E2 & E)]]; [congruence|rewrite E in Mv; exact Mv|]. eapply (two_hosts_late p HN part mirrored order Hpart Hc E2 E); eauto. }
    assert (Hm : forall k, k < N -> all_fine p (mirrored k)) by (intros k Hk; apply (Hch k Hk)). assert (Hu : forall k, k < N -> usable_pairs (rate p) (mirrored k) <> []) by (intros k Hk; apply (Hch k Hk)).
    destruct (turned_reachable p HN part mirrored order Hpart Hc Em Hlate Hm Hu w Hr) as (h & R & Rel & Pm).
    assert (Ha : forall k, k < N -> alive (host_of w k)).
    { intros k Hk. pose proof (Rel k Hk) as Rk. unfold alive, rel2 in *. destruct (c_mode (host_of w k)); try exact I. destruct (phase_of h k); try tauto; [destruct Rk as ([X|X] & _)| |]; try discriminate; destruct Rk; discriminate. }
    pose proof (hinv_reachable p HN1 mirrored Hm Hu h R) as HI.
    assert (Hrec : forall x, In x (points_sent w) -> fst x < N).
    { intros (k, (a, t)) Hx. destruct HI as (I1 & _). destruct (I1 k a t) as (X & _); [now rewrite Pm|cbn; lia]. }
    destruct (stuck_all p HN part mirrored order Hpart Hc w HL Ha Hrec St) as (D & E). rewrite E in Pm.
    assert (HS : hstuck p mirrored false h).
    { intros h' Hh'. inversion Hh' as [v k Hk Hb|v k a t l1 l2 Ef _]; subst; [|rewrite Pm in Ef; destruct l1; discriminate]. pose proof (Rel k Hk) as Rk. rewrite Hb in Rk. destruct Rk as (X & _). rewrite D in X by exact Hk. destruct X; discriminate. }
    exists h. split; [exact R|]. split; [exact HS|]. intros k Hk. pose proof (hstuck_done p HN1 mirrored Hm Hu h HI HS k Hk) as Hd. pose proof (Rel k Hk) as Rk.
    destruct (phase_of h k) as [|g f|g f|why]; try discriminate. destruct Rk as (X & T' & A' & C). cbn [segmentation_of foreign_of]. ssplit; auto.
  - assert (Hu : forall k, k < N -> usable_pairs (rate p) (part k) <> []) by (intros k Hk; apply (Hch k Hk)).
    destruct (kept_reachable p HN part mirrored order Hpart Hc Em Hu w Hr) as (h & Hh). pose proof (kept_alive p HN part mirrored w h Hh) as Ha. destruct Hh as (R & Rel & Pm).
    pose proof (hinv_reachable p HN1 part Hpart Hu h R) as HI.
    assert (Hrec : forall x, In x (points_sent w) -> fst x < N).
    { intros (k, (a, t)) Hx. destruct HI as (I1 & _). destruct (I1 k a t) as (X & _); [|cbn; lia]. eapply Permutation_in; [symmetry; exact Pm|]. apply in_or_app. now left. }
    destruct (stuck_all p HN part mirrored order Hpart Hc w HL Ha Hrec St) as (D & E). rewrite E in Pm. cbn [app] in Pm.
    assert (E0 : concat (map (unsent p w) (seq 0 N)) = []).
    { assert (G : forall L, (forall q, In q L -> q < N) -> concat (map (unsent p w) L) = []).
      { induction L as [|q L IH]; intros HLq; [reflexivity|]. cbn [map concat]. rewrite IH by (intros; apply HLq; now right). unfold unsent. rewrite D by (apply HLq; now left). reflexivity. }
      apply G. intros q Hq. apply in_seq in Hq. lia. }
    rewrite E0 in Pm. apply Permutation_sym, Permutation_nil in Pm.
    assert (HS : hstuck p part false h).
    { intros h' Hh'. inversion Hh' as [v k Hk Hb|v k a t l1 l2 Ef _]; subst; [|rewrite Pm in Ef; destruct l1; discriminate]. pose proof (Rel k Hk) as Rk. rewrite Hb in Rk. destruct Rk as (X & _). rewrite D in X by exact Hk. discriminate. }
    exists h. split; [exact R|]. split; [exact HS|]. intros k Hk. pose proof (hstuck_done p HN1 part Hpart Hu h HI HS k Hk) as Hd. pose proof (Rel k Hk) as Rk.
    destruct (phase_of h k) as [|g f|g f|why]; try discriminate. destruct Rk as (T' & A' & C). pose proof (D k Hk) as Dk. cbn [segmentation_of foreign_of]. ssplit; auto.
    destruct C as [(_ & X & _)|(_ & X)]; congruence.
Qed.

Lemma decided_alike : forall w, creachable p part mirrored order w -> (forall k, k < N -> c_mode (host_of w k) = Decided) -> forall k, k < N -> mirrored_at p part w k = should_mirror p part.
Proof.
  intros w Hr D k Hk. pose proof (linked_reachable p HN part mirrored order Hpart Hc w Hr) as HL. pose proof (linked_ring p HN part Hc w HL) as HI. destruct HL as (R & M & P). pose proof (M k Hk) as Mk. rewrite (D k Hk) in Mk.
  destruct (Shutdown.Proofs.finished_all N contribution ltac:(lia) _ k HI Hk) as (B & Lt & F & _ & _); [lia|].
  apply (decision p HN part mirrored Hpart Hc k); [exact Hk|]. exact (taken_all N contribution ltac:(lia) _ k HI Hk Lt).
Qed.

(** A complete execution exists. *)
Lemma correction_completes : exists w, creachable p part mirrored order w /\ cstuck p part mirrored order w.
Proof.
  apply (completes _ (creachable p part mirrored order) (cstep p part mirrored order) (cmeasure p) (fun _ => 0)) with (w := cinitial); [| |constructor].
  - intros w _. set (live := fun k => match c_mode (host_of w k) with Crashed _ => false | _ => true end).
    assert (Hlive : forall k, live k = true <-> alive (host_of w k)) by (intros k; unfold live, alive; destruct (c_mode (host_of w k)); split; auto; discriminate || tauto).
    destruct (some_below (fun k => live k && match mailbox (node_of (counts w) k) with [] => false | _ => true end) N) as [(k & Hk & E)|E1].
    { left. apply andb_true_iff in E. destruct E as (El & E). destruct (mailbox (node_of (counts w) k)) as [|m r] eqn:Em; [discriminate|]. eexists. apply (c_counts p part mirrored order w k m r); auto. now apply Hlive. }
    destruct (some_below (fun k => match transit (counts w) k with [] => false | _ => true end) N) as [(k & Hk & E)|E2].
    { left. destruct (transit (counts w) k) as [|m r] eqn:Em; [discriminate|]. eexists. now apply (c_arrives p part mirrored order w k m r). }
    destruct (some_below (fun k => match c_mode (host_of w k) with Idle => true | _ => false end) N) as [(k & Hk & E)|E3].
    { left. eexists. assert (Em : c_mode (host_of w k) = Idle) by (destruct (c_mode (host_of w k)); try discriminate; reflexivity). apply (c_segments p part mirrored order w k Hk Em). right. specialize (E1 k Hk). unfold live in E1. rewrite Em in E1. cbn [andb] in E1. now destruct (mailbox (node_of (counts w) k)). }
    set (may := fun k => match order with
      | Anyhow => true
      | In_order => match mailbox (node_of (counts w) k) with [] => negb (N =? 2) || match transit (counts w) k with [] => true | _ => false end | _ => false end
      | After_decision => match c_mode (host_of w k) with Decided => true | _ => false end end).
    assert (Hmay : forall k, may k = true <-> may_handle p order w k).
    { intros k. unfold may, may_handle. destruct order; [tauto| |destruct (c_mode (host_of w k)); split; auto; discriminate].
      destruct (mailbox (node_of (counts w) k)); [|split; [discriminate|intros (X & _); discriminate]]. destruct (Nat.eqb_spec N 2) as [E|E]; cbn [negb orb].
      - destruct (transit (counts w) k); split; auto; [discriminate|]. intros (_ & X). specialize (X E). discriminate.
      - split; [intros _; split; [reflexivity|contradiction]|reflexivity]. }
    destruct (some_member _ (fun m => live (fst m) && may (fst m)) (points_sent w)) as [(l & [k [a t]] & r & El & Es)|Es].
    { left. apply andb_true_iff in Es. cbn [fst] in Es. destruct Es as (Es1 & Es2). eexists. apply (c_first_point p part mirrored order w k a t l r El); [now apply Hlive|now apply Hmay]. }
    right. intros w' St. inversion St as [w0 k Hk Hm Hno|w0 k m r Hk Ht|w0 k m r Hk Ha Hm|w0 k a t l r En Ha He]; subst.
    + specialize (E3 k Hk). rewrite Hm in E3. discriminate.
    + specialize (E2 k Hk). rewrite Ht in E2. discriminate.
    + specialize (E1 k Hk). rewrite Hm in E1. apply Hlive in Ha. rewrite Ha in E1. discriminate.
    + specialize (Es (k, (a, t)) ltac:(rewrite En; apply in_elt)). cbn [fst] in Es. apply Hlive in Ha. apply Hmay in He. rewrite Ha, He in Es. discriminate.
  - intros w w' Hw St. split; [econstructor; eauto|]. left. eapply (cmeasure_step p HN part mirrored order Hpart Hc); eauto. now apply (linked_reachable p HN part mirrored order Hpart Hc).
Qed.
End End.

Section Same.
Context {C : Type}.
Variable cross : bool -> list transition -> transition -> nat -> res C.
Variable cluster : list C -> res (list nat).
Variables (p : params) (n : nat) (part mirrored : nat -> list pt) (order : delivery).
Local Notation N := (n_cluster_nodes p).

Lemma correcting_as_chosen : forall k, 2 <= N <= rate p -> self_correction p = true -> (forall k, k < N -> segments_ok p (part k)) -> delivered_well p part order ->
  (forall k, k < N -> segments_ok p (chosen p part mirrored k) /\ usable_pairs (rate p) (chosen p part mirrored k) <> []) -> (forall k, k < N -> length (mirrored k) = length (part k)) ->
  cluster_analysis (cross (should_mirror p part)) cluster p n (chosen p part mirrored) k -> correcting_analysis cross cluster p n part mirrored order k.
Proof.
  intros k HN Hc Hpart Hord Hch Hlen H w Hr St. destruct (ends_as p part mirrored order HN Hc Hpart Hord Hch w Hr St) as (h & R & S & E). split; [intros j Hj; destruct (E j Hj) as (D & _ & _ & Q); eauto|].
  exists (should_mirror p part). split; [apply (decided_alike p part mirrored order HN Hc Hpart Hch w Hr); intros j Hj; apply (E j Hj)|]. intros x Rx Sx.
  assert (EB : forall i j, i < N -> bucket (correction_exchange p w) i j = bucket (transition_exchange p h) i j).
  { intros i j Hi. cbn [correction_exchange transition_exchange bucket]. destruct (E i Hi) as (_ & _ & _ & ->). cbn [map concat]. apply app_nil_r. }
  apply (reachable_ext _ _ (transition_exchange p h)) in Rx; [|reflexivity|reflexivity|exact EB]. apply (stuck_ext _ _ (transition_exchange p h)) in Sx; [|reflexivity|reflexivity|exact EB].
  destruct (H h R S) as (_ & H0). specialize (H0 x Rx Sx). revert H0. apply crossing_stage_ext. { intros j Hj. unfold stored, transitions_at. destruct (E j Hj) as (_ & -> & _). reflexivity. }
  intros crossings. apply node_stage_ext. { intros j Hj. destruct (E j Hj) as (_ & _ & -> & _). reflexivity. }
  intros stores foreign. apply edge_stage_ext. intros edges. apply transposition_stage_ext. intros start Ed. apply weight_stage_ext. intros j Hj. unfold chosen. destruct (should_mirror p part); auto.
Qed.
End Same.
