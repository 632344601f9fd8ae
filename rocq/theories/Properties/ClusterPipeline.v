(** C83: the analysis on a cluster, from the rotated points of the hosts to the scores at every host. *)
From Coq Require Import List Arith Bool Lia Permutation Sorting.Sorted Reals ZArith.
From Flocq Require Import IEEE754.BinarySingleNaN.
From Verif.Base Require Import Res Params ListX Assoc Float32.
From Verif.Segmentation Require Import Model Spec Handover PathProofs.
From Verif.Protocol Require Import Model Exchange ExchangeExec Ring.
From Verif.Intersections Require Import Model.
From Verif.Nodes Require Import Model Spec.
From Verif.Edges Require Import Model Spec HostProofs.
From Verif.Transposition Require Import Model Spec.
From Verif.Scoring Require Import Model Spec WeightProofs Overlap ClusterProofs RenameProofs.
From Verif.Normalize Require Import Model.
From Verif.Pipeline Require Import Spec Proofs Cluster ClusterSpec ClusterProofs RunProofs.
From Verif.Properties Require Import Segmentation Edges Intersections Nodes Transposition Scoring ClusterScoring Normalize Pipeline.
Import ListNotations.
Local Open Scope nat_scope.

Section OnACluster.
Context {C : Type}.
Variables (cross : list transition -> transition -> nat -> res C) (cluster : list C -> res (list nat)) (p : params) (n : nat) (part : nat -> list pt).
Local Notation N := (n_cluster_nodes p).
Local Notation d := (n / N).
Local Notation q := (query_length p).
Local Notation points := (whole_series N part).
Local Notation ts := (usable_pairs (rate p) (whole_series N part)).
Local Notation crossed := (path (rate p) ts).

(** What is asked of the series: cut into parts as the hosts do; every part has a transition that can be used; no step over a border is lost (C67); a transition starts at the last point that the windows
    of a host reach (C70); the first part has a transition after its first point; and every host has at least as many windows as threads (C44). *)
Definition well_distributed : Prop :=
  cut n N part /\ segments_ok p points /\ (forall k, k < N -> usable_pairs (rate p) (part k) <> []) /\ (forall k, k + 1 < N -> border_asked p part k) /\
  (forall k, S k < N -> exists t, In t ts /\ from_id t = S k * d + q - 1) /\ (exists t, In t ts /\ 0 < from_id t < d) /\
  1 <= n_threads p <= d /\ n_threads p + q <= length (part (N - 1)).

Section Stages.
Hypothesis HN : 2 <= N <= rate p.
Hypothesis Hq : 1 <= q.
Hypothesis W : well_distributed.

Lemma W_part : forall k, k < N -> segments_ok p (part k).
Proof. intros k Hk x Hx. destruct W as (_ & Hs & _). apply Hs. unfold whole_series. apply in_concat. exists (part k). split; [apply in_map, in_seq; lia|exact Hx]. Qed.
Lemma W_ids : NoDup (map pid points).
Proof. destruct W as ((E & _) & _). rewrite E. apply seq_NoDup. Qed.
Lemma W_usable : forall t, In t ts -> usable (rate p) t = true.
Proof. intros t Ht. unfold usable_pairs in Ht. now apply filter_In in Ht. Qed.
Lemma W_sorted : StronglySorted lt (map from_id ts).
Proof. destruct W as (Hc & _). now destruct (numbered_pairs p n _ (cut_numbered _ _ _ Hc)). Qed.
Lemma W_crossed_nodup : NoDup crossed.
Proof. apply (path_nodup p ltac:(lia)); [exact W_usable|]. apply (pairs_ids_nodup p). exact W_ids. Qed.
Lemma W_crossed_bound : forall c, In c crossed -> snd c < rate p.
Proof. intros c Hc. apply path_source in Hc. destruct Hc as (t & _ & Hc). unfold visits in Hc. apply in_map_iff in Hc. destruct Hc as (lag & <- & _). cbn [snd]. apply Nat.mod_upper_bound. lia. Qed.

Lemma W_d : 2 <= d.
Proof.
  destruct W as ((_ & _ & L) & _ & U & _). specialize (U 0 ltac:(lia)). specialize (L 0 ltac:(lia)). destruct (part 0) as [|a [|b l]]; [exfalso; apply U; reflexivity|exfalso; apply U; reflexivity|]. cbn [length] in L. lia.
Qed.
Lemma W_n : N <= n.
Proof. pose proof W_d as D. destruct (le_lt_dec N n) as [L|L]; [exact L|]. rewrite Nat.div_small in D by exact L. lia. Qed.
Lemma W_total : length points = (N - 1) * d + length (part (N - 1)).
Proof. destruct W as (Hc & _). apply (whole_length n); [exact Hc|lia]. Qed.

Lemma stage1 : forall (k : _ -> _ -> Prop),
  (forall qs held, questions_cover p crossed qs -> (forall h, h < N -> Permutation (held h) (filter (fun t => owner p (pseg (fst t)) =? h) ts)) -> k qs held) ->
  segmentation_stage p part k.
Proof.
  intros k Hk hw Rw Sw. destruct W as (Hc & Hs & U & B & _). split; [intros h Hh; now apply (C28_completes_partial p part hw HN W_part U Rw)|]. intros x Rx Sx. apply Hk.
  - apply C67_questions_cover_partial; try assumption; [lia|exact W_part|exact W_ids].
  - intros h Hh. now apply (C27_distributed_segmentation p part hw x HN W_part U Rw Sw Rx Sx h).
Qed.

Lemma stage2 : forall pos held (k : _ -> Prop), crossings_computed_on cross p ts pos -> (forall h, h < N -> Permutation (held h) (filter (fun t => owner p (pseg (fst t)) =? h) ts)) ->
  (forall crossings, (forall h, h < N -> holds_crossings p h crossed (crossings h)) -> (forall h c, h < N -> In c (crossings h) -> c_coordinates c = pos (c_id c, c_segment c)) -> k crossings) ->
  crossing_stage cross p held k.
Proof.
  intros pos held k Hx Hh Hk others Ho. destruct W as (Hc & Hs & _).
  assert (HU : forall t, In t ts -> pseg (fst t) < rate p /\ pseg (snd t) < rate p /\ usable (rate p) t = true) by (intros t Ht; destruct (fine_pairs p ltac:(lia) points t Hs Ht) as ((A & B) & D); now ssplit).
  destruct (C80_crossings_reach_their_owner C cross p ts held others ltac:(lia) HU Hh) as (kept & sent & E1 & E2); [|exact Ho|].
  - intros h t s Hlt Ht Hv. exists (pos (from_id t, s)). exact (Hx h (held h) t _ Hlt (Hh h Hlt) Ht Hv).
  - split; [intros h Hlt; eexists; now apply E1|]. intros r Hr w Rw Sw messages Hm. cbv beta in Hr.
    assert (Er : forall h, h < N -> r h = (kept h, sent h)) by (intros h Hlt; specialize (Hr h Hlt); rewrite (E1 h Hlt) in Hr; now injection Hr).
    assert (EB : forall h j, h < N -> bucket (crossing_exchange p (fun h => snd (r h))) h j = bucket (crossing_exchange p sent) h j) by (intros h j Hlt; cbn [crossing_exchange bucket]; now rewrite (Er h Hlt)).
    apply (reachable_ext _ _ (crossing_exchange p sent)) in Rw; [|reflexivity|reflexivity|exact EB]. apply (stuck_ext _ _ (crossing_exchange p sent)) in Sw; [|reflexivity|reflexivity|exact EB].
    assert (Es : forall h store, h < N -> end_stage p h (fst (r h)) (messages h) = Ok store -> holds_crossings p h crossed store /\
      forall c, In c store -> exists k t, k < N /\ In t (held k) /\ c_id c = from_id t /\ In (c_id c, c_segment c) (visits (rate p) t) /\ cross (held k) t (c_segment c) = Ok (c_coordinates c)).
    { intros h store Hlt E. rewrite (Er h Hlt) in E. cbn [fst] in E. destruct (E2 w Rw Sw h (messages h) Hlt (Hm h Hlt)) as (l & El & R). rewrite E in El. injection El as <-. exact R. }
    split. { intros h Hlt. rewrite (Er h Hlt). destruct (E2 w Rw Sw h (messages h) Hlt (Hm h Hlt)) as (l & El & _). now exists l. }
    intros store Hst. apply Hk; [intros h Hlt; apply (Es h _ Hlt); now apply Hst|].
    intros h c Hlt Hc'. destruct (Es h _ Hlt (Hst h Hlt)) as (_ & Src). destruct (Src c Hc') as (k' & t & Hk' & Ht & _ & Hv & Ec).
    pose proof (Hx k' (held k') t _ Hk' (Hh k' Hk') Ht Hv) as E'. cbn [snd] in E'. rewrite Ec in E'. now injection E'.
Qed.

(** The rows of a segment at its owner. *)
Lemma rows_perm : forall (crossings : nat -> list (crossing C)) s, s < rate p -> (forall h, h < N -> holds_crossings p h crossed (crossings h)) ->
  Permutation (map (fun c => (c_id c, c_segment c)) (filter (fun c => c_segment c =? s) (crossings (owner p s)))) (in_segment s crossed).
Proof.
  intros crossings s Hs Hh. assert (Ho : owner p s < N) by (unfold owner; lia). specialize (Hh _ Ho). unfold holds_crossings in Hh.
  assert (E : map (fun c => (c_id c, c_segment c)) (filter (fun c => c_segment c =? s) (crossings (owner p s))) = filter (fun c => snd c =? s) (map (fun c => (c_id c, c_segment c)) (crossings (owner p s)))).
  { clear. induction (crossings (owner p s)) as [|c l IH]; [reflexivity|]. cbn [filter map snd]. destruct (c_segment c =? s); cbn [map]; now rewrite IH. }
  rewrite E. assert (PF : forall (f : nat * nat -> bool) a b, Permutation a b -> Permutation (filter f a) (filter f b)).
  { clear. intros f a b P. induction P; cbn [filter]; repeat match goal with |- context [if ?x then _ else _] => destruct x end; eauto using Permutation. }
  etransitivity; [apply PF; exact Hh|]. unfold in_segment. rewrite <- (PF _ _ _ (Permutation_rev crossed)).
  match goal with |- Permutation ?a ?b => cut (a = b); [intros ->; reflexivity|] end. clear. induction crossed as [|c l IH]; [reflexivity|]. cbn [filter].
  destruct (Nat.eqb_spec (snd c) s) as [<-|Ns].
  - rewrite Nat.eqb_refl. cbn [filter]. rewrite Nat.eqb_refl. now rewrite IH.
  - destruct (owner p (snd c) =? owner p s); cbn [filter]; [|exact IH]. destruct (Nat.eqb_spec (snd c) s); [contradiction|]. exact IH.
Qed.

Lemma stage3 : forall pos crossings qs (k : _ -> _ -> Prop), clusterings_computed_on cluster p crossed pos -> questions_cover p crossed qs ->
  (forall h, h < N -> holds_crossings p h crossed (crossings h)) -> (forall h c, h < N -> In c (crossings h) -> c_coordinates c = pos (c_id c, c_segment c)) ->
  (forall label stores foreign, labelled_in_some_order cluster p crossed pos label -> (forall h, h < N -> stored_by_segment p h (walk label (rate p) ts) (stores h)) ->
     (forall h, h < N -> answers_complete p h (walk label (rate p) ts) (foreign h)) -> k stores foreign) ->
  node_stage cluster p crossings qs k.
Proof.
  intros pos crossings qs k Hcl Hqs Hh Hpos Hk.
  assert (Hrows : forall s, s < rate p -> let rows := filter (fun c => c_segment c =? s) (crossings (owner p s)) in
    Permutation (map (fun c => (c_id c, c_segment c)) rows) (in_segment s crossed) /\ map c_coordinates rows = map pos (map (fun c => (c_id c, c_segment c)) rows)).
  { intros s Hs rows. split; [now apply rows_perm|]. rewrite map_map. apply map_ext_in. intros c Hc. apply filter_In in Hc. apply (Hpos (owner p s)); [unfold owner; lia|apply Hc]. }
  destruct (C68_one_node_per_crossing C cluster p crossed crossings ltac:(lia) W_crossed_nodup W_crossed_bound Hh) as (label & Hn & Hlab & Hone).
  { intros s Hs H2. destruct (Hrows s Hs) as (P & E). rewrite E. destruct (Hcl s _ Hs P) as (labels & El & Ll); [now rewrite map_length|]. exists labels. split; [exact El|]. now rewrite Ll, map_length. }
  assert (Hst : forall h store, h < N -> create_nodes cluster p h (crossings h) = Ok store -> stored_by_segment p h (walk label (rate p) ts) store).
  { intros h store Hlt E. destruct (Hn h Hlt) as (l & El & St & _). rewrite E in El. injection El as <-. exact St. }
  split; [intros h Hlt; destruct (Hn h Hlt) as (l & El & _); now exists l|]. intros stores Es others ask_order answer_order Ho Ha Hb.
  destruct (C67_answers_complete p label crossed qs stores others ask_order answer_order ltac:(lia) W_crossed_nodup W_crossed_bound Hqs (fun h Hlt => Hst h _ Hlt (Es h Hlt)) Ho Ha Hb) as (answers & Ea & Hans).
  split; [intros h Hlt; eexists; now apply Ea|]. intros answers' Ea'. apply (Hk label).
  - intros s Hs. destruct (Hrows s Hs) as (P & E). split.
    + intros H2. set (rows := filter (fun c => c_segment c =? s) (crossings (owner p s))) in *. exists (map (fun c => (c_id c, c_segment c)) rows). split; [exact P|]. rewrite <- E, map_map. cbn [fst]. apply (Hlab s Hs). 
      rewrite <- (Permutation_length P), map_length in H2. exact H2.
    + intros i Ei. rewrite Ei in P. apply Permutation_sym, Permutation_length_1_inv in P. destruct (filter (fun c => c_segment c =? s) (crossings (owner p s))) as [|c [|c' l]] eqn:Ef; try discriminate. cbn [map] in P. injection P as Ec _.
      rewrite <- Ec. exact (Hone s c Hs Ef).
  - intros h Hlt. now apply Hst, Es.
  - intros h Hlt. replace (foreign_at h answers' (answer_order h)) with (foreign_at h answers (answer_order h)); [now apply Hans|]. unfold foreign_at.
    assert (Hin : forall b, In b (answer_order h) -> b < N) by (intros b Hib; apply (Permutation_in _ (Hb h Hlt)), in_seq in Hib; lia). clear -Hin Ea Ea'. match goal with |- fold_left _ _ ?x = _ => generalize x end. revert Hin. induction (answer_order h) as [|b l IH]; intros Hin acc; [reflexivity|].
    cbn [fold_left]. assert (E : answers' b = answers b) by (specialize (Ea' b (Hin b (or_introl eq_refl))); rewrite (Ea b (Hin b (or_introl eq_refl))) in Ea'; now injection Ea'). rewrite E. apply IH. intros b' Hb'. apply Hin. now right.
Qed.

Definition edges_of (label : nat -> nat -> nat) (h : nat) : list edge := filter (fun e => owner p (n_segment (fst e)) =? h) (pairs (walk label (rate p) ts)).
Lemma stage4 : forall label stores foreign (k : _ -> Prop), (forall h, h < N -> stored_by_segment p h (walk label (rate p) ts) (stores h)) -> (forall h, h < N -> answers_complete p h (walk label (rate p) ts) (foreign h)) ->
  (forall edges, (forall h, h < N -> edges h = edges_of label h) -> k edges) -> edge_stage p n stores foreign k.
Proof.
  intros label stores foreign k Hst Hf Hk. destruct W as (Hc & Hs & _).
  assert (E : forall h, h < N -> estimate_edges n (stores h) (foreign h) = Ok (edges_of label h)) by (intros h Hlt; apply (C66_edges_of_a_host p h label n points); auto; [lia|now apply cut_numbered|lia]).
  split; [intros h Hlt; eexists; now apply E|]. intros edges He. apply Hk. intros h Hlt. specialize (He h Hlt). cbv beta in He. rewrite (E h Hlt) in He. now injection He.
Qed.
Lemma all_edges_of : forall label edges, (forall h, h < N -> edges h = edges_of label h) -> Permutation (all_edges N edges) (pairs (walk label (rate p) ts)).
Proof.
  intros label edges He. unfold all_edges. rewrite (map_ext_in edges (edges_of label)) by (intros h Hh; apply in_seq in Hh; apply He; lia). unfold edges_of. apply (classes_perm _ (fun e => owner p (n_segment (fst e)))). intros e _. unfold owner. lia.
Qed.
(** [E]: the edges of the walk, each on the host of its time stamp, sorted. *)
Definition transposed_edges (label : nat -> nat -> nat) (E : nat -> list edge) : Prop :=
  (forall h, h < N -> ascending (E h) /\ forall e, In e (E h) <-> In e (pairs (walk label (rate p) ts)) /\ in_part n N h (to_id e) = true) /\ Permutation (all_edges N E) (pairs (walk label (rate p) ts)).

Lemma stage5 : forall label edges (k : _ -> _ -> Prop), (forall h, h < N -> edges h = edges_of label h) ->
  (forall start E, (forall h, h < N -> start h = h * d) -> transposed_edges label E -> k start E) ->
  transposition_stage p n edges k.
Proof.
  intros label edges k He Hk. pose proof W_n as Hn. pose proof W_d as Hd. split; [intros h Hlt; destruct (C38_never_aborts n N h (edges h) ltac:(lia)) as (s & a & E); now exists (s, a)|]. cbv beta.
  intros r Hr w Rw Sw.
  assert (Hs : forall h, h < N -> fst (r h) = h * d).
  { intros h Hlt. specialize (Hr h Hlt). unfold transpose, partition_len in Hr. rewrite udiv_ok in Hr by lia. cbn [bind] in Hr. destruct (assign_edges _ _ _); [|discriminate]. cbn [bind] in Hr. injection Hr as <-. cbn [fst]. unfold range_start. lia. }
  destruct (C38_edges_reach_their_owner n N edges (fun h => fst (r h)) (fun h => snd (r h)) w ltac:(lia)) as (A & B); auto; [intros h Hlt; rewrite (Hr h Hlt); now destruct (r h)|].
  pose proof (all_edges_of label edges He) as P0. apply Hk; [exact Hs|]. split.
  - intros h Hlt. destruct (A h Hlt) as (_ & P & S). split; [exact S|]. intros e. split.
    + intros Hi. apply (Permutation_in _ P), filter_In in Hi. destruct Hi as (Hi & Hp). split; [now apply (Permutation_in _ P0)|exact Hp].
    + intros (Hi & Hp). apply (Permutation_in _ (Permutation_sym P)), filter_In. split; [now apply (Permutation_in _ (Permutation_sym P0))|exact Hp].
  - etransitivity; [exact B|exact P0].
Qed.

(** After transposition the edges are distributed as scoring expects. *)
Local Notation l := (length (part (N - 1)) - 1).
Lemma W_last : 1 <= l /\ q <= l.
Proof. destruct W as (_ & _ & _ & _ & _ & _ & T1 & T2). lia. Qed.
Lemma walk_edge_bound : forall label e, In e (pairs (walk label (rate p) ts)) -> to_id e < (N - 1) * d + l.
Proof.
  intros label e He. apply edge_id_source in He. destruct He as (t & Ht & ->). destruct W as (Hc & _). pose proof (usable_from_bound n N part (rate p) t Hc Ht) as B. rewrite W_total in B. pose proof W_last. lia.
Qed.
Lemma transposed_distributed : forall label E, transposed_edges label E -> distributed N d l E.
Proof.
  intros label E (HE & _). split; [intros h Hlt; now apply HE|]. intros h e Hlt He. destruct (HE h Hlt) as (_ & P). apply P in He. destruct He as (He & Hp). apply walk_edge_bound in He. unfold in_part in Hp.
  apply andb_true_iff in Hp. destruct Hp as (H1 & H2). apply Nat.leb_le in H1. apply orb_true_iff in H2. rewrite Nat.ltb_lt, Nat.eqb_eq in H2.
  destruct (Nat.eqb_spec h (N - 1)) as [->|Nh]; [lia|]. destruct H2 as [H2|H2]; lia.
Qed.
(** An edge leads to every followed transition but the first. *)
Lemma edge_to : forall label t, In t ts -> d <= from_id t -> exists e, In e (pairs (walk label (rate p) ts)) /\ to_id e = from_id t.
Proof.
  intros label t Ht Hd. destruct W as (Hc & _ & _ & _ & _ & (t' & Ht' & Hb) & _). apply (reached_by_edge label (rate p) ts t t'); auto; [exact W_sorted|exact W_usable|lia].
Qed.

Lemma time_index : forall label start E, (forall h, h < N -> start h = h * d) -> transposed_edges label E ->
  forall h, h < N -> count_edges_in_time (start h) (E h) (length (part h)) (h =? N - 1) = Ok (snd (own_data N d l E h)).
Proof.
  intros label start E Hstart HE. pose proof (transposed_distributed label E HE) as (Da & Dr). destruct HE as (HE & PE). pose proof W_d as Hd. pose proof W_last as (Hl1 & Hl).
  assert (Hlen : forall h, h < N -> length (part h) - (if h =? N - 1 then 1 else 0) = if h =? N - 1 then l else d).
  { intros h Hlt. destruct (Nat.eqb_spec h (N - 1)) as [->|Nh]; [lia|]. destruct W as ((_ & _ & L) & _). rewrite L by lia. lia. }
  intros h Hlt. rewrite (Hstart h Hlt), C41_time_index.
    - unfold own_data. cbn [snd]. now rewrite Hlen.
    - now apply Da.
    - intros e He. rewrite Hlen by exact Hlt. now apply Dr.
    - intros El. apply Nat.eqb_eq in El. subst h. lia.
    - intros Hne. destruct (Nat.eq_dec h 0) as [->|Nh].
      + destruct (E 0) as [|e0 r0] eqn:E0; [contradiction|]. destruct (Nat.eq_dec (to_id e0) 0) as [Z|Z]; [|exists e0; split; [now left|exact Z]].
        destruct (HE 0 Hlt) as (_ & P). assert (He0 : In e0 (pairs (walk label (rate p) ts))) by (apply P; rewrite E0; now left).
        apply edge_id_source in He0. destruct He0 as (t0 & Ht0 & Et0). destruct W as (Hc & _ & _ & _ & _ & (t & Ht & Hb) & _).
        destruct (reached_by_edge label (rate p) ts t t0 W_sorted W_usable Ht0 Ht ltac:(lia)) as (e & He & Ee). exists e. split; [|lia]. rewrite <- E0. apply P. split; [exact He|].
        unfold in_part. apply andb_true_iff. split; [apply Nat.leb_le; lia|]. apply orb_true_iff. left. apply Nat.ltb_lt. lia.
      + destruct (E h) as [|e0 r0] eqn:E0; [contradiction|]. exists e0. split; [now left|]. assert (Hi : In e0 (E h)) by (rewrite E0; now left). apply (Dr h e0 Hlt) in Hi. nia.
Qed.
Lemma stage6 : forall label edges start E (k : _ -> Prop), (forall h, h < N -> edges h = edges_of label h) -> (forall h, h < N -> start h = h * d) -> transposed_edges label E ->
  (forall g, (forall h, h < N -> (g_edges (g h), g_index (g h)) = scoring_data N q d l E h /\ g_query (g h) = q /\ whole_graph (all_edges N E) (g h)) -> k g) ->
  weight_stage p part edges start E k.
Proof.
  intros label edges start E k Hed Hstart HE Hk. pose proof (transposed_distributed label E HE) as D. destruct HE as (HE & PE). pose proof W_d as Hd. pose proof W_last as (Hl1 & Hl). destruct D as (Da & Dr).
  pose proof (time_index label start E Hstart (conj HE PE)) as Hidx.
  split; [intros h Hlt; eexists; now apply Hidx|]. intros index Hix degrees weights Hdeg Hwt dw Rd Sd ww Rw Sw ow Ro So. cbv beta in Hix.
  assert (Hown : forall h, h < N -> (E h, index h) = own_data N d l E h) by (intros h Hlt; specialize (Hix h Hlt); rewrite (Hidx h Hlt) in Hix; injection Hix as <-; reflexivity).
  apply Hk. intros h Hlt. cbn [g_edges g_index g_query]. ssplit; [|reflexivity|].
  - destruct (overlap_from N q d l E _ ow ltac:(lia) Hq ltac:(lia) Hl (conj Da Dr) Hown Ro h Hlt) as (_ & A & B). rewrite <- (A (B So)). now rewrite <- surjective_pairing.
  - split; intros e He; cbn [g_weight g_degree].
    + rewrite (C39_cluster_weights N E weights ww ltac:(lia) Hwt Rw Sw h e Hlt). pose proof (multiplicity_positive _ e He). destruct (Nat.eqb_spec (multiplicity (all_edges N E) e) 0); [lia|reflexivity].
    + rewrite (C40_cluster_degrees N edges degrees dw ltac:(lia)); auto.
      * assert (PP : Permutation (all_edges N edges) (all_edges N E)) by (etransitivity; [apply (all_edges_of label edges Hed)|symmetry; exact PE]). rewrite (degree_perm _ _ (fst e) PP). pose proof (source_degree_positive _ e He). destruct (Nat.eqb_spec (degree (all_edges N E) (fst e)) 0); [lia|reflexivity].
      * intros i j a b Hi Hj Nij Ha Hb. rewrite Hed in Ha, Hb by assumption. unfold edges_of in Ha, Hb. apply filter_In in Ha. apply filter_In in Hb. destruct Ha as (_ & Ha). destruct Hb as (_ & Hb). apply Nat.eqb_eq in Ha. apply Nat.eqb_eq in Hb.
        destruct (same_edge a b) eqn:Es; [|reflexivity]. exfalso. apply Nij. rewrite <- Ha, <- Hb. apply same_edge_iff in Es. unfold edge_key, node_key in Es. injection Es. intros. congruence.
Qed.

Lemma first_window : forall label E, Permutation (all_edges N E) (pairs (walk label (rate p) ts)) -> cluster_window (all_edges N E) N d q 0 0 <> [].
Proof.
  intros label E PE H. destruct W as (_ & _ & _ & _ & B & _). destruct (B 0 ltac:(lia)) as (t & Ht & Et). destruct (edge_to label t Ht ltac:(lia)) as (e & He & Ee). symmetry in PE. apply (Permutation_in _ PE) in He.
  unfold cluster_window in H. apply app_eq_nil in H. destruct H as (_ & H). pose proof W_d as Hd.
  assert (Hi : In e (filter (fun e => (0 + q - 1 <? to_id e) && ((to_id e <=? S 0 * d + q - 1) || (S 0 =? N))) (all_edges N E))).
  { apply filter_In. split; [exact He|]. rewrite Ee, Et. apply andb_true_iff. split; [apply Nat.ltb_lt; lia|]. apply orb_true_iff. left. apply Nat.leb_le. lia. }
  destruct (filter (fun e => (0 + q - 1 <? to_id e) && ((to_id e <=? S 0 * d + q - 1) || (S 0 =? N))) (all_edges N E)); [destruct Hi|discriminate].
Qed.

Definition windows_of (edges : list edge) : list (list nat) := map (fun i => map (edge_term edges) (window_edges edges q i)) (seq 0 (length points - q)).
Lemma stage7 : forall label E g (k : _ -> Prop), distributed N d l E -> Permutation (all_edges N E) (pairs (walk label (rate p) ts)) ->
  (forall h, h < N -> (g_edges (g h), g_index (g h)) = scoring_data N q d l E h /\ g_query (g h) = q /\ whole_graph (all_edges N E) (g h)) ->
  (forall result, (forall h, h < N -> result h = normalize_score (carry score_value f_zero (windows_of (all_edges N E)))) -> k result) ->
  scoring_stage p g k.
Proof.
  intros label E g k D PE Hg Hk. pose proof W_d as Hd. pose proof W_last as (Hl1 & Hl). pose proof W as (_ & _ & _ & _ & B & _ & T1 & T2).
  set (z := fun x => f_eq x f_zero). assert (Hz : z f_zero = true) by reflexivity.
  assert (HV : forall h, h < N -> exists w0, start_scoring f_zero score_value (g h) (n_threads p) = Ok w0 /\ forall w, scoring_run z w0 w -> flying w = [] -> c_delivered (collecting w) = [part_vector score_value f_zero (host_windows N q d l E h)]).
  { intros h Hlt. destruct (Hg h Hlt) as (G1 & G2 & G3). destruct (C70_host_vector f32 f_zero z score_value N q d l E h (g h) (n_threads p) Hz ltac:(lia) Hq ltac:(lia) Hl D Hlt G1 G2 G3) as (w0 & E0 & R).
    - destruct (h =? N - 1); lia.
    - exists w0. split; [exact E0|]. intros w Rw Fw. now apply (R w Rw). }
  split; [intros h Hlt; destruct (HV h Hlt) as (w0 & E0 & _); now exists w0|]. intros w0 Ew0 w Hw. cbv beta in Ew0.
  assert (Hd' : forall h, h < N -> c_delivered (collecting (w h)) = [part_vector score_value f_zero (host_windows N q d l E h)]).
  { intros h Hlt. destruct (HV h Hlt) as (w' & E' & R). rewrite (Ew0 h Hlt) in E'. injection E' as <-. destruct (Hw h Hlt) as (Rw & Fw). now apply R. }
  split; [intros h Hlt; eexists; now apply Hd'|]. intros parts Hp rw Rr Sr.
  assert (Ep : forall h, h < N -> parts h = part_vector score_value f_zero (host_windows N q d l E h)) by (intros h Hlt; specialize (Hp h Hlt); cbv beta in Hp; rewrite (Hd' h Hlt) in Hp; now injection Hp).
  apply (rreachable_ext _ _ _ (fun h => part_vector score_value f_zero (host_windows N q d l E h))) in Rr; [|exact Ep]. apply (rstuck_ext _ _ _ (fun h => part_vector score_value f_zero (host_windows N q d l E h))) in Sr; [|exact Ep].
  - apply Hk. intros h Hlt. rewrite (Ep h Hlt). pose proof (C70_assembled f32 f_zero z score_value N q d l E rw h Hz ltac:(lia) Hq ltac:(lia) Hl D Hlt Rr Sr) as A. cbv zeta in A.
    pose proof (first_window label E PE) as Fw. destruct (cluster_window (all_edges N E) N d q 0 0) as [|e0 r0]; [contradiction|]. 
    destruct (in_order N _) as [l0|] eqn:Ei; [|discriminate]. cbn [bind] in A |- *. change (fun x : f32 => f_eq x f_zero) with z. rewrite A. cbn [bind]. f_equal. f_equal. unfold windows_of.
    rewrite (C70_same_as_one_machine_partial N q d l E ltac:(lia) Hq ltac:(lia) Hl D).
    + f_equal. f_equal. rewrite W_total. lia.
    + intros k' Hk'. destruct (B k' Hk') as (t & Ht & Et). destruct (edge_to label t Ht ltac:(nia)) as (e & He & Ee). exists e. split; [symmetry in PE; now apply (Permutation_in _ PE)|congruence].
Qed.
End Stages.

(** ** C83 *)
(** In every execution no host aborts, and every host ends with the same result: the normalized scores of all windows of one graph, which has the steps of the walk of the whole series as its edges,
    ordered by time - the scores of one machine (C81), but for the order of edges with the same time. *)
Theorem C83_cluster_partial : forall pos, 2 <= N <= rate p -> 1 <= q -> well_distributed -> crossings_computed_on cross p ts pos -> clusterings_computed_on cluster p crossed pos ->
  cluster_analysis cross cluster p n part (fun result => exists label edges, labelled_in_some_order cluster p crossed pos label /\
    Permutation edges (pairs (walk label (rate p) ts)) /\ ascending edges /\
    forall h, h < N -> result h = normalize_score (carry score_value f_zero (map (fun i => map (edge_term edges) (window_edges edges q i)) (seq 0 (length points - q))))).
Proof.
  intros pos HN Hq W Hx Hcl. apply (stage1 HN Hq W). intros qs held Hqs Hheld. apply (stage2 HN Hq W pos held); auto. intros crossings Hh Hc.
  apply (stage3 HN Hq W pos crossings qs); auto. intros label stores foreign Hlab Hst Hans. apply (stage4 HN Hq W label stores foreign); auto. intros edges He.
  apply (stage5 HN Hq W label edges); auto. intros start E Hs HE. apply (stage6 HN Hq W label edges start E); auto. intros g Hg.
  apply (stage7 HN Hq W label E g); auto; [now apply (transposed_distributed HN Hq W label)|apply HE|]. intros result Hr. exists label, (all_edges N E). ssplit; [exact Hlab|apply HE| |exact Hr].
  destruct (transposed_distributed HN Hq W label E HE) as (Da & Dr). pose proof (W_d HN Hq W) as Hd. pose proof (W_last HN Hq W) as (_ & Hl). apply (Verif.Scoring.ClusterProofs.G_asc N q d (length (part (N - 1)) - 1)); auto; lia.
Qed.

(** What every host ends with has one entry per window; all are numbers from 0 to 1, or, if all raw scores are equal, all are NaN. *)
Lemma edges_crossed : forall label edges, Permutation edges (pairs (walk label (rate p) ts)) -> length edges <= length crossed.
Proof.
  intros label edges P. rewrite (Permutation_length P), <- (map_length snd), pairs_snd_tl. unfold walk. pose proof (map_length (labelled label) crossed) as L. destruct (map (labelled label) crossed); cbn [tl length] in *; lia.
Qed.
Theorem C83_delivered : forall pos, 2 <= N <= rate p -> 1 <= q -> well_distributed -> crossings_computed_on cross p ts pos -> clusterings_computed_on cluster p crossed pos -> (Z.of_nat (length crossed) <= 2 ^ 24)%Z ->
  cluster_analysis cross cluster p n part (fun result => exists out, (forall h, h < N -> result h = Ok out) /\ length out = length points - q /\
    ((forall y, In y out -> f_finite y = true /\ (0 <= f_real y <= 1)%R) \/ (forall y, In y out -> y = B754_nan))).
Proof.
  intros pos HN Hq W Hx Hcl Hsz. eapply analysis_mono; [|exact (C83_cluster_partial pos HN Hq W Hx Hcl)]. intros result (label & edges & _ & P & _ & Hr).
  destruct (delivered_range edges q (length points - q)) as (out & E & Lo & R).
  - pose proof (edges_crossed label edges P). unfold edge in *. lia.
  - pose proof (W_total HN Hq W). destruct W as (_ & _ & _ & _ & _ & _ & T1 & T2). rewrite H. generalize ((N - 1) * d). clear -T1 T2. lia.
  - exists out. ssplit; auto. intros h Hlt. now rewrite (Hr h Hlt).
Qed.
Lemma label_unique : forall pos label label', 2 <= N <= rate p -> 1 <= q -> labelled_in_every_order cluster p crossed pos label -> labelled_in_some_order cluster p crossed pos label' -> walk label' (rate p) ts = walk label (rate p) ts.
Proof.
  intros pos label label' HN Hq Hcl Hl. unfold walk. apply map_ext_in. intros (i & s) Hc. assert (Hs : s < rate p) by (apply (W_crossed_bound HN Hq (i, s)); exact Hc). assert (Hi : In (i, s) (in_segment s crossed)) by (apply filter_In; split; [now apply -> in_rev|apply Nat.eqb_refl]).
      assert (Ei : label' i s = label i s); [|unfold labelled; cbn [fst snd]; now rewrite Ei]. destruct (Hl s Hs) as (H2 & H1). destruct (in_segment s crossed) as [|c [|c' l]] eqn:Es; [destruct Hi| |].
      - destruct Hi as [->|[]]. rewrite (H1 i eq_refl). symmetry. now apply (Hcl s [(i, s)] Hs); [rewrite Es|].
      - destruct H2 as (rows & Pr & E); [cbn; lia|]. destruct (Hcl s rows Hs) as (E' & _); [now rewrite Es|]. rewrite E' in E by (rewrite (Permutation_length Pr); cbn; lia). injection E as E.
        assert (Hin : In (i, s) rows) by (apply (Permutation_in _ (Permutation_sym Pr)); exact Hi). symmetry. clear -E Hin. induction rows as [|x l IH]; [destruct Hin|]. cbn [map] in E. injection E as E1 E2. destruct Hin as [->|Hin]; [exact E1|auto].
Qed.
(** If moreover every transition crosses into one segment only and the clustering decides by the position alone, the scores are those of one machine (C81): those of the steps of the walk in their order. *)
Theorem C83_as_one_machine_partial : forall pos label, 2 <= N <= rate p -> 1 <= q -> well_distributed -> crossings_computed_on cross p ts pos -> labelled_in_every_order cluster p crossed pos label -> NoDup (map fst crossed) ->
  cluster_analysis cross cluster p n part (fun result => let edges := pairs (walk label (rate p) ts) in
    forall h, h < N -> result h = normalize_score (carry score_value f_zero (map (fun i => map (edge_term edges) (window_edges edges q i)) (seq 0 (length points - q))))).
Proof.
  intros pos label HN Hq W Hx Hcl ND. eapply analysis_mono; [|apply (C83_cluster_partial pos HN Hq W Hx)].
  - intros result (label' & edges & Hl & P & A & Hr). cbv zeta.
    pose proof (label_unique pos label label' HN Hq Hcl Hl) as Ew.
    rewrite Ew in P. assert (Ee : edges = pairs (walk label (rate p) ts)); [|rewrite <- Ee; exact Hr]. apply (sorted_once _ to_id); [exact A|apply walk_ascending, (W_sorted W)| |exact P].
    rewrite edge_ids. destruct (map fst crossed); [constructor|]. now inversion ND.
  - intros s rows Hs Pr H2. destruct (Hcl s rows Hs Pr) as (E & _). eexists. split; [exact (E H2)|apply map_length].
Qed.

(** The clustering numbers its clusters in the order of the crossings it is given, and that order differs from run to run.  The scores do not: it is enough that the same crossings are put together. *)
Lemma grouped_partition : forall pos same label label', 2 <= N <= rate p -> 1 <= q -> grouped_in_every_order cluster p crossed pos same ->
  labelled_in_some_order cluster p crossed pos label -> labelled_in_some_order cluster p crossed pos label' -> same_partition crossed label label'.
Proof.
  intros pos same label label' HN Hq Hg Hl Hl' i j s Hi Hj. assert (Hs : s < rate p) by (apply (W_crossed_bound HN Hq (i, s)); exact Hi).
  assert (In_seg : forall k, In (k, s) crossed -> In (k, s) (in_segment s crossed)) by (intros k Hk; apply filter_In; split; [now apply -> in_rev|apply Nat.eqb_refl]).
  apply In_seg in Hi, Hj. destruct (le_lt_dec 2 (length (in_segment s crossed))) as [H2|H1].
  - assert (G : forall l, labelled_in_some_order cluster p crossed pos l -> (l i s = l j s <-> same (i, s) (j, s))).
    { intros l L. destruct (L s Hs) as (A & _). destruct (A H2) as (rows & Pr & E). destruct (Hg s rows Hs Pr) as (labels & E' & _ & R); [now rewrite (Permutation_length Pr)|]. rewrite E in E'. injection E' as <-.
      apply (Permutation_in _ (Permutation_sym Pr)) in Hi, Hj. apply In_nth_error in Hi, Hj. destruct Hi as (a & Ha). destruct Hj as (b & Hb).
      apply (R a b (i, s) (j, s)); auto; [exact (map_nth_error (fun c => l (fst c) s) a rows Ha)|exact (map_nth_error (fun c => l (fst c) s) b rows Hb)]. }
    now rewrite (G label Hl), (G label' Hl').
  - destruct (in_segment s crossed) as [|c [|c' l]]; [destruct Hi| |cbn in H1; lia]. destruct Hi as [->|[]]. destruct Hj as [E|[]]. injection E as <-. tauto.
Qed.
Theorem C83_grouped_as_one_machine_partial : forall pos same, 2 <= N <= rate p -> 1 <= q -> well_distributed -> crossings_computed_on cross p ts pos -> grouped_in_every_order cluster p crossed pos same -> NoDup (map fst crossed) ->
  forall label, labelled_in_some_order cluster p crossed pos label ->
  cluster_analysis cross cluster p n part (fun result => let edges := pairs (walk label (rate p) ts) in
    forall h, h < N -> result h = normalize_score (carry score_value f_zero (map (fun i => map (edge_term edges) (window_edges edges q i)) (seq 0 (length points - q))))).
Proof.
  intros pos same HN Hq W Hx Hg ND label Hlab. eapply analysis_mono; [|apply (C83_cluster_partial pos HN Hq W Hx)].
  - intros result (label' & edges & Hl & P & A & Hr). cbv zeta.
    assert (Ee : edges = pairs (walk label' (rate p) ts)).
    { apply (sorted_once _ to_id); [exact A|apply walk_ascending, (W_sorted W)| |exact P]. rewrite edge_ids. destruct (map fst crossed); [constructor|]. now inversion ND. }
    intros h Hh. rewrite (Hr h Hh), Ee. f_equal. f_equal. apply map_ext. intros i. unfold walk. rewrite !pairs_map. apply (renamed_windows label' label crossed (pairs crossed) q (grouped_partition pos same label' label HN Hq Hg Hl Hlab)).
    intros (a & b) Hst. cbn [fst snd]. now apply pairs_in.
  - intros s rows Hs Pr H2. destruct (Hg s rows Hs Pr H2) as (labels & E & L & _). eauto.
Qed.

(** There are such executions: nothing keeps the analysis from coming to its end. *)
Lemma others_of : forall h, other_hosts p h (filter (fun k => negb (k =? h)) (seq 0 N)).
Proof. intros h. split; [apply NoDup_filter, seq_NoDup|]. intros a. rewrite filter_In, in_seq, negb_true_iff, Nat.eqb_neq. lia. Qed.
Lemma received_itself : forall (w : world (@by_segment C)) h, received_as w h (map snd (processed (state w h))).
Proof. intros w h. unfold received_as. induction (processed (state w h)) as [|x l IH]; cbn [map]; constructor; auto. Qed.
(** The stages from the crossings to the edges, on any transitions and questions that the first stage may give. *)
Lemma from_transitions : forall pos k qs held, 2 <= N <= rate p -> 1 <= q -> well_distributed -> crossings_computed_on cross p ts pos -> clusterings_computed_on cluster p crossed pos ->
  questions_cover p crossed qs -> (forall h, h < N -> Permutation (held h) (filter (fun t => owner p (pseg (fst t)) =? h) ts)) ->
  crossing_stage cross p held (fun crossings => node_stage cluster p crossings qs (fun stores foreign => edge_stage p n stores foreign k)) ->
  exists label edges, labelled_in_some_order cluster p crossed pos label /\ (forall h, h < N -> edges h = edges_of label h) /\ k edges.
Proof.
  intros pos k qs held HN Hq W Hx Hcl Hqs Hheld H. assert (H1N : 1 <= N) by lia.
  (* crossings *)
  pose proof (stage2 HN Hq W pos held (fun crossings => (forall h, h < N -> holds_crossings p h crossed (crossings h)) /\ forall h c, h < N -> In c (crossings h) -> c_coordinates c = pos (c_id c, c_segment c)) Hx Hheld (fun _ A B => conj A B)) as H2.
  specialize (H _ (fun h _ => others_of h)). specialize (H2 _ (fun h _ => others_of h)). pose proof (each_gives_and _ _ _ _ _ H2 H) as H3. apply each_gives_some in H3; [|exact H1N]. destruct H3 as (r & _ & H3 & H4). clear H H2.
  destruct (exchange_completes _ (crossing_exchange p (fun h => snd (r h)))) as (w & Rw & Sw). specialize (H3 w Rw Sw _ (fun h _ => received_itself w h)). specialize (H4 w Rw Sw _ (fun h _ => received_itself w h)).
  pose proof (each_gives_and _ _ _ _ _ H3 H4) as H5. apply each_gives_some in H5; [|exact H1N]. destruct H5 as (crossings & _ & (Hh & Hc) & H). clear H3 H4.
  (* nodes *)
  pose proof (stage3 HN Hq W pos crossings qs (fun stores foreign => exists label, labelled_in_some_order cluster p crossed pos label /\ (forall h, h < N -> stored_by_segment p h (walk label (rate p) ts) (stores h)) /\ forall h, h < N -> answers_complete p h (walk label (rate p) ts) (foreign h))
    Hcl Hqs Hh Hc (fun label stores foreign L A B => ex_intro _ label (conj L (conj A B)))) as H2.
  pose proof (each_gives_and _ _ _ _ _ H2 H) as H3. apply each_gives_some in H3; [|exact H1N]. destruct H3 as (stores & _ & H3 & H4). clear H H2.
  specialize (H3 _ (fun _ => seq 0 N) (fun _ => seq 0 N) (fun h _ => others_of h) (fun h _ => Permutation_refl _) (fun h _ => Permutation_refl _)).
  specialize (H4 _ (fun _ => seq 0 N) (fun _ => seq 0 N) (fun h _ => others_of h) (fun h _ => Permutation_refl _) (fun h _ => Permutation_refl _)).
  pose proof (each_gives_and _ _ _ _ _ H3 H4) as H5. apply each_gives_some in H5; [|exact H1N]. destruct H5 as (answers & _ & (label & Hlab & Hst & Hans) & H). clear H3 H4.
  (* edges *)
  match type of H with edge_stage _ _ _ ?f _ => pose proof (stage4 HN Hq W label stores f (fun edges => forall h, h < N -> edges h = edges_of label h) Hst Hans (fun _ A => A)) as H2 end.
  pose proof (each_gives_and _ _ _ _ _ H2 H) as H3. apply each_gives_some in H3; [|exact H1N]. destruct H3 as (edges & _ & He & H'). clear H H2. rename H' into H.
  exists label, edges. now ssplit.
Qed.
Lemma before_transposition : forall pos k, 2 <= N <= rate p -> 1 <= q -> well_distributed -> crossings_computed_on cross p ts pos -> clusterings_computed_on cluster p crossed pos ->
  cluster_analysis cross cluster p n part k -> exists label edges, labelled_in_some_order cluster p crossed pos label /\ (forall h, h < N -> edges h = edges_of label h) /\
    transposition_stage p n edges (fun start E => weight_stage p part edges start E (fun g => scoring_stage p g k)).
Proof.
  intros pos k HN Hq W Hx Hcl H. destruct (handover_completes p part) as (hw & Rh & Sh). destruct (exchange_completes _ (transition_exchange p hw)) as (x & Rx & Sx).
  pose proof (stage1 HN Hq W (fun qs held => questions_cover p crossed qs /\ forall h, h < N -> Permutation (held h) (filter (fun t => owner p (pseg (fst t)) =? h) ts)) (fun _ _ A B => conj A B) hw Rh Sh) as (_ & HS). destruct (HS x Rx Sx) as (Hqs & Hheld).
  exact (from_transitions pos _ _ _ HN Hq W Hx Hcl Hqs Hheld (proj2 (H hw Rh Sh) x Rx Sx)).
Qed.
Lemma after_transposition : forall label edges start E k, 2 <= N <= rate p -> 1 <= q -> well_distributed -> (forall h, h < N -> edges h = edges_of label h) -> (forall h, h < N -> start h = h * d) -> transposed_edges label E ->
  weight_stage p part edges start E (fun g => scoring_stage p g k) -> 
  exists result, k result /\ forall h, h < N -> result h = normalize_score (carry score_value f_zero (windows_of (all_edges N E))).
Proof.
  intros label edges start E k HN Hq W He Hstart HE H4. assert (H1N : 1 <= N) by lia.
  pose proof (transposed_distributed HN Hq W label E HE) as D. pose proof (W_d HN Hq W) as Hd. pose proof (W_last HN Hq W) as (Hl1 & Hl).
  (* weights *)
  pose proof (stage6 HN Hq W label edges start E (fun g => forall h, h < N -> (g_edges (g h), g_index (g h)) = scoring_data N q d (length (part (N - 1)) - 1) E h /\ g_query (g h) = q /\ whole_graph (all_edges N E) (g h)) He Hstart HE (fun _ A => A)) as H2.
  pose proof (each_gives_and _ _ _ _ _ H2 H4) as H3. apply each_gives_some in H3; [|exact H1N]. destruct H3 as (index & Hix & H5 & H6). clear H2 H4.
  destruct (ring_completes _ N (fun h => node_degrees (edges h)) ltac:(lia)) as (dw & Rd & Sd). destruct (ring_completes _ N (fun h => edge_weight (E h)) ltac:(lia)) as (ww & Rww & Sww).
  assert (Hown : forall h, h < N -> (E h, index h) = own_data N d (length (part (N - 1)) - 1) E h).
  { intros h Hlt. pose proof (time_index HN Hq W label start E Hstart HE h Hlt) as X. specialize (Hix h Hlt). cbv beta in Hix. rewrite X in Hix. injection Hix as <-. reflexivity. }
  destruct (overlap_completes N q d (length (part (N - 1)) - 1) E (fun h => (E h, index h)) ltac:(lia) Hq ltac:(lia) Hl D Hown) as (ow & Ro & So).
  specialize (H5 _ _ (fun h _ => Permutation_refl _) (fun h _ => Permutation_refl _) dw Rd Sd ww Rww Sww ow Ro So). specialize (H6 _ _ (fun h _ => Permutation_refl _) (fun h _ => Permutation_refl _) dw Rd Sd ww Rww Sww ow Ro So).
  cbv beta in H5, H6. match type of H6 with scoring_stage _ ?f _ => set (g := f) in * end.
  (* scoring *)
  pose proof W as (_ & _ & _ & _ & _ & _ & T1 & T2).
  pose proof (stage7 HN Hq W label E g (fun result => forall h, h < N -> result h = normalize_score (carry score_value f_zero (windows_of (all_edges N E)))) D (proj2 HE) H5 (fun _ A => A)) as H9.
  pose proof (each_gives_and _ _ _ _ _ H6 H9) as H6'. apply each_gives_some in H6'; [|exact H1N]. destruct H6' as (w0 & Ew0 & H7 & H7'). cbv beta in Ew0.
  assert (Hrun : forall h, h < N -> exists w, scoring_run (fun x => f_eq x f_zero) (w0 h) w /\ flying w = []).
  { intros h Hlt. destruct (H5 h Hlt) as (G1 & G2 & G3). destruct (C70_host_vector f32 f_zero (fun x => f_eq x f_zero) score_value N q d (length (part (N - 1)) - 1) E h (g h) (n_threads p) eq_refl ltac:(lia) Hq ltac:(lia) Hl D Hlt G1 G2 G3) as (w1 & E1 & R).
    - destruct (h =? N - 1); lia.
    - pose proof (Ew0 h Hlt) as E2. rewrite E1 in E2. injection E2 as <-. apply scoring_completes. intros w1' Rw1. now apply R. }
  apply choose in Hrun; [|exact H1N]. destruct Hrun as (sw & Hsw). specialize (H7 sw Hsw). specialize (H7' sw Hsw). pose proof (each_gives_and _ _ _ _ _ H7 H7') as H8. apply each_gives_some in H8; [|exact H1N]. destruct H8 as (parts & _ & H8 & H8').
  destruct (ring_completes _ N parts ltac:(lia)) as (rw & Rr & Sr). eexists. split; [exact (H8 rw Rr Sr)|exact (H8' rw Rr Sr)].
Qed.

Lemma from_edges : forall label edges k, 2 <= N <= rate p -> 1 <= q -> well_distributed -> (forall h, h < N -> edges h = edges_of label h) ->
  transposition_stage p n edges (fun start E => weight_stage p part edges start E (fun g => scoring_stage p g k)) -> exists result, k result.
Proof.
  intros label edges k HN Hq W He H'. assert (H1N : 1 <= N) by lia.
  pose proof (stage5 HN Hq W label edges (fun start E => (forall h, h < N -> start h = h * d) /\ transposed_edges label E) He (fun _ _ A B => conj A B)) as H2.
  pose proof (each_gives_and _ _ _ _ _ H2 H') as H3. apply each_gives_some in H3; [|exact H1N]. destruct H3 as (r' & _ & H3 & H4).
  destruct (exchange_completes _ (edge_exchange N (fun h => snd (r' h)))) as (w' & Rw' & Sw'). destruct (H3 w' Rw' Sw') as (Hstart & HE).
  destruct (after_transposition label edges _ _ k HN Hq W He Hstart HE (H4 w' Rw' Sw')) as (result & K & _). now exists result.
Qed.

Theorem C83_some_execution : forall pos k, 2 <= N <= rate p -> 1 <= q -> well_distributed -> crossings_computed_on cross p ts pos -> clusterings_computed_on cluster p crossed pos ->
  cluster_analysis cross cluster p n part k -> exists result, k result.
Proof.
  intros pos k HN Hq W Hx Hcl H. destruct (before_transposition pos k HN Hq W Hx Hcl H) as (label & edges & _ & He & H'). exact (from_edges label edges k HN Hq W He H').
Qed.
End OnACluster.

(** Two hosts of 7 and 6 points, rate 6, query length 2, 2 threads; a crossing is labelled by the parity of its point. *)
Definition c83_params : params := {| rate := 6; n_threads := 2; n_cluster_nodes := 2; pattern_length := 2; latent := 1; query_length := 2; column_start := 0; column_end := 0%Z; self_correction := false |}.
Definition c83_part (k : nat) : list pt := match k with
  | 0 => map (fun x => {| pid := fst x; pseg := snd x |}) [(0, 0); (1, 1); (2, 2); (3, 3); (4, 3); (5, 4); (6, 5)]
  | _ => map (fun x => {| pid := fst x; pseg := snd x |}) [(7, 0); (8, 1); (9, 2); (10, 2); (11, 3); (12, 4)] end.
Definition c83_cross (held : list transition) (t : transition) (s : nat) : res (nat * nat) := Ok (from_id t, s).
Definition c83_cluster (rows : list (nat * nat)) : res (list nat) := Ok (map (fun c => fst c mod 2) rows).
Definition c83_label (i s : nat) : nat := match in_segment s (path 6 (usable_pairs 6 (whole_series 2 c83_part))) with _ :: _ :: _ => i mod 2 | _ => 0 end.
Example C83_case : let p := c83_params in let ts := usable_pairs (rate p) (whole_series 2 c83_part) in let crossed := path (rate p) ts in
  well_distributed p 14 c83_part /\ crossings_computed_on c83_cross p ts (fun c => c) /\ clusterings_computed_on c83_cluster p crossed (fun c => c) /\
  labelled_in_every_order c83_cluster p crossed (fun c => c) c83_label /\ NoDup (map fst crossed) /\
  crossed = [(0, 1); (1, 2); (2, 3); (4, 4); (5, 5); (6, 0); (7, 1); (8, 2); (10, 3); (11, 4)] /\
  let edges := pairs (walk c83_label 6 ts) in map (fun i => map (edge_term edges) (window_edges edges 2 i)) (seq 0 11) = [[0; 1]; [1; 3]; [3]; [3; 1]; [1; 1]; [1; 1]; [1; 1]; [1; 1]; [1]; [1; 3]; [3]].
Proof.
  cbv zeta. ssplit.
  - unfold well_distributed. ssplit.
    + split; [reflexivity|]. split; [vm_compute; lia|]. intros k Hk. change (S k < 2) in Hk. now replace k with 0 by lia.
    + intros x Hx. vm_compute in Hx. repeat (destruct Hx as [<-|Hx]; [vm_compute; lia|]). destruct Hx.
    + intros k Hk. change (k < 2) in Hk. destruct k as [|[|k]]; [vm_compute; discriminate|vm_compute; discriminate|lia].
    + intros k Hk a t Ea Et. change (k + 1 < 2) in Hk. replace k with 0 in * by lia. cbn in Ea. injection Ea as <-. vm_compute in Et. injection Et as <-. left. vm_compute. reflexivity.
    + intros k Hk. change (S k < 2) in Hk. replace k with 0 by lia. exists ({| pid := 8; pseg := 1 |}, {| pid := 9; pseg := 2 |}). split; [vm_compute; tauto|reflexivity].
    + exists ({| pid := 1; pseg := 1 |}, {| pid := 2; pseg := 2 |}). split; [vm_compute; tauto|vm_compute; lia].
    + vm_compute. lia.
    + vm_compute. lia.
    + vm_compute. lia.
  - intros h held t c Hh P Ht Hc. unfold c83_cross. apply visits_ids in Hc. rewrite <- Hc. now destruct c.
  - intros s rows Hs P H2. eexists. split; [reflexivity|]. now rewrite !map_length.
  - intros s rows Hs P. unfold c83_label. change (whole_series (n_cluster_nodes c83_params) c83_part) with (whole_series 2 c83_part). split.
    + intros H2. rewrite map_id. unfold c83_cluster. f_equal. pose proof (Permutation_length P) as L. change (rate c83_params) with 6 in *. destruct (in_segment s _) as [|c [|c' l]]; cbn [length] in L; [lia|lia|reflexivity].
    + intros i ->. apply Permutation_length in P. change (rate c83_params) with 6 in *. destruct (in_segment s _) as [|c [|c' l]]; [reflexivity|reflexivity|discriminate].
  - vm_compute. repeat (constructor; [intros H; repeat (destruct H as [H|H]; [discriminate|]); destruct H|]). constructor.
  - vm_compute. reflexivity.
  - vm_compute. reflexivity.
Qed.

(** A clustering that numbers by appearance: there is no label of a crossing that holds in every order, but the same crossings are put together. *)
Definition c83n_cluster (rows : list (nat * nat)) : res (list nat) := Ok (map (fun c => if fst c mod 2 =? fst (hd (0, 0) rows) mod 2 then 0 else 1) rows).
Definition c83n_label (i s : nat) : nat := if i mod 2 =? fst (hd (0, 0) (in_segment s (path 6 (usable_pairs 6 (whole_series 2 c83_part))))) mod 2 then 0 else 1.
Example C83_grouped_case : let p := c83_params in let crossed := path (rate p) (usable_pairs (rate p) (whole_series 2 c83_part)) in
  grouped_in_every_order c83n_cluster p crossed (fun c => c) (fun c c' => fst c mod 2 = fst c' mod 2) /\ labelled_in_some_order c83n_cluster p crossed (fun c => c) c83n_label /\
  ~ exists label, labelled_in_every_order c83n_cluster p crossed (fun c => c) label.
Proof.
  cbv zeta. ssplit.
  - intros s rows Hs P H2. eexists. split; [reflexivity|]. rewrite map_id, map_length. split; [reflexivity|]. intros a b c c' l l' Ha Hb Hl Hl'. rewrite nth_error_map, Ha in Hl. rewrite nth_error_map, Hb in Hl'. change (Some (if fst c mod 2 =? fst (hd (0, 0) rows) mod 2 then 0 else 1) = Some l) in Hl. change (Some (if fst c' mod 2 =? fst (hd (0, 0) rows) mod 2 then 0 else 1) = Some l') in Hl'.
    revert Hl Hl'.
    pose proof (Nat.mod_upper_bound (fst c) 2 ltac:(lia)). pose proof (Nat.mod_upper_bound (fst c') 2 ltac:(lia)). pose proof (Nat.mod_upper_bound (fst (hd (0, 0) rows)) 2 ltac:(lia)).
    revert H H0 H1. generalize (fst c mod 2) (fst c' mod 2) (fst (hd (0, 0) rows) mod 2). clear. intros x y z Hx Hy Hz Hl Hl'. injection Hl as <-. injection Hl' as <-. destruct (Nat.eqb_spec x z), (Nat.eqb_spec y z); split; intros; lia.
  - intros s Hs. split.
    + intros _. eexists. split; [apply Permutation_refl|]. rewrite map_id. reflexivity.
    + intros i E. unfold c83n_label. change (rate c83_params) with 6 in E. rewrite E. cbn [hd fst]. now rewrite Nat.eqb_refl.
  - intros (label & H). assert (Hs : 1 < rate c83_params) by (vm_compute; lia). destruct (H 1 [(7, 1); (0, 1)] Hs) as (A & _); [vm_compute; apply Permutation_refl|]. destruct (H 1 [(0, 1); (7, 1)] Hs) as (B & _); [vm_compute; apply perm_swap|].
    specialize (A ltac:(cbn; lia)). specialize (B ltac:(cbn; lia)). vm_compute in A, B. injection A as A1 A2. injection B as B1 B2. congruence.
Qed.

(** The scores depend on the order in which messages arrive: three hosts, one series, two executions, different scores. *)
Definition c83t_params : params := {| rate := 6; n_threads := 1; n_cluster_nodes := 3; pattern_length := 2; latent := 1; query_length := 1; column_start := 0; column_end := 0%Z; self_correction := false |}.
Definition c83t_part (k : nat) : list pt := map (fun x => {| pid := fst x; pseg := snd x |}) match k with
  | 0 => [(0, 0); (1, 1); (2, 1); (3, 1)] | 1 => [(4, 2); (5, 3); (6, 3); (7, 3)] | _ => [(8, 4); (9, 5); (10, 0); (11, 3); (12, 3)] end.
Definition c83t_cluster (rows : list (nat * nat)) : res (list nat) := Ok (map (fun _ => 0) rows).
Theorem C83_arrival_order_refuted : exists C (cross : list transition -> transition -> nat -> res C) cluster p n part pos,
  let ts := usable_pairs (rate p) (whole_series (n_cluster_nodes p) part) in let crossed := path (rate p) ts in
  2 <= n_cluster_nodes p <= rate p /\ 1 <= query_length p /\ well_distributed p n part /\ crossings_computed_on cross p ts pos /\ labelled_in_every_order cluster p crossed pos (fun _ _ => 0) /\
  ~ exists v, cluster_analysis cross cluster p n part (fun result => result 0 = v).
Proof.
  exists (nat * nat)%type, c83_cross, c83t_cluster, c83t_params, 14, c83t_part, (fun c => c). cbv zeta. set (p := c83t_params).
  assert (HN : 2 <= n_cluster_nodes p <= rate p) by (vm_compute; lia). assert (Hq : 1 <= query_length p) by (vm_compute; lia).
  assert (W : well_distributed p 14 c83t_part).
  { unfold well_distributed. ssplit.
    + split; [reflexivity|]. split; [vm_compute; lia|]. intros k Hk. change (S k < 3) in Hk. destruct k as [|[|k]]; [reflexivity|reflexivity|lia].
    + intros x Hx. vm_compute in Hx. repeat (destruct Hx as [<-|Hx]; [vm_compute; lia|]). destruct Hx.
    + intros k Hk. change (k < 3) in Hk. destruct k as [|[|[|k]]]; [vm_compute; discriminate|vm_compute; discriminate|vm_compute; discriminate|lia].
    + intros k Hk a t Ea Et. change (k + 1 < 3) in Hk. destruct k as [|[|k]]; [| |lia]; cbn in Ea; injection Ea as <-; vm_compute in Et; injection Et as <-; left; vm_compute; reflexivity.
    + intros k Hk. change (S k < 3) in Hk. destruct k as [|[|k]]; [| |lia].
      * exists ({| pid := 4; pseg := 2 |}, {| pid := 5; pseg := 3 |}). split; [vm_compute; tauto|reflexivity].
      * exists ({| pid := 8; pseg := 4 |}, {| pid := 9; pseg := 5 |}). split; [vm_compute; tauto|reflexivity].
    + exists ({| pid := 3; pseg := 1 |}, {| pid := 4; pseg := 2 |}). split; [vm_compute; tauto|vm_compute; lia].
    + vm_compute. lia.
    + vm_compute. lia.
    + vm_compute. lia. }
  assert (Hx : crossings_computed_on c83_cross p (usable_pairs (rate p) (whole_series (n_cluster_nodes p) c83t_part)) (fun c => c)).
  { intros h held t c Hh P Ht Hc. unfold c83_cross. apply visits_ids in Hc. rewrite <- Hc. now destruct c. }
  assert (Hl : labelled_in_every_order c83t_cluster p (path (rate p) (usable_pairs (rate p) (whole_series (n_cluster_nodes p) c83t_part))) (fun c => c) (fun _ _ => 0)).
  { intros s rows Hs P. split; [|reflexivity]. intros _. unfold c83t_cluster. now rewrite map_map. }
  ssplit; auto; try apply HN. intros (v & H).
  assert (Hcl : clusterings_computed_on c83t_cluster p (path (rate p) (usable_pairs (rate p) (whole_series (n_cluster_nodes p) c83t_part))) (fun c => c)).
  { intros s rows Hs P H2. eexists. split; [reflexivity|]. now rewrite !map_length. }
  destruct (before_transposition c83_cross c83t_cluster p 14 c83t_part (fun c => c) _ HN Hq W Hx Hcl H) as (label & edges & Hlab & He & H').
  pose proof (label_unique c83_cross c83t_cluster p c83t_part (fun c => c) _ label HN Hq Hl Hlab) as Ew.
  set (es := fun h => filter (fun e => owner p (n_segment (fst e)) =? h) (pairs (walk (fun _ _ => 0) 6 (usable_pairs 6 (whole_series 3 c83t_part))))).
  assert (He' : forall h, h < 3 -> edges h = es h). { intros h Hh. rewrite (He h Hh). unfold edges_of. rewrite Ew. reflexivity. }
  set (a := fun h => match transpose 14 3 h (es h) with Ok r => snd r | Panic _ => [] end).
  assert (Hr : forall h, h < n_cluster_nodes p -> transpose 14 (n_cluster_nodes p) h (edges h) = Ok (h * 4, a h)).
  { intros h Hh. change (n_cluster_nodes p) with 3 in *. rewrite He' by exact Hh. destruct h as [|[|[|h]]]; [reflexivity|reflexivity|reflexivity|lia]. }
  pose proof (stage5 p 14 c83t_part HN Hq W label edges (fun start E => (forall h, h < n_cluster_nodes p -> start h = h * (14 / n_cluster_nodes p)) /\ transposed_edges p 14 c83t_part label E) He (fun _ _ A B => conj A B)) as H2.
  destruct H2 as (_ & H2). destruct H' as (_ & H'). specialize (H2 _ Hr). specialize (H' _ Hr).
  assert (G : forall events, stuck (edge_exchange 3 a) (run (edge_exchange 3 a) events) ->
    v = normalize_score (carry score_value f_zero (windows_of p c83t_part (all_edges 3 (fun h => transposed h (a h) (state (run (edge_exchange 3 a) events) h)))))).
  { intros events St. pose proof (run_reachable _ (edge_exchange 3 a) events) as R. destruct (H2 _ R St) as (Hs & HE). destruct (after_transposition c83_cross p 14 c83t_part label edges _ _ _ HN Hq W He Hs HE (H' _ R St)) as (result & K & Rs). rewrite <- K. apply Rs. vm_compute. lia. }
  pose proof (G [Enter 0; Enter 1; Enter 2; Deliver 0; Deliver 0; Deliver 0; Deliver 0; Deliver 0; Deliver 0]) as G1.
  pose proof (G [Enter 0; Enter 1; Enter 2; Deliver 3; Deliver 0; Deliver 0; Deliver 0; Deliver 0; Deliver 0]) as G2.
  assert (St1 : stuck (edge_exchange 3 a) (run (edge_exchange 3 a) [Enter 0; Enter 1; Enter 2; Deliver 0; Deliver 0; Deliver 0; Deliver 0; Deliver 0; Deliver 0])).
  { apply run_stuck; [reflexivity|]. intros k Hk. destruct k as [|[|[|k]]]; [reflexivity|reflexivity|reflexivity|cbn in Hk; lia]. }
  assert (St2 : stuck (edge_exchange 3 a) (run (edge_exchange 3 a) [Enter 0; Enter 1; Enter 2; Deliver 3; Deliver 0; Deliver 0; Deliver 0; Deliver 0; Deliver 0])).
  { apply run_stuck; [reflexivity|]. intros k Hk. destruct k as [|[|[|k]]]; [reflexivity|reflexivity|reflexivity|cbn in Hk; lia]. }
  specialize (G1 St1). specialize (G2 St2). rewrite G1 in G2. clear -G2. apply (f_equal (fun r => let! x := r in Ok (map (@B2SF 24 128) x))) in G2. vm_compute in G2. discriminate.
Qed.

Print Assumptions C83_cluster_partial.
Print Assumptions C83_some_execution.
Print Assumptions C83_delivered.
Print Assumptions C83_as_one_machine_partial.
Print Assumptions C83_grouped_as_one_machine_partial.
Print Assumptions C83_arrival_order_refuted.
