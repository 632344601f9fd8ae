(** C97: from the joining of the hosts to the score files. *)
From Verif.Pca Require Import Model Spec.
From Coq Require Import Ascii List Arith ZArith Bool Lia Permutation Reals.
From Verif.Base Require Import Res Params ListX Assoc Float32.
From Verif.Topology Require Import Model Spec.
From Verif.Stats Require Import Spec.
From Verif.Reader Require Import Spec.
From Verif.Manager Require Import Collect CollectSpec CollectMain ArrayProofs.
From Verif.Pca Require Import GramSpec Components ComponentsSpec.
From Verif.Transition Require Import Spec.
From Verif.Segmentation Require Import Model Spec PathProofs.
From Verif.Geometry Require Import Model Spec Crossing.
From Verif.Front Require Import Model Spec.
From Verif.Nodes Require Import Spec.
From Verif.Intersections Require Import Real RealSpec.
From Verif.Kde Require Import Real RealSpec.
From Verif.Scoring Require Import Model Spec.
From Verif.Correction Require Import Model Spec.
From Verif.Pipeline Require Import Model Spec Cluster ClusterSpec Correcting.
From Verif.Properties Require Import Segmentation Correction Scoring Geometry Front Crossings Pipeline ClusterPipeline Analysis Correcting.
From Verif.Analysis Require Import Model Spec Case Correcting CorrectingCase.
From Verif.Pipeline Require Import ClusterProofs.
From Verif.Listener Require Model Spec Proofs.
From Verif.Output Require Model Proofs.
From Verif.Properties Require Import Listener FromFile.
From Verif.Properties Require Output.
Import ListNotations.
Local Open Scope nat_scope.

Import Listener.Model Listener.Spec.

(** The place of a host in a list of hosts. *)
Fixpoint place {addr} (eqb : addr -> addr -> bool) (a : addr) (l : list addr) : nat :=
  match l with [] => 0 | b :: r => if eqb a b then 0 else S (place eqb a r) end.
(** A table of addresses, with every address replaced by the place of its host in the agreed list. *)
Definition by_place {addr} (eqb : addr -> addr -> bool) (l : list addr) (t : list (nat * addr)) : list (nat * nat) := map (fun x => (fst x, place eqb (snd x) l)) t.

(** The hosts [main] and [others] have found each other: every host was told of every other once, in any order, and the sub hosts got the list [l] that the main host sent at any time in between;
    the host at place [k] of [l] has started its training with the table [t k]. *)
Definition met {addr} (eqb : addr -> addr -> bool) (p : params) (main : addr) (others l : list addr) (t : nat -> list (nat * addr)) : Prop :=
  (exists es s outs, Permutation es (map NewMember others) /\ run eqb p Main main init es s outs
     /\ In (StartTraining (t 0)) (concat outs) /\ forall a, In a others -> In (SendSorted a l) (concat outs))
  /\ forall k self, nth_error l k = Some self -> self <> main ->
       exists es s outs, Permutation es (map NewMember (filter (fun a => negb (eqb self a)) (main :: others)) ++ [SortedMembers l])
         /\ run eqb p (Sub main) self init es s outs /\ In (StartTraining (t k)) (concat outs).

Lemma place_nth : forall addr (eqb : addr -> addr -> bool), (forall a b, reflect (a = b) (eqb a b)) -> forall (l : list addr) j a,
  NoDup l -> nth_error l j = Some a -> place eqb a l = j.
Proof.
  intros addr eqb Heq l. induction l as [|b l IH]; intros j a ND E; [destruct j; discriminate|]. inversion ND as [|x y Hni ND']; subst. cbn. destruct (Heq a b) as [->|Hne].
  - destruct j as [|j]; [reflexivity|]. exfalso. apply Hni. cbn in E. eapply nth_error_In; eassumption.
  - destruct j as [|j]; [cbn in E; congruence|]. f_equal. apply IH; auto.
Qed.

Lemma numbered_introduced : forall addr (eqb : addr -> addr -> bool), (forall a b, reflect (a = b) (eqb a b)) -> forall (l : list addr) self k t,
  NoDup l -> nth_error l k = Some self -> numbered_by self l t ->
  all_but k (length l) (map fst (by_place eqb l t)) /\ forall j a, In (j, a) (by_place eqb l t) -> a = j.
Proof.
  intros addr eqb Heq l self k t ND Hk (Hnd & Hin).
  assert (Em : map fst (by_place eqb l t) = keys t) by (unfold by_place, keys; rewrite map_map; reflexivity).
  split.
  - rewrite Em. split; [apply nth_error_Some; congruence|]. split; [exact Hnd|]. intros j. unfold keys. rewrite in_map_iff. split.
    + intros ((j' & a) & E & Hi). cbn in E. subst j'. apply Hin in Hi. destruct Hi as (Ej & Hne). split; [apply nth_error_Some; congruence|]. intros ->. congruence.
    + intros (Hj & Hne). destruct (nth_error l j) as [a|] eqn:Ea; [|apply nth_error_None in Ea; lia]. exists (j, a). split; [reflexivity|]. apply Hin. split; [exact Ea|].
      intros ->. apply Hne. rewrite NoDup_nth_error in ND. apply ND; [exact Hj|congruence].
  - intros j a Hi. unfold by_place in Hi. apply in_map_iff in Hi. destruct Hi as ((j' & b) & E & Hi). cbn in E. injection E as <- <-. apply Hin in Hi. destruct Hi as (Ej & _).
    eapply place_nth; eassumption.
Qed.

(** However the hosts find each other, the tables with which they start number every host by its place in one list of all hosts, the main host first: what the later stages are about. *)
Theorem C97_hosts_are_introduced : forall addr (eqb : addr -> addr -> bool), (forall a b, reflect (a = b) (eqb a b)) -> forall p main others l t,
  n_cluster_nodes p = length (main :: others) -> 2 <= n_cluster_nodes p -> NoDup (main :: others) -> met eqb p main others l t ->
  Permutation l (main :: others) /\ nth_error l 0 = Some main /\ introduced (n_cluster_nodes p) (fun k => by_place eqb l (t k)).
Proof.
  intros addr eqb Heq p main others l t HN H2 ND ((es & s & outs & Pes & Hrun & Hst & Hse) & Hsub).
  destruct (C04_cluster_agreement addr eqb Heq p main others es s outs HN H2 ND Pes Hrun) as (l' & Pl & (t0 & pre & Eo & Epre & Nb & _) & Htl & Hs).
  assert (Ec : concat outs = map (fun a => SendSorted a l') (tl l') ++ [StartTraining t0]) by (rewrite Eo, concat_app, Epre; cbn; now rewrite app_nil_r).
  rewrite Ec in Hst, Hse.
  assert (E0 : t 0 = t0). { apply in_app_iff in Hst. destruct Hst as [Hi|[E|[]]]; [apply in_map_iff in Hi; destruct Hi as (a & E & _); discriminate|now injection E]. }
  assert (El : l = l').
  { destruct others as [|a others]; [cbn in HN; lia|]. specialize (Hse a (or_introl eq_refl)). apply in_app_iff in Hse. destruct Hse as [Hi|[E|[]]]; [|discriminate].
    apply in_map_iff in Hi. destruct Hi as (b & E & _). now injection E. }
  subst l' t0. assert (NDl : NoDup l) by (eapply Permutation_NoDup; [symmetry; exact Pl|exact ND]).
  assert (Hlen : length l = n_cluster_nodes p) by (rewrite HN; now apply Permutation_length).
  assert (H0 : nth_error l 0 = Some main).
  { destruct l as [|b l]; [cbn in Hlen; lia|]. cbn. f_equal. destruct (Heq b main) as [E|Hne]; [exact E|]. exfalso.
    assert (Hb : In b (main :: others)) by (eapply Permutation_in; [exact Pl|now left]). destruct Hb as [Hb|Hb]; [congruence|].
    apply Htl in Hb. cbn in Hb. inversion NDl; contradiction. }
  split; [exact Pl|]. split; [exact H0|]. intros k Hk. destruct (nth_error l k) as [self|] eqn:Ek; [|apply nth_error_None in Ek; lia].
  rewrite <- Hlen. destruct (Heq self main) as [->|Hne].
  - assert (k = 0) by (rewrite NoDup_nth_error in NDl; apply NDl; [lia|congruence]). subst k. apply (numbered_introduced addr eqb Heq l main 0 (t 0) NDl H0 Nb).
  - destruct (Hsub k self Ek Hne) as (es' & s'' & outs' & Pes' & Hrun' & Hst'). destruct (Hs self k es' s'' outs' Ek Hne Pes' Hrun') as (tk & pre' & Eo' & Epre' & Nb' & _).
    assert (Etk : t k = tk). { rewrite Eo', concat_app, Epre' in Hst'. cbn in Hst'. destruct Hst' as [E|[]]. now injection E. }
    subst tk. now apply (numbered_introduced addr eqb Heq l self k (t k)).
Qed.
Print Assumptions C97_hosts_are_introduced.

Lemma from_rows_mono : forall inv p dim n mins maxs pcs part (k k' : _ -> Prop), (forall r, k r -> k' r) ->
  cluster_from_rows inv p dim n mins maxs pcs part k -> cluster_from_rows inv p dim n mins maxs pcs part k'.
Proof.
  intros inv p dim n mins maxs pcs part k k' H. unfold cluster_from_rows. destruct (alignment p mins maxs pcs) as [ms|]; [|auto].
  apply each_gives_mono. intros points. now apply analysis_mono.
Qed.

(** C97: the hosts find each other, the main host reads the file, every stage runs in any order the network and the threads allow; in the end the score file of every host holds, byte for byte, what the
    score file of one machine holds for the same file (or the same numbers as an array), as long as both files fit on their disks.  The conditions are those of C94. *)
Theorem C97_score_files_as_one_machine_partial : forall addr (eqb : addr -> addr -> bool) path (path_eqb : path -> path -> bool) show newline comma capacity
    cell (parse : cell -> option R) val fmax p main others l t threads width records rows qr svd inv qr' svd' inv' mins maxs blocks windows pcs pcs' ms points s s',
  let N := n_cluster_nodes p in let dim := channels p width in let part := fun k => partition_of N (pattern_length p - 1) k rows in let one := alone threads p in
  let all := concat (map points (seq 0 N)) in let peers := fun k => by_place eqb l (t k) in
  let finish := fun o d score => Output.Model.finish capacity path_eqb show newline comma o d score (Ok []) (fun q => Ok q) in
  (forall a b, reflect (a = b) (eqb a b)) -> (forall a b, path_eqb a b = true <-> a = b) -> 1 <= capacity ->
  N = length (main :: others) -> NoDup (main :: others) -> met eqb p main others l t ->
  readable parse val fmax p width records rows ->
  latent p + 3 <= pattern_length p -> 2 <= N <= rate p -> pattern_length p <= length rows / N -> length rows mod N <= pattern_length p - 1 -> 1 <= dim -> 1 <= query_length p ->
  preserves_gram qr -> preserves_gram qr' -> inverse_correct (2 * dim) inv -> inverse_correct (2 * dim) inv' -> extremes dim rows mins maxs ->
  mapM (fun k => embed p dim (part k)) (seq 0 N) = Ok blocks -> all_analysed qr svd (pattern_length p - latent p) dim (concat blocks) pcs ->
  embed one dim rows = Ok windows -> all_analysed qr' svd' (pattern_length p - latent p) dim windows pcs' ->
  (forall c, c < dim -> determined (pattern_length p - latent p) (channel c windows)) ->
  alignment p mins maxs pcs = Ok ms -> (forall h, h < N -> host_points p dim (length rows) N h ms pcs (part h) = Ok (points h)) ->
  well_distributed p (length rows) (fun h => map as_pt (points h)) -> properly_crossed (rate p) all -> segments_spread dim (rate p) all -> NoDup (map fst (crossings_of (rate p) all)) ->
  1 <= threads <= length all - query_length p ->
  collected parse fmax p peers width records (file_start p) s ->
  collected parse fmax one (fun _ => []) width records (file_start one) s' \/ collected parse fmax one (fun _ => []) width records (array_start rows) s' ->
  (forall h, h < N -> prepared s h (part h) mins maxs (length rows)) /\ prepared s' 0 rows mins maxs (length rows) /\
  exists w0, machine_analysis inv' one dim mins maxs pcs' rows = Ok w0 /\
    cluster_from_rows inv p dim (length rows) mins maxs pcs part (fun result =>
      forall h w, h < N -> scoring_run (fun x => f_eq x f_zero) w0 w -> flying w = [] ->
        local_results w = [result h] /\
        forall score score' (o o' : Output.Model.options path) d d' f f' r r', result h = Ok score -> local_results w = [Ok score'] ->
          Output.Model.explain o = false -> Output.Model.score_path o = Some f -> Output.Model.space d f = Some r -> length (Output.all_scores show newline score) <= r ->
          Output.Model.explain o' = false -> Output.Model.score_path o' = Some f' -> Output.Model.space d' f' = Some r' -> length (Output.all_scores show newline score') <= r' ->
          Output.Model.stored (Output.Model.on_disk (finish o d score)) f = Output.Model.stored (Output.Model.on_disk (finish o' d' score')) f'
          /\ Output.Model.stored (Output.Model.on_disk (finish o d score)) f = Some (Output.all_scores show newline score)
          /\ Output.Model.stopped (finish o d score) = true /\ Output.Model.stopped (finish o' d' score') = true).
Proof.
  intros addr eqb path path_eqb show newline comma capacity cell parse val fmax p main others l t threads width records rows qr svd inv qr' svd' inv' mins maxs blocks windows pcs pcs' ms points s s'
    N dim part one all peers finish Heq Hpath Hcap HNl HND Hmet Hrd HL HN Hpl Hmod Hdim Hq Hqr Hqr' Hi Hi' Hx Eb A Ew A' Det Ems Hpts W Hprop Hsp ND Hth Hs Hs'.
  destruct (C97_hosts_are_introduced addr eqb Heq p main others l t HNl ltac:(lia) HND Hmet) as (_ & _ & Hin).
  assert (Hin' : introduced 1 (fun _ => [])).
  { intros h Hh. replace h with 0 by lia. split; [|intros j a []]. unfold all_but. cbn. split; [lia|]. split; [constructor|]. intros j; lia. }
  destruct (C94_file_to_scores_partial cell parse val fmax p peers (fun _ => []) threads width records rows qr svd inv qr' svd' inv' mins maxs blocks windows pcs pcs' ms points s s')
    as (P1 & P2 & w0 & E0 & _ & K); auto.
  split; [exact P1|]. split; [exact P2|]. exists w0. split; [exact E0|]. revert K. apply from_rows_mono. intros result K h w Hh Hw Hf. specialize (K h w Hh Hw Hf).
  split; [exact K|]. intros score score' o o' d d' f f' r r' Er Es X1 X2 X3 X4 X1' X2' X3' X4'. assert (score' = score) by congruence. subst score'.
  destruct (Output.C95_score_file path_eqb Hpath show newline comma capacity Hcap o d score (Ok []) (fun q => Ok q) f r X1 X2 X3 X4) as (Y1 & _ & _ & Y2).
  destruct (Output.C95_score_file path_eqb Hpath show newline comma capacity Hcap o' d' score (Ok []) (fun q => Ok q) f' r' X1' X2' X3' X4') as (Y1' & _ & _ & Y2').
  unfold finish. rewrite Y1, Y1'. auto.
Qed.
Print Assumptions C97_score_files_as_one_machine_partial.

Lemma correcting_mono : forall inv p dim n mins maxs pcs part order (k k' : _ -> Prop), (forall r, k r -> k' r) ->
  correcting_from_rows inv p dim n mins maxs pcs part order k -> correcting_from_rows inv p dim n mins maxs pcs part order k'.
Proof.
  intros inv p dim n mins maxs pcs part order k k' H. unfold correcting_from_rows. destruct (alignment p mins maxs pcs) as [ms|]; [|auto].
  apply each_gives_mono. intros points. apply each_gives_mono. intros turned. unfold correcting_analysis, correction_stage. apply every_mono. intros cw (D & turn & T & G).
  split; [exact D|]. exists turn. split; [exact T|]. revert G. apply every_mono. intros x. unfold crossing_stage. intros G others Ho. specialize (G others Ho). revert G.
  apply each_gives_mono. intros r. apply every_mono. intros w G messages Hm. specialize (G messages Hm). revert G. apply each_gives_mono. intros crossings.
  apply each_gives_mono. intros stores G others' a b Ho' Ha Hb. specialize (G others' a b Ho' Ha Hb). revert G. apply each_gives_mono. intros answers.
  apply each_gives_mono. intros edges. apply each_gives_mono. intros r'. apply every_mono. intros w'.
  apply each_gives_mono. intros index G degrees weights Hd Hw. specialize (G degrees weights Hd Hw). revert G. apply every_mono. intros dw. apply every_mono. intros ww. apply every_mono. intros ow.
  apply each_gives_mono. intros w0 G sw Hsw. specialize (G sw Hsw). revert G. apply each_gives_mono. intros parts. apply every_mono. intros rw. apply H.
Qed.

(** The same with self correction: the conditions of C94 with self correction. *)
Theorem C97_score_files_correcting_partial : forall addr (eqb : addr -> addr -> bool) path (path_eqb : path -> path -> bool) show newline comma capacity
    cell (parse : cell -> option R) val fmax p main others l t threads width records rows qr svd inv qr' svd' inv' mins maxs blocks windows pcs pcs' ms points turned order s s',
  let N := n_cluster_nodes p in let dim := channels p width in let part := fun k => partition_of N (pattern_length p - 1) k rows in let one := alone_too threads p in
  let series := map as_pt (concat (map points (seq 0 N))) in
  let turn := should_mirror p (fun h => map as_pt (points h)) in let final := if turn then turned else points in let all := concat (map final (seq 0 N)) in let peers := fun k => by_place eqb l (t k) in
  let finish := fun o d score => Output.Model.finish capacity path_eqb show newline comma o d score (Ok []) (fun q => Ok q) in
  (forall a b, reflect (a = b) (eqb a b)) -> (forall a b, path_eqb a b = true <-> a = b) -> 1 <= capacity ->
  N = length (main :: others) -> NoDup (main :: others) -> met eqb p main others l t ->
  readable parse val fmax p width records rows ->
  latent p + 3 <= pattern_length p -> 2 <= N <= rate p -> pattern_length p <= length rows / N -> length rows mod N <= pattern_length p - 1 -> 1 <= dim -> 1 <= query_length p -> self_correction p = true ->
  preserves_gram qr -> preserves_gram qr' -> inverse_correct (2 * dim) inv -> inverse_correct (2 * dim) inv' -> extremes dim rows mins maxs ->
  mapM (fun k => embed p dim (part k)) (seq 0 N) = Ok blocks -> all_analysed qr svd (pattern_length p - latent p) dim (concat blocks) pcs ->
  embed one dim rows = Ok windows -> all_analysed qr' svd' (pattern_length p - latent p) dim windows pcs' ->
  (forall c, c < dim -> determined (pattern_length p - latent p) (channel c windows)) ->
  alignment p mins maxs pcs = Ok ms -> (forall h, h < N -> host_points p dim (length rows) N h ms pcs (part h) = Ok (points h)) -> (forall h, h < N -> mirror_points (rate p) (points h) = Ok (turned h)) ->
  in_time p (fun h => map as_pt (points h)) order -> turn = (length (usable_pairs (rate p) series) <? length (filter (backwards (rate p)) (pairs series))) ->
  well_distributed p (length rows) (fun h => map as_pt (final h)) -> properly_crossed (rate p) all -> segments_spread dim (rate p) all -> NoDup (map fst (crossings_of (rate p) all)) ->
  1 <= threads <= length all - query_length p ->
  collected parse fmax p peers width records (file_start p) s ->
  collected parse fmax one (fun _ => []) width records (file_start one) s' \/ collected parse fmax one (fun _ => []) width records (array_start rows) s' ->
  (forall h, h < N -> prepared s h (part h) mins maxs (length rows)) /\ prepared s' 0 rows mins maxs (length rows) /\
  exists w0, machine_analysis inv' one dim mins maxs pcs' rows = Ok w0 /\
    correcting_from_rows inv p dim (length rows) mins maxs pcs part order (fun result =>
      forall h w, h < N -> scoring_run (fun x => f_eq x f_zero) w0 w -> flying w = [] ->
        local_results w = [result h] /\
        forall score score' (o o' : Output.Model.options path) d d' f f' r r', result h = Ok score -> local_results w = [Ok score'] ->
          Output.Model.explain o = false -> Output.Model.score_path o = Some f -> Output.Model.space d f = Some r -> length (Output.all_scores show newline score) <= r ->
          Output.Model.explain o' = false -> Output.Model.score_path o' = Some f' -> Output.Model.space d' f' = Some r' -> length (Output.all_scores show newline score') <= r' ->
          Output.Model.stored (Output.Model.on_disk (finish o d score)) f = Output.Model.stored (Output.Model.on_disk (finish o' d' score')) f'
          /\ Output.Model.stored (Output.Model.on_disk (finish o d score)) f = Some (Output.all_scores show newline score)
          /\ Output.Model.stopped (finish o d score) = true /\ Output.Model.stopped (finish o' d' score') = true).
Proof.
  intros addr eqb path path_eqb show newline comma capacity cell parse val fmax p main others l t threads width records rows qr svd inv qr' svd' inv' mins maxs blocks windows pcs pcs' ms points turned order s s'
    N dim part one series turn final all peers finish Heq Hpath Hcap HNl HND Hmet Hrd HL HN Hpl Hmod Hdim Hq Hcor Hqr Hqr' Hi Hi' Hx Eb A Ew A' Det Ems Hpts Htur Hti Hturn W Hprop Hsp ND Hth Hs Hs'.
  destruct (C97_hosts_are_introduced addr eqb Heq p main others l t HNl ltac:(lia) HND Hmet) as (_ & _ & Hin).
  assert (Hin' : introduced 1 (fun _ => [])).
  { intros h Hh. replace h with 0 by lia. split; [|intros j a []]. unfold all_but. cbn. split; [lia|]. split; [constructor|]. intros j; lia. }
  destruct (C94_file_to_scores_correcting_partial cell parse val fmax p peers (fun _ => []) threads width records rows qr svd inv qr' svd' inv' mins maxs blocks windows pcs pcs' ms points turned order s s')
    as (P1 & P2 & w0 & E0 & _ & K); auto.
  split; [exact P1|]. split; [exact P2|]. exists w0. split; [exact E0|]. revert K. apply correcting_mono. intros result K h w Hh Hw Hf. specialize (K h w Hh Hw Hf).
  split; [exact K|]. intros score score' o o' d d' f f' r r' Er Es X1 X2 X3 X4 X1' X2' X3' X4'. assert (score' = score) by congruence. subst score'.
  destruct (Output.C95_score_file path_eqb Hpath show newline comma capacity Hcap o d score (Ok []) (fun q => Ok q) f r X1 X2 X3 X4) as (Y1 & _ & _ & Y2).
  destruct (Output.C95_score_file path_eqb Hpath show newline comma capacity Hcap o' d' score (Ok []) (fun q => Ok q) f' r' X1' X2' X3' X4') as (Y1' & _ & _ & Y2').
  unfold finish. rewrite Y1, Y1'. auto.
Qed.
Print Assumptions C97_score_files_correcting_partial.

(** Hosts 7 (main) and 5; on host 5 the list arrives before the join of 7.  With the places in the list the tables are those of [C94_case]; [C94_case] and [C94_rest_case] are about the other hypotheses. *)
Example C97_case : exists l t, met Nat.eqb (c94_params false) 7 [5] l t /\ NoDup [7; 5] /\ n_cluster_nodes (c94_params false) = length [7; 5]
  /\ forall h, h < 2 -> by_place Nat.eqb l (t h) = c94_peers h.
Proof.
  exists [7; 5], (fun k => if k =? 0 then [(1, 5)] else [(0, 7)]). split; [split|].
  - exists [NewMember 5], {| connected := [5]; sorted_nodes := [(1, 5)]; addr_buffer := []; stopped := false |}, [[SendSorted 5 [7; 5]; StartTraining [(1, 5)]]].
    split; [reflexivity|]. split; [|split; [cbn; auto|intros a [<-|[]]; cbn; auto]].
    econstructor; [eapply (Listener.Proofs.step_join_eq Nat.eqb _ _ _ _ _ [5]); [reflexivity|reflexivity|reflexivity]|]. constructor.
  - intros k self E Hne. destruct k as [|[|k]]; [injection E as <-; congruence|injection E as <-|destruct k; discriminate].
    exists [SortedMembers [7; 5]; NewMember 7], {| connected := [7]; sorted_nodes := [(0, 7)]; addr_buffer := [7; 5]; stopped := false |}, [[]; [StartTraining [(0, 7)]]].
    split; [cbn; apply perm_swap|]. split; [|cbn; auto].
    econstructor; [eapply Listener.Proofs.step_sorted_eq; reflexivity|].
    econstructor; [eapply (Listener.Proofs.step_join_eq Nat.eqb _ _ _ _ _ [7]); [reflexivity|reflexivity|reflexivity]|]. constructor.
  - split; [repeat constructor; cbn; intuition lia|]. split; [reflexivity|]. intros h Hh. assert (h = 0 \/ h = 1) as [->| ->] by lia; reflexivity.
Qed.
