From Coq Require Import List Arith Bool Lia Permutation Sorting.Sorted.
From Verif.Base Require Import Res Assoc ListX.
From Verif.Edges Require Import Model Proofs HostProofs.
From Verif.Protocol Require Import Model Spec.
From Verif.Segmentation Require Import Proofs.
From Verif.Transposition Require Import Spec.
From Verif.Scoring Require Import Model Spec WeightProofs IndexProofs CollectProofs WindowProofs.
Import ListNotations.

(** ** Windows in words *)
Lemma filter_gt_length : forall G b, length (filter (fun e => b <? to_id e) G) = length G - edges_until G b.
Proof.
  intros G b. unfold edges_until, count. induction G as [|e G IH]; [reflexivity|]. cbn [filter length]. pose proof (edges_until_length G b) as L. unfold edges_until, count in L.
  destruct (Nat.ltb_spec b (to_id e)), (Nat.leb_spec (to_id e) b); cbn [length]; lia.
Qed.
Lemma slice_is_window : forall G q i, ascending G -> 1 <= q -> slice (edges_until G i) (Nat.min (edges_until G (i + q - 1) + 1) (length G)) G = window_edges G q i.
Proof.
  intros G q i H Hq. rewrite slice_window; [|exact H|lia|split; [apply edges_until_length|lia]]. unfold window_edges. f_equal. rewrite <- filter_gt_length.
  destruct (filter (fun e => i + q - 1 <? to_id e) G); reflexivity.
Qed.
Lemma slice_is_cluster_window : forall G N d q k i m, ascending G -> 1 <= q -> i < S k * d -> m = (if k =? N - 1 then length G else edges_until G (S k * d + q - 1)) -> k < N ->
  slice (edges_until G i) (Nat.min (edges_until G (i + q - 1) + 1) m) G = cluster_window G N d q k i.
Proof.
  intros G N d q k i m H Hq Hi -> Hk. unfold cluster_window. destruct (Nat.eqb_spec k (N - 1)) as [Ek|Ek].
  - rewrite slice_is_window by assumption. unfold window_edges. f_equal. f_equal. apply filter_ext. intros e. replace (S k =? N) with true by (symmetry; apply Nat.eqb_eq; lia). now rewrite orb_true_r, andb_true_r.
  - rewrite slice_window; [|exact H|lia|split; [apply edges_until_mono; lia|apply edges_until_length]]. f_equal.
    replace (filter (fun e => (i + q - 1 <? to_id e) && ((to_id e <=? S k * d + q - 1) || (S k =? N))) G) with (slice (edges_until G (i + q - 1)) (edges_until G (S k * d + q - 1)) G).
    + rewrite <- skipn_until by exact H. unfold slice. rewrite firstn_firstn. f_equal.
    + rewrite slice_until; [|exact H|lia]. apply filter_ext. intros e. replace (S k =? N) with false by (symmetry; apply Nat.eqb_neq; lia). now rewrite orb_false_r.
Qed.
Lemma firstn_1_filter : forall G (f g : edge -> bool), ascending G -> (forall x, f x = true -> g x = true) -> (forall x y, to_id x <= to_id y -> g x = true -> f y = true -> f x = true) ->
  (exists e, In e G /\ f e = true) \/ (forall e, In e G -> g e = false) -> firstn 1 (filter f G) = firstn 1 (filter g G).
Proof.
  intros G f g H Hfg Hm Hc. induction G as [|x G IH]; [reflexivity|]. cbn [filter]. destruct (f x) eqn:Ef.
  - rewrite (Hfg x Ef). reflexivity.
  - destruct (g x) eqn:Eg.
    + exfalso. destruct Hc as [(e & [<-|He] & Ee)|Hc]; [congruence| |rewrite Hc in Eg by (now left); discriminate]. rewrite (Hm x e) in Ef; [discriminate|now apply (asc_head x G)|exact Eg|exact Ee].
    + apply IH; [now apply asc_tail in H|]. destruct Hc as [(e & [<-|He] & Ee)|Hc]; [congruence|left; eauto|right; intros e He; apply Hc; now right].
Qed.
Lemma cluster_window_same : forall G N d q k i, ascending G ->
  S k = N \/ (exists e, In e G /\ i + q - 1 < to_id e <= S k * d + q - 1) \/ (forall e, In e G -> to_id e <= i + q - 1) ->
  cluster_window G N d q k i = window_edges G q i.
Proof.
  intros G N d q k i H Hc. unfold cluster_window, window_edges. f_equal. destruct Hc as [->|Hc].
  - f_equal. apply filter_ext. intros e. now rewrite Nat.eqb_refl, orb_true_r, andb_true_r.
  - apply firstn_1_filter; [exact H| | |].
    + intros x Hx. apply andb_true_iff in Hx. tauto.
    + intros x y Hxy Hx Hy. rewrite Hx. cbn [andb]. apply andb_true_iff in Hy. destruct Hy as (_ & Hy). apply orb_true_iff in Hy. apply orb_true_iff. destruct Hy as [Hy|Hy]; [left|now right].
      apply Nat.leb_le in Hy. apply Nat.leb_le. lia.
    + destruct Hc as [(e & He & Hr)|Hc].
      * left. exists e. split; [exact He|]. apply andb_true_iff. split; [apply Nat.ltb_lt; lia|]. apply orb_true_iff. left. apply Nat.leb_le. lia.
      * right. intros e He. apply Nat.ltb_ge. now apply Hc.
Qed.

(** ** Summands *)
Lemma summand_ok : forall g all e, lookup edge_key_eqb (edge_key e) (g_weight g) = Some (multiplicity all e) -> lookup key_eqb (node_key (fst e)) (g_degree g) = Some (degree all (fst e)) ->
  1 <= degree all (fst e) -> summand g e = Ok (edge_term all e).
Proof. intros g all e Hw Hd Hp. unfold summand. rewrite Hw, Hd. cbn [unwrap bind]. rewrite usub_ok by exact Hp. reflexivity. Qed.

(** ** Termination of the collection *)
Lemma collect_measure : forall F (is_zero : F -> bool) r c c' again, collect is_zero r c = Ok (c', again) -> 2 * length again + length (c_buffer c') < 2 + length (c_buffer c).
Proof.
  intros F is_zero r c c' again H. unfold collect in H. destruct (negb (r_start r =? length (c_scores c))).
  - injection H as <- <-. cbn [c_buffer length].
    assert (I : forall k (v : response F) m, length (insert Nat.eqb k v m) <= S (length m)).
    { intros k v m. induction m as [|[k' v'] m IH]; [reflexivity|]. cbn [insert]. destruct (k =? k'); cbn [length]; lia. }
    specialize (I (r_start r) r (c_buffer c)). lia.
  - apply bind_ok_inv in H. destruct H as (pool & _ & H). destruct (if r_first_empty r then _ else _) as [scores fe]. destruct (negb (h_running pool)); [injection H as <- <-; cbn; lia|].
    destruct (lookup Nat.eqb (length (c_scores c ++ scores)) (c_buffer c)) eqn:El; injection H as <- <-; cbn [c_buffer length]; [|lia].
    assert (I : forall k (v : response F) m, lookup Nat.eqb k m = Some v -> S (length (remove_key Nat.eqb k m)) = length m).
    { intros k v m. induction m as [|[k' v'] m IH]; [discriminate|]. cbn [lookup remove_key]. destruct (k =? k'); [reflexivity|]. intros E. cbn [length]. now rewrite IH. }
    specialize (I _ _ _ El). lia.
Qed.
Definition scoring_measure {F} (w : scoring_world F) : nat := 2 * length (flying w) + length (c_buffer (collecting w)).
Lemma scoring_step_decreases : forall F (is_zero : F -> bool) w w', scoring_step is_zero w w' -> scoring_measure w' < scoring_measure w.
Proof.
  intros F is_zero w w' H. destruct H as [w l r rest c again Hf Hc]. pose proof (collect_measure _ _ _ _ _ _ Hc). unfold scoring_measure. rewrite Hf. cbn [flying collecting]. rewrite !app_length. cbn [length]. lia.
Qed.

(** ** Assembly *)
Section Assemble.
Context {F : Type} (zero : F) (is_zero : F -> bool) (value : list nat -> F).
Hypothesis Hzero : is_zero zero = true.
Notation carry := (carry value).

Lemma join_part : forall a b, empty_tail b -> carry zero (a ++ b) = carry zero a ++ (if head_empty b then fill_up is_zero (last (carry zero a) zero) (carry zero b) else carry zero b).
Proof.
  intros a b H. rewrite carry_app. f_equal. destruct (head_empty b) eqn:E.
  - pose proof (head_empty_all b H E) as Hb. rewrite !(carry_empty value b) by exact Hb. now rewrite (fill_up_zeros zero is_zero Hzero).
  - now apply carry_nonempty.
Qed.
Definition part_of (ws : list (list nat)) : list F * bool := (carry zero ws, head_empty ws).
Lemma assemble_parts : forall rest done last, (forall ws, In ws rest -> empty_tail ws) -> (rest <> [] -> last <> []) -> (forall a ws b, rest = a ++ ws :: b -> b <> [] -> ws <> []) ->
  forall scores s, concat scores = carry zero (done ++ last) -> scores = s ++ [skipn (length done) (carry zero (done ++ last))] -> 
  exists scores', foldM (assemble_step is_zero) (map part_of rest) scores = Ok scores' /\ concat scores' = carry zero ((done ++ last) ++ concat rest).
Proof.
  induction rest as [|ws rest IH]; intros done last Ht Hl Hne scores s Hc Hs.
  - exists scores. split; [reflexivity|]. cbn [concat]. now rewrite app_nil_r.
  - cbn [map foldM part_of assemble_step].
    assert (Hlast : last <> []) by (apply Hl; discriminate).
    assert (Hpart : skipn (length done) (carry zero (done ++ last)) = carry (List.last (carry zero done) zero) last).
    { rewrite carry_app, skipn_app, (carry_length value done), Nat.sub_diag. rewrite skipn_all2 by (rewrite carry_length; lia). reflexivity. }
    set (new := if head_empty ws then fill_up is_zero (List.last (carry zero (done ++ last)) zero) (carry zero ws) else carry zero ws).
    assert (Enew : (if head_empty ws then
        (let! previous := unwrap (nth_error scores (length scores - 1)) in let! i := usub (length previous) 1 in let! l := get previous i in Ok (scores ++ [fill_up is_zero l (carry zero ws)]))
      else Ok (scores ++ [carry zero ws])) = Ok (scores ++ [new])).
    { unfold new. destruct (head_empty ws); [|reflexivity]. rewrite Hs. rewrite app_length. cbn [length]. replace (length s + 1 - 1) with (length s) by lia. rewrite nth_error_app2 by lia. rewrite Nat.sub_diag. cbn [nth_error unwrap bind].
      rewrite Hpart. rewrite carry_length. assert (1 <= length last) by (destruct last; [congruence|cbn; lia]). rewrite usub_ok by lia. cbn [bind]. unfold get.
      rewrite <- (carry_length value last (List.last (carry zero done) zero)). rewrite (last_nth _ _ zero) by (intros Z; apply Hlast; apply length_zero_iff_nil; rewrite <- (carry_length value last (List.last (carry zero done) zero)), Z; reflexivity).
      cbn [bind]. do 4 f_equal. rewrite carry_app. destruct (exists_last Hlast) as (la & lx & ->). rewrite (carry_app value la [lx]). cbn [Spec.carry]. rewrite app_assoc, !last_last. reflexivity. }
    rewrite Enew. cbn [bind].
    assert (Hcar : carry zero ((done ++ last) ++ ws) = carry zero (done ++ last) ++ new) by (apply join_part; apply Ht; now left).
    destruct (IH (done ++ last) ws) with (scores := scores ++ [new]) (s := scores) as (scores' & E1 & E2).
    + intros x Hx. apply Ht. now right.
    + intros Hr. apply (Hne [] ws rest eq_refl Hr).
    + intros a x b E Hb. apply (Hne (ws :: a) x b); [now rewrite E|exact Hb].
    + rewrite concat_app. cbn [concat]. rewrite app_nil_r, Hc. now rewrite Hcar.
    + f_equal. f_equal. rewrite Hcar, skipn_app, (carry_length value (done ++ last)), Nat.sub_diag. rewrite skipn_all2 by (rewrite carry_length; lia). reflexivity.
    + exists scores'. split; [exact E1|]. rewrite E2. cbn [concat]. now rewrite !app_assoc.
Qed.
Lemma assemble_ok : forall first rest, empty_tail first -> head_empty first = false -> (rest <> [] -> first <> []) -> (forall ws, In ws rest -> empty_tail ws) -> (forall a ws b, rest = a ++ ws :: b -> b <> [] -> ws <> []) ->
  assemble is_zero (map part_of (first :: rest)) = Ok (carry zero (first ++ concat rest)).
Proof.
  intros first rest Hf Hh Hne Ht Hr. unfold assemble. cbn [map foldM part_of assemble_step]. rewrite Hh. cbn [bind app].
  destruct (assemble_parts rest [] first Ht Hne Hr [carry zero first] []) as (scores' & E1 & E2).
  - cbn [concat app]. now rewrite app_nil_r.
  - reflexivity.
  - rewrite E1. cbn [bind]. f_equal. exact E2.
Qed.
Lemma assemble_first_empty : forall first rest, head_empty first = true -> assemble is_zero (map part_of (first :: rest)) = Panic UnwrapNone.
Proof. intros first rest Hh. unfold assemble. cbn [map foldM part_of assemble_step]. rewrite Hh. reflexivity. Qed.

Lemma in_order_ok : forall N p (c : nat -> list F * bool) taken, p < N -> Permutation taken (others N c p) -> in_order N (subscores p (c p) taken) = Ok (map c (seq 0 N)).
Proof.
  intros N p c taken Hp HP. unfold in_order. apply mapM_all. intros k Hk. apply in_seq in Hk.
  assert (G : forall l m, (forall k v, In (k, v) l -> v = c k) -> (forall k v, lookup Nat.eqb k m = Some v -> v = c k) -> forall k, (In k (map fst l) \/ lookup Nat.eqb k m = Some (c k)) -> lookup Nat.eqb k (fold_left (fun m '(k, v) => insert Nat.eqb k v m) l m) = Some (c k)).
  { induction l as [|[k0 v0] l IH]; intros m Hl Hm k' Hk'; cbn [fold_left].
    - destruct Hk' as [[]|E]; exact E.
    - apply IH.
      + intros; apply Hl; now right.
      + intros k2 v2 E2. destruct (Nat.eq_dec k2 k0) as [->|Hd].
        * rewrite lookup_insert_same in E2 by exact Nat.eqb_spec. injection E2 as <-. apply Hl. now left.
        * rewrite lookup_insert_other in E2 by (exact Nat.eqb_spec || exact Hd). now apply Hm.
      + destruct (Nat.eq_dec k' k0) as [->|Hd].
        * right. rewrite lookup_insert_same by exact Nat.eqb_spec. f_equal. apply Hl. now left.
        * destruct Hk' as [[E|Hk']|E]; [cbn in E; congruence|now left|right]. rewrite lookup_insert_other by (exact Nat.eqb_spec || exact Hd). exact E. }
  unfold subscores. rewrite G with (k := k); [reflexivity| | |].
  - intros k' v Hin. apply (Permutation_in _ HP) in Hin. unfold others in Hin. apply in_map_iff in Hin. destruct Hin as (x & E & _). injection E as -> <-. reflexivity.
  - intros k' v. cbn [lookup]. destruct (Nat.eqb_spec k' p); [intros E; injection E as <-; now subst|discriminate].
  - destruct (Nat.eq_dec k p) as [->|Hd]; [right; cbn [lookup]; now rewrite Nat.eqb_refl|left].
    apply (Permutation_in _ (Permutation_map fst (Permutation_sym HP))). unfold others. rewrite map_map. cbn [fst]. rewrite map_id. apply filter_In. rewrite in_seq, negb_true_iff, Nat.eqb_neq. lia.
Qed.
End Assemble.

(** What is collected for a graph with windows [ws]. *)
Lemma collected : forall F (zero : F) is_zero value g ws threads, is_zero zero = true -> (forall i w, nth_error ws i = Some w -> summands g i = Ok w) -> empty_tail ws ->
  1 <= threads <= length ws -> score_length g = Ok (length ws) ->
  exists w0, start_scoring zero value g threads = Ok w0 /\ forall w, scoring_run is_zero w0 w ->
    (c_delivered (collecting w) = [] \/ c_delivered (collecting w) = [(carry value zero ws, head_empty ws)])
    /\ (flying w <> [] -> exists w', scoring_step is_zero w w')
    /\ (flying w = [] -> c_delivered (collecting w) = [(carry value zero ws, head_empty ws)]).
Proof.
  intros F zero is_zero value g ws threads Hz Hws Htail Hth HL.
  exists {| collecting := new_collector threads; flying := map (resp zero value ws threads) (seq 0 threads) |}. split.
  - unfold start_scoring. rewrite HL. cbn [bind].
    pose proof (all_responses zero is_zero value Hz g ws Hws threads Hth) as R. destruct (instructions threads (length ws)) as [is|]; cbn [bind] in *; [|discriminate]. now rewrite R.
  - intros w Hr. destruct (cinv_run zero is_zero value Hz g ws Hws Htail threads Hth w Hr) as (j & I). ssplit.
    + exact (cinv_never_twice zero value ws threads Hth j w I).
    + intros Hf. destruct (flying w) as [|r rest] eqn:Ef; [congruence|].
      destruct (cinv_collect zero is_zero value Hz g ws Hws Htail threads Hth j w [] r rest I Ef) as (c & again & j' & Ec & _). eexists. apply (handles is_zero w [] r rest c again Ef Ec).
    + intros Hf. exact (cinv_done zero is_zero value Hz g ws Hws threads Hth j w I Hf).
Qed.
