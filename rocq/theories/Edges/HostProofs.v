From Coq Require Import List Arith Bool Lia Permutation Sorting.Sorted.
From Verif.Base Require Import Res Params Assoc ListX.
From Verif.Topology Require Import Proofs.
From Verif.Transition Require Import Spec Proofs.
From Verif.Segmentation Require Import Model Spec Blocks Proofs PathProofs.
From Verif.Edges Require Import Model Spec OrdererProofs Proofs ArcProofs.
Import ListNotations.

Lemma sorted_app : forall l m, StronglySorted le l -> StronglySorted le m -> (forall x y, In x l -> In y m -> x <= y) -> StronglySorted le (l ++ m).
Proof.
  intros l m Hl Hm H. induction Hl as [|x l Hl IH F]; [exact Hm|]. cbn [app]. constructor.
  - apply IH. intros a b Ha Hb. apply H; [now right|exact Hb].
  - apply Forall_app. split; [exact F|]. apply Forall_forall. intros y Hy. apply H; [now left|exact Hy].
Qed.

Lemma filter_and : forall A (f g : A -> bool) l, filter f (filter g l) = filter (fun x => g x && f x) l.
Proof. intros A f g l. induction l as [|x l IH]; [reflexivity|]. cbn [filter]. destruct (g x); cbn [filter andb]; [destruct (f x)|]; now rewrite IH. Qed.

(** ** Sorting *)
Lemma insert_edge_last : forall e l, (forall x, In x l -> to_id x <= to_id e) -> insert_edge e l = l ++ [e].
Proof.
  intros e l. induction l as [|x l IH]; intros H; [reflexivity|]. cbn [insert_edge app]. pose proof (H x (or_introl eq_refl)). destruct (Nat.ltb_spec (to_id e) (to_id x)); [lia|].
  f_equal. apply IH. intros y Hy. apply H. now right.
Qed.
Lemma sort_sorted_acc : forall l acc, StronglySorted le (map to_id (acc ++ l)) -> fold_left (fun acc e => insert_edge e acc) l acc = acc ++ l.
Proof.
  induction l as [|e l IH]; intros acc H; [now rewrite app_nil_r|]. cbn [fold_left]. rewrite insert_edge_last.
  - rewrite IH; [now rewrite <- app_assoc|now rewrite <- app_assoc].
  - intros x Hx. clear IH. induction acc as [|a acc IHa]; [easy|]. cbn [app map] in H. inversion H as [|? ? H' F]; subst. destruct Hx as [->|Hx]; [|now apply IHa].
    rewrite Forall_forall in F. apply F. rewrite map_app. apply in_or_app. right. now left.
Qed.
Lemma sort_sorted : forall l, StronglySorted le (map to_id l) -> sort_edges l = l.
Proof. intros l H. unfold sort_edges. now rewrite sort_sorted_acc. Qed.
Lemma sorted_filter : forall A (f : A -> nat) g l, StronglySorted le (map f l) -> StronglySorted le (map f (filter g l)).
Proof.
  intros A f g l. induction l as [|x l IH]; intros H; [constructor|]. cbn [map] in H. inversion H as [|? ? H' F]; subst. cbn [filter]. destruct (g x); [|now apply IH]. cbn [map]. constructor; [now apply IH|].
  rewrite Forall_forall in *. intros y Hy. apply in_map_iff in Hy. destruct Hy as (z & <- & Hz). apply filter_In in Hz. apply F. now apply in_map.
Qed.
Lemma sorted_pairs : forall l, StronglySorted le (map n_from l) -> StronglySorted le (map to_id (pairs l)).
Proof.
  intros [|x l] H; [constructor|]. cbn [map] in H. inversion H as [|? ? H' F]; subst. unfold to_id. change (map (fun e => n_from (snd e)) (pairs (x :: l))) with (map (fun e => n_from (snd e)) (pairs (x :: l))).
  rewrite <- (map_map snd n_from), pairs_snd. exact H'.
Qed.

Section Host.
Variable p : params.
Hypothesis HN : 1 <= n_cluster_nodes p <= rate p.
Notation N := (n_cluster_nodes p).
Notation r := (rate p).
Variable h : nat.
Hypothesis Hh : h < N.
Variable label : nat -> nat -> nat.
Definition own (x : node) : bool := owner p (n_segment x) =? h.
Definition labels (t : transition) (s : nat) : node := labelled label (from_id t, s).

Lemma own_split : forall t, fine p t -> usable r t = true ->
  exists k m c, k + m + c = span p t /\
    (forall l, l < k -> owner p ((from_segment t + (1 + l)) mod r) <> h) /\
    (forall l, k <= l < k + m -> owner p ((from_segment t + (1 + l)) mod r) = h) /\
    (forall l, k + m <= l < span p t -> owner p ((from_segment t + (1 + l)) mod r) <> h).
Proof.
  intros t (Hf & Ht) Hu. pose proof (usable_span p t Hu) as Hs. set (a := from_segment t) in *.
  set (k0 := (h + N - owner p a) mod N).
  assert (Hk0 : k0 < N) by (apply Nat.mod_upper_bound; lia).
  assert (Ek0 : (owner p a + k0) mod N = h).
  { unfold k0. rewrite Nat.add_mod_idemp_r by lia. pose proof (owner_lt p HN a). replace (owner p a + (h + N - owner p a)) with (h + 1 * N) by lia. rewrite Nat.mod_add by lia. apply Nat.mod_small. exact Hh. }
  destruct (level_interval (fun l => length (changes p a (1 + l))) k0 (span p t)) as (k & m & c & E & H1 & H2 & H3).
  { intros i j Hij. induction Hij as [|j Hij IH]; [lia|]. change (1 + S j) with (S (1 + j)). rewrite (changes_S p a (1 + j)), app_length. lia. }
  exists k, m, c. 
  assert (Own : forall l, l < span p t -> owner p ((a + (1 + l)) mod r) = h <-> length (changes p a (1 + l)) = k0).
  { intros l Hl. destruct (changes_spec p HN a (1 + l) Hf) as (_ & Eo). rewrite Eo. pose proof (changes_few p HN a (1 + l) Hf ltac:(lia)) as Hc. split.
    - intros Eh. eapply (mod_inj_window N (owner p a)); [exact Hc|exact Hk0|congruence].
    - intros ->. exact Ek0. }
  ssplit; [exact E| | |]; intros l Hl.
  - rewrite Own by lia. specialize (H1 l Hl). cbn [Nat.add] in *. lia.
  - apply Own; [lia|]. apply (H2 l Hl).
  - rewrite Own by lia. specialize (H3 l Hl). cbn [Nat.add] in *. lia.
Qed.

Lemma visits_split : forall t, fine p t -> usable r t = true ->
  exists pre a m post, map (labelled label) (visits r t) = pre ++ arc r (labels t) a m ++ post /\ a < r /\ m <= r / 2 /\
    (forall x, In x pre -> own x = false) /\ (forall x, In x (arc r (labels t) a m) -> own x = true) /\ (forall x, In x post -> own x = false) /\
    (2 <= N -> m >= 1 -> a + m <= r) /\
    (a = r - 1 -> 2 <= m -> exists post', map (labelled label) (visits r t) = pre ++ labels t (r - 1) :: labels t 0 :: post').
Proof.
  intros t Hf Hu. destruct (own_split t Hf Hu) as (k & m & c & E & H1 & H2 & H3). pose proof (usable_span p t Hu) as Hs.
  set (g := fun l => labels t ((from_segment t + (1 + l)) mod r)).
  assert (EV : map (labelled label) (visits r t) = map g (seq 0 (span p t))).
  { unfold visits. rewrite map_map. rewrite <- (map_add_seq 1), map_map. reflexivity. }
  set (a := (from_segment t + (1 + k)) mod r).
  assert (Ha : a < r) by (apply Nat.mod_upper_bound; lia).
  assert (EA : arc r (labels t) a m = map g (seq k m)).
  { unfold arc, g. rewrite <- (map_add_seq k m), map_map. apply map_ext. intros j. unfold a. rewrite Nat.add_mod_idemp_l by lia. f_equal. f_equal. lia. }
  exists (map g (seq 0 k)), a, m, (map g (seq (k + m) c)).
  assert (EW : map (labelled label) (visits r t) = map g (seq 0 k) ++ arc r (labels t) a m ++ map g (seq (k + m) c)).
  { rewrite EV, EA, <- E. now rewrite !seq_app, !map_app, <- app_assoc. }
  assert (Og : forall l, own (g l) = (owner p ((from_segment t + (1 + l)) mod r) =? h)) by reflexivity.
  ssplit; [exact EW|exact Ha|lia| | | | |].
  - intros x Hx. apply in_map_iff in Hx. destruct Hx as (l & <- & Hl). apply in_seq in Hl. rewrite Og. apply Nat.eqb_neq. apply H1. lia.
  - intros x Hx. rewrite EA in Hx. apply in_map_iff in Hx. destruct Hx as (l & <- & Hl). apply in_seq in Hl. rewrite Og. apply Nat.eqb_eq. apply H2. lia.
  - intros x Hx. apply in_map_iff in Hx. destruct Hx as (l & <- & Hl). apply in_seq in Hl. rewrite Og. apply Nat.eqb_neq. apply H3. lia.
  - intros HN2 Hm. destruct (le_lt_dec (a + m) r) as [L|L]; [exact L|]. exfalso.
    assert (O1 : owner p (r - 1) = h).
    { rewrite <- (H2 (k + (r - 1 - a))) by lia. f_equal. replace (from_segment t + (1 + (k + (r - 1 - a)))) with (from_segment t + (1 + k) + (r - 1 - a)) by lia. rewrite <- Nat.add_mod_idemp_l by lia. fold a. rewrite Nat.mod_small; lia. }
    assert (O2 : owner p 0 = h).
    { rewrite <- (H2 (k + (r - a))) by lia. f_equal. replace (from_segment t + (1 + (k + (r - a)))) with (from_segment t + (1 + k) + (r - a)) by lia. rewrite <- Nat.add_mod_idemp_l by lia. fold a. replace (a + (r - a)) with r by lia. symmetry. apply Nat.mod_same. lia. }
    pose proof (spn_pos p HN) as Hw. unfold owner in O1, O2. rewrite Nat.div_0_l in O2 by lia. cbn in O2.
    pose proof (spn_mul p HN) as Hm2.
    assert (N - 1 <= (r - 1) / (r / N)) by (apply Nat.div_le_lower_bound; nia). lia.
  - intros Ea Hm2. destruct m as [|[|m']]; try lia. rewrite EW. eexists. f_equal. unfold arc. cbn [seq map app]. rewrite Nat.add_0_r, (Nat.mod_small a) by lia. rewrite Ea at 1. f_equal.
    replace (a + 1) with r by lia. rewrite Nat.mod_same by lia. reflexivity.
Qed.

Variable ts : list transition.
Variable n : nat.
Hypothesis Hts : forall t, In t ts -> fine p t /\ usable r t = true.
Hypothesis Hsorted : StronglySorted lt (map from_id ts).
Hypothesis Hbound : forall t, In t ts -> from_id t < n.
Notation W := (walk label r ts).

Lemma in_walk : forall x, In x W -> exists t, In t ts /\ In x (map (labelled label) (visits r t)) /\ n_from x = from_id t.
Proof.
  intros x Hx. unfold walk, path in Hx. apply in_map_iff in Hx. destruct Hx as (c & <- & Hc). apply in_concat in Hc. destruct Hc as (l & Hl & Hc). apply in_map_iff in Hl. destruct Hl as (t & <- & Ht).
  exists t. ssplit; [exact Ht|now apply in_map|]. cbn. exact (in_visits p t c Hc).
Qed.
Lemma walk_cons : forall t l, walk label r (t :: l) = map (labelled label) (visits r t) ++ walk label r l.
Proof. intros. unfold walk, path. cbn [map concat]. apply map_app. Qed.
Lemma ids_nodup : NoDup (map from_id ts).
Proof.
  clear Hts Hbound. induction ts as [|t l IH]; [constructor|]. cbn [map] in *. inversion Hsorted as [|? ? S F]; subst. constructor; [|now apply IH].
  intros Hi. rewrite Forall_forall in F. specialize (F _ Hi). lia.
Qed.
Lemma labelled_inj : forall a b, labelled label a = labelled label b -> a = b.
Proof. intros [a1 a2] [b1 b2] E. injection E as E1 E2 E3. cbn in *. congruence. Qed.
Lemma walk_nodup : NoDup W.
Proof.
  unfold walk. assert (ND : NoDup (path r ts)) by (apply (path_nodup p HN); [intros t Ht; now apply Hts|apply ids_nodup]).
  clear - ND. induction ND as [|x l Hn ND IH]; [constructor|]. cbn [map]. constructor; [|exact IH]. intros Hi. apply in_map_iff in Hi. destruct Hi as (y & E & Hy). apply labelled_inj in E. congruence.
Qed.
Lemma visits_from : forall t, map n_from (map (labelled label) (visits r t)) = repeat (from_id t) (span p t).
Proof.
  intros t. unfold visits. rewrite !map_map. cbn [labelled n_from fst]. change (ccw r (pseg (fst t)) (pseg (snd t))) with (span p t). generalize 1. induction (span p t) as [|d IH]; intros s; [reflexivity|]. cbn [seq map repeat]. now rewrite IH.
Qed.
Lemma walk_sorted : StronglySorted le (map n_from W).
Proof.
  clear Hts Hbound. induction ts as [|t l IH]; [constructor|]. rewrite walk_cons, map_app. inversion Hsorted as [|? ? S F]; subst. apply sorted_app.
  - rewrite visits_from. generalize (from_id t). intros i. induction (span p t) as [|d IHd]; [constructor|]. cbn [repeat]. constructor; [exact IHd|]. apply Forall_forall. intros y Hy. apply repeat_spec in Hy. lia.
  - now apply IH.
  - intros x y Hx Hy. rewrite visits_from in Hx. apply repeat_spec in Hx. subst x. rewrite Forall_forall in F.
    apply in_map_iff in Hy. destruct Hy as (z & <- & Hz). unfold walk, path in Hz. apply in_map_iff in Hz. destruct Hz as (c & <- & Hc). apply in_concat in Hc. destruct Hc as (v & Hv & Hc). apply in_map_iff in Hv. destruct Hv as (t' & <- & Ht').
    cbn. rewrite (in_visits p t' c Hc). specialize (F (from_id t') (in_map from_id l t' Ht')). lia.
Qed.
Definition block (i : nat) : list node := filter (fun x => n_from x =? i) W.
Lemma walk_blocks : W = concat (map block (seq 0 n)).
Proof.
  unfold block. rewrite <- by_key by exact walk_sorted. symmetry. apply filter_all_true. intros x Hx. apply Nat.ltb_lt. destruct (in_walk x Hx) as (t & Ht & _ & ->). now apply Hbound.
Qed.
Lemma block_cases : forall i, block i = [] \/ exists t, In t ts /\ from_id t = i /\ block i = map (labelled label) (visits r t).
Proof.
  intros i. unfold block. pose proof ids_nodup as ND. clear Hts Hbound Hsorted. induction ts as [|t l IH]; [now left|]. cbn [map] in ND. inversion ND as [|? ? Hn ND']; subst.
  rewrite walk_cons, filter_app. destruct (Nat.eq_dec (from_id t) i) as [E|E].
  - right. exists t. ssplit; [now left|exact E|]. rewrite filter_all_true.
    2:{ intros x Hx. apply Nat.eqb_eq. apply in_map_iff in Hx. destruct Hx as (c & <- & Hc). cbn. rewrite (in_visits p t c Hc). exact E. }
    enough (E0 : filter (fun x => n_from x =? i) (walk label r l) = []) by (rewrite E0; apply app_nil_r).
    apply filter_nil. intros x Hx. apply Nat.eqb_neq. unfold walk, path in Hx. apply in_map_iff in Hx. destruct Hx as (c & <- & Hc). apply in_concat in Hc. destruct Hc as (v & Hv & Hc). apply in_map_iff in Hv. destruct Hv as (t' & <- & Ht').
    cbn. rewrite (in_visits p t' c Hc). intros E'. apply Hn. rewrite E, <- E'. now apply in_map.
  - assert (E0 : filter (fun x => n_from x =? i) (map (labelled label) (visits r t)) = []).
    { apply filter_nil. intros x Hx. apply Nat.eqb_neq. apply in_map_iff in Hx. destruct Hx as (c & <- & Hc). cbn. rewrite (in_visits p t c Hc). exact E. }
    rewrite E0. cbn [app]. destruct (IH ND') as [I|(t' & Ht' & Ei & I)]; [now left|]. right. exists t'. ssplit; [now right|exact Ei|exact I].
Qed.

(** The nodes of a point as they come from the store. *)
Lemma stored_block : forall store i, stored_by_segment p h W store ->
  filter (fun x => n_from x =? i) store = by_segment r (filter own (block i)).
Proof.
  intros store i (bucket & -> & HB). rewrite filter_concat_map. unfold by_segment. f_equal. apply map_ext_in. intros s Hs. apply in_seq in Hs. specialize (HB s ltac:(lia)).
  apply filter_perm with (f := fun x => n_from x =? i) in HB.
  assert (ER : filter (fun x => n_from x =? i) (if owner p s =? h then filter (fun x => n_segment x =? s) W else []) = filter (fun x => n_segment x =? s) (filter own (block i))).
  { unfold block. destruct (owner p s =? h) eqn:Eo.
    - rewrite !filter_and. apply filter_ext. intros x. unfold own. destruct (Nat.eqb_spec (n_segment x) s) as [->|_]; [rewrite Eo|]; destruct (n_from x =? i); cbn; rewrite ?andb_false_r; reflexivity.
    - cbn [filter]. symmetry. apply filter_nil. intros x Hx. apply filter_In in Hx. destruct Hx as (_ & Hx). apply Nat.eqb_neq. intros E. unfold own in Hx. rewrite E in Hx. congruence. }
  rewrite ER in HB. 
  assert (Len : length (filter (fun x => n_segment x =? s) (filter own (block i))) <= 1).
  { assert (ND : NoDup (filter (fun x => n_segment x =? s) (filter own (block i)))) by (apply NoDup_filter, NoDup_filter, NoDup_filter, walk_nodup).
    assert (Same : forall x y, In x (filter (fun x => n_segment x =? s) (filter own (block i))) -> In y (filter (fun x => n_segment x =? s) (filter own (block i))) -> x = y).
    { intros x y Hx Hy. apply filter_In in Hx, Hy. destruct Hx as (Hx & Sx), Hy as (Hy & Sy). apply filter_In in Hx, Hy. destruct Hx as (Hx & _), Hy as (Hy & _). apply filter_In in Hx, Hy. destruct Hx as (Hx & Ix), Hy as (Hy & Iy).
      apply Nat.eqb_eq in Sx, Sy, Ix, Iy. unfold walk in Hx, Hy. apply in_map_iff in Hx, Hy. destruct Hx as (a & <- & _), Hy as (b & <- & _). cbn in *. f_equal. destruct a, b; cbn in *; congruence. }
    destruct (filter (fun x => n_segment x =? s) (filter own (block i))) as [|x [|y l]]; [cbn; lia|cbn; lia|]. exfalso.
    rewrite (Same x y) in ND; [|now left|right; now left]. inversion ND as [|? ? Hn _]; subst. apply Hn. now left. }
  destruct (filter (fun x => n_segment x =? s) (filter own (block i))) as [|x [|y l]]; [|apply Permutation_length_1_inv; now apply Permutation_sym|cbn in Len; lia].
  apply Permutation_nil. now apply Permutation_sym.
Qed.

Variable store : list node.
Variable foreign0 : foreign_nodes.
Hypothesis Hstore : stored_by_segment p h W store.

Lemma own_one : N = 1 -> forall x, own x = true.
Proof. intros E x. unfold own, owner. rewrite E. cbn [Nat.sub]. rewrite Nat.min_0_r. apply Nat.eqb_eq. lia. Qed.

Lemma filter_own_parts : forall pre mid post, (forall x, In x pre -> own x = false) -> (forall x, In x mid -> own x = true) -> (forall x, In x post -> own x = false) ->
  filter own (pre ++ mid ++ post) = mid.
Proof. intros pre mid post H1 H2 H3. rewrite !filter_app, (filter_nil _ _ pre H1), (filter_all_true _ _ mid H2), (filter_nil _ _ post H3). apply app_nil_r. Qed.

Theorem estimate_panics : N = 1 -> starts_across r W -> estimate_edges n store foreign0 = Panic UnwrapNone.
Proof.
  intros E1 (x & y & rest & EW & Sx & Sy & Exy). pose proof (own_one E1) as O. set (i := n_from x).
  assert (Hi : i < n). { destruct (in_walk x) as (t & Ht & _ & Ei); [rewrite EW; now left|]. unfold i. rewrite Ei. now apply Hbound. }
  assert (Hge : forall z, In z W -> i <= n_from z).
  { pose proof walk_sorted as S. rewrite EW in *. cbn [map] in S. inversion S as [|? ? _ F]; subst. rewrite Forall_forall in F. intros z [<-|Hz]; [unfold i; lia|]. apply F. exact (in_map n_from (y :: rest) z Hz). }
  assert (Before : forall j, j <= i -> foldM (connect_step store) (seq 0 j) ([], None, foreign0) = Ok ([], None, foreign0)).
  { induction j as [|j IH]; intros Hj; [reflexivity|]. rewrite seq_S, foldM_app, IH by lia. cbn [bind foldM Nat.add]. unfold connect_step, nodes_by_point. rewrite (stored_block store j Hstore).
    assert (Eb : block j = []) by (apply filter_nil; intros z Hz; apply Nat.eqb_neq; pose proof (Hge z Hz); lia). rewrite Eb.
    assert (E0 : by_segment r (filter own []) = []) by (unfold by_segment; apply concat_nils; reflexivity). rewrite E0. reflexivity. }
  assert (Step : connect_step store ([], None, foreign0) i = Panic UnwrapNone).
  { unfold connect_step, nodes_by_point. rewrite (stored_block store i Hstore).
    assert (Eb : exists l, block i = x :: y :: l).
    { unfold block. rewrite EW. cbn [filter]. rewrite Nat.eqb_refl, <- Exy, Nat.eqb_refl. eexists; reflexivity. }
    destruct Eb as (l & Eb). destruct (block_cases i) as [E|(t & Ht & Ei & E)]; [congruence|].
    destruct (Hts t Ht) as (Hf & Hu). destruct (visits_split t Hf Hu) as (pre & a & m & post & Ev & Ha & Hm & Hpre & Hown & Hpost & Hns & Hac).
    destruct pre as [|z pre]; [|pose proof (Hpre z (or_introl eq_refl)) as X; rewrite O in X; discriminate].
    destruct post as [|z post]; [|pose proof (Hpost z (or_introl eq_refl)) as X; rewrite O in X; discriminate].
    cbn [app] in Ev. rewrite app_nil_r in Ev. rewrite E, Ev. rewrite filter_all_true by (intros; apply O).
    assert (Ea : arc r (labels t) a m = x :: y :: l) by congruence.
    destruct m as [|[|m]]; [discriminate|discriminate|]. pose proof (half_bounds r) as Hb.
    destruct (arc_connect r (labels t) ltac:(reflexivity) None a (S (S m)) Ha ltac:(lia)) as (C & _ & Cn).
    destruct (by_segment r (arc r (labels t) a (S (S m)))) as [|b0 bs]; [congruence|].
    rewrite C; [reflexivity|reflexivity| |lia]. 
    unfold arc in Ea. cbn [seq map] in Ea. injection Ea as Ea _ _. rewrite <- Sx, <- Ea. cbn. rewrite Nat.add_0_r. symmetry. now apply Nat.mod_small. }
  unfold estimate_edges, connect_nodes. replace (seq 0 n) with (seq 0 i ++ i :: seq (S i) (n - S i)).
  - rewrite foldM_app, Before by lia. cbn [bind foldM]. rewrite Step. reflexivity.
  - replace n with (i + S (n - S i)) at 2 by lia. rewrite seq_app. reflexivity.
Qed.

Hypothesis Hans : answers_complete p h W foreign0.
Hypothesis Hstart : N = 1 -> ~ starts_across r W.

Lemma step_spec : forall i w1 w2 foreign, i < n -> W = w1 ++ block i ++ w2 -> (forall k, i <= fst k -> lookup key_eqb k foreign = lookup key_eqb k foreign0) ->
  exists foreign', connect_step store (edges_of own w1 (block i ++ w2), previous_of own w1 (block i ++ w2), foreign) i =
    Ok (edges_of own (w1 ++ block i) w2, previous_of own (w1 ++ block i) w2, foreign') /\ (forall k, S i <= fst k -> lookup key_eqb k foreign' = lookup key_eqb k foreign0).
Proof.
  intros i w1 w2 foreign Hi EW Hfor. unfold connect_step, nodes_by_point. rewrite (stored_block store i Hstore).
  assert (Weak : forall k, S i <= fst k -> lookup key_eqb k foreign = lookup key_eqb k foreign0) by (intros k Hk; apply Hfor; lia).
  destruct (block_cases i) as [E|(t & Ht & Ei & E)].
  - rewrite E. cbn [filter]. assert (E0 : by_segment r [] = []) by (unfold by_segment; apply concat_nils; reflexivity). rewrite E0. cbn [app]. rewrite app_nil_r. exists foreign. split; [reflexivity|exact Weak].
  - destruct (Hts t Ht) as (Hf & Hu). destruct (visits_split t Hf Hu) as (pre & a & m & post & Ev & Ha & Hm & Hpre & Hown & Hpost & Hns & Hac). rewrite E, Ev in *. rewrite filter_own_parts by assumption.
    destruct (Nat.eq_dec m 0) as [->|Hm0].
    + cbn [arc map seq app] in *. change (arc r (labels t) a 0) with (@nil node) in *. cbn [app] in *. assert (E0 : by_segment r [] = []) by (unfold by_segment; apply concat_nils; reflexivity). rewrite E0.
      assert (Hv : forall x, In x (pre ++ post) -> own x = false) by (intros x Hx; apply in_app_or in Hx; destruct Hx; auto).
      assert (Hn : pre ++ post <> []).
      { rewrite <- Ev. intros Hn. apply map_eq_nil in Hn. now apply (visits_nonempty p HN t Hu). }
      destruct (step_foreign own w1 (pre ++ post) w2 Hv Hn) as (S1 & S2 & S3). rewrite S1, S2, S3. exists foreign. split; [reflexivity|exact Weak].
    + pose proof (half_bounds r) as Hhalf.
      destruct (arc_connect r (labels t) ltac:(reflexivity) (previous_of own w1 ((pre ++ arc r (labels t) a m ++ post) ++ w2)) a m Ha ltac:(lia)) as (_ & C & Cn).
      destruct (by_segment r (arc r (labels t) a m)) as [|b0 bs] eqn:Eb; [congruence|]. clear Cn.
      rewrite C.
      2:{ destruct (previous_of own w1 ((pre ++ arc r (labels t) a m ++ post) ++ w2)) eqn:Ep; [left; discriminate|]. right. destruct (Nat.eq_dec a (r - 1)) as [Ea|]; [|now left]. right.
          destruct (le_lt_dec 2 m) as [Hm2|]; [|lia]. exfalso. destruct (le_lt_dec 2 N) as [H2|H2]; [specialize (Hns H2 ltac:(lia)); lia|]. assert (E1 : N = 1) by lia. pose proof (own_one E1) as O. apply (Hstart E1).
          destruct pre as [|z pre]; [|pose proof (Hpre z (or_introl eq_refl)) as X; rewrite O in X; discriminate].
          destruct (Hac Ea Hm2) as (post' & Ep').
          assert (Ew : w1 = []).
          { unfold previous_of in Ep. destruct (last_error w1) as [q|] eqn:El.
            - rewrite O in Ep. destruct (hd_error _) as [y|]; [rewrite O in Ep|]; discriminate.
            - destruct w1 as [|u w1]; [reflexivity|]. rewrite last_error_last in El. discriminate. }
          rewrite Ew in EW. cbn [app] in EW, Ep'. rewrite Ep' in EW. cbn [app] in EW. exists (labels t (r - 1)), (labels t 0), (post' ++ w2). ssplit; [exact EW|reflexivity|reflexivity|reflexivity]. }
      cbn [bind]. destruct (arc r (labels t) a m) as [|x xs] eqn:Earc; [destruct m; [lia|discriminate]|].
      rewrite last_error_last. cbv zeta.
      assert (Hfr : forall y, In y (x :: xs) -> n_from y = i).
      { intros y Hy. rewrite <- Earc in Hy. unfold arc in Hy. apply in_map_iff in Hy. destruct Hy as (j & <- & _). cbn. exact Ei. }
      set (c := last xs x).
      assert (Ec : exists ps, x :: xs = ps ++ [c]).
      { exists (removelast (x :: xs)). unfold c. rewrite <- (last_cons _ xs x x). apply app_removelast_last. discriminate. }
      destruct Ec as (ps & Ec).
      assert (Hc : In c (x :: xs)) by (rewrite Ec; apply in_or_app; right; now left).
      destruct (step_own own w1 pre x xs post w2 Hpre Hown Hpost) as (S1 & S2). fold c in S1, S2.
      assert (EV : (pre ++ (x :: xs) ++ post) ++ w2 = pre ++ x :: xs ++ post ++ w2) by (rewrite <- !app_assoc; reflexivity). rewrite EV in *. change (pre ++ (x :: xs) ++ post) with (pre ++ x :: xs ++ post). rewrite S1, S2.
      assert (EWc : W = (w1 ++ pre ++ ps) ++ c :: (post ++ w2)).
      { rewrite EW. change (x :: xs ++ post ++ w2) with ((x :: xs) ++ post ++ w2). rewrite Ec. rewrite <- !app_assoc. reflexivity. }
      rewrite Hfor by (cbn; lia). destruct Hans as (A1 & A2).
      assert (Hown_c : owner p (n_segment c) = h) by (apply Nat.eqb_eq; apply (Hown c Hc)).
      assert (InW : In c W) by (rewrite EWc; apply in_or_app; right; now left).
      assert (Next : forall y, In (c, y) (pairs W) -> hd_error (post ++ w2) = Some y).
      { intros y Hy. rewrite EWc in Hy. apply pairs_next in Hy; [exact Hy|]. rewrite <- EWc. exact walk_nodup. }
      rewrite <- (Hfr c Hc).
      destruct (hd_error (post ++ w2)) as [y|] eqn:Ehd; [destruct (own y) eqn:Eoy|].
      * rewrite (A2 c InW Hown_c).
        2:{ intros y' Hy'. apply Next in Hy'. injection Hy' as <-. apply Nat.eqb_eq. exact Eoy. }
        rewrite app_nil_r. exists foreign. rewrite (Hfr c Hc). split; [reflexivity|exact Weak].
      * assert (Hy : In (c, y) (pairs W)).
        { rewrite EWc, pairs_mid. apply in_or_app. right. destruct (post ++ w2) as [|z l]; [discriminate|]. injection Ehd as ->. now left. }
        rewrite (A1 c y Hy Hown_c) by (apply Nat.eqb_neq; exact Eoy). eexists. split; [reflexivity|].
        intros k Hk. rewrite (lookup_remove_other key_eqb key_eqb_spec); [apply Weak; rewrite <- (Hfr c Hc); exact Hk|]. intros ->. cbn in Hk. lia.
      * rewrite (A2 c InW Hown_c).
        2:{ intros y' Hy'. apply Next in Hy'. discriminate. }
        rewrite app_nil_r. exists foreign. rewrite (Hfr c Hc). split; [reflexivity|exact Weak].
Qed.

Lemma steps_spec : forall i, i <= n -> exists foreign, 
  foldM (connect_step store) (seq 0 i) ([], None, foreign0) =
    Ok (edges_of own (concat (map block (seq 0 i))) (concat (map block (seq i (n - i)))), previous_of own (concat (map block (seq 0 i))) (concat (map block (seq i (n - i)))), foreign) /\
  (forall k, i <= fst k -> lookup key_eqb k foreign = lookup key_eqb k foreign0).
Proof.
  induction i as [|i IH]; intros Hi.
  - exists foreign0. split; [|reflexivity]. cbn [seq map concat foldM]. f_equal. f_equal. f_equal. unfold edges_of, previous_of. cbn. destruct (hd_error _); reflexivity.
  - destruct (IH ltac:(lia)) as (f & E & Hf). rewrite seq_S, foldM_app, E. cbn [bind foldM Nat.add].
    assert (E2 : concat (map block (seq i (n - i))) = block i ++ concat (map block (seq (S i) (n - S i)))).
    { replace (n - i) with (S (n - S i)) by lia. reflexivity. }
    rewrite E2. destruct (step_spec i (concat (map block (seq 0 i))) (concat (map block (seq (S i) (n - S i)))) f ltac:(lia)) as (f' & E' & Hf').
    { rewrite <- E2, <- concat_app, <- map_app. replace (seq 0 i ++ seq i (n - i)) with (seq 0 n); [apply walk_blocks|]. replace n with (i + (n - i)) at 1 by lia. apply seq_app. }
    { exact Hf. }
    unfold edge, foreign_nodes in *. rewrite E'. cbn [bind]. exists f'. split; [|exact Hf']. rewrite map_app, concat_app. cbn [map concat]. now rewrite app_nil_r.
Qed.

Theorem estimate_spec : estimate_edges n store foreign0 = Ok (filter (fun e => owner p (n_segment (fst e)) =? h) (pairs W)).
Proof.
  unfold estimate_edges, connect_nodes. destruct (steps_spec n (le_n n)) as (f & E & _). rewrite E. cbn [bind]. rewrite Nat.sub_diag. cbn [seq map concat]. rewrite <- walk_blocks. 
  assert (Ee : edges_of own W [] = filter (fun e => owner p (n_segment (fst e)) =? h) (pairs W)).
  { unfold edges_of. cbn [hd_error opt_list]. destruct (previous_of own W []); rewrite app_nil_r; reflexivity. }
  rewrite Ee. f_equal. apply sort_sorted. apply sorted_filter. apply sorted_pairs. exact walk_sorted.
Qed.
End Host.
