(** Peaks, nearest peaks and labels. *)
From Coq Require Import List Arith Lia Bool Reals Lra Sorted.
From Flocq Require Import Core.
From Verif.Base Require Import Res Assoc ListX.
From Verif.Kde Require Import Model Spec.
Import ListNotations.
Local Open Scope nat_scope.

Lemma at_index_ok : forall A (l : list A) i, i < length l -> exists x, nth_error l i = Some x /\ at_index l i = Ok x.
Proof. intros A l i H. unfold at_index. destruct (nth_error l i) as [x|] eqn:E; [eauto|]. apply nth_error_None in E. lia. Qed.
Lemma nth_error_combine : forall A B (l : list A) (r : list B) i,
  nth_error (combine l r) i = match nth_error l i, nth_error r i with Some x, Some y => Some (x, y) | _, _ => None end.
Proof.
  intros A B l; induction l as [|a l IH]; intros [|b r] [|i]; cbn [combine nth_error]; try reflexivity.
  - now destruct (nth_error l i).
  - apply IH.
Qed.

Section Peaks.
Context {A : Type} (gt : A -> A -> bool) (irr : forall x, gt x x = false).
Lemma exceeds_ok : forall s e, s <= length e -> 1 <= length e -> exists c, exceeds_neighbours gt s e = Ok c /\ length c = length e /\
  forall i, i < length e -> exists x p q, nth_error e i = Some x /\ nth_error e (Nat.min (i + s) (length e - 1)) = Some p /\ nth_error e (i - s) = Some q /\ nth_error c i = Some (gt x p && gt x q).
Proof.
  intros s e Hs Hn. unfold exceeds_neighbours. rewrite usub_ok by lia. cbn [bind].
  destruct (at_index_ok _ e (length e - 1)) as (last & Hl & ->); [lia|]. cbn [bind]. destruct (at_index_ok _ e 0) as (first & Hf & ->); [lia|]. cbn [bind].
  rewrite usub_ok by lia. cbn [bind]. eexists. split; [reflexivity|].
  assert (E : forall i, i < length e -> nth_error (slice s (length e) e ++ repeat last s) i = nth_error e (Nat.min (i + s) (length e - 1))).
  { intros i Hi. destruct (Nat.lt_ge_cases i (length e - s)) as [H|H].
    - rewrite nth_error_app1 by (rewrite slice_length; lia). unfold slice. rewrite nth_error_firstn, nth_error_skipn. destruct (Nat.ltb_spec i (length e - s)); [|lia]. f_equal. lia.
    - rewrite nth_error_app2 by (rewrite slice_length; lia). rewrite slice_length. rewrite (nth_error_nth' _ last) by (rewrite repeat_length; lia).
      rewrite nth_repeat. rewrite <- Hl. f_equal. lia. }
  assert (E2 : forall i, i < length e -> nth_error (repeat first s ++ slice 0 (length e - s) e) i = nth_error e (i - s)).
  { intros i Hi. destruct (Nat.lt_ge_cases i s) as [H|H].
    - rewrite nth_error_app1 by (rewrite repeat_length; lia). rewrite (nth_error_nth' _ first) by (rewrite repeat_length; lia). rewrite nth_repeat, <- Hf. f_equal. lia.
    - rewrite nth_error_app2 by (rewrite repeat_length; lia). rewrite repeat_length. unfold slice. rewrite nth_error_firstn, nth_error_skipn.
      destruct (Nat.ltb_spec (i - s) (length e - s - 0)); [|lia]. f_equal. }
  split.
  - rewrite map_length, !combine_length, !app_length, !repeat_length, !slice_length. lia.
  - intros i Hi. destruct (nth_error e i) as [x|] eqn:Ex; [|apply nth_error_None in Ex; lia].
    destruct (nth_error e (Nat.min (i + s) (length e - 1))) as [p|] eqn:Ep; [|apply nth_error_None in Ep; lia].
    destruct (nth_error e (i - s)) as [q|] eqn:Eq; [|apply nth_error_None in Eq; lia].
    exists x, p, q. ssplit; auto. rewrite nth_error_map, !nth_error_combine. rewrite E, E2, Ex, Ep, Eq by assumption. reflexivity.
Qed.
(** What the loop has established for position [i] after the shifts [1..s]. *)
Definition above (e : list A) (s i : nat) : Prop :=
  forall t x p q, 1 <= t <= s -> nth_error e i = Some x -> nth_error e (Nat.min (i + t) (length e - 1)) = Some p -> nth_error e (i - t) = Some q -> gt x p = true /\ gt x q = true.
Lemma peak_loop_ok : forall e k s results, s + k <= length e -> 1 <= length e -> length results = length e ->
  (forall i, i < length e -> nth_error results i = Some true <-> above e s i) ->
  exists r, peak_loop gt (seq (S s) k) e results = Ok r /\ length r = length e /\ forall i, i < length e -> nth_error r i = Some true <-> above e (s + k) i.
Proof.
  intros e k; induction k as [|k IH]; intros s results Hk Hn Hl Hr; cbn [seq peak_loop].
  - exists results. rewrite Nat.add_0_r. auto.
  - destruct (exceeds_ok (S s) e) as (c & -> & Lc & Hc); [lia|assumption|]. cbn [bind].
    set (results' := map (fun '(a, b) => a && b) (combine results c)).
    assert (L' : length results' = length e) by (unfold results'; rewrite map_length, combine_length; lia).
    assert (H' : forall i, i < length e -> nth_error results' i = Some true <-> above e (S s) i).
    { intros i Hi. destruct (Hc i Hi) as (x & p & q & Ex & Ep & Eq & Ec). unfold results'. rewrite nth_error_map, nth_error_combine, Ec.
      specialize (Hr i Hi). destruct (nth_error results i) as [b|] eqn:Eb; [|apply nth_error_None in Eb; lia]. cbn [option_map]. split.
      - intros H. injection H as H. apply andb_prop in H. destruct H as (-> & H). apply andb_prop in H. destruct H as (H1 & H2).
        destruct Hr as (Hr & _). specialize (Hr eq_refl). intros t y p' q' Ht Ey Ep' Eq'. destruct (Nat.eq_dec t (S s)) as [->|Hne].
        + rewrite Ex in Ey. rewrite Ep in Ep'. rewrite Eq in Eq'. injection Ey as <-. injection Ep' as <-. injection Eq' as <-. auto.
        + apply (Hr t y p' q'); auto. lia.
      - intros H. destruct (H (S s) x p q) as (-> & ->); auto; [lia|]. assert (above e s i) as Ha.
        { intros t y p' q' Ht. apply H. lia. }
        apply Hr in Ha. injection Ha as ->. reflexivity. }
    destruct (existsb (fun b => b) results') eqn:Eb.
    + destruct (IH (S s) results') as (r & -> & Lr & Hr'); auto; [lia|]. exists r. ssplit; auto. now replace (s + S k) with (S s + k) by lia.
    + exists results'. ssplit; auto. intros i Hi. split.
      * intros Ht. apply nth_error_In in Ht. exfalso. assert (existsb (fun b => b) results' = true) by (apply existsb_exists; eauto). congruence.
      * intros Ha. apply H'; [assumption|]. intros t x p q Ht. apply Ha. lia.
Qed.
Lemma above_peak : forall e o i, 1 <= o -> i < length e -> above e o i <-> is_peak gt o e i.
Proof.
  intros e o i Ho Hi. destruct (nth_error e i) as [x|] eqn:Ex; [|apply nth_error_None in Ex; lia]. unfold is_peak. split.
  - intros H.
    assert (Hp : forall t, 1 <= t <= o -> exists p q, nth_error e (Nat.min (i + t) (length e - 1)) = Some p /\ nth_error e (i - t) = Some q /\ gt x p = true /\ gt x q = true).
    { intros t Ht. destruct (nth_error e (Nat.min (i + t) (length e - 1))) as [p|] eqn:Ep; [|apply nth_error_None in Ep; lia].
      destruct (nth_error e (i - t)) as [q|] eqn:Eq; [|apply nth_error_None in Eq; lia]. exists p, q. destruct (H t x p q) as (H1 & H2); auto. }
    destruct (Hp 1) as (p & q & Ep & Eq & Hgp & Hgq); [lia|]. ssplit.
    + destruct i as [|i]; [|lia]. change (0 - 1) with 0 in Eq. rewrite Ex in Eq. injection Eq as <-. congruence.
    + destruct (Nat.eq_dec i (length e - 1)) as [E|]; [|lia]. rewrite Nat.min_r in Ep by lia. rewrite <- E, Ex in Ep. injection Ep as <-. congruence.
    + exists x. split; [exact Ex|]. intros j y Ej Hne H1 H2. assert (j < length e) by (apply nth_error_Some; congruence).
      destruct (Nat.lt_ge_cases j i).
      * destruct (Hp (i - j)) as (p' & q' & _ & Eq' & _ & G); [lia|]. replace (i - (i - j)) with j in Eq' by lia. congruence.
      * destruct (Hp (j - i)) as (p' & q' & Ep' & _ & G & _); [lia|]. replace (Nat.min (i + (j - i)) (length e - 1)) with j in Ep' by lia. congruence.
  - intros (H0 & H1 & y & Ey & H) t z p q Ht Ez Ep Eq. rewrite Ex in Ey, Ez. injection Ey as <-. injection Ez as <-. split.
    + apply (H (Nat.min (i + t) (length e - 1))); auto; lia.
    + apply (H (i - t)); auto; lia.
Qed.
Lemma filter_combine_seq : forall (r : list bool) k i, In i (map fst (filter snd (combine (seq k (length r)) r))) <-> k <= i /\ nth_error r (i - k) = Some true.
Proof.
  intros r; induction r as [|b r IH]; intros k i; cbn [length seq combine filter].
  - cbn. split; [tauto|]. intros (_ & H). destruct (i - k); discriminate.
  - destruct b; cbn [snd map fst In]; rewrite ?IH; clear IH.
    + split.
      * intros [->|(H1 & H2)]; [rewrite Nat.sub_diag; auto|]. split; [lia|]. now replace (i - k) with (S (i - S k)) by lia.
      * intros (H1 & H2). destruct (Nat.eq_dec k i) as [->|]; [auto|]. right. split; [lia|]. now replace (i - k) with (S (i - S k)) in H2 by lia.
    + split.
      * intros (H1 & H2). split; [lia|]. now replace (i - k) with (S (i - S k)) by lia.
      * intros (H1 & H2). destruct (Nat.eq_dec k i) as [->|]; [rewrite Nat.sub_diag in H2; discriminate|]. split; [lia|]. now replace (i - k) with (S (i - S k)) in H2 by lia.
Qed.
Lemma Sorted_fst : forall (r : list bool) k, NoDup (map fst (filter snd (combine (seq k (length r)) r))) /\
  StronglySorted lt (map fst (filter snd (combine (seq k (length r)) r))).
Proof.
  intros r; induction r as [|b r IH]; intros k; cbn [length seq combine filter]; [split; constructor|].
  destruct (IH (S k)) as (N & S). destruct b; cbn [snd map fst]; [|auto]. split; constructor; auto.
  - rewrite filter_combine_seq. lia.
  - apply Forall_forall. intros i Hi. apply filter_combine_seq in Hi. lia.
Qed.
Theorem peaks : forall o e, 1 <= o <= length e -> exists is, find_peak_index gt o e = Ok is /\ StronglySorted lt is /\ forall i, In i is <-> is_peak gt o e i.
Proof.
  intros o e Ho. unfold find_peak_index. destruct (peak_loop_ok e o 0 (repeat true (length e))) as (r & E & L & H); [lia|lia|apply repeat_length| |].
  { intros i Hi. split; [|intros _; rewrite (nth_error_nth' _ true) by (rewrite repeat_length; lia); now rewrite nth_repeat]. intros _ t x p q Ht. lia. }
  rewrite E. cbn [bind]. rewrite <- L. eexists. split; [reflexivity|]. split; [apply Sorted_fst|]. intros i. rewrite filter_combine_seq, Nat.sub_0_r. split.
  - intros (_ & Hi). assert (i < length e) by (rewrite <- L; apply nth_error_Some; congruence). apply above_peak; [lia|assumption|]. now apply H.
  - intros Hp. split; [lia|]. assert (i < length e) by (destruct Hp; lia). apply H; [assumption|]. apply above_peak; [lia|assumption|exact Hp].
Qed.
End Peaks.

Section Closest.
Context {A D : Type} (cmp : D -> D -> option comparison) (dist : A -> A -> D) (v : D -> R).
(** [argmin]: the first position of the smallest value. *)
Lemma argmin_fold : forall l k i d, (forall a b, In a (d :: l) -> In b (d :: l) -> cmp a b = Some (Rcompare (v a) (v b))) ->
  exists j e, foldM (argmin_step cmp) (combine (seq k (length l)) l) (i, d) = Ok (j, e) /\
    ((j = i /\ e = d /\ forall a, In a l -> (v d <= v a)%R) \/
     (k <= j /\ nth_error l (j - k) = Some e /\ (v e < v d)%R /\ (forall a, In a l -> (v e <= v a)%R) /\ forall m a, m < j - k -> nth_error l m = Some a -> (v e < v a)%R)).
Proof.
  intros l; induction l as [|a l IH]; intros k i d H; cbn [length seq combine foldM].
  - exists i, d. split; [reflexivity|]. left. ssplit; auto. intros a [].
  - unfold argmin_step at 1. cbn [snd]. rewrite (H a d) by (cbn; auto). destruct (Rcompare_spec (v a) (v d)) as [L|E|L]; cbn [bind].
    + destruct (IH (S k) k a) as (j & e & -> & Hj). { intros x y Hx Hy. apply H; cbn in *; tauto. }
      exists j, e. split; [reflexivity|]. right. destruct Hj as [(-> & -> & Ha)|(Hk & He & Hlt & Ha & Hf)].
      * rewrite Nat.sub_diag. ssplit; auto. { intros x [<-|Hx]; [lra|auto]. } intros m x Hm. lia.
      * ssplit; [lia| | | |].
        -- now replace (j - k) with (S (j - S k)) by lia.
        -- lra.
        -- intros x [<-|Hx]; [lra|auto].
        -- intros [|m] x Hm Hx; cbn in Hx; [injection Hx as <-; lra|]. apply (Hf m); [lia|assumption].
    + destruct (IH (S k) i d) as (j & e & -> & Hj). { intros x y Hx Hy. apply H; cbn in *; tauto. }
      exists j, e. split; [reflexivity|]. destruct Hj as [(-> & -> & Ha)|(Hk & He & Hlt & Ha & Hf)].
      * left. ssplit; auto. intros x [<-|Hx]; [lra|auto].
      * right. ssplit; [lia| | | |].
        -- now replace (j - k) with (S (j - S k)) by lia.
        -- lra.
        -- intros x [<-|Hx]; [lra|auto].
        -- intros [|m] x Hm Hx; cbn in Hx; [injection Hx as <-; lra|]. apply (Hf m); [lia|assumption].
    + destruct (IH (S k) i d) as (j & e & -> & Hj). { intros x y Hx Hy. apply H; cbn in *; tauto. }
      exists j, e. split; [reflexivity|]. destruct Hj as [(-> & -> & Ha)|(Hk & He & Hlt & Ha & Hf)].
      * left. ssplit; auto. intros x [<-|Hx]; [lra|auto].
      * right. ssplit; [lia| | | |].
        -- now replace (j - k) with (S (j - S k)) by lia.
        -- lra.
        -- intros x [<-|Hx]; [lra|auto].
        -- intros [|m] x Hm Hx; cbn in Hx; [injection Hx as <-; lra|]. apply (Hf m); [lia|assumption].
Qed.
Lemma argmin_ok : forall l, l <> [] -> (forall a b, In a l -> In b l -> cmp a b = Some (Rcompare (v a) (v b))) ->
  exists j e, argmin cmp l = Ok j /\ nth_error l j = Some e /\ (forall a, In a l -> (v e <= v a)%R) /\ forall m a, m < j -> nth_error l m = Some a -> (v e < v a)%R.
Proof.
  intros [|d l] Hne H; [congruence|]. unfold argmin. destruct (argmin_fold (d :: l) 0 0 d) as (j & e & E & Hj).
  { intros a b Ha Hb. apply H; cbn in *; tauto. }
  rewrite E. cbn [bind]. exists j, e. split; [reflexivity|]. destruct Hj as [(-> & -> & Ha)|(_ & He & _ & Ha & Hf)].
  - ssplit; auto. intros m a Hm. lia.
  - rewrite Nat.sub_0_r in *. auto.
Qed.
Lemma closest_ok : forall peaks x, peaks <> [] -> (forall p q, In p peaks -> In q peaks -> cmp (dist p x) (dist q x) = Some (Rcompare (v (dist p x)) (v (dist q x)))) ->
  exists c j, closest_peak cmp dist peaks x = Ok c /\ nth_error peaks j = Some c /\ (forall p, In p peaks -> (v (dist c x) <= v (dist p x))%R) /\
    forall m p, m < j -> nth_error peaks m = Some p -> (v (dist c x) < v (dist p x))%R.
Proof.
  intros peaks x Hne H. unfold closest_peak. destruct (argmin_ok (map (fun p => dist p x) peaks)) as (j & e & -> & He & Ha & Hf).
  - destruct peaks; cbn; congruence.
  - intros a b Ia Ib. apply in_map_iff in Ia, Ib. destruct Ia as (p & <- & Ip), Ib as (q & <- & Iq). auto.
  - cbn [bind]. rewrite nth_error_map in He. destruct (nth_error peaks j) as [c|] eqn:Ec; [|discriminate]. injection He as <-.
    exists c, j. unfold at_index. rewrite Ec. ssplit; auto.
    + intros p Hp. apply Ha. apply in_map_iff. eauto.
    + intros m p Hm Hp. apply (Hf m); [assumption|]. now rewrite nth_error_map, Hp.
Qed.
End Closest.
Lemma mapM_ok : forall A B (f : A -> res B) l bs, mapM f l = Ok bs <-> Forall2 (fun a b => f a = Ok b) l bs.
Proof.
  intros A B f l; induction l as [|a l IH]; intros bs; cbn [mapM].
  - split; [intros H; injection H as <-; constructor|intros H; now inversion H].
  - split.
    + intros H. apply bind_ok_inv in H. destruct H as (b & E & H). apply bind_ok_inv in H. destruct H as (bs' & E' & H). injection H as <-. constructor; [assumption|]. now apply IH.
    + intros H. inversion H as [|? b ? bs' E E']; subst. rewrite E. cbn [bind]. apply IH in E'. rewrite E'. reflexivity.
Qed.
Lemma mapM_total : forall A B (f : A -> res B) (P : A -> B -> Prop) l, (forall a, In a l -> exists b, f a = Ok b /\ P a b) -> exists bs, mapM f l = Ok bs /\ Forall2 P l bs.
Proof.
  intros A B f P l; induction l as [|a l IH]; intros H; cbn [mapM].
  - exists []. auto.
  - destruct (H a) as (b & -> & Hb); [cbn; auto|]. destruct IH as (bs & -> & F); [intros x Hx; apply H; cbn; auto|]. cbn [bind]. exists (b :: bs). auto.
Qed.

Section Labels.
Context {A : Type} (eqb : A -> A -> bool) (hashable : A -> bool).
Notation ceq := (center_eqb eqb).
(** [eqb] is an equivalence on the entries that occur. *)
Context (ok : A -> Prop) (refl_ok : forall x, ok x -> eqb x x = true) (sym_ok : forall x y, eqb x y = true -> eqb y x = true) (trans_ok : forall x y z, eqb x y = true -> eqb y z = true -> eqb x z = true).
Lemma ceq_refl : forall a, Forall ok a -> ceq a a = true.
Proof. intros a H; induction H as [|x a Hx H IH]; cbn; [reflexivity|]. now rewrite refl_ok, IH. Qed.
Lemma ceq_sym : forall a b, ceq a b = true -> ceq b a = true.
Proof.
  intros a; induction a as [|x a IH]; intros [|y b] H; cbn in *; try discriminate; [reflexivity|]. apply andb_prop in H. destruct H as (H1 & H2). rewrite (sym_ok _ _ H1), (IH _ H2). reflexivity.
Qed.
Lemma ceq_trans : forall a b c, ceq a b = true -> ceq b c = true -> ceq a c = true.
Proof.
  intros a; induction a as [|x a IH]; intros [|y b] [|z c] H1 H2; cbn in *; try discriminate; [reflexivity|]. apply andb_prop in H1, H2. destruct H1 as (H1 & H1'), H2 as (H2 & H2').
  rewrite (trans_ok _ _ _ H1 H2), (IH _ _ H1' H2'). reflexivity.
Qed.
(** State after the centres [done]: labels are first occurrences. *)
Definition labelled (done : list (list A)) (known : list (list A * nat)) (labels : list nat) (key : nat) : Prop :=
  map snd known = seq 0 key /\ length labels = length done /\
  (forall i c l, nth_error done i = Some c -> nth_error labels i = Some l -> exists r, nth_error known l = Some (r, l) /\ ceq c r = true) /\
  (forall k r, nth_error known k = Some (r, k) -> exists i, nth_error done i = Some r /\ nth_error labels i = Some k /\ forall i' l', i' < i -> nth_error labels i' = Some l' -> l' < k) /\
  (forall k k' r r', nth_error known k = Some (r, k) -> nth_error known k' = Some (r', k') -> ceq r r' = true -> k = k').
Lemma lookup_known : forall known key c v, map snd known = seq 0 key -> lookup ceq c known = Some v -> exists r, nth_error known v = Some (r, v) /\ ceq c r = true.
Proof.
  intros known key c v H. assert (G : forall l k, map snd l = seq k (length l) -> lookup ceq c l = Some v -> exists r, k <= v /\ nth_error l (v - k) = Some (r, v) /\ ceq c r = true).
  { intros l; induction l as [|[r n] l IH]; intros k Hl Hv; cbn in *; [discriminate|]. injection Hl as -> Hl. destruct (ceq c r) eqn:E.
    - injection Hv as <-. exists r. rewrite Nat.sub_diag. ssplit; auto.
    - destruct (IH (S k)) as (r' & Hk & Hr & Hc); auto. exists r'. ssplit; [lia| |assumption]. now replace (v - k) with (S (v - S k)) by lia. }
  intros Hv. destruct (G known 0) as (r & _ & Hr & Hc); auto.
  - rewrite H. f_equal. rewrite <- (map_length snd known), H. now rewrite seq_length.
  - rewrite Nat.sub_0_r in Hr. eauto.
Qed.
Lemma lookup_none : forall (known : list (list A * nat)) c r k, lookup ceq c known = None -> In (r, k) known -> ceq c r = false.
Proof.
  intros known; induction known as [|[r' k'] known IH]; intros c r k H Hin; cbn in *; [tauto|]. destruct (ceq c r') eqn:E; [discriminate|]. destruct Hin as [Hin|Hin]; [congruence|eauto].
Qed.
Lemma label_step_ok : forall done known labels key c, Forall ok c -> forallb hashable c = true -> labelled done known labels key ->
  exists known' labels' key', label_step eqb hashable (known, labels, key) c = Ok (known', labels', key') /\ labelled (done ++ [c]) known' labels' key' /\ 1 <= key'.
Proof.
  intros done known labels key c Hok Hh (HK & HL & HA & HB & HC). unfold label_step. rewrite Hh. cbn [negb].
  assert (LK : length known = key) by (rewrite <- (map_length snd), HK; apply seq_length).
  destruct (lookup ceq c known) as [k|] eqn:E.
  - destruct (lookup_known _ _ _ _ HK E) as (r & Hr & Hc). do 3 eexists. split; [reflexivity|].
    assert (k < key) by (rewrite <- LK; apply nth_error_Some; congruence). split; [|lia]. unfold labelled. ssplit.
    + assumption.
    + rewrite !app_length. cbn. lia.
    + intros i c' l Hi Hl. destruct (Nat.lt_ge_cases i (length done)) as [H1|H1].
      * rewrite nth_error_app1 in Hi, Hl by lia. eauto.
      * assert (i = length done). { assert (i < length (done ++ [c])) by (apply nth_error_Some; congruence). rewrite app_length in *. cbn in *. lia. }
        subst i. rewrite nth_error_app2, Nat.sub_diag in Hi by lia. rewrite nth_error_app2, HL, Nat.sub_diag in Hl by lia. injection Hi as <-. injection Hl as <-. eauto.
    + intros k' r' Hk'. destruct (HB _ _ Hk') as (i & H1 & H2 & H3). exists i. assert (i < length done) by (apply nth_error_Some; congruence). rewrite !nth_error_app1 by lia.
      ssplit; auto. intros i' l' Hlt Hl'. rewrite nth_error_app1 in Hl' by lia. eauto.
    + assumption.
  - do 3 eexists. split; [reflexivity|]. split; [|lia]. assert (HKnew : forall k r, nth_error (known ++ [(c, key)]) k = Some (r, k) -> nth_error known k = Some (r, k) /\ k < key \/ r = c /\ k = key).
    { intros k r Hk. destruct (Nat.lt_ge_cases k key).
      - rewrite nth_error_app1 in Hk by lia. auto.
      - assert (k = key). { assert (k < length (known ++ [(c, key)])) by (apply nth_error_Some; congruence). rewrite app_length in *. cbn in *. lia. }
        subst k. rewrite nth_error_app2, LK, Nat.sub_diag in Hk by lia. injection Hk as <-. auto. }
    unfold labelled. ssplit.
    + rewrite map_app, HK, seq_S. reflexivity.
    + rewrite !app_length. cbn. lia.
    + intros i c' l Hi Hl. destruct (Nat.lt_ge_cases i (length done)) as [H1|H1].
      * rewrite nth_error_app1 in Hi, Hl by lia. destruct (HA _ _ _ Hi Hl) as (r & Hr & Hc). exists r. split; [|assumption].
        rewrite nth_error_app1; [assumption|]. apply nth_error_Some. congruence.
      * assert (i = length done). { assert (i < length (done ++ [c])) by (apply nth_error_Some; congruence). rewrite app_length in *. cbn in *. lia. }
        subst i. rewrite nth_error_app2, Nat.sub_diag in Hi by lia. rewrite nth_error_app2, HL, Nat.sub_diag in Hl by lia. injection Hi as <-. injection Hl as <-. exists c.
        rewrite nth_error_app2, LK, Nat.sub_diag by lia. split; [reflexivity|]. now apply ceq_refl.
    + intros k r Hk. apply HKnew in Hk. destruct Hk as [(Hk & Hlt)|(-> & ->)].
      * destruct (HB _ _ Hk) as (i & H1 & H2 & H3). exists i. assert (i < length done) by (apply nth_error_Some; congruence). rewrite !nth_error_app1 by lia.
        ssplit; auto. intros i' l' Hlt' Hl'. rewrite nth_error_app1 in Hl' by lia. eauto.
      * exists (length done). rewrite !nth_error_app2, HL, Nat.sub_diag by lia. ssplit; auto. intros i' l' Hlt Hl'. rewrite nth_error_app1 in Hl' by lia.
        destruct (nth_error done i') as [c'|] eqn:Ec; [|apply nth_error_None in Ec; lia]. destruct (HA _ _ _ Ec Hl') as (r & Hr & _).
        rewrite <- LK. apply nth_error_Some. congruence.
    + intros k k' r r' Hk Hk' Hc. apply HKnew in Hk, Hk'. destruct Hk as [(Hk & Hlt)|(-> & ->)], Hk' as [(Hk' & Hlt')|(-> & ->)].
      * eauto.
      * apply nth_error_In in Hk. pose proof (lookup_none _ _ _ _ E Hk) as Hf. apply ceq_sym in Hc. congruence.
      * apply nth_error_In in Hk'. pose proof (lookup_none _ _ _ _ E Hk') as Hf. congruence.
      * reflexivity.
Qed.
Lemma labels_fold : forall cs done known labels key, Forall (Forall ok) cs -> Forall (fun c => forallb hashable c = true) cs -> labelled done known labels key ->
  exists known' labels' key', foldM (label_step eqb hashable) cs (known, labels, key) = Ok (known', labels', key') /\ labelled (done ++ cs) known' labels' key' /\ (cs <> [] -> 1 <= key').
Proof.
  intros cs; induction cs as [|c cs IH]; intros done known labels key H1 H2 H; cbn [foldM].
  - do 3 eexists. split; [reflexivity|]. rewrite app_nil_r. split; [assumption|congruence].
  - inversion H1; subst. inversion H2; subst. destruct (label_step_ok done known labels key c) as (kn & la & ke & -> & Hl & Hk); auto. cbn [bind].
    destruct (IH (done ++ [c]) kn la ke) as (kn' & la' & ke' & E & Hl' & Hk'); auto. exists kn', la', ke'. rewrite <- app_assoc in Hl'. cbn [app] in Hl'. ssplit; auto. intros _.
    destruct cs as [|c' cs]; [cbn in E; now inversion E; subst|]. apply Hk'. congruence.
Qed.
Theorem labels_ok : forall centers, centers <> [] -> Forall (Forall ok) centers -> Forall (fun c => forallb hashable c = true) centers ->
  exists labels reps, extract_labels eqb hashable centers = Ok (labels, reps) /\ length labels = length centers /\
    (forall i c l, nth_error centers i = Some c -> nth_error labels i = Some l -> exists r, nth_error reps l = Some r /\ ceq c r = true) /\
    (forall k r, nth_error reps k = Some r -> exists i, nth_error centers i = Some r /\ nth_error labels i = Some k /\ forall i' l', i' < i -> nth_error labels i' = Some l' -> l' < k) /\
    (forall k k' r r', nth_error reps k = Some r -> nth_error reps k' = Some r' -> ceq r r' = true -> k = k').
Proof.
  intros centers Hne H1 H2. unfold extract_labels. destruct (labels_fold centers [] [] [] 0) as (known & labels & key & -> & (HK & HL & HA & HB & HC) & Hk); auto.
  { unfold labelled. ssplit; auto.
    - intros [|i] c l Hc; discriminate.
    - intros [|k] r Hr; discriminate.
    - intros [|k] k' r r' Hr; discriminate. }
  specialize (Hk Hne). cbn [app bind] in *. assert (LK : length known = key) by (rewrite <- (map_length snd), HK; apply seq_length).
  destruct known as [|x known]; [cbn in LK; lia|]. set (kn := x :: known) in *. exists labels, (map fst kn).
  assert (F : forall k r, nth_error (map fst kn) k = Some r <-> nth_error kn k = Some (r, k)).
  { intros k r. rewrite nth_error_map. split.
    - intros H. destruct (nth_error kn k) as [[r' k']|] eqn:E; [|discriminate]. injection H as <-. do 2 f_equal.
      assert (E' : nth_error (map snd kn) k = Some k') by (now rewrite nth_error_map, E). rewrite HK in E'.
      assert (k < key) by (rewrite <- LK; apply nth_error_Some; congruence). rewrite nth_error_seq in E' by assumption. cbn in E'. now injection E'.
    - intros ->. reflexivity. }
  ssplit; auto.
  - intros i c l Hc Hl. destruct (HA _ _ _ Hc Hl) as (r & Hr & E). exists r. rewrite F. auto.
  - intros k r Hr. apply F in Hr. eauto.
  - intros k k' r r' Hr Hr'. apply F in Hr, Hr'. eauto.
Qed.
End Labels.
