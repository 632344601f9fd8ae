(** Ranges, sums of densities, and the messages of the clustering actors. *)
From Coq Require Import List Arith Lia Bool Permutation.
From Verif.Base Require Import Res Assoc ListX.
From Verif.Protocol Require Import Model Pool PoolProofs.
From Verif.Kde Require Import Model Spec System PeakProofs.
Import ListNotations.

(** ** Ranges *)
Definition range_list (r : nat * nat) : list nat := seq (fst r) (snd r - fst r).
Lemma kde_ranges_ok : forall threads n, 1 <= threads -> exists rs, kde_ranges threads n = Ok rs /\ length rs = threads /\ flat_map range_list rs = seq 0 n /\
  Forall (fun r => fst r <= snd r <= n) rs.
Proof.
  intros threads n H. unfold kde_ranges. set (f := fun t => (t * (n / threads), if t + 1 <? threads then (t + 1) * (n / threads) else n)).
  assert (D : threads * (n / threads) <= n) by (apply Nat.mul_div_le; lia).
  assert (E : forall ts, mapM (kde_range n threads) ts = Ok (map f ts)).
  { intros ts; induction ts as [|t ts IH]; cbn [mapM map]; [reflexivity|]. unfold kde_range at 1. rewrite udiv_ok by lia. cbn [bind]. now rewrite IH. }
  exists (map f (seq 0 threads)). split; [apply E|]. split; [now rewrite map_length, seq_length|].
  assert (G : forall t, t < threads -> flat_map range_list (map f (seq 0 t)) = seq 0 (t * (n / threads))).
  { intros t; induction t as [|t IH]; intros Ht; [reflexivity|]. rewrite seq_S, map_app, flat_map_app, IH by lia. cbn [map flat_map]. rewrite app_nil_r. unfold range_list, f. cbn [fst snd].
    destruct (Nat.ltb_spec (0 + t + 1) threads); [|lia]. replace (S t * (n / threads)) with (t * (n / threads) + n / threads) by lia. rewrite seq_app. f_equal.
    replace (0 + t) with t by lia. f_equal. lia. }
  split.
  - destruct threads as [|t]; [lia|]. rewrite seq_S, map_app, flat_map_app, G by lia. cbn [map flat_map]. rewrite app_nil_r. unfold range_list, f. cbn [fst snd].
    destruct (Nat.ltb_spec (0 + t + 1) (S t)); [lia|]. change (0 + t) with t. change (t * (n / S t)) with (0 + t * (n / S t)) at 2. rewrite <- seq_app. f_equal. nia.
  - apply Forall_map, Forall_forall. intros t Ht. apply in_seq in Ht. unfold f. cbn [fst snd]. destruct (Nat.ltb_spec (t + 1) threads); nia.
Qed.

(** ** Sums *)
Section Sums.
Context {A : Type} (zero : A) (add : A -> A -> A).
Lemma add_all_length : forall e d, length (add_all add e d) = Nat.min (length e) (length d).
Proof. intros e d. unfold add_all. now rewrite map_length, combine_length. Qed.
Lemma add_all_nth : forall e d j, length e = length d -> j < length e -> nth j (add_all add e d) zero = add (nth j e zero) (nth j d zero).
Proof.
  intros e; induction e as [|x e IH]; intros [|y d] [|j] Hl Hj; cbn in *; try lia; [reflexivity|]. apply IH; lia.
Qed.
Lemma same_entries : forall (e d : list A), length e = length d -> (forall j, j < length e -> nth j e zero = nth j d zero) -> e = d.
Proof. intros e d Hl H. now apply (nth_ext _ _ zero zero). Qed.
Lemma responses_ok : forall g ps p, Forall (fun q => length q = g) (p :: ps) -> foldM (add_response add) ps (Some p) = Ok (Some (fold_left (add_all add) ps p)) /\ length (fold_left (add_all add) ps p) = g.
Proof.
  intros g ps; induction ps as [|q ps IH]; intros p H; cbn [foldM fold_left]; inversion H as [|? ? Hp H']; subst.
  - auto.
  - inversion H' as [|? ? Hq H'']; subst. unfold add_response at 1. rewrite Hq, Nat.eqb_refl. cbn [bind]. apply IH. constructor; [|assumption]. rewrite add_all_length. lia.
Qed.
Hypothesis comm : forall x y, add x y = add y x.
Lemma add_all_comm : forall e d, add_all add e d = add_all add d e.
Proof. intros e; induction e as [|x e IH]; intros [|y d]; cbn; [reflexivity..|]. f_equal; [apply comm|apply IH]. Qed.
(** Two responses: any order. *)
Lemma order_two : forall g ps ps', length ps <= 2 -> Forall (fun q => length q = g) ps -> Permutation ps ps' -> foldM (add_response add) ps' None = foldM (add_response add) ps None.
Proof.
  intros g [|a [|b [|c ps]]] ps' Hl HF HP; cbn in Hl; try lia.
  - apply Permutation_nil in HP. now subst.
  - apply Permutation_length_1_inv in HP. now subst.
  - apply Permutation_length_2_inv in HP. destruct HP as [->| ->]; [reflexivity|]. inversion HF as [|? ? Ha HF']; subst. inversion HF' as [|? ? Hb ?]; subst. cbn. rewrite Hb, Nat.eqb_refl. cbn. now rewrite add_all_comm.
Qed.
Hypothesis assoc : forall x y z, add (add x y) z = add x (add y z).
Lemma add_all_swap : forall e a b, add_all add (add_all add e a) b = add_all add (add_all add e b) a.
Proof. intros e; induction e as [|x e IH]; intros [|a l] [|b r]; cbn; try reflexivity. f_equal; [|apply IH]. rewrite !assoc. f_equal. apply comm. Qed.
Lemma order_any_some : forall g ps ps', Permutation ps ps' -> forall e, length e = g -> Forall (fun q => length q = g) ps -> foldM (add_response add) ps' (Some e) = foldM (add_response add) ps (Some e).
Proof.
  intros g ps ps' HP; induction HP as [|x l l' HP IH|x y l|l1 l2 l3 HP1 IH1 HP2 IH2]; intros e He HF.
  - reflexivity.
  - inversion HF; subst. cbn [foldM]. unfold add_response at 1 3. rewrite H1, Nat.eqb_refl. cbn [bind]. apply IH; [|assumption]. rewrite add_all_length. lia.
  - inversion HF as [|? ? Hy HF']; subst. inversion HF' as [|? ? Hx HF'']; subst. cbn [foldM].
    assert (R : forall a b, length b = length a -> add_response add (Some a) b = Ok (Some (add_all add a b))) by (intros a b Hab; unfold add_response; now rewrite Hab, Nat.eqb_refl).
    rewrite !R by congruence. cbn [bind]. rewrite !R by (rewrite add_all_length; lia). cbn [bind]. now rewrite add_all_swap.
  - rewrite IH2; [now apply IH1|assumption|]. now rewrite <- HP1.
Qed.
Lemma order_any : forall g ps ps', Forall (fun q => length q = g) ps -> Permutation ps ps' -> foldM (add_response add) ps' None = foldM (add_response add) ps None.
Proof.
  intros g ps ps' HF HP. revert HF. induction HP as [|x l l' HP IH|x y l|l1 l2 l3 HP1 IH1 HP2 IH2]; intros HF.
  - reflexivity.
  - inversion HF; subst. cbn. now apply (order_any_some (length x)).
  - inversion HF as [|? ? Hy HF']; subst. inversion HF' as [|? ? Hx HF'']; subst. cbn. rewrite Hx, Nat.eqb_refl. cbn. now rewrite add_all_comm.
  - rewrite IH2; [now apply IH1|]. now rewrite <- HP1.
Qed.
(** With a zero: the sum of the parts is the sum over all points. *)
Hypothesis zero_l : forall x, add zero x = x.
Lemma total_from : forall l x, fold_left add l x = add x (total zero add l).
Proof.
  unfold total. intros l; induction l as [|a l IH]; intros x; cbn [fold_left]; [now rewrite comm, zero_l|]. rewrite (IH (add x a)), (IH (add zero a)), zero_l. apply assoc.
Qed.
Lemma total_app : forall l r, total zero add (l ++ r) = add (total zero add l) (total zero add r).
Proof. intros l r. unfold total. rewrite fold_left_app. apply total_from. Qed.
Lemma fold_add_all : forall (T : Type) (f : T -> list A) g l e j, (forall x, In x l -> length (f x) = g) -> length e = g -> j < g ->
  length (fold_left (fun a x => add_all add a (f x)) l e) = g /\ nth j (fold_left (fun a x => add_all add a (f x)) l e) zero = add (nth j e zero) (total zero add (map (fun x => nth j (f x) zero) l)).
Proof.
  intros T f g l; induction l as [|x l IH]; intros e j Hl He Hj; cbn [fold_left map].
  - split; [assumption|]. unfold total. cbn. now rewrite comm, zero_l.
  - assert (Hx : length (f x) = g) by (apply Hl; cbn; auto). destruct (IH (add_all add e (f x)) j) as (L & ->); [intros y Hy; apply Hl; cbn; auto|rewrite add_all_length; lia|assumption|].
    split; [assumption|]. rewrite add_all_nth by lia. change (nth j (f x) zero :: map (fun y => nth j (f y) zero) l) with ([nth j (f x) zero] ++ map (fun y => nth j (f y) zero) l).
    rewrite total_app, <- assoc. unfold total at 2. cbn [fold_left]. now rewrite zero_l.
Qed.
Lemma part_ok : forall kernel g r j, (forall i, length (kernel i) = g) -> j < g ->
  length (part_estimate zero add kernel g r) = g /\ nth j (part_estimate zero add kernel g r) zero = total zero add (map (fun i => nth j (kernel i) zero) (range_list r)).
Proof.
  intros kernel g r j Hk Hj. unfold part_estimate. destruct (fold_add_all nat kernel g (range_list r) (repeat zero g) j) as (L & E); auto; [apply repeat_length|].
  split; [exact L|]. unfold range_list in E. rewrite E, nth_repeat, zero_l. reflexivity.
Qed.
Lemma part_length : forall kernel g r, (forall i, length (kernel i) = g) -> length (part_estimate zero add kernel g r) = g.
Proof.
  intros kernel g r Hk. unfold part_estimate. generalize (seq (fst r) (snd r - fst r)) as l. assert (G : forall l e, length e = g -> length (fold_left (fun est i => add_all add est (kernel i)) l e) = g).
  { intros l; induction l as [|x l IH]; intros e He; cbn [fold_left]; [assumption|]. apply IH. rewrite add_all_length, Hk. lia. }
  intros l. apply G, repeat_length.
Qed.
Theorem parts_sum : forall kernel g threads n ps rs, 1 <= threads -> (forall i, length (kernel i) = g) -> kde_ranges threads n = Ok rs ->
  Permutation ps (map (part_estimate zero add kernel g) rs) ->
  exists e, foldM (add_response add) ps None = Ok (Some e) /\ length e = g /\ forall j, j < g -> nth j e zero = pointwise zero add kernel n j.
Proof.
  intros kernel g threads n ps rs Ht Hk Hr HP. destruct (kde_ranges_ok threads n Ht) as (rs' & E & L & Hf & _). rewrite Hr in E. injection E as <-.
  assert (HF : Forall (fun q => length q = g) (map (part_estimate zero add kernel g) rs)). { apply Forall_map, Forall_forall. intros r _. now apply part_length. }
  rewrite (order_any g _ ps HF) by (now symmetry). destruct rs as [|r rs]; [cbn in L; lia|]. cbn [map] in *. cbn [foldM add_response bind].
  destruct (responses_ok g (map (part_estimate zero add kernel g) rs) (part_estimate zero add kernel g r) HF) as (-> & Lg).
  eexists. split; [reflexivity|]. split; [exact Lg|]. intros j Hj.
  destruct (fold_add_all (list A) (fun x => x) g (map (part_estimate zero add kernel g) rs) (part_estimate zero add kernel g r) j) as (_ & Ej).
  - intros x Hx. apply in_map_iff in Hx. destruct Hx as (q & <- & _). now apply part_length.
  - now apply part_length.
  - assumption.
  - etransitivity; [exact Ej|]. destruct (part_ok kernel g r j Hk Hj) as (_ & ->). unfold pointwise. rewrite <- Hf. cbn [flat_map]. rewrite map_app, total_app. f_equal.
    clear - comm assoc zero_l Hk Hj. induction rs as [|q rs IH]; cbn [map flat_map]; [reflexivity|]. rewrite map_app, total_app, <- IH.
    destruct (part_ok kernel g q j Hk Hj) as (_ & E). rewrite <- E.
    change (nth j (part_estimate zero add kernel g q) zero :: ?l) with ([nth j (part_estimate zero add kernel g q) zero] ++ l). rewrite total_app. unfold total at 1. cbn [fold_left]. now rewrite zero_l.
Qed.
End Sums.

(** ** The actors *)
Section Runs.
Context {A D : Type} (gt : A -> A -> bool) (cmp : D -> D -> option comparison) (dist : A -> A -> D) (eqb : A -> A -> bool) (hashable : A -> bool) (zero : A)
  (add : A -> A -> A) (grid : list A -> res (list A)) (order : nat) (parts : list A -> res (list (list A))) (threads : nat).
Notation centers_of := (fun c => let! e := sequential_density add parts c in column_centers gt cmp dist zero grid order c e).
Notation next := (cluster_next_dim eqb hashable).
Notation deliver_ := (deliver gt cmp dist eqb hashable zero add grid order parts).
Context (columns : list (list A)) (cs : list (list A)) (r : list nat * list (list A)).
Hypothesis Hcs : mapM centers_of columns = Ok cs.
Hypothesis Hr : finish eqb hashable cs = Ok r.
(** Every column has [threads] responses, whose sum does not depend on the order. *)
Hypothesis Hparts : forall c ps, In c columns -> parts c = Ok ps -> length ps = threads /\ forall ps', Permutation ps ps' -> foldM (add_response add) ps' None = foldM (add_response add) ps None.
Hypothesis Hthreads : 1 <= threads.

(** [left s m]: the state is as it should be and [m] deliveries are left. *)
Inductive left : system -> nat -> Prop :=
| at_column : forall k c s, nth_error columns k = Some c -> data s = columns -> next_dim s = S k -> current s = Some c -> centers s = firstn k cs -> mail s = [Column c] ->
    result s = None -> left s ((length columns - k) * (threads + 2))
| at_parts : forall k c ps got rest s, nth_error columns k = Some c -> data s = columns -> next_dim s = S k -> current s = Some c -> centers s = firstn k cs -> mail s = map Part rest ->
    result s = None -> parts c = Ok ps -> Permutation ps (got ++ rest) -> rest <> [] -> pool_ s = {| h_total := threads; h_sent := length rest; h_received := length got |} ->
    foldM (add_response add) got None = Ok (sum s) -> left s ((length columns - S k) * (threads + 2) + 1 + length rest)
| at_density : forall k c e s, nth_error columns k = Some c -> data s = columns -> next_dim s = S k -> current s = Some c -> centers s = firstn k cs -> mail s = [Density e] ->
    result s = None -> sequential_density add parts c = Ok e -> left s ((length columns - S k) * (threads + 2) + 1)
| at_end : forall s, mail s = [] -> result s = Some r -> left s 0.

Lemma cs_length : length cs = length columns.
Proof. pose proof Hcs as H. apply mapM_ok in H. clear - H. induction H; cbn; lia. Qed.
Lemma cs_nth : forall k c, nth_error columns k = Some c -> exists e d, sequential_density add parts c = Ok e /\ column_centers gt cmp dist zero grid order c e = Ok d /\ nth_error cs k = Some d.
Proof.
  pose proof Hcs as H. apply mapM_ok in H. clear - H. revert cs H. induction columns as [|c l IH]; intros cs H k d Hk; [destruct k; discriminate|].
  inversion H as [|? b ? bs E F]; subst. destruct k as [|k]; cbn in Hk.
  - injection Hk as <-. apply bind_ok_inv in E. destruct E as (e & E1 & E2). exists e, b. auto.
  - apply (IH bs F). exact Hk.
Qed.
Lemma next_ok : forall s k, k <= length columns -> data s = columns -> next_dim s = k -> centers s = firstn k cs -> mail s = [] -> result s = None ->
  exists s', next s = Ok s' /\ left s' ((length columns - k) * (threads + 2)).
Proof.
  intros s k Hk Hd Hn Hc Hm Hres. unfold cluster_next_dim. rewrite Hd, Hn. destruct (nth_error columns k) as [c|] eqn:E.
  - eexists. split; [reflexivity|]. rewrite Hm. eapply at_column; cbn; eauto.
  - apply nth_error_None in E. replace (length columns - k) with 0 by lia. rewrite Hc, firstn_all2 by (rewrite cs_length; lia). rewrite Hr. cbn [bind]. eexists. split; [reflexivity|].
    apply at_end; cbn; auto.
Qed.
Lemma dispatch_pool : forall n m, Nat.iter n h_sent_one {| h_total := m; h_sent := 0; h_received := 0 |} = {| h_total := m; h_sent := n; h_received := 0 |}.
Proof. intros n m. induction n as [|n IH]; [reflexivity|]. cbn [Nat.iter nat_rect]. change (nat_rect _ _ _ n) with (Nat.iter n h_sent_one {| h_total := m; h_sent := 0; h_received := 0 |}). rewrite IH. reflexivity. Qed.
Lemma deliver_ok : forall s m i, left s m ->
  (i < length (mail s) /\ exists s' m', deliver_ s i = Ok s' /\ m = S m' /\ left s' m') \/ (length (mail s) <= i /\ deliver_ s i = Ok s).
Proof.
  intros s m i H. destruct (nth_error (mail s) i) as [msg|] eqn:E.
  2: { right. unfold deliver. rewrite E. apply nth_error_None in E. auto. }
  left. split; [apply nth_error_Some; congruence|]. unfold deliver. rewrite E.
  destruct H as [k c s Hk Hd Hn Hcu Hce Hm Hres|k c ps got rest s Hk Hd Hn Hcu Hce Hm Hres Hp HP Hne Hpool Hsum|k c e s Hk Hd Hn Hcu Hce Hm Hres He|s Hm Hres].
  - (* the column reaches the estimator *)
    rewrite Hm in *. destruct i as [|i]; [|destruct i; discriminate]. injection E as <-. cbn [handle firstn skipn app].
    assert (Hin : In c columns) by (eapply nth_error_In; eauto). destruct (cs_nth k c Hk) as (e & d & Hs & _ & _). unfold sequential_density in Hs.
    apply bind_ok_inv in Hs. destruct Hs as (ps & Hps & _). destruct (Hparts c ps Hin Hps) as (Lp & _). unfold on_column. rewrite Hps. cbn [bind]. do 2 eexists. split; [reflexivity|].
    assert (k < length columns) by (apply nth_error_Some; congruence). split; [|eapply (at_parts k c ps [] ps); cbn; eauto].
    + rewrite Lp. replace (length columns - k) with (S (length columns - S k)) by lia. cbn [Nat.mul]. lia.
    + destruct ps; [cbn in Lp; lia|congruence].
    + rewrite Lp. cbn. apply dispatch_pool.
  - (* a response reaches the estimator *)
    rewrite Hm in *. assert (Hmsg : exists q, nth_error rest i = Some q /\ msg = Part q). { rewrite nth_error_map in E. destruct (nth_error rest i) as [q|]; [|discriminate]. injection E as <-. eauto. }
    destruct Hmsg as (q & Eq & ->). apply nth_error_split in Eq. destruct Eq as (l1 & l2 & Eq & Li). cbn [handle]. unfold on_part. cbn [pool_].
    assert (Lr : length rest = S (length (l1 ++ l2))) by (subst rest; rewrite !app_length; cbn; lia).
    unfold h_received_one. rewrite Hpool. cbn [h_sent h_total h_received]. rewrite usub_ok by lia. cbn [bind].
    assert (Hin : In c columns) by (eapply nth_error_In; eauto). destruct (cs_nth k c Hk) as (e & d & Hs & _ & _). pose proof Hs as Hs'. unfold sequential_density in Hs.
    rewrite Hp in Hs. cbn [bind] in Hs. destruct (Hparts c ps Hin Hp) as (Lp & Hperm).
    assert (Lt : length got + length rest = threads) by (rewrite <- Lp, (Permutation_length HP), app_length; lia).
    assert (HP' : Permutation ps ((got ++ [q]) ++ l1 ++ l2)). { rewrite HP, Eq, <- app_assoc. apply Permutation_app_head. symmetry. exact (Permutation_middle l1 l2 q). }
    apply bind_ok_inv in Hs. destruct Hs as (oe & Hf & Hoe).
    assert (Hfull : foldM (add_response add) ((got ++ [q]) ++ l1 ++ l2) None = Ok oe) by (rewrite Hperm; assumption).
    rewrite foldM_app in Hfull. apply bind_ok_inv in Hfull. destruct Hfull as (su' & Hgot & Hrest). pose proof Hgot as Hgot'. rewrite foldM_app, Hsum in Hgot. cbn [bind foldM] in Hgot.
    apply bind_ok_inv in Hgot. destruct Hgot as (su'' & Hadd & Hgot). injection Hgot as ->. cbn [sum data next_dim current centers mail result]. rewrite Hadd. cbn [bind]. unfold h_running. cbn [h_received h_total].
    assert (Hma : firstn i (map Part rest) ++ skipn (S i) (map Part rest) = map (@Part A) (l1 ++ l2)).
    { subst rest i. rewrite map_app. cbn [map]. rewrite firstn_app, <- (map_length (@Part A) l1), firstn_all, Nat.sub_diag. cbn [firstn]. rewrite app_nil_r.
      rewrite skipn_app, skipn_all2 by lia. rewrite Nat.sub_succ_l, Nat.sub_diag by lia. cbn [skipn app]. now rewrite map_app. }
    destruct (Nat.ltb_spec (S (length got)) threads).
    + do 2 eexists. split; [reflexivity|]. split; [|eapply (at_parts k c ps (got ++ [q]) (l1 ++ l2)); cbn; eauto].
      * rewrite Lr. lia.
      * intros E0. rewrite E0 in Lr. cbn in Lr. lia.
      * rewrite !app_length in *. cbn [length] in *. f_equal; lia.
    + assert (l1 ++ l2 = []) as E0 by (apply length_zero_iff_nil; lia). rewrite E0 in Hrest. cbn [foldM] in Hrest. injection Hrest as ->. rewrite Hoe. cbn [bind].
      do 2 eexists. split; [reflexivity|]. split; [|eapply (at_density k c e); cbn; eauto].
      * rewrite Lr, E0. cbn. lia.
      * change (fun x => Part x) with (@Part A) in *. destruct i; cbn in Hma |- *; rewrite ?Hma, E0; reflexivity.
  - (* the density reaches the clustering *)
    rewrite Hm in *. destruct i as [|i]; [|destruct i; discriminate]. injection E as <-. cbn [handle firstn skipn app]. unfold on_density. cbn. rewrite Hcu. cbn [unwrap bind].
    destruct (cs_nth k c Hk) as (e' & d & Hs & Hd' & Hnth). rewrite He in Hs. injection Hs as <-. rewrite Hd'. cbn [bind].
    assert (k < length columns) by (apply nth_error_Some; congruence).
    match goal with |- context [cluster_next_dim _ _ ?x] => destruct (next_ok x (S k)) as (s' & -> & Hl); cbn; auto end.
    + rewrite Hce. clear - Hnth. revert k Hnth. induction cs as [|x l IH]; intros [|k] Hk; cbn in *; try discriminate; [now injection Hk as ->|]. f_equal. now apply IH.
    + exists s', ((length columns - S k) * (threads + 2)). ssplit; auto. lia.
  - rewrite Hm in *. destruct i; discriminate.
Qed.
Lemma runs : forall schedule s m, left s m -> exists s' m', foldM deliver_ schedule s = Ok s' /\ left s' m'.
Proof.
  intros schedule; induction schedule as [|i schedule IH]; intros s m H; cbn [foldM]; [eauto|].
  destruct (deliver_ok s m i H) as [(_ & s' & m' & -> & _ & H')|(_ & ->)]; cbn [bind]; eauto.
Qed.
Lemma left_end : forall s m, left s m -> (mail s = [] -> m = 0 /\ result s = Some r) /\ (mail s <> [] -> result s = None).
Proof.
  intros s m [k c s' Hk Hd Hn Hcu Hce Hm Hres|k c ps got rest s' Hk Hd Hn Hcu Hce Hm Hres Hp HP Hne Hpool Hsum|k c e s' Hk Hd Hn Hcu Hce Hm Hres He|s' Hm Hres]; rewrite Hm; split; auto; try congruence.
  destruct rest; [congruence|discriminate].
Qed.
Lemma left_some : forall s m, left s m -> mail s <> [] -> 1 <= m.
Proof.
  intros s m [k c s' Hk Hd Hn Hcu Hce Hm Hres|k c ps got rest s' Hk Hd Hn Hcu Hce Hm Hres Hp HP Hne Hpool Hsum|k c e s' Hk Hd Hn Hcu Hce Hm Hres He|s' Hm Hres] H; [|generalize ((length columns - S k) * (threads + 2)); lia|generalize ((length columns - S k) * (threads + 2)); lia|now rewrite Hm in H].
  assert (k < length columns) by (apply nth_error_Some; congruence). destruct (length columns - k) eqn:E; cbn; lia.
Qed.
Lemma begin_left : exists s, begin eqb hashable columns = Ok s /\ left s (length columns * (threads + 2)).
Proof.
  unfold begin. match goal with |- context [cluster_next_dim _ _ ?x] => destruct (next_ok x 0) as (s & E & H); cbn; auto; [lia|] end. rewrite Nat.sub_0_r in H. eauto.
Qed.
Notation run_ := (run gt cmp dist eqb hashable zero add grid order parts).
Theorem any_schedule : forall schedule, exists s, run_ columns schedule = Ok s /\ (mail s = [] -> result s = Some r) /\ (mail s <> [] -> result s = None).
Proof.
  intros schedule. unfold run. destruct begin_left as (s & -> & H). cbn [bind]. destruct (runs schedule s _ H) as (s' & m' & -> & H'). exists s'. split; [reflexivity|].
  destruct (left_end _ _ H') as (H1 & H2). split; [|exact H2]. intros E. now apply H1.
Qed.
Theorem delivery_count : forall schedule s, run_ columns schedule = Ok s ->
  (forall done i rest t, schedule = done ++ i :: rest -> run_ columns done = Ok t -> i < length (mail t)) ->
  length schedule <= length columns * (threads + 2) /\ (length schedule = length columns * (threads + 2) <-> mail s = []).
Proof.
  intros schedule s Hs Hv. destruct begin_left as (s0 & E0 & H0). unfold run in Hs, Hv. rewrite E0 in Hs, Hv. cbn [bind] in Hs, Hv.
  assert (G : forall sch s0 m, left s0 m -> foldM deliver_ sch s0 = Ok s -> (forall done i rest t, sch = done ++ i :: rest -> foldM deliver_ done s0 = Ok t -> i < length (mail t)) ->
    exists m', left s m' /\ m = length sch + m').
  { clear - Hcs Hr Hparts Hthreads. intros sch; induction sch as [|i sch IH]; intros s0 m H Hs Hv; cbn [foldM] in Hs.
    - injection Hs as <-. exists m. auto.
    - assert (Hi : i < length (mail s0)) by (apply (Hv [] i sch s0); reflexivity).
      destruct (deliver_ok s0 m i H) as [(_ & s' & m' & E & -> & H')|(C & _)]; [|lia]. rewrite E in Hs. cbn [bind] in Hs.
      destruct (IH s' m' H' Hs) as (m2 & Hl & ->).
      + intros done j rest t Es Hd. apply (Hv (i :: done) j rest t); [now rewrite Es|]. cbn [foldM]. rewrite E. exact Hd.
      + exists m2. split; [exact Hl|]. cbn [length]. lia. }
  destruct (G schedule s0 _ H0 Hs Hv) as (m' & Hl & E). split; [lia|]. destruct (left_end _ _ Hl) as (H1 & H2). split.
  - intros El. destruct (mail s) as [|x l] eqn:Em; [reflexivity|]. assert (1 <= m') by (apply (left_some _ _ Hl); congruence). lia.
  - intros Em. destruct (H1 Em). lia.
Qed.
End Runs.
