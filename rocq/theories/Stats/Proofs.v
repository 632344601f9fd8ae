From Coq Require Import List Arith Reals Lia Lra Bool Permutation.
From Verif.Base Require Import Res Params Assoc ListX.
From Verif.Topology Require Import Model Spec Proofs.
From Verif.Reader Require Import Spec.
From Verif.Stats Require Import Model Spec.
Import ListNotations.
Local Open Scope R_scope.

Lemma nth_error_map2 : forall A B C (f : A -> B -> C) l m j a b,
  nth_error l j = Some a -> nth_error m j = Some b -> nth_error (map2 f l m) j = Some (f a b).
Proof.
  intros A B C f l; induction l as [|x t IH]; intros [|y u] [|j] a b Ha Hb; cbn in *; try discriminate; [congruence|auto].
Qed.

Lemma map2_length : forall A B C (f : A -> B -> C) l m, length l = length m -> length (map2 f l m) = length l.
Proof. intros A B C f l; induction l as [|x t IH]; intros [|y u] H; cbn in *; try lia. f_equal. apply IH. lia. Qed.

Lemma nth_error_map_seq : forall A (f : nat -> A) w j, (j < w)%nat -> nth_error (map f (seq 0 w)) j = Some (f j).
Proof. intros A f w j H. rewrite nth_error_map, nth_error_seq by exact H. reflexivity. Qed.

Lemma column_app : forall A j (m m' : list (list A)), column j (m ++ m') = column j m ++ column j m'.
Proof. intros. unfold column. apply flat_map_app. Qed.

Lemma column_In : forall (m : list (list R)) j x, In x (column j m) <-> entry m j x.
Proof.
  intros m j x. unfold column, entry. rewrite in_flat_map. split.
  - intros (r & Hr & Hx). exists r. split; [exact Hr|]. destruct (nth_error r j) as [y|]; [|destruct Hx].
    destruct Hx as [<-|[]]. reflexivity.
  - intros (r & Hr & Hx). exists r. split; [exact Hr|]. rewrite Hx. now left.
Qed.

Lemma column_length : forall A (m : list (list A)) w j, Forall (fun r => length r = w) m -> (j < w)%nat ->
  length (column j m) = length m.
Proof.
  intros A m w j HF Hj. unfold column. induction HF as [|r t Hr HF IH]; cbn; [reflexivity|].
  rewrite app_length, IH. destruct (nth_error r j) eqn:E; [reflexivity|]. apply nth_error_None in E. lia.
Qed.

(** ** Partitions cover the rows *)
Lemma In_slice : forall A (l : list A) a b x, In x (slice a b l) -> In x l.
Proof.
  intros A l a b x H. apply In_nth_error in H. destruct H as [i Hi]. rewrite nth_error_slice in Hi.
  destruct (i <? b - a)%nat; [|discriminate]. eapply nth_error_In; eauto.
Qed.

Lemma partition_In : forall A N ov i (rows : list A) x, In x (partition_of N ov i rows) -> In x rows.
Proof. intros A N ov i rows x H. unfold partition_of in H. destruct (S i =? N)%nat; eapply In_slice; eauto. Qed.

Lemma partitions_cover : forall A N ov (rows : list A) x, (1 <= N)%nat -> In x rows ->
  exists i, (i < N)%nat /\ In x (partition_of N ov i rows).
Proof.
  intros A N ov rows x HN Hx. apply In_nth_error in Hx. destruct Hx as [k Hk].
  assert (Hkn : (k < length rows)%nat) by (apply nth_error_Some; congruence).
  set (w := (length rows / N)%nat).
  destruct (Nat.lt_ge_cases k ((N - 1) * w)) as [Hlt|Hge].
  - exists (k / w)%nat.
    assert (Hw : w <> 0%nat) by (intros E; rewrite E, Nat.mul_0_r in Hlt; lia).
    assert (Hq : (k / w < N - 1)%nat) by (apply Nat.div_lt_upper_bound; [exact Hw|lia]).
    pose proof (Nat.div_mod k w Hw) as Hdm. pose proof (Nat.mod_upper_bound k w Hw) as Hm.
    split; [lia|]. unfold partition_of. fold w. destruct (Nat.eqb_spec (S (k / w)) N); [lia|].
    apply (nth_error_In _ (k mod w)). rewrite nth_error_slice.
    destruct (Nat.ltb_spec (k mod w) (S (k / w) * w + ov - k / w * w)) as [|Hbad]; [|exfalso; lia].
    rewrite <- Hk. f_equal. lia.
  - exists (N - 1)%nat. split; [lia|]. unfold partition_of. fold w.
    replace (S (N - 1)) with N by lia. rewrite Nat.eqb_refl.
    apply (nth_error_In _ (k - (N - 1) * w)). rewrite nth_error_slice.
    destruct (Nat.ltb_spec (k - (N - 1) * w) (length rows - (N - 1) * w)) as [|Hbad]; [|lia].
    rewrite <- Hk. f_equal. lia.
Qed.

Lemma partition_widths : forall A N ov i (rows : list (list A)) w, Forall (fun r => length r = w) rows ->
  Forall (fun r => length r = w) (partition_of N ov i rows).
Proof. intros A N ov i rows w HF. rewrite Forall_forall in *. intros r Hr. apply HF. eapply partition_In; eauto. Qed.

(** ** Minimum and maximum *)
Definition glb (a : R) (l : list R) (v : R) : Prop := v <= a /\ (forall x, In x l -> v <= x) /\ (v = a \/ In v l).
Definition lub (a : R) (l : list R) (v : R) : Prop := a <= v /\ (forall x, In x l -> x <= v) /\ (v = a \/ In v l).

Lemma fold_min_glb : forall l a, glb a l (fold_left (fun s v => if Rgt_dec s v then v else s) l a).
Proof.
  induction l as [|y t IH]; intros a; cbn [fold_left].
  - repeat split; [lra|intros x []|now left].
  - destruct (Rgt_dec a y) as [H|H].
    + destruct (IH y) as (H1 & H2 & H3). repeat split; [lra| |].
      * intros x [<-|Hx]; [exact H1|auto].
      * right. destruct H3 as [->|H3]; [now left|now right].
    + destruct (IH a) as (H1 & H2 & H3). repeat split; [lra| |].
      * intros x [<-|Hx]; [lra|auto].
      * destruct H3 as [->|H3]; [now left|right; now right].
Qed.

Lemma fold_max_lub : forall l a, lub a l (fold_left (fun s v => if Rlt_dec s v then v else s) l a).
Proof.
  induction l as [|y t IH]; intros a; cbn [fold_left].
  - repeat split; [lra|intros x []|now left].
  - destruct (Rlt_dec a y) as [H|H].
    + destruct (IH y) as (H1 & H2 & H3). repeat split; [lra| |].
      * intros x [<-|Hx]; [exact H1|auto].
      * right. destruct H3 as [->|H3]; [now left|now right].
    + destruct (IH a) as (H1 & H2 & H3). repeat split; [lra| |].
      * intros x [<-|Hx]; [lra|auto].
      * destruct H3 as [->|H3]; [now left|right; now right].
Qed.

Lemma glb_min : forall a l l' v v', glb a l v -> glb a l' v' -> glb a (l ++ l') (Rmin v' v).
Proof.
  intros a l l' v v' (A1 & A2 & A3) (B1 & B2 & B3).
  pose proof (Rmin_l v' v) as Hl. pose proof (Rmin_r v' v) as Hr. repeat split.
  - lra.
  - intros x Hx. apply in_app_iff in Hx. destruct Hx as [Hx|Hx]; [specialize (A2 x Hx)|specialize (B2 x Hx)]; lra.
  - rewrite in_app_iff. unfold Rmin. destruct (Rle_dec v' v); tauto.
Qed.

Lemma lub_max : forall a l l' v v', lub a l v -> lub a l' v' -> lub a (l ++ l') (Rmax v' v).
Proof.
  intros a l l' v v' (A1 & A2 & A3) (B1 & B2 & B3).
  pose proof (Rmax_l v' v) as Hl. pose proof (Rmax_r v' v) as Hr. repeat split.
  - lra.
  - intros x Hx. apply in_app_iff in Hx. destruct Hx as [Hx|Hx]; [specialize (A2 x Hx)|specialize (B2 x Hx)]; lra.
  - rewrite in_app_iff. unfold Rmax. destruct (Rle_dec v' v); tauto.
Qed.

Section MM.
Context {source : Type}.
Implicit Types parts : list (source * list (list R)).
Definition rows_of parts : list (list R) := concat (map snd parts).
Definition mm_msgs fmax w parts : list (minmax_msg source) :=
  map (fun sp => calculate_minmax fmax w (snd sp) (fst sp)) parts.

Definition mm_good fmax w rows (mn mx : list R) : Prop :=
  length mn = w /\ length mx = w
  /\ forall j, (j < w)%nat -> exists v u, nth_error mn j = Some v /\ nth_error mx j = Some u
       /\ glb fmax (column j rows) v /\ lub (- fmax) (column j rows) u.

Lemma axis_good : forall fmax w m, mm_good fmax w m (min_axis fmax w m) (max_axis fmax w m).
Proof.
  intros fmax w m. unfold mm_good, min_axis, max_axis. rewrite !map_length, !seq_length. repeat split.
  intros j Hj. rewrite !nth_error_map_seq by exact Hj. do 2 eexists. ssplit; eauto.
  - apply fold_min_glb.
  - apply fold_max_lub.
Qed.

Lemma mm_good_merge : forall fmax w m m' mn mx mn' mx', mm_good fmax w m mn mx -> mm_good fmax w m' mn' mx' ->
  mm_good fmax w (m ++ m') (map2 Rmin mn' mn) (map2 Rmax mx' mx).
Proof.
  intros fmax w m m' mn mx mn' mx' (L1 & L2 & H) (L1' & L2' & H'). unfold mm_good.
  rewrite !map2_length by congruence. ssplit; auto. intros j Hj.
  destruct (H j Hj) as (v & u & Ev & Eu & G & L). destruct (H' j Hj) as (v' & u' & Ev' & Eu' & G' & L').
  exists (Rmin v' v), (Rmax u' u). ssplit.
  - now apply nth_error_map2.
  - now apply nth_error_map2.
  - rewrite column_app. now apply glb_min.
  - rewrite column_app. now apply lub_max.
Qed.

Definition mm_state w fmax parts (c : minmax_calc source) : Prop :=
  mc_nodes c = map fst parts
  /\ match mc_min c, mc_max c with
     | Some mn, Some mx => mm_good fmax w (rows_of parts) mn mx
     | None, None => parts = []
     | _, _ => False
     end.

Lemma rows_of_snoc : forall parts sp, rows_of (parts ++ [sp]) = rows_of parts ++ snd sp.
Proof. intros. unfold rows_of. rewrite map_app, concat_app. cbn. now rewrite app_nil_r. Qed.

Lemma handle_minmax_step : forall N fmax w done sp c, mm_state w fmax done c ->
  exists c' mn mx, mm_state w fmax (done ++ [sp]) c' /\ mm_good fmax w (rows_of (done ++ [sp])) mn mx
   /\ handle_minmax N (Some c) (calculate_minmax fmax w (snd sp) (fst sp))
      = Ok (Some c', if (length (done ++ [sp]) =? N)%nat
                     then map (fun s => (s, (mn, mx))) (map fst (done ++ [sp])) else []).
Proof.
  intros N fmax w done sp c (Hn & Hm). unfold handle_minmax. cbn [mm_source calculate_minmax].
  rewrite Hn.
  assert (En : map fst done ++ [fst sp] = map fst (done ++ [sp])) by (now rewrite map_app).
  rewrite En, map_length.
  pose proof (axis_good fmax w (snd sp)) as Hax.
  destruct (mc_min c) as [mn|], (mc_max c) as [mx|]; try contradiction.
  - pose proof (mm_good_merge _ _ _ _ _ _ _ _ Hm Hax) as Hg. rewrite <- rows_of_snoc in Hg.
    do 3 eexists. split; [|split; [exact Hg|]].
    2:{ cbn [mc_min mc_max unwrap bind calculate_minmax mm_min mm_max].
        destruct (length (done ++ [sp]) =? N)%nat; reflexivity. }
    split; cbn [mc_nodes mc_min mc_max]; [reflexivity|exact Hg].
  - subst done. cbn [app] in *.
    assert (Hg : mm_good fmax w (rows_of [sp]) (min_axis fmax w (snd sp)) (max_axis fmax w (snd sp))).
    { unfold rows_of. cbn. now rewrite app_nil_r. }
    do 3 eexists. split; [|split; [exact Hg|]].
    2:{ cbn [mc_min mc_max unwrap bind calculate_minmax mm_min mm_max].
        destruct (length [sp] =? N)%nat; reflexivity. }
    split; cbn [mc_nodes mc_min mc_max]; [reflexivity|exact Hg].
Qed.

Lemma collect_minmax : forall N fmax w todo done c, mm_state w fmax done c ->
  (length done + length todo <= N)%nat ->
  exists c' out, collect (handle_minmax N) (Some c) (mm_msgs fmax w todo) = Ok (Some c', out)
   /\ mm_state w fmax (done ++ todo) c'
   /\ ((length done + length todo < N)%nat -> out = [])
   /\ ((length done + length todo = N)%nat -> todo <> [] -> exists mn mx,
         mm_good fmax w (rows_of (done ++ todo)) mn mx
         /\ out = map (fun s => (s, (mn, mx))) (map fst (done ++ todo))).
Proof.
  intros N fmax w todo; induction todo as [|sp t IH]; intros done c Hst Hlen.
  - exists c, []. cbn. rewrite app_nil_r. repeat split; auto; try apply Hst. congruence.
  - destruct (handle_minmax_step N fmax w done sp c Hst) as (c1 & mn & mx & Hst1 & Hg1 & E1).
    cbn [mm_msgs map collect]. rewrite E1. cbn [bind fst snd].
    assert (La : length (done ++ [sp]) = S (length done)) by (rewrite app_length; cbn; lia).
    cbn [length] in Hlen.
    destruct (IH (done ++ [sp]) c1 Hst1 ltac:(lia)) as (c2 & out & E2 & Hst2 & Hlt & Heq).
    fold (mm_msgs fmax w t). rewrite E2. cbn [bind fst snd]. rewrite <- app_assoc in *. cbn [app] in *.
    exists c2. eexists. split; [reflexivity|]. split; [exact Hst2|]. rewrite La in *. cbn [length]. split.
    + intros H. rewrite Hlt by lia. destruct (Nat.eqb_spec (S (length done)) N); [lia|reflexivity].
    + intros H _. destruct t as [|sp' t'].
      * cbn [mm_msgs map collect] in E2. injection E2 as _ <-. rewrite app_nil_r.
        cbn [length] in H. destruct (Nat.eqb_spec (S (length done)) N); [|lia]. exists mn, mx. split; [exact Hg1|reflexivity].
      * cbn [length] in *. destruct Heq as (mn' & mx' & Hg & ->); [lia|discriminate|].
        exists mn', mx'. split; [exact Hg|]. destruct (Nat.eqb_spec (S (length done)) N); [lia|reflexivity].
Qed.

Lemma good_is_extremum : forall fmax w rows mn mx, rows <> [] -> Forall (fun r => length r = w) rows ->
  (forall j x, entry rows j x -> - fmax <= x <= fmax) -> mm_good fmax w rows mn mx ->
  length mn = w /\ length mx = w /\
  forall j, (j < w)%nat -> exists v u, nth_error mn j = Some v /\ nth_error mx j = Some u
    /\ column_minimum rows j v /\ column_maximum rows j u.
Proof.
  intros fmax w rows mn mx Hne HF Hb (L1 & L2 & H). repeat split; auto. intros j Hj.
  destruct (H j Hj) as (v & u & Ev & Eu & (G1 & G2 & G3) & (U1 & U2 & U3)). exists v, u. repeat split; auto.
  - destruct G3 as [->|G3]; [|now apply column_In].
    destruct (column j rows) as [|x t] eqn:E.
    + apply (f_equal (@length R)) in E. rewrite (column_length _ _ w) in E by assumption. destruct rows; [congruence|discriminate].
    + assert (entry rows j x) as Hx by (apply column_In; rewrite E; now left).
      specialize (G2 x (or_introl eq_refl)). specialize (Hb j x Hx). replace fmax with x by lra. exact Hx.
  - intros x Hx. apply G2. now apply column_In.
  - destruct U3 as [->|U3]; [|now apply column_In].
    destruct (column j rows) as [|x t] eqn:E.
    + apply (f_equal (@length R)) in E. rewrite (column_length _ _ w) in E by assumption. destruct rows; [congruence|discriminate].
    + assert (entry rows j x) as Hx by (apply column_In; rewrite E; now left).
      specialize (U2 x (or_introl eq_refl)). specialize (Hb j x Hx). replace (- fmax) with x by lra. exact Hx.
  - intros x Hx. apply U2. now apply column_In.
Qed.

Lemma entry_ext : forall rows rows' j x, (forall r, In r rows <-> In r rows') -> entry rows j x <-> entry rows' j x.
Proof. intros rows rows' j x H. unfold entry. split; intros (r & Hr & E); exists r; (split; [now apply H|exact E]). Qed.

Lemma rows_of_partitions : forall N ov rows parts, (1 <= N)%nat ->
  Permutation (map snd parts) (map (fun i => partition_of N ov i rows) (seq 0 N)) ->
  forall r, In r (rows_of parts) <-> In r rows.
Proof.
  intros N ov rows parts HN HP r. unfold rows_of. rewrite in_concat. split.
  - intros (l & Hl & Hr). apply (Permutation_in _ HP) in Hl. apply in_map_iff in Hl. destruct Hl as (i & <- & _).
    eapply partition_In; eauto.
  - intros Hr. destruct (partitions_cover _ N ov rows r HN Hr) as (i & Hi & Hin).
    exists (partition_of N ov i rows). split; [|exact Hin]. apply (Permutation_in _ (Permutation_sym HP)).
    apply in_map_iff. exists i. split; [reflexivity|]. apply in_seq. lia.
Qed.

Theorem minmax_global : forall N ov fmax w rows parts,
  (1 <= N)%nat -> rows <> [] -> Forall (fun r => length r = w) rows ->
  (forall j x, entry rows j x -> - fmax <= x <= fmax) ->
  Permutation (map snd parts) (map (fun i => partition_of N ov i rows) (seq 0 N)) ->
  (exists mn mx st,
     collect (handle_minmax N) (Some minmax_init) (mm_msgs fmax w parts)
       = Ok (st, map (fun s => (s, (mn, mx))) (map fst parts))
     /\ length mn = w /\ length mx = w
     /\ forall j, (j < w)%nat -> exists v u, nth_error mn j = Some v /\ nth_error mx j = Some u
          /\ column_minimum rows j v /\ column_maximum rows j u)
  /\ (forall k, (k < N)%nat -> exists st, collect (handle_minmax N) (Some minmax_init) (firstn k (mm_msgs fmax w parts)) = Ok (st, [])).
Proof.
  intros N ov fmax w rows parts HN Hne HF Hb HP.
  assert (LP : length parts = N).
  { apply Permutation_length in HP. now rewrite !map_length, seq_length in HP. }
  pose proof (rows_of_partitions N ov rows parts HN HP) as HIn.
  assert (Hst0 : mm_state w fmax [] (minmax_init : minmax_calc source)) by (split; reflexivity).
  split.
  - destruct (collect_minmax N fmax w parts [] minmax_init Hst0 ltac:(cbn; lia)) as (c' & out & E & Hst & _ & Hout).
    cbn [app length] in Hout. destruct Hout as (mn & mx & Hg & ->); [lia|intros ->; cbn in LP; lia|].
    apply good_is_extremum in Hg.
    + destruct Hg as (L1 & L2 & H). exists mn, mx. eexists. split; [exact E|]. repeat split; auto.
      intros j Hj. destruct (H j Hj) as (v & u & Ev & Eu & (M1 & M2) & (X1 & X2)). exists v, u.
      repeat split; auto.
      * eapply entry_ext; [|exact M1]. intros r. symmetry. apply HIn.
      * intros x Hx. apply M2. eapply entry_ext; [|exact Hx]. apply HIn.
      * eapply entry_ext; [|exact X1]. intros r. symmetry. apply HIn.
      * intros x Hx. apply X2. eapply entry_ext; [|exact Hx]. apply HIn.
    + intros E0. destruct rows as [|r t]; [congruence|]. assert (In r (rows_of parts)) by (apply HIn; now left).
      rewrite E0 in H. destruct H.
    + rewrite Forall_forall in *. intros r Hr. apply HF. now apply HIn.
    + intros j x Hx. apply (Hb j). eapply entry_ext; [|exact Hx]. intros r. symmetry. apply HIn.
  - intros k Hk. unfold mm_msgs. rewrite firstn_map. fold (mm_msgs fmax w (firstn k parts)).
    destruct (collect_minmax N fmax w (firstn k parts) [] minmax_init Hst0) as (c' & out & E & _ & Hlt & _).
    { rewrite firstn_length. cbn. lia. }
    rewrite Hlt in E by (rewrite firstn_length; cbn; lia). eauto.
Qed.
End MM.

(** ** Row count and standard deviation *)
Lemma Rsum_app : forall l l', Rsum (l ++ l') = Rsum l + Rsum l'.
Proof. intros l l'. unfold Rsum. induction l as [|a t IH]; cbn; [lra|]. rewrite IH. lra. Qed.

Lemma fold_left_Rplus : forall l a, fold_left Rplus l a = a + Rsum l.
Proof. unfold Rsum. induction l as [|x t IH]; intros a; cbn; [lra|]. rewrite IH. lra. Qed.

Lemma Rsum_map_ext : forall A (f g : A -> R) l, (forall x, In x l -> f x = g x) -> Rsum (map f l) = Rsum (map g l).
Proof. intros A f g l H. f_equal. apply map_ext_in. exact H. Qed.

(** A message that describes rows [m] faithfully. *)
Definition std_good {source} w (m : list (list R)) (msg : std_msg source) : Prop :=
  sm_n msg = length m /\ length (sm_mean msg) = w /\ length (sm_m2 msg) = w
  /\ forall j, (j < w)%nat -> nth_error (sm_mean msg) j = Some (mean (column j m))
                              /\ nth_error (sm_m2 msg) j = Some (scatter (column j m)).

Lemma column_delta : forall w m mu j v, Forall (fun r => length r = w) m -> (j < w)%nat -> nth_error mu j = Some v ->
  column j (map (fun r => map2 Rminus r mu) m) = map (fun x => x - v) (column j m).
Proof.
  intros w m mu j v HF Hj Hv. induction HF as [|r t Hr HF IH]; [reflexivity|].
  unfold column in *. cbn [map flat_map]. rewrite IH, map_app. f_equal.
  destruct (nth_error r j) as [x|] eqn:E; [|apply nth_error_None in E; lia].
  rewrite (nth_error_map2 _ _ _ _ _ _ _ _ _ E Hv). reflexivity.
Qed.

Lemma mean_sum : forall l, l <> [] -> Rsum l = mean l * INR (length l).
Proof.
  intros l H. unfold mean. field. apply not_0_INR. destruct l; [congruence|discriminate].
Qed.

Lemma Rsum_sq_shift : forall l c, Rsum (map (fun x => (x - c) * (x - c)) l)
  = Rsum (map (fun x => x * x) l) - 2 * c * Rsum l + INR (length l) * (c * c).
Proof.
  intros l c. induction l as [|x t IH]; [unfold Rsum; cbn; lra|].
  cbn [map length]. unfold Rsum in *. cbn [fold_right]. rewrite IH, S_INR. lra.
Qed.

Lemma scatter_eq : forall l, l <> [] -> scatter l = Rsum (map (fun x => x * x) l) - INR (length l) * (mean l * mean l).
Proof. intros l H. unfold scatter. rewrite Rsum_sq_shift, (mean_sum l H). lra. Qed.

Lemma INR_length_pos : forall A (l : list A), l <> [] -> 0 < INR (length l).
Proof. intros A l H. apply lt_0_INR. destruct l; [congruence|cbn; lia]. Qed.

Lemma mean_app : forall a b, a <> [] -> b <> [] ->
  mean (a ++ b) = (mean a * INR (length a) + mean b * INR (length b)) / (INR (length a) + INR (length b)).
Proof.
  intros a b Ha Hb. unfold mean at 1. rewrite Rsum_app, app_length, plus_INR, (mean_sum a Ha), (mean_sum b Hb). reflexivity.
Qed.

Lemma scatter_app : forall a b, a <> [] -> b <> [] ->
  scatter (a ++ b) = scatter a + scatter b
    + (mean b - mean a) * (mean b - mean a) * (INR (length a) * INR (length b) / (INR (length a) + INR (length b))).
Proof.
  intros a b Ha Hb.
  assert (a ++ b <> []) as Hab by (destruct a; [congruence|discriminate]).
  rewrite !scatter_eq by assumption. rewrite map_app, Rsum_app, app_length, plus_INR, mean_app by assumption.
  pose proof (INR_length_pos _ a Ha). pose proof (INR_length_pos _ b Hb). field. lra.
Qed.

Section SD.
Context {source addr : Type}.

(** The rows a node counts as its own: all but the overlap. *)
Definition counted (p : params) (N own : nat) : nat := (if (own =? N - 1)%nat then 0 else pattern_length p - 1)%nat.

Lemma calculate_std_ok : forall p (c : cluster_nodes addr) own N w data (src : source),
  all_but own N (keys c) -> Forall (fun r => length r = w) data ->
  (1 <= pattern_length p)%nat -> (counted p N own < length data)%nat ->
  exists msg, calculate_std p c w data src = Ok msg /\ sm_source msg = src
              /\ std_good w (firstn (length data - counted p N own) data) msg.
Proof.
  intros p c own N w data src Hall HF HP Hk. unfold calculate_std.
  rewrite (own_idx c own _ Hall). cbn [bind].
  assert (Lc : length c = (N - 1)%nat).
  { apply all_but_len in Hall. unfold keys in Hall. rewrite map_length in Hall. lia. }
  assert (Ec : (if (own =? length c)%nat then Ok 0%nat else usub (pattern_length p) 1) = Ok (counted p N own)).
  { unfold counted. rewrite Lc. destruct (own =? N - 1)%nat; [reflexivity|]. now apply usub_ok. }
  rewrite Ec. cbn [bind]. set (k := counted p N own) in *. rewrite usub_ok by lia. cbn [bind].
  set (d := firstn (length data - k) data).
  assert (HFd : Forall (fun r => length r = w) d).
  { rewrite Forall_forall in *. intros r Hr. apply HF. unfold d in Hr.
    rewrite <- (firstn_skipn (length data - k) data). apply in_app_iff. now left. }
  assert (Ld : length d = (length data - k)%nat) by (unfold d; rewrite firstn_length; lia).
  unfold mean_axis. destruct (Nat.eqb_spec (length d) 0) as [|Hd0]; [lia|]. cbn [bind].
  eexists. split; [reflexivity|]. split; [reflexivity|]. unfold std_good. cbn [sm_n sm_mean sm_m2].
  rewrite !map_length, !seq_length. ssplit; auto.
  intros j Hj.
  assert (Em : nth_error (map (fun j0 => fold_left Rplus (column j0 d) 0 / INR (length d)) (seq 0 w)) j
               = Some (mean (column j d))).
  { rewrite nth_error_map_seq by exact Hj. unfold mean. rewrite fold_left_Rplus, (column_length _ _ w) by assumption.
    f_equal. lra. }
  split; [exact Em|].
  rewrite nth_error_map_seq by exact Hj. f_equal. rewrite fold_left_Rplus, Rplus_0_l.
  rewrite (column_delta w d _ j _ HFd Hj Em), map_map. unfold scatter. apply Rsum_map_ext. intros x _.
  field. apply not_0_INR. exact Hd0.
Qed.

Definition total_n (msgs : list (std_msg source)) : nat := fold_right (fun m a => sm_n m + a)%nat 0%nat msgs.

Lemma total_n_app : forall a b, total_n (a ++ b) = (total_n a + total_n b)%nat.
Proof. intros a b. unfold total_n. induction a as [|x t IH]; cbn; [reflexivity|]. rewrite IH. lia. Qed.

Definition sd_state (done : list (std_msg source)) (c : std_calc source) : Prop :=
  sc_nodes c = map (fun m => sm_source m) done
  /\ match sc_n c, sc_mean c, sc_m2 c with
     | Some n, Some _, Some _ => done <> [] /\ n = total_n done
     | None, None, None => done = []
     | _, _, _ => False
     end.

Lemma collect_std_n : forall N todo done c, sd_state done c -> todo <> [] ->
  (length done + length todo = N)%nat -> (2 <= total_n (done ++ todo))%nat ->
  exists st std, collect (handle_std N) (Some c) todo
     = Ok (st, map (fun s => (s, (std, total_n (done ++ todo)))) (map (fun m => sm_source m) (done ++ todo))).
Proof.
  intros N todo; induction todo as [|m t IH]; intros done c Hst Hne Hlen Htot; [congruence|].
  cbn [collect]. unfold handle_std at 1. destruct Hst as (Hn & Hm). rewrite Hn, app_length, map_length. cbn [length].
  assert (En : map (fun m => sm_source m) done ++ [sm_source m] = map (fun m => sm_source m) (done ++ [m])) by (now rewrite map_app).
  rewrite En. cbn [length] in Hlen.
  destruct t as [|m' t'].
  - destruct (Nat.ltb_spec (length done + 1) N) as [|_]; [cbn in Hlen; lia|].
    destruct (sc_n c) as [n|], (sc_mean c) as [mu|], (sc_m2 c) as [q|]; try contradiction.
    + destruct Hm as (_ & ->).
      assert (Et : (total_n done + sm_n m)%nat = total_n (done ++ [m])) by (rewrite total_n_app; cbn; lia).
      rewrite Et. unfold std_of. rewrite usub_ok by lia. cbn [bind].
      destruct (Nat.eqb_spec (total_n (done ++ [m]) - 1) 0) as [|_]; [lia|]. cbn [bind fst snd collect].
      rewrite app_nil_r. eauto.
    + subst done. cbn [app] in *. replace (total_n [m]) with (sm_n m) in * by (cbn; lia).
      unfold std_of. rewrite usub_ok by lia. cbn [bind].
      destruct (Nat.eqb_spec (sm_n m - 1) 0) as [|_]; [lia|]. cbn [bind fst snd collect].
      rewrite app_nil_r. eauto.
  - destruct (Nat.ltb_spec (length done + 1) N) as [_|]; [|cbn in Hlen; lia].
    destruct (sc_n c) as [n|], (sc_mean c) as [mu|], (sc_m2 c) as [q|]; try contradiction; cbn [bind fst snd].
    + destruct Hm as (_ & ->).
      match goal with |- context [collect _ (Some ?c1) _] => set (c1' := c1) end.
      destruct (IH (done ++ [m]) c1') as (st & std & E); try discriminate.
      * split; [reflexivity|]. cbn. split; [destruct done; discriminate|]. rewrite total_n_app. cbn. lia.
      * rewrite app_length. cbn in *. lia.
      * rewrite <- app_assoc. exact Htot.
      * rewrite E, <- app_assoc. cbn [bind fst snd app]. eauto.
    + subst done.
      match goal with |- context [collect _ (Some ?c1) _] => set (c1' := c1) end.
      destruct (IH ([] ++ [m]) c1') as (st & std & E); try discriminate.
      * split; [reflexivity|]. cbn. split; [discriminate|]. lia.
      * cbn in *. lia.
      * exact Htot.
      * rewrite E. cbn [bind fst snd app]. eauto.
Qed.

(** Length of what node [i] counts. *)
Lemma counted_partition : forall A p N i (rows : list A), (1 <= N)%nat -> (i < N)%nat ->
  (1 <= pattern_length p <= length rows / N)%nat ->
  let d := partition_of N (pattern_length p - 1) i rows in
  (counted p N i < length d)%nat
  /\ (length d - counted p N i = if (i =? N - 1)%nat then length rows - (N - 1) * (length rows / N) else length rows / N)%nat.
Proof.
  intros A p N i rows HN Hi HP d. unfold d, partition_of, counted.
  pose proof (Nat.mul_div_le (length rows) N ltac:(lia)) as Hdiv. set (w := (length rows / N)%nat) in *.
  assert (HNw : (N * w = (N - 1) * w + w)%nat) by (destruct N; [lia|cbn; rewrite Nat.sub_0_r; lia]).
  destruct (Nat.eqb_spec (S i) N) as [E|E]; destruct (Nat.eqb_spec i (N - 1)) as [E'|E']; try lia.
  - subst i. rewrite slice_length. nia.
  - rewrite slice_length. assert (S i * w <= (N - 1) * w)%nat by (apply Nat.mul_le_mono_r; lia). cbn [Nat.mul] in *. lia.
Qed.

Lemma sum_counted : forall N w r, (1 <= N)%nat ->
  fold_right Nat.add 0%nat (map (fun i => if (i =? N - 1)%nat then r else w) (seq 0 N)) = ((N - 1) * w + r)%nat.
Proof.
  intros N w r HN. destruct N as [|N]; [lia|]. cbn [Nat.sub]. rewrite Nat.sub_0_r, seq_S, map_app, fold_right_app.
  cbn [map fold_right plus]. rewrite Nat.eqb_refl, Nat.add_0_r.
  rewrite (map_ext_in _ (fun _ => w)).
  2:{ intros i Hi. apply in_seq in Hi. destruct (Nat.eqb_spec i N); [lia|reflexivity]. }
  clear HN. generalize 0%nat. induction N as [|N IH]; intros s; cbn; [lia|]. rewrite IH. lia.
Qed.

Lemma fold_plus_perm : forall l l', Permutation l l' -> fold_right Nat.add 0%nat l = fold_right Nat.add 0%nat l'.
Proof. intros l l' H. induction H; cbn; lia. Qed.

Theorem std_counts_rows : forall p N w rows (hosts : list (nat * (cluster_nodes addr * source))),
  (1 <= N)%nat -> (1 <= pattern_length p <= length rows / N)%nat -> (2 <= length rows)%nat ->
  Forall (fun r => length r = w) rows ->
  Permutation (map fst hosts) (seq 0 N) ->
  (forall i c s, In (i, (c, s)) hosts -> all_but i N (keys c)) ->
  exists msgs std st,
    mapM (fun h => calculate_std p (fst (snd h)) w (partition_of N (pattern_length p - 1) (fst h) rows) (snd (snd h))) hosts
      = Ok msgs
    /\ collect (handle_std N) (Some std_init) msgs
       = Ok (st, map (fun s => (s, (std, length rows))) (map (fun h => snd (snd h)) hosts)).
Proof.
  intros p N w rows hosts HN HP H2 HF Hperm Htab.
  assert (Hidx : forall h, In h hosts -> (fst h < N)%nat).
  { intros h Hh. assert (In (fst h) (seq 0 N)) as Hi by (eapply Permutation_in; [exact Hperm|]; now apply in_map).
    apply in_seq in Hi. lia. }
  assert (HM : exists msgs,
    mapM (fun h => calculate_std p (fst (snd h)) w (partition_of N (pattern_length p - 1) (fst h) rows) (snd (snd h))) hosts
      = Ok msgs
    /\ map (fun m => sm_source m) msgs = map (fun h => snd (snd h)) hosts
    /\ total_n msgs = fold_right Nat.add 0%nat
         (map (fun i => if (i =? N - 1)%nat then (length rows - (N - 1) * (length rows / N))%nat else (length rows / N)%nat) (map fst hosts))).
  { clear Hperm. induction hosts as [|[i [c s]] t IH]; [exists []; repeat split|].
    destruct IH as (msgs & E & Es & En).
    { intros i' c' s' H'. apply (Htab i' c' s'). now right. }
    { intros h Hh. apply Hidx. now right. }
    assert (Hi : (i < N)%nat) by (apply (Hidx (i, (c, s))); now left).
    destruct (counted_partition _ p N i rows HN Hi HP) as (Hc1 & Hc2).
    destruct (calculate_std_ok p c i N w (partition_of N (pattern_length p - 1) i rows) s) as (msg & Em & Esrc & Hg).
    - apply (Htab i c s). now left.
    - now apply partition_widths.
    - lia.
    - exact Hc1.
    - cbn [mapM fst snd]. rewrite Em. cbn [bind]. rewrite E. cbn [bind]. exists (msg :: msgs). ssplit.
      + reflexivity.
      + cbn. now rewrite Esrc, Es.
      + cbn [total_n fold_right map fst]. fold (total_n msgs). rewrite En. f_equal.
        destruct Hg as (-> & _). rewrite firstn_length, Nat.min_l by lia. exact Hc2. }
  destruct HM as (msgs & E & Es & En).
  rewrite (fold_plus_perm _ _ (Permutation_map _ Hperm)), sum_counted in En by exact HN.
  pose proof (Nat.mul_div_le (length rows) N ltac:(lia)) as Hdiv.
  assert (HNw : (N * (length rows / N) = (N - 1) * (length rows / N) + length rows / N)%nat)
    by (destruct N; [lia|cbn [Nat.mul Nat.sub]; rewrite Nat.sub_0_r; lia]).
  assert (Et : total_n msgs = length rows) by lia.
  assert (Lm : length msgs = N).
  { apply (f_equal (@length source)) in Es. rewrite !map_length in Es. rewrite Es.
    apply Permutation_length in Hperm. now rewrite map_length, seq_length in Hperm. }
  destruct (collect_std_n N msgs [] std_init) as (st & std & Ec).
  - split; reflexivity.
  - intros ->. cbn in Lm. lia.
  - exact Lm.
  - cbn [app]. lia.
  - cbn [app] in Ec. rewrite Et, Es in Ec. exists msgs, std, st. split; [exact E|exact Ec].
Qed.

(** Published values in terms of the merged state. *)
Definition sgood w (m : list (list R)) (n : nat) (mu q : list R) : Prop :=
  n = length m /\ length mu = w /\ length q = w
  /\ forall j, (j < w)%nat -> nth_error mu j = Some (mean (column j m)) /\ nth_error q j = Some (scatter (column j m)).

Lemma column_nonempty : forall (m : list (list R)) w j, Forall (fun r => length r = w) m -> (j < w)%nat -> m <> [] -> column j m <> [].
Proof.
  intros m w j HF Hj Hm E. apply (f_equal (@length R)) in E. rewrite (column_length _ _ w) in E by assumption.
  destruct m; [congruence|discriminate].
Qed.

(** What the merge computes for column [j]. *)
Lemma merge_m2_value : forall w a b n mu q (msg : std_msg source) j,
  Forall (fun r => length r = w) a -> Forall (fun r => length r = w) b -> a <> [] -> b <> [] -> (j < w)%nat ->
  sgood w a n mu q -> std_good w b msg ->
  nth_error (merge_m2 n mu q msg) j
  = Some (scatter (column j a) + scatter (column j b)
          + (mean (column j b) - mean (column j a)) * (mean (column j b) - mean (column j a))).
Proof.
  intros w a b n mu q msg j HFa HFb Ha Hb Hj (Hn & L1 & L2 & HS) (Hn' & L1' & L2' & HS').
  destruct (HS j Hj) as (E1 & E2). destruct (HS' j Hj) as (E1' & E2').
  unfold merge_m2. rewrite (nth_error_map2 _ _ _ Rplus _ _ j (scatter (column j b) + scatter (column j a))
    ((mean (column j b) - mean (column j a)) * (mean (column j b) - mean (column j a)) * 1)).
  - f_equal. lra.
  - now apply nth_error_map2.
  - rewrite nth_error_map, (nth_error_map2 _ _ _ Rminus _ _ j _ _ E1' E1). cbn [option_map]. do 2 f_equal.
    rewrite Hn, Hn'. unfold Rdiv. apply Rinv_r. apply not_0_INR. destruct a; [congruence|cbn; lia].
Qed.

Lemma merge_mean_value : forall w a b n mu q (msg : std_msg source) j,
  Forall (fun r => length r = w) a -> Forall (fun r => length r = w) b -> a <> [] -> b <> [] -> (j < w)%nat ->
  sgood w a n mu q -> std_good w b msg ->
  nth_error (merge_mean n mu msg) j = Some (mean (column j (a ++ b))).
Proof.
  intros w a b n mu q msg j HFa HFb Ha Hb Hj (Hn & L1 & L2 & HS) (Hn' & L1' & L2' & HS').
  destruct (HS j Hj) as (E1 & E2). destruct (HS' j Hj) as (E1' & E2').
  unfold merge_mean. rewrite nth_error_map, (nth_error_map2 _ _ _ _ _ _ j _ _ E1 E1'). cbn [option_map]. f_equal.
  rewrite column_app, mean_app by (eapply column_nonempty; eauto).
  rewrite !(column_length _ _ w) by assumption. rewrite Hn, Hn', plus_INR. reflexivity.
Qed.

Lemma merge_good : forall w a b n mu q (msg : std_msg source),
  Forall (fun r => length r = w) a -> Forall (fun r => length r = w) b -> a <> [] -> b <> [] ->
  (forall j, (j < w)%nat -> mean (column j a) = mean (column j b)) ->
  sgood w a n mu q -> std_good w b msg ->
  sgood w (a ++ b) (n + sm_n msg) (merge_mean n mu msg) (merge_m2 n mu q msg).
Proof.
  intros w a b n mu q msg HFa HFb Ha Hb Heq G G'. pose proof G as (Hn & L1 & L2 & HS). pose proof G' as (Hn' & L1' & L2' & HS').
  unfold sgood. ssplit.
  - rewrite app_length. congruence.
  - unfold merge_mean. rewrite map_length, map2_length; congruence.
  - unfold merge_m2. rewrite !map2_length; rewrite ?map_length, ?map2_length; congruence.
  - intros j Hj. split; [eapply merge_mean_value; eauto|].
    rewrite (merge_m2_value w a b n mu q msg j) by assumption. f_equal.
    rewrite column_app, scatter_app by (eapply column_nonempty; eauto). rewrite (Heq j Hj). lra.
Qed.

Lemma mean_app_eq : forall a b, a <> [] -> b <> [] -> mean a = mean b -> mean (a ++ b) = mean b.
Proof.
  intros a b Ha Hb E. rewrite mean_app, E by assumption.
  pose proof (INR_length_pos _ a Ha). pose proof (INR_length_pos _ b Hb). field. lra.
Qed.

Lemma std_of_good : forall w m n q, (2 <= length m)%nat -> n = length m -> length q = w ->
  Forall (fun r => length r = w) m ->
  (forall j, (j < w)%nat -> nth_error q j = Some (scatter (column j m))) ->
  exists std, std_of n q = Ok std /\ length std = w
    /\ forall j, (j < w)%nat -> nth_error std j = Some (sample_std (column j m)).
Proof.
  intros w m n q H2 -> Lq HF Hq. unfold std_of. rewrite usub_ok by lia. cbn [bind].
  destruct (Nat.eqb_spec (length m - 1) 0); [lia|]. eexists. split; [reflexivity|]. split; [now rewrite map_length|].
  intros j Hj. rewrite nth_error_map, (Hq j Hj). cbn [option_map]. unfold sample_std.
  rewrite (column_length _ _ w) by assumption. rewrite minus_INR by lia. reflexivity.
Qed.

(** Equal means on all nodes. *)
Lemma collect_std_equal_means : forall N w mu todo done c,
  Forall (fun sp => std_good w (fst sp) (snd sp) /\ Forall (fun r => length r = w) (fst sp) /\ fst sp <> []
                    /\ forall j, (j < w)%nat -> mean (column j (fst sp)) = mu j) todo ->
  sc_nodes c = map (fun sp : list (list R) * std_msg source => sm_source (snd sp)) done ->
  match sc_n c, sc_mean c, sc_m2 c with
  | Some n, Some m, Some q => done <> [] /\ sgood w (concat (map fst done)) n m q
       /\ Forall (fun r => length r = w) (concat (map fst done)) /\ concat (map fst done) <> []
       /\ forall j, (j < w)%nat -> mean (column j (concat (map fst done))) = mu j
  | None, None, None => done = []
  | _, _, _ => False
  end ->
  todo <> [] -> (length done + length todo = N)%nat -> (2 <= length (concat (map fst (done ++ todo))))%nat ->
  exists st std, collect (handle_std N) (Some c) (map snd todo)
     = Ok (st, map (fun s => (s, (std, length (concat (map fst (done ++ todo))))))
                   (map (fun sp => sm_source (snd sp)) (done ++ todo)))
   /\ length std = w
   /\ forall j, (j < w)%nat -> nth_error std j = Some (sample_std (column j (concat (map fst (done ++ todo))))).
Proof.
  intros N w mu todo; induction todo as [|[m msg] t IH]; intros done c HT Hn Hm Hne Hlen Htot; [congruence|].
  inversion HT as [|? ? (Hg & HFm & Hm0 & Hmu) HT']; subst. cbn [fst snd] in *.
  cbn [map snd collect]. unfold handle_std at 1. rewrite Hn, app_length, map_length. cbn [length].
  assert (En : map (fun sp : list (list R) * std_msg source => sm_source (snd sp)) done ++ [sm_source msg]
               = map (fun sp => sm_source (snd sp)) (done ++ [(m, msg)])) by (now rewrite map_app).
  rewrite En. cbn [length] in *.
  assert (Ecat : concat (map fst (done ++ [(m, msg)])) = concat (map fst done) ++ m).
  { rewrite map_app, concat_app. cbn. now rewrite app_nil_r. }
  (* the merged data after this message *)
  assert (Hnew : exists n1 mu1 q1,
     (forall st', st' = match sc_n c, sc_mean c, sc_m2 c with
        | Some n, Some me, Some q => (n + sm_n msg, (merge_mean n me msg, merge_m2 n me q msg))%nat
        | _, _, _ => (sm_n msg, (sm_mean msg, sm_m2 msg)) end -> st' = (n1, (mu1, q1)))
     /\ sgood w (concat (map fst (done ++ [(m, msg)]))) n1 mu1 q1
     /\ Forall (fun r => length r = w) (concat (map fst (done ++ [(m, msg)])))
     /\ concat (map fst (done ++ [(m, msg)])) <> []
     /\ forall j, (j < w)%nat -> mean (column j (concat (map fst (done ++ [(m, msg)])))) = mu j).
  { rewrite Ecat. destruct (sc_n c) as [n|], (sc_mean c) as [me|], (sc_m2 c) as [q|]; try contradiction.
    - destruct Hm as (_ & Hs & HFd & Hd0 & Hdm). do 3 eexists. split; [intros st' ->; reflexivity|]. ssplit.
      + apply merge_good; auto. intros j Hj. rewrite Hmu, Hdm by exact Hj. reflexivity.
      + now apply Forall_app.
      + intros E. apply app_eq_nil in E. tauto.
      + intros j Hj. rewrite column_app, mean_app_eq; [now apply Hmu| | |].
        * eapply column_nonempty; eauto.
        * eapply column_nonempty; eauto.
        * rewrite Hmu, Hdm by exact Hj. reflexivity.
    - subst done. cbn [map concat app]. do 3 eexists. split; [intros st' ->; reflexivity|]. ssplit; auto. }
  destruct Hnew as (n1 & mu1 & q1 & Heq & Hs1 & HF1 & Hd1 & Hmu1). specialize (Heq _ eq_refl).
  destruct t as [|sp' t'].
  - cbn [length]. destruct (Nat.ltb_spec (length done + 1) (length done + 1)) as [|_]; [lia|].
    destruct Hs1 as (Hn1 & _ & Lq1 & HS1).
    destruct (std_of_good w (concat (map fst (done ++ [(m, msg)]))) n1 q1 Htot Hn1 Lq1 HF1
                (fun j Hj => proj2 (HS1 j Hj))) as (std & Estd & Lstd & Hstd).
    destruct (sc_n c) as [n|], (sc_mean c) as [me|], (sc_m2 c) as [q|]; try contradiction; injection Heq as <- <- <-.
    all: rewrite Estd; cbn [bind fst snd collect map]; rewrite ?app_nil_r, Hn1; eauto.
  - destruct (Nat.ltb_spec (length done + 1) (length done + S (length (sp' :: t')))) as [_|]; [|cbn in *; lia].
    assert (Hrec : exists c1, (match sc_n c, sc_mean c, sc_m2 c with
        | Some n, Some mean, Some m2 =>
            Ok (Some {| sc_nodes := map (fun sp => sm_source (snd sp)) (done ++ [(m, msg)]); sc_n := Some (n + sm_n msg)%nat;
                        sc_mean := Some (merge_mean n mean msg); sc_m2 := Some (merge_m2 n mean m2 msg) |}, [])
        | _, _, _ => Ok (Some {| sc_nodes := map (fun sp => sm_source (snd sp)) (done ++ [(m, msg)]);
                                 sc_n := Some (sm_n msg); sc_mean := Some (sm_mean msg);
                                 sc_m2 := Some (sm_m2 msg) |}, []) end) = Ok (Some c1, @nil (source * (list R * nat)))
        /\ sc_nodes c1 = map (fun sp => sm_source (snd sp)) (done ++ [(m, msg)])
        /\ sc_n c1 = Some n1 /\ sc_mean c1 = Some mu1 /\ sc_m2 c1 = Some q1).
    { destruct (sc_n c) as [n|], (sc_mean c) as [me|], (sc_m2 c) as [q|]; try contradiction; injection Heq as <- <- <-;
        eexists; (split; [reflexivity|]); cbn; auto. }
    destruct Hrec as (c1 & E1 & F1 & F2 & F3 & F4). rewrite E1. cbn [bind fst snd].
    destruct (IH (done ++ [(m, msg)]) c1) as (st & std & E & Lstd & Hstd); auto; try discriminate.
    + rewrite F2, F3, F4. ssplit; auto. destruct done; discriminate.
    + rewrite app_length. cbn. lia.
    + rewrite <- app_assoc. exact Htot.
    + rewrite <- app_assoc in *. cbn [app] in *. rewrite E. cbn [bind fst snd app]. eauto.
Qed.

Theorem std_equal_means : forall w mu (parts : list (list (list R) * std_msg source)),
  parts <> [] ->
  Forall (fun sp => std_good w (fst sp) (snd sp) /\ Forall (fun r => length r = w) (fst sp) /\ fst sp <> []
                    /\ forall j, (j < w)%nat -> mean (column j (fst sp)) = mu j) parts ->
  (2 <= length (concat (map fst parts)))%nat ->
  exists st std, collect (handle_std (length parts)) (Some std_init) (map snd parts)
     = Ok (st, map (fun s => (s, (std, length (concat (map fst parts))))) (map (fun sp => sm_source (snd sp)) parts))
   /\ length std = w
   /\ forall j, (j < w)%nat -> nth_error std j = Some (sample_std (column j (concat (map fst parts)))).
Proof.
  intros w mu parts Hne HT H2.
  apply (collect_std_equal_means (length parts) w mu parts [] std_init); auto.
  reflexivity.
Qed.

(** Two nodes: the error of the published variance. *)
Theorem std_two_nodes : forall w a b (ma mb : std_msg source),
  Forall (fun r => length r = w) a -> Forall (fun r => length r = w) b -> a <> [] -> b <> [] ->
  std_good w a ma -> std_good w b mb ->
  exists st std, collect (handle_std 2) (Some std_init) [ma; mb]
     = Ok (st, [(sm_source ma, (std, length (a ++ b))); (sm_source mb, (std, length (a ++ b)))])
   /\ forall j, (j < w)%nat ->
      let A := column j a in let B := column j b in
      let n := INR (length a) in let m := INR (length b) in
      nth_error std j = Some (sqrt ((scatter (A ++ B) + (mean B - mean A) * (mean B - mean A) * (1 - n * m / (n + m)))
                                    / (n + m - 1))).
Proof.
  intros w a b ma mb HFa HFb Ha Hb Ga Gb.
  assert (La : (1 <= length a)%nat) by (destruct a; [congruence|cbn; lia]).
  assert (Lb : (1 <= length b)%nat) by (destruct b; [congruence|cbn; lia]).
  cbn [collect]. unfold handle_std at 1, std_init. cbn [sc_nodes sc_n sc_mean sc_m2 app length Nat.ltb Nat.leb bind fst snd].
  unfold handle_std. cbn [sc_nodes sc_n sc_mean sc_m2 app length Nat.ltb Nat.leb].
  assert (Sa : sgood w a (sm_n ma) (sm_mean ma) (sm_m2 ma)) by exact Ga.
  assert (Ena : sm_n ma = length a) by apply Ga. assert (Enb : sm_n mb = length b) by apply Gb.
  rewrite Ena in Sa |- *.
  unfold std_of. rewrite usub_ok by lia. cbn [bind].
  destruct (Nat.eqb_spec (length a + sm_n mb - 1) 0); [lia|]. cbn [bind fst snd map app].
  do 2 eexists. split.
  - rewrite Enb, <- app_length. reflexivity.
  - intros j Hj. cbv zeta. rewrite nth_error_map, (merge_m2_value w a b) by assumption. cbn [option_map]. f_equal. f_equal.
    rewrite scatter_app by (eapply column_nonempty; eauto). rewrite !(column_length _ _ w) by assumption.
    rewrite ?Enb, ?app_length, minus_INR, plus_INR by lia. cbn [INR]. f_equal.
    pose proof (INR_length_pos _ a Ha). pose proof (INR_length_pos _ b Hb). field. lra.
Qed.
End SD.
