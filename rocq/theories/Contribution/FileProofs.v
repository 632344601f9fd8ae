From Coq Require Import List Arith Bool ZArith Reals Lia Lra Permutation Sorting.Sorted.
From Flocq Require Import IEEE754.BinarySingleNaN Core.
From Verif.Base Require Import Res Assoc ListX Float32 Float32Proofs.
From Verif.Stats Require Import Model.
From Verif.Edges Require Import Model Proofs.
From Verif.Scoring Require Import Model WeightProofs.
From Verif.Normalize Require Import Model ScoreProofs.
From Verif.Kde Require Import Model Float FloatProofs PeakProofs.
From Verif.Contribution Require Import Model Spec Proofs SumProofs.
Import ListNotations.
Local Open Scope nat_scope.

(** ** The rank of an element of a sorted list *)
Section Rank.
Context {A : Type} (key : A -> R) (before : A -> A -> bool).
Hypothesis before_spec : forall x y, before x y = true <-> (key x < key y)%R.
Fixpoint put (x : A) (l : list A) : list A := match l with [] => [x] | y :: r => if before x y then x :: y :: r else y :: put x r end.
Definition sort (l : list A) : list A := fold_left (fun acc x => put x acc) l [].
Lemma put_perm : forall x l, Permutation (put x l) (x :: l).
Proof. intros x l; induction l as [|y l IH]; cbn; [auto|]. destruct (before x y); [auto|]. rewrite IH. apply perm_swap. Qed.
Lemma put_sorted : forall x l, StronglySorted (fun a b => (key a <= key b)%R) l -> StronglySorted (fun a b => (key a <= key b)%R) (put x l).
Proof.
  intros x l; induction l as [|y l IH]; intros H; cbn; [repeat constructor|]. inversion H as [|? ? Hs Hf]; subst. destruct (before x y) eqn:E.
  - apply before_spec in E. constructor; [assumption|]. constructor; [lra|]. apply Forall_impl with (2 := Hf). intros; lra.
  - constructor; [now apply IH|]. apply (Permutation_Forall (Permutation_sym (put_perm x l))). constructor; [|assumption]. apply Rnot_lt_le. intros C. apply before_spec in C. congruence.
Qed.
Lemma sort_ok : forall l, Permutation (sort l) l /\ StronglySorted (fun a b => (key a <= key b)%R) (sort l).
Proof.
  intros l. unfold sort. assert (G : forall acc, StronglySorted (fun a b => (key a <= key b)%R) acc -> Permutation (fold_left (fun acc x => put x acc) l acc) (l ++ acc) /\ StronglySorted (fun a b => (key a <= key b)%R) (fold_left (fun acc x => put x acc) l acc)).
  { induction l as [|x l IH]; intros acc H; cbn [fold_left app]; [auto|]. destruct (IH (put x acc) (put_sorted x acc H)) as (P & S). split; [|exact S]. rewrite P, put_perm. symmetry. apply Permutation_middle. }
  destruct (G [] (SSorted_nil _)) as (P & S). rewrite app_nil_r in P. auto.
Qed.
Lemma rank_sorted : forall l h m, StronglySorted (fun a b => (key a <= key b)%R) l -> nth_error l h = Some m ->
  length (filter (fun x => before x m) l) <= h < length (filter (fun x => negb (before m x)) l).
Proof.
  intros l h m HS Hm. apply nth_error_split in Hm. destruct Hm as (l1 & l2 & -> & <-). assert (G : (forall x, In x l1 -> (key x <= key m)%R) /\ (forall x, In x l2 -> (key m <= key x)%R)).
  { clear - HS. induction l1 as [|y l1 IH]; cbn [app] in HS; inversion HS as [|? ? Hs Hf]; subst.
    - split; [intros x []|]. now apply Forall_forall.
    - destruct (IH Hs) as (A1 & A2). split; [|exact A2]. intros x [<-|Hx]; [|auto]. rewrite Forall_forall in Hf. apply Hf. apply in_or_app. right. now left. }
  destruct G as (G1 & G2). rewrite !filter_app, !app_length. cbn [filter]. split.
  - assert (E0 : before m m = false) by (destruct (before m m) eqn:E; [apply before_spec in E; lra|reflexivity]). rewrite E0, (filter_nil _ _ l2).
    + pose proof (filter_split_length _ (fun x => before x m) l1) as Sl. cbv beta in Sl. cbn [length]. lia.
    + intros x Hx. destruct (before x m) eqn:E; [|reflexivity]. apply before_spec in E. pose proof (G2 x Hx). lra.
  - assert (E0 : before m m = false) by (destruct (before m m) eqn:E; [apply before_spec in E; lra|reflexivity]). rewrite E0, (filter_all_true _ _ l1).
    + cbn [negb length]. lia.
    + intros x Hx. destruct (before m x) eqn:E; [|reflexivity]. apply before_spec in E. pose proof (G1 x Hx). lra.
Qed.
Lemma rank_ok : forall l h m, nth_error (sort l) h = Some m -> In m l /\ length (filter (fun x => before x m) l) <= h < length (filter (fun x => negb (before m x)) l).
Proof.
  intros l h m H. destruct (sort_ok l) as (P & S). split; [apply (Permutation_in _ P); now apply nth_error_In in H|]. rewrite <- !(filter_length_perm _ _ _ _ P). now apply rank_sorted.
Qed.
End Rank.

(** ** Approximation *)
Local Open Scope R_scope.
Lemma approximate_trunc : forall x, approximate x = Ztrunc (f_real (f_mul x (f_of 80 0))).
Proof.
  intros x. unfold approximate. apply eq_IZR. rewrite Btrunc_correct by exact prec_max. fold (f_real (f_mul x (f_of 80 0))). unfold round, F2R, scaled_mantissa, cexp, FIX_exp. cbn [Fnum Fexp bpow Z.opp]. now rewrite !Rmult_1_r.
Qed.
Lemma eighty_ok : f_finite (f_of 80 0) = true /\ f_real (f_of 80 0) = 80.
Proof.
  destruct (of_nat_exact 80) as (A & B); [now vm_compute|]. change (f_of_nat 80) with (f_of 80 0) in *. split; [exact A|]. rewrite B. rewrite INR_IZR_INZ. reflexivity.
Qed.
Lemma f_mul_ok : forall x y, f_finite x = true -> f_finite y = true -> Rabs (rnd (f_real x * f_real y)) < max_real ->
  f_finite (f_mul x y) = true /\ f_real (f_mul x y) = rnd (f_real x * f_real y).
Proof.
  intros x y Hx Hy H. pose proof (@Bmult_correct 24 128 prec_pos prec_max mode_NE x y) as B. rewrite Rlt_bool_true in B by exact H. destruct B as (B1 & B2 & _). split; [|exact B1].
  unfold f_finite, f_mul. rewrite B2. unfold f_finite in *. now rewrite Hx, Hy.
Qed.
Lemma scaled_ok : forall x, unit_value x -> let y := f_mul x (f_of 80 0) in f_finite y = true /\ f_real y = rnd (f_real x * 80) /\ 0 <= f_real y <= 80.
Proof.
  intros x (Fx & Rx) y. destruct eighty_ok as (F8 & R8). assert (F80 : format 80) by (apply (format_Z 80); lia).
  assert (B : 0 <= rnd (f_real x * 80) <= 80) by (split; [rewrite <- rnd_0; apply rnd_mono; lra|apply Rle_trans with (rnd 80); [apply rnd_mono; lra|rewrite rnd_format by exact F80; lra]]).
  destruct (f_mul_ok x (f_of 80 0) Fx F8) as (Fy & Ry). { rewrite R8, Rabs_pos_eq by lra. apply Rle_lt_trans with (1 := proj2 B). apply Rle_lt_trans with (bpow radix2 7); [cbn; lra|]. now apply bpow_lt. }
  rewrite R8 in Ry. subst y. rewrite Ry. auto.
Qed.
Lemma unit_hashable : forall x, unit_value x -> f_hashable x = true.
Proof.
  intros x H. destruct (scaled_ok x H) as (Fy & _ & By). unfold f_hashable. destruct (f_of_ok 1 63) as (F1 & R1).
  { assert (E : F2R (Float radix2 1 63) = bpow radix2 63) by (unfold F2R; cbn [Fnum Fexp]; ring). rewrite E, rnd_format by (apply format_bpow; lia). rewrite Rabs_pos_eq by apply bpow_ge_0. now apply bpow_lt. }
  assert (E : F2R (Float radix2 1 63) = bpow radix2 63) by (unfold F2R; cbn [Fnum Fexp]; ring). rewrite E, rnd_format in R1 by (apply format_bpow; lia).
  assert (L : 80 < bpow radix2 63) by (apply Rle_lt_trans with (bpow radix2 7); [cbn; lra|now apply bpow_lt]). destruct (neg_ok (f_of 1 63)) as (Fn & Rn).
  rewrite !f_cmp_ok by (congruence || assumption). rewrite Rn, R1. rewrite Rcompare_Lt, Rcompare_Gt by lra. reflexivity.
Qed.
Lemma approximate_mono : forall x y, unit_value x -> unit_value y -> f_real x <= f_real y -> (approximate x <= approximate y)%Z.
Proof.
  intros x y Hx Hy H. rewrite !approximate_trunc. apply Ztrunc_le. destruct (scaled_ok x Hx) as (_ & -> & _), (scaled_ok y Hy) as (_ & -> & _). apply rnd_mono. lra.
Qed.
Lemma approximate_near : forall x y, unit_value x -> unit_value y -> approximate x = approximate y -> Rabs (f_real x - f_real y) <= 1 / 79.
Proof.
  intros x y Hx Hy E. rewrite !approximate_trunc in E. destruct (scaled_ok x Hx) as (_ & Ex & Bx), (scaled_ok y Hy) as (_ & Ey & By).
  assert (T : forall r, 0 <= r -> IZR (Ztrunc r) <= r < IZR (Ztrunc r) + 1).
  { intros r Hr. rewrite Ztrunc_floor by exact Hr. split; [apply Zfloor_lb|]. rewrite <- plus_IZR. change (Zfloor r + 1)%Z with (Z.succ (Zfloor r)). rewrite <- (plus_IZR (Zfloor r) 1) || idtac. unfold Z.succ. rewrite plus_IZR. apply Zfloor_ub. }
  pose proof (T _ (proj1 Bx)) as Tx. pose proof (T _ (proj1 By)) as Ty. rewrite E in Tx.
  assert (U : forall r, 0 <= r <= 1 -> Rabs (rnd (r * 80) - r * 80) <= bpow radix2 (-17)).
  { intros r Hr. apply Rle_trans with (/ 2 * ulp radix2 fexp (r * 80)); [apply error_le_half_ulp; auto with typeclass_instances|].
    assert (ulp radix2 fexp (r * 80) <= bpow radix2 (-16)).
    { replace (bpow radix2 (-16)) with (ulp radix2 fexp (bpow radix2 7)) by (now rewrite ulp_bpow). apply ulp_le; auto with typeclass_instances. rewrite !Rabs_pos_eq; [|apply bpow_ge_0|lra]. cbn. lra. }
    change (-16)%Z with (-17 + 1)%Z in *. rewrite bpow_plus in *. change (bpow radix2 1) with 2 in *. lra. }
  destruct Hx as (_ & Hx), Hy as (_ & Hy). pose proof (U _ Hx) as Ux. pose proof (U _ Hy) as Uy. rewrite <- Ex in Ux. rewrite <- Ey in Uy. apply Rabs_le_inv in Ux, Uy. apply Rabs_le. cbn [bpow] in Ux, Uy.
  assert (Z.pow_pos radix2 17 = 131072)%Z as P by reflexivity. rewrite P in *. lra.
Qed.
Local Open Scope nat_scope.

Lemma insert_approx_put : forall x l, insert_approx x l = put (fun x y => (approximate x <? approximate y)%Z) x l.
Proof. intros x l; induction l as [|y l IH]; cbn; [reflexivity|]. now rewrite IH. Qed.
Lemma sort_approx_sort : forall l, sort_approx l = sort (fun x y => (approximate x <? approximate y)%Z) l.
Proof. intros l. unfold sort_approx, sort. generalize (@nil f32). induction l as [|x l IH]; intros acc; cbn [fold_left]; [reflexivity|]. now rewrite insert_approx_put, IH. Qed.
Lemma approx_spec : forall x y, (approximate x <? approximate y)%Z = true <-> (IZR (approximate x) < IZR (approximate y))%R.
Proof. intros x y. rewrite Z.ltb_lt. split; [apply IZR_lt|apply lt_IZR]. Qed.
Lemma middle_ok : forall l, l <> [] -> Forall unit_value l -> exists m, middle l = Ok m /\ In m l /\ exists t, upper_median l t /\ approximate t = approximate m.
Proof.
  intros l Hne HU. unfold middle. assert (Hh : forallb f_hashable l = true) by (apply forallb_forall; intros x Hx; rewrite Forall_forall in HU; now apply unit_hashable, HU).
  rewrite Hh, andb_false_r. rewrite sort_approx_sort. set (before := fun x y => (approximate x <? approximate y)%Z). assert (Hlt : length l / 2 < length l) by (apply Nat.div_lt; [destruct l; [congruence|cbn; lia]|lia]).
  destruct (sort_ok (fun x => IZR (approximate x)) before approx_spec l) as (P & _). destruct (nth_error (sort before l) (length l / 2)) as [m|] eqn:E; [|apply nth_error_None in E; rewrite (Permutation_length P) in E; lia].
  exists m. split; [reflexivity|]. destruct (rank_ok (fun x => IZR (approximate x)) before approx_spec l _ m E) as (Hm & Rm). split; [exact Hm|].
  set (less := fun x y => if Rlt_dec (f_real x) (f_real y) then true else false). assert (Hless : forall x y, less x y = true <-> (f_real x < f_real y)%R) by (intros x y; unfold less; destruct (Rlt_dec (f_real x) (f_real y)); split; auto; discriminate).
  destruct (sort_ok f_real less Hless l) as (P' & _). destruct (nth_error (sort less l) (length l / 2)) as [t|] eqn:E'; [|apply nth_error_None in E'; rewrite (Permutation_length P') in E'; lia].
  destruct (rank_ok f_real less Hless l _ t E') as (Ht & Rt). exists t. rewrite Forall_forall in HU.
  assert (G : forall x y, In x l -> In y l -> f_gt y x = less x y).
  { intros x y Hx Hy. destruct (HU x Hx) as (Fx & _), (HU y Hy) as (Fy & _). unfold f_gt, less. rewrite f_cmp_ok by assumption. destruct (Rlt_dec (f_real x) (f_real y)); [now rewrite Rcompare_Gt|].
    destruct (Rcompare_spec (f_real y) (f_real x)); auto; lra. }
  split.
  - split; [exact Ht|]. rewrite (filter_ext_in (fun x => f_gt t x) (fun x => less x t)) by (intros x Hx; now apply G). rewrite (filter_ext_in (fun x => negb (f_gt x t)) (fun x => negb (less t x))) by (intros x Hx; now rewrite G). exact Rt.
  - assert (Len : forall p r : f32 -> bool, (forall x, In x l -> p x = true -> r x = true) -> length (filter p l) <= length (filter r l)).
    { intros p r. clear. induction l as [|x l IH]; intros H; [cbn; lia|]. cbn [filter]. pose proof (IH ltac:(intros; apply H; [now right|assumption])) as L. pose proof (H x (or_introl eq_refl)) as Hx.
      destruct (p x), (r x); cbn [length]; solve [lia|specialize (Hx eq_refl); discriminate]. }
    destruct (Z.lt_trichotomy (approximate t) (approximate m)) as [C|[C|C]]; [|exact C|]; exfalso.
    + assert (length (filter (fun x => negb (less t x)) l) <= length (filter (fun x => before x m) l)); [|lia]. apply Len. intros x Hx Hn. apply Z.ltb_lt. apply Z.le_lt_trans with (2 := C). apply approximate_mono; auto.
      apply Rnot_lt_le. intros Hlt'. apply Hless in Hlt'. rewrite Hlt' in Hn. discriminate.
    + assert (length (filter (fun x => negb (before m x)) l) <= length (filter (fun x => less x t) l)); [|lia]. apply Len. intros x Hx Hn. apply Hless. apply Rnot_le_lt. intros Hle. pose proof (approximate_mono t x (HU t Ht) (HU x Hx) Hle).
      unfold before in Hn. destruct (Z.ltb_spec (approximate m) (approximate x)); [discriminate|lia].
Qed.

Lemma subtract_ok : forall w rows, rows <> [] -> (forall r, In r rows -> length r = w /\ Forall unit_value r) -> exists out ms, subtract_middle rows = Ok out /\ length out = length rows /\ length ms = w /\
  (forall r, In r out -> length r = w) /\
  forall d m, nth_error ms d = Some m -> middle (column d rows) = Ok m /\ (exists t, upper_median (column d rows) t /\ approximate t = approximate m /\ unit_value t) /\ unit_value m /\
  forall i x, value_at rows i d = Some x -> value_at out i d = Some (f_sub x m).
Proof.
  intros w rows Hne H. unfold subtract_middle. destruct rows as [|r0 rows0] eqn:Er; [congruence|]. rewrite <- Er in *. assert (Hr0 : length r0 = w) by (apply H; rewrite Er; now left). rewrite Hr0.
  assert (Hall : forallb (fun x => length x =? w) rows = true) by (apply forallb_forall; intros x Hx; apply Nat.eqb_eq; now apply H). rewrite Hall. clear Er Hr0 r0 rows0.
  assert (Hcol : forall d, d < w -> length (column d rows) = length rows /\ Forall unit_value (column d rows)).
  { intros d Hd. split; [apply (column_length _ d w); auto; intros r Hr; now apply H|]. apply Forall_forall. intros x Hx. apply column_in in Hx. destruct Hx as (r & Hr & Hx). destruct (H r Hr) as (_ & Hu). rewrite Forall_forall in Hu. apply Hu. now apply nth_error_In in Hx. }
  assert (G : exists cols, mapM (fun d => let! m := middle (column d rows) in Ok (map (fun x => f_sub x m) (column d rows))) (seq 0 w) = Ok cols /\
    Forall2 (fun d col => exists m, middle (column d rows) = Ok m /\ (exists t, upper_median (column d rows) t /\ approximate t = approximate m /\ unit_value t) /\ unit_value m /\ col = map (fun x => f_sub x m) (column d rows)) (seq 0 w) cols).
  { apply mapM_total. intros d Hd. apply in_seq in Hd. destruct (Hcol d ltac:(lia)) as (Lc & Uc). destruct (middle_ok (column d rows)) as (m & Em & Hm & t & Ht & At); [|exact Uc|].
    - intros C. rewrite C in Lc. destruct rows; [congruence|discriminate].
    - rewrite Em. cbn [bind]. eexists. split; [reflexivity|]. rewrite Forall_forall in Uc. exists m. ssplit; auto. exists t. ssplit; auto. apply Uc. apply Ht. }
  destruct G as (cols & -> & HF). cbn [bind]. eexists. 
  assert (Hms : exists ms, Forall2 (fun '(d, col) m => middle (column d rows) = Ok m /\ (exists t, upper_median (column d rows) t /\ approximate t = approximate m /\ unit_value t) /\ unit_value m /\ col = map (fun x => f_sub x m) (column d rows)) (combine (seq 0 w) cols) ms).
  { clear - HF. induction HF as [|d col ds cols (m & Hm) HF IH]; [exists []; constructor|]. destruct IH as (ms & IH). exists (m :: ms). constructor; assumption. }
  destruct Hms as (ms & Hms). exists ms. pose proof (Forall2_len _ _ _ _ _ HF) as Lc. rewrite seq_length in Lc. pose proof (Forall2_len _ _ _ _ _ Hms) as Lm. rewrite combine_length, seq_length in Lm.
  assert (Hnth : forall d col, nth_error cols d = Some col -> d < w /\ length col = length rows).
  { intros d col Hd. assert (Hd' : d < w) by (rewrite Lc; apply nth_error_Some; congruence). split; [exact Hd'|]. destruct (Forall2_at _ _ _ _ _ d d col HF) as (m & _ & _ & _ & ->); [now rewrite nth_error_seq|assumption|]. rewrite map_length. now apply Hcol. }
  assert (Hrow : forall i, i < length rows -> forall d, nth_error (flat_map (fun c : list f32 => match nth_error c i with Some x => [x] | None => [] end) cols) d = match nth_error cols d with Some c => nth_error c i | None => None end).
  { intros i Hi. revert Hnth. clear - Hi. intros Hnth. assert (Hc : forall c, In c cols -> length c = length rows) by (intros c Hc; apply In_nth_error in Hc; destruct Hc as (d & Hd); now apply (Hnth d)). clear Hnth.
    induction cols as [|c cols IH]; intros [|d]; cbn [flat_map nth_error]; auto; destruct (nth_error c i) as [x|] eqn:E; cbn [app nth_error]; auto.
    - apply nth_error_None in E. rewrite Hc in E by now left. lia.
    - apply IH. intros; apply Hc; now right.
    - apply nth_error_None in E. rewrite Hc in E by now left. lia. }
  split; [reflexivity|]. unfold rows_of. ssplit.
  - now rewrite map_length, seq_length.
  - lia.
  - intros r Hr. apply in_map_iff in Hr. destruct Hr as (i & <- & Hi). apply in_seq in Hi. assert (Hc : forall c, In c cols -> length c = length rows) by (intros c Hc; apply In_nth_error in Hc; destruct Hc as (d & Hd); now apply (Hnth d)).
    rewrite Lc. clear - Hi Hc. induction cols as [|c cols IH]; [reflexivity|]. cbn [flat_map]. rewrite app_length, IH by (intros; apply Hc; now right). destruct (nth_error c i) eqn:E; [reflexivity|]. apply nth_error_None in E. rewrite Hc in E by now left. lia.
  - intros d m Hd. assert (Hd' : d < w) by (rewrite Lc in *; assert (d < length ms) by (apply nth_error_Some; congruence); lia).
    destruct (nth_error cols d) as [col|] eqn:Ec; [|apply nth_error_None in Ec; lia].
    pose proof (Forall2_at _ _ _ _ _ d (d, col) m Hms) as HH. rewrite nth_error_combine, Ec, nth_error_seq in HH by exact Hd'. specialize (HH eq_refl Hd). destruct HH as (Em & Ht & Um & Ecol). ssplit; auto.
    intros i x Hx. unfold value_at in *. destruct (nth_error rows i) as [r|] eqn:Ei; [|discriminate]. assert (Hi : i < length rows) by (apply nth_error_Some; congruence).
    rewrite nth_error_map, nth_error_seq by exact Hi. cbn [option_map Nat.add]. rewrite Hrow, Ec, Ecol, nth_error_map by exact Hi. rewrite (column_nth _ d w) by (auto; intros r' Hr'; now apply H). rewrite Ei, Hx. reflexivity.
Qed.

(** ** The file *)
Section File.
Variable fsum : list f32 -> f32.
Definition blank (r : list f32) : bool := f_eq (fsum r) f_zero.

Lemma fill_some : forall rows l, exists out, fill_rows fsum (Some l) rows = Ok out /\ length out = length rows /\
  forall i r, nth_error out i = Some r -> (r = l /\ forall k r', k <= i -> nth_error rows k = Some r' -> blank r' = true) \/
  exists j, j <= i /\ nth_error rows j = Some r /\ blank r = false /\ forall k r', j < k <= i -> nth_error rows k = Some r' -> blank r' = true.
Proof.
  intros rows; induction rows as [|r0 rows IH]; intros l; cbn [fill_rows].
  - exists []. ssplit; auto. intros [|i] r; discriminate.
  - fold (blank r0). destruct (blank r0) eqn:E.
    + destruct (IH l) as (out & -> & HL & HO). cbn [bind]. exists (l :: out). ssplit; [reflexivity|cbn; lia|]. intros [|i] r Hr; cbn in Hr.
      * injection Hr as <-. left. split; [reflexivity|]. intros k r' Hk. replace k with 0 by lia. cbn. congruence.
      * destruct (HO i r Hr) as [(-> & H)|(j & Hj & Er & Hb & H)].
        -- left. split; [reflexivity|]. intros [|k] r' Hk Hr'; cbn in Hr'; [congruence|apply (H k); auto; lia].
        -- right. exists (S j). ssplit; auto; [lia|]. intros [|k] r' Hk Hr'; [lia|]. apply (H k); auto; lia.
    + destruct (IH r0) as (out & -> & HL & HO). cbn [bind]. exists (r0 :: out). ssplit; [reflexivity|cbn; lia|]. intros [|i] r Hr; cbn in Hr.
      * injection Hr as <-. right. exists 0. ssplit; auto. intros k r' Hk. lia.
      * right. destruct (HO i r Hr) as [(-> & H)|(j & Hj & Er & Hb & H)].
        -- exists 0. ssplit; auto; [lia|]. intros [|k] r' Hk Hr'; [lia|]. apply (H k); auto; lia.
        -- exists (S j). ssplit; auto; [lia|]. intros [|k] r' Hk Hr'; [lia|]. apply (H k); auto; lia.
Qed.
Lemma fill_none : forall r rows, if blank r then fill_rows fsum None (r :: rows) = Panic Explicit
  else exists out, fill_rows fsum None (r :: rows) = Ok out /\ carries blank (r :: rows) out.
Proof.
  intros r rows. destruct (blank r) eqn:E; cbn [fill_rows]; fold (blank r); rewrite E; [reflexivity|]. destruct (fill_some rows r) as (out & -> & HL & HO). cbn [bind]. exists (r :: out). split; [reflexivity|].
  split; [cbn; lia|]. intros [|i] x Hx; cbn in Hx.
  - injection Hx as <-. exists 0. ssplit; auto. intros k r' Hk. lia.
  - destruct (HO i x Hx) as [(-> & H)|(j & Hj & Er & Hb & H)].
    + exists 0. ssplit; auto; [lia|]. intros [|k] r' Hk Hr'; [lia|]. apply (H k); auto; lia.
    + exists (S j). ssplit; auto; [lia|]. intros [|k] r' Hk Hr'; [lia|]. apply (H k); auto; lia.
Qed.
Lemma write_some : forall rows l, length (write_rows fsum (Some l) rows) = length rows /\
  forall i r, nth_error (write_rows fsum (Some l) rows) i = Some r -> (r = l /\ forall k r', k <= i -> nth_error rows k = Some r' -> blank r' = true) \/
  exists j, j <= i /\ nth_error rows j = Some r /\ blank r = false /\ forall k r', j < k <= i -> nth_error rows k = Some r' -> blank r' = true.
Proof.
  intros rows; induction rows as [|r0 rows IH]; intros l; cbn [write_rows].
  - split; [reflexivity|]. intros [|i] r; discriminate.
  - fold (blank r0). cbn zeta. destruct (blank r0) eqn:E.
    + destruct (IH l) as (HL & HO). split; [cbn; lia|]. intros [|i] r Hr; cbn in Hr.
      * injection Hr as <-. left. split; [reflexivity|]. intros k r' Hk. replace k with 0 by lia. cbn. congruence.
      * destruct (HO i r Hr) as [(-> & H)|(j & Hj & Er & Hb & H)].
        -- left. split; [reflexivity|]. intros [|k] r' Hk Hr'; cbn in Hr'; [congruence|apply (H k); auto; lia].
        -- right. exists (S j). ssplit; auto; [lia|]. intros [|k] r' Hk Hr'; [lia|]. apply (H k); auto; lia.
    + destruct (IH r0) as (HL & HO). split; [cbn; lia|]. intros [|i] r Hr; cbn in Hr.
      * injection Hr as <-. right. exists 0. ssplit; auto. intros k r' Hk. lia.
      * right. destruct (HO i r Hr) as [(-> & H)|(j & Hj & Er & Hb & H)].
        -- exists 0. ssplit; auto; [lia|]. intros [|k] r' Hk Hr'; [lia|]. apply (H k); auto; lia.
        -- exists (S j). ssplit; auto; [lia|]. intros [|k] r' Hk Hr'; [lia|]. apply (H k); auto; lia.
Qed.
Lemma write_none : forall rows, carries blank rows (write_rows fsum None rows).
Proof.
  intros [|r rows]; [split; [reflexivity|]; intros [|i] r; discriminate|]. cbn [write_rows]. fold (blank r). cbn zeta.
  replace (if blank r then r else r) with r by (now destruct (blank r)). destruct (write_some rows r) as (HL & HO).
  split; [cbn; lia|]. intros [|i] x Hx; cbn in Hx.
  - injection Hx as <-. exists 0. ssplit; auto. intros k r' Hk. lia.
  - destruct (HO i x Hx) as [(-> & H)|(j & Hj & Er & Hb & H)].
    + exists 0. ssplit; auto; [lia|]. intros [|k] r' Hk Hr'; [lia|]. apply (H k); auto; lia.
    + exists (S j). ssplit; auto; [lia|]. intros [|k] r' Hk Hr'; [lia|]. apply (H k); auto; lia.
Qed.
(** ** Windows *)
Hypothesis fsum_ok : forall l, adds_up l (fsum l).
Lemma window_ok : forall s w nodes, n_dims s = Some w -> (Z.of_nat w <= 2 ^ 24)%Z -> (Z.of_nat (length nodes) <= 2 ^ 24)%Z ->
  (forall x, In x nodes -> exists row, lookup key_eqb (node_key x) (node_contribution s) = Some row /\ length row = w /\ Forall entry row) ->
  exists row, window_contribution fsum s nodes = Ok row /\ length row = w /\ Forall unit_value row /\
  forall d x, nth_error row d = Some x -> (f_real x = 0%R <-> forall y row' z, In y nodes -> lookup key_eqb (node_key y) (node_contribution s) = Some row' -> nth_error row' d = Some z -> f_real z = 0%R) /\
  (nodes <> [] -> exists values total, Forall2 (fun y z => exists row', lookup key_eqb (node_key y) (node_contribution s) = Some row' /\ nth_error row' d = Some z) nodes values /\
     adds_up values total /\ x = f_div total (f_of_nat (length nodes))).
Proof.
  intros s w nodes Hd Hw Hn H. unfold window_contribution.
  assert (G : exists rows, mapM (fun x => unwrap (lookup key_eqb (node_key x) (node_contribution s))) nodes = Ok rows /\ Forall2 (fun x row => lookup key_eqb (node_key x) (node_contribution s) = Some row /\ length row = w /\ Forall entry row) nodes rows).
  { apply mapM_total. intros x Hx. destruct (H x Hx) as (row & E & HR). rewrite E. exists row. auto. }
  destruct G as (rows & -> & HF). cbn [bind]. pose proof (Forall2_len _ _ _ _ _ HF) as HL. assert (Hrows : forall r, In r rows -> length r = w /\ Forall entry r).
  { clear - HF. induction HF as [|x r xs rs (_ & Hr) HF IH]; intros r' Hr'; [destruct Hr'|]. destruct Hr' as [<-|Hr']; auto. }
  destruct rows as [|r0 rows0].
  - destruct nodes; [|discriminate]. rewrite Hd. cbn [unwrap bind]. exists (repeat f_zero w). ssplit; [reflexivity|apply repeat_length| |].
    + apply Forall_forall. intros x Hx. apply repeat_spec in Hx. subst x. split; [reflexivity|cbn; lra].
    + intros d x Hx. apply nth_error_In, repeat_spec in Hx. subst x. split; [|congruence]. split; [intros _ y row' z []|]. reflexivity.
  - set (rows := r0 :: rows0) in *. change (match rows with [] => _ | _ => _ end) with (mean_rows fsum (filter (fun r => negb (f_nan (fsum r))) rows)). rewrite filter_all_true.
    2:{ intros r Hr. destruct (Hrows r Hr) as (Lr & Ur). assert (Uu : Forall unit_value r) by (apply Forall_impl with (2 := Ur), entry_unit). destruct (adds_up_bounds r (fsum r) (fsum_ok r) Uu) as (Fr & _); [lia|]. now rewrite finite_not_nan. }
    unfold mean_rows. unfold rows at 1. assert (L0 : length r0 = w) by (apply Hrows; left; reflexivity). rewrite L0. replace (forallb (fun x => length x =? w) rows) with true.
    2:{ symmetry. apply forallb_forall. intros r Hr. apply Nat.eqb_eq. now apply Hrows. }
    eexists. split; [reflexivity|]. rewrite map_length, seq_length. assert (Hcol : forall d, d < w -> length (column d rows) = length rows /\ Forall entry (column d rows)).
    { intros d Hdw. split; [apply (column_length _ d w); auto; intros r Hr; now apply Hrows|]. apply Forall_forall. intros x Hx. apply column_in in Hx. destruct Hx as (r & Hr & Hx). destruct (Hrows r Hr) as (_ & Hu). rewrite Forall_forall in Hu. apply Hu. now apply nth_error_In in Hx. }
    assert (Hmean : forall d, d < w -> let m := f_div (fsum (column d rows)) (f_of_nat (length rows)) in unit_value m /\ (f_real m = 0%R <-> forall y, In y (column d rows) -> f_real y = 0%R)).
    { intros d Hdw. destruct (Hcol d Hdw) as (Lc & Ec). rewrite <- Lc. apply mean_bounds; auto; [|lia]. intros C. rewrite C in Lc. discriminate. }
    ssplit; [reflexivity| |].
    + apply Forall_forall. intros x Hx. apply in_map_iff in Hx. destruct Hx as (d & <- & Hdw). apply in_seq in Hdw. apply Hmean. lia.
    + intros d x Hx. rewrite nth_error_map in Hx. destruct (nth_error (seq 0 w) d) as [d'|] eqn:Es; [|discriminate]. assert (Hdw : d < w) by (rewrite <- (seq_length w 0); apply nth_error_Some; congruence).
      rewrite nth_error_seq in Es by exact Hdw. cbn in Es. injection Es as <-. cbn [option_map] in Hx. assert (x = f_div (fsum (column d rows)) (f_of_nat (length rows))) as -> by congruence. split.
      * rewrite (proj2 (Hmean d Hdw)). split.
        -- intros HZ y row' z Hy El Ez. apply HZ. apply in_flat_map. exists row'. split; [|rewrite Ez; now left]. apply In_nth_error in Hy. destruct Hy as (i & Hi).
           destruct (nth_error rows i) as [r|] eqn:Ei; [|apply nth_error_None in Ei; assert (i < length nodes) by (apply nth_error_Some; congruence); lia].
           destruct (Forall2_at _ _ _ _ _ _ _ _ HF Hi Ei) as (E' & _). rewrite E' in El. injection El as <-. now apply nth_error_In in Ei.
        -- intros HZ z Hz. apply column_in in Hz. destruct Hz as (r & Hr & Ez). apply In_nth_error in Hr. destruct Hr as (i & Ei).
           destruct (nth_error nodes i) as [y|] eqn:Hi; [|apply nth_error_None in Hi; assert (i < length rows) by (apply nth_error_Some; congruence); lia].
           destruct (Forall2_at _ _ _ _ _ _ _ _ HF Hi Ei) as (E' & _). apply (HZ y r z); auto. now apply nth_error_In in Hi.
      * intros _. exists (column d rows), (fsum (column d rows)). rewrite HL. ssplit; auto. clear - HF Hdw. induction HF as [|y r ys rs (El & Lr & _) HF IH]; [constructor|]. cbn [column flat_map].
        destruct (nth_error r d) as [z|] eqn:Ez; [|apply nth_error_None in Ez; lia]. cbn [app]. constructor; eauto.
Qed.
End File.
