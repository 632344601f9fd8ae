(** Contributions of the dimensions (option explainability): C75 - C77. *)
From Coq Require Import List Arith Bool ZArith Reals Lia Lra Permutation.
From Flocq Require Import IEEE754.BinarySingleNaN Core.
From Verif.Base Require Import Res Assoc ListX Float32 Float32Proofs.
From Verif.Stats Require Import Model.
From Verif.Edges Require Import Model Proofs HostProofs.
From Verif.Scoring Require Import Model Spec.
From Verif.Transposition Require Import Spec.
From Verif.Normalize Require Import ScoreProofs.
From Verif.Kde Require Import Model Float FloatProofs PeakProofs.
From Verif.Contribution Require Import Model Spec Proofs SumProofs FileProofs.
From Verif.Properties Require Import Protocol Transposition Scoring.
Import ListNotations.
Local Open Scope nat_scope.

(** ** C75 *)
(** The value of a cluster in a dimension is the share of the crossings of the segment with another coordinate there: between 0 and 1, and 0 exactly if all agree. *)
Theorem C75_entries : forall w c, well_clustered w c -> exists rows, uniqueness w (centers c) (label_counts (labels c)) = Ok rows /\ length rows = length (centers c) /\
  forall k d, k < length (centers c) -> d < w -> exists x, value_at rows k d = Some x /\ f_finite x = true /\ f_real x = rarity c k d /\ (0 <= f_real x < 1)%R /\ (f_real x = 0%R <-> uniform c d).
Proof.
  intros w c Hw. destruct (uniqueness_ok w c Hw) as (rows & E & HL & HR). exists rows. ssplit; auto. intros k d Hk Hd. destruct (HR k Hk) as (row & Er & Lr & Hrow). destruct (Hrow d Hd) as (x & Ex & Fx & Rx).
  destruct (rarity_entry w c k d x Hw Hk Hd Fx Rx) as ((_ & B & _) & L & Z). exists x. unfold value_at. rewrite Er. ssplit; auto; lra.
Qed.
(** The labels and centres that the clustering answers with are of this form: the centres of the crossings in all dimensions, equal ones joined. *)
Theorem C75_clusterings : forall w rows, rows <> [] -> (Z.of_nat (length rows) <= 2 ^ 24)%Z -> (forall r, In r rows -> length r = w /\ Forall (fun x => f_hashable x = true) r) ->
  exists ls cs, extract_labels f_eq f_hashable rows = Ok (ls, cs) /\ length ls = length rows /\ well_clustered w {| labels := ls; centers := cs |}.
Proof.
  intros w rows Hne HZ Hr. destruct (labels_ok f_eq f_hashable (fun x => f_nan x = false) f_eq_refl f_eq_sym rows Hne) as (ls & cs & E & L & H1 & H2 & _).
  - apply Forall_forall. intros r Hin. destruct (Hr r Hin) as (_ & Hh). apply Forall_impl with (2 := Hh). exact f_hashable_nan.
  - apply Forall_forall. intros r Hin. destruct (Hr r Hin) as (_ & Hh). apply forallb_forall. now apply Forall_forall.
  - exists ls, cs. ssplit; auto. split; cbn [labels centers]; [intros ->; destruct rows; [congruence|discriminate]|]. split; [|split].
    + intros l. split.
      * intros Hl. apply In_nth_error in Hl. destruct Hl as (i & Hi). destruct (nth_error rows i) as [c|] eqn:Ec; [|apply nth_error_None in Ec; assert (i < length ls) by (apply nth_error_Some; congruence); lia].
        destruct (H1 i c l Ec Hi) as (r & Er & _). apply nth_error_Some. congruence.
      * intros Hl. destruct (nth_error cs l) as [r|] eqn:Er; [|apply nth_error_None in Er; lia]. destruct (H2 l r Er) as (i & _ & Hi & _). now apply nth_error_In in Hi.
    + intros r Hin. apply In_nth_error in Hin. destruct Hin as (k & Hk). destruct (H2 k r Hk) as (i & Ei & _). apply Hr. now apply nth_error_In in Ei.
    + lia.
Qed.
(** Three crossings with the centres (1,2) and (1,3), labels 0 1 1. *)
Definition two_centers : clustered := {| labels := [0; 1; 1]; centers := [[f_of 1 0; f_of 2 0]; [f_of 1 0; f_of 3 0]] |}.
Example C75_case : well_clustered 2 two_centers /\ agreeing two_centers 0 0 = 3 /\ agreeing two_centers 0 1 = 1 /\ agreeing two_centers 1 1 = 2.
Proof.
  split; [|vm_compute; auto]. split; [discriminate|]. split; [intros l; cbn; split; [intros [<-|[<-|[<-|[]]]]; lia|intros H; destruct l as [|[|l]]; [auto|auto|lia]]|]. split; [|cbn; lia].
  intros r [<-|[<-|[]]]; (split; [reflexivity|repeat constructor; vm_compute; reflexivity]).
Qed.

Lemma recorded_nodes : forall w ms st, proper w ms -> (forall s c nodes, In (s, c, nodes) ms -> recorded w (node_contribution st) s c) ->
  forall x c, belongs ms x c -> exists row, lookup key_eqb (node_key x) (node_contribution st) = Some row /\ length row = w /\ Forall entry row /\
  forall d z, nth_error row d = Some z -> f_real z = 0%R <-> uniform c d.
Proof.
  intros w ms st (_ & _ & HP) HR x c (nodes & Hin & Hk). destruct (HP _ _ _ Hin) as (Hw & _). destruct (HR _ _ _ Hin _ Hk) as (row & El & Lr & Hrow). exists row.
  assert (Hz : forall d z, nth_error row d = Some z -> entry z /\ (f_real z = 0%R <-> uniform c d)).
  { intros d z Ez. assert (Hd : d < w) by (rewrite <- Lr; apply nth_error_Some; congruence). destruct (Hrow d Hd) as (z' & Ez' & Fz & Rz). rewrite Ez in Ez'. injection Ez' as <-.
    destruct (rarity_entry w c _ d z Hw Hk Hd Fz Rz) as (A & _ & B). auto. }
  ssplit; auto.
  - apply Forall_forall. intros z Hin'. apply In_nth_error in Hin'. destruct Hin' as (d & Ed). now apply (Hz d).
  - intros d z Ez. now apply (Hz d).
Qed.
Lemma unique_clustering : forall w ms x c c', proper w ms -> belongs ms x c -> belongs ms x c' -> c = c'.
Proof.
  intros w ms x c c' (_ & HN & _) (n & H & _) (n' & H' & _). assert (E : (n_segment x, c, n) = (n_segment x, c', n')); [|congruence].
  revert HN H H'. generalize (n_segment x) as s. clear. intros s HN H H'. induction ms as [|m ms IH]; [destruct H|]. cbn [map] in HN. inversion HN as [|? ? Hni HN']; subst.
  destruct H as [->|H], H' as [H'|H']; auto; exfalso; apply Hni; [|subst m]; cbn [fst].
  - change s with (fst (fst (s, c', n'))). now apply (in_map (fun m => fst (fst m))).
  - change s with (fst (fst (s, c, n))). now apply (in_map (fun m => fst (fst m))).
Qed.
Section Run.
(** Sums in any order. *)
Variable fsum : list f32 -> f32.
Hypothesis fsum_ok : forall l, adds_up l (fsum l).

(** One row per window of scores, whatever the order of the additions: in every dimension the mean of the values of the nodes of the window, a number between 0 and 1,
    0 exactly if in this dimension the crossings agree in every segment that the window visits. *)
Theorem C75_windows : forall w ms edges num q, proper w ms -> (Z.of_nat w <= 2 ^ 24)%Z -> proper_edges ms edges num q ->
  exists st g rows, record_all w (map message ms) = Ok st /\ single_graph edges num q = Ok g /\ contributions fsum st g = Ok rows /\ length rows = num - q /\
  forall i row, nth_error rows i = Some row -> length row = w /\ forall d x, nth_error row d = Some x -> f_finite x = true /\ (0 <= f_real x <= 1)%R /\
    (f_real x = 0%R <-> forall e c, In e (window_edges edges q i) -> belongs ms (fst e) c -> uniform c d) /\
    (window_edges edges q i <> [] -> exists values total, adds_up values total /\ x = f_div total (f_of_nat (length values)) /\
       Forall2 (fun e v => f_finite v = true /\ exists c, belongs ms (fst e) c /\ f_real v = rarity c (n_cluster (fst e)) d) (window_edges edges q i) values).
Proof.
  intros w ms edges num q HP Hw (Hasc & Ht & Hpos & Hq & He & HB). pose proof HP as (Hne & HN & HPs). destruct (record_all_ok w ms HN HPs) as (st & Est & HR & Hd). specialize (Hd Hne).
  destruct (C42_no_abort edges num q Hasc Ht Hpos) as (g & Eg & Lg & _); try lia. exists st, g.
  assert (G : exists rows, mapM (fun i => let! es := window g i in window_contribution fsum st (map fst es)) (seq 0 (num - q)) = Ok rows /\
    Forall2 (fun i row => length row = w /\ forall d x, nth_error row d = Some x -> f_finite x = true /\ (0 <= f_real x <= 1)%R /\
    (f_real x = 0%R <-> forall e c, In e (window_edges edges q i) -> belongs ms (fst e) c -> uniform c d) /\
    (window_edges edges q i <> [] -> exists values total, adds_up values total /\ x = f_div total (f_of_nat (length values)) /\
       Forall2 (fun e v => f_finite v = true /\ exists c, belongs ms (fst e) c /\ f_real v = rarity c (n_cluster (fst e)) d) (window_edges edges q i) values)) (seq 0 (num - q)) rows).
  { apply mapM_total. intros i Hi. apply in_seq in Hi. destruct (C42_windows edges num q g i Hasc Ht Hpos) as (Ew & _); try lia; auto. rewrite Ew. cbn [bind].
    assert (Hin : forall e, In e (window_edges edges q i) -> In e edges).
    { intros e Hx. unfold window_edges in Hx. apply in_app_or in Hx. destruct Hx as [Hx|Hx]; [now apply filter_In in Hx|]. apply filter_In with (f := fun e => i + q - 1 <? to_id e).
      revert Hx. generalize (filter (fun e => i + q - 1 <? to_id e) edges). intros [|a l]; cbn; tauto. }
    assert (Hlen : length (window_edges edges q i) <= length edges).
    { unfold window_edges. rewrite app_length. clear. induction edges as [|e l IH]; [cbn; lia|]. cbn [filter]. destruct ((i <? to_id e) && (to_id e <=? i + q - 1)) eqn:E1, (i + q - 1 <? to_id e) eqn:E2; cbn [length firstn] in *; try lia. }
    destruct (window_ok fsum fsum_ok st w (map fst (window_edges edges q i)) Hd Hw) as (row & Er & Lr & Ur & Hrow).
    - rewrite map_length. apply Z.le_trans with (2 := He). apply inj_le. exact Hlen.
    - intros x Hx. apply in_map_iff in Hx. destruct Hx as (e & <- & Hx). destruct (HB e (Hin e Hx)) as (c & Hc). destruct (recorded_nodes w ms st HP HR (fst e) c Hc) as (r & A & B & C & _). eauto.
    - exists row. split; [exact Er|]. split; [exact Lr|]. intros d x Ex. destruct (Hrow d x Ex) as (HZ & HM). rewrite Forall_forall in Ur. destruct (Ur x) as (Fx & Bx); [now apply nth_error_In in Ex|].
      assert (Hdw : d < w) by (rewrite <- Lr; apply nth_error_Some; congruence). ssplit; try assumption; try apply Bx.
      + rewrite HZ. split.
        * intros H e c Hx Hc. destruct (recorded_nodes w ms st HP HR (fst e) c Hc) as (r & A & B & _ & D). destruct (nth_error r d) as [z|] eqn:Ez; [|apply nth_error_None in Ez; lia].
          apply (D d z Ez). apply (H (fst e) r z); auto. now apply in_map.
        * intros H y r z Hy El Ez. apply in_map_iff in Hy. destruct Hy as (e & <- & Hx). destruct (HB e (Hin e Hx)) as (c & Hc). destruct (recorded_nodes w ms st HP HR (fst e) c Hc) as (r' & A & B & _ & D).
          rewrite El in A. injection A as <-. apply (D d z Ez). now apply (H e).
      + intros Hnn. destruct HM as (values & tot & HV & HA & HX). { destruct (window_edges edges q i); [congruence|discriminate]. }
        exists values, tot. split; [exact HA|]. pose proof (Forall2_len _ _ _ _ _ HV) as LV. split; [now rewrite <- LV|].
        assert (HB' : forall e, In e (window_edges edges q i) -> exists c, belongs ms (fst e) c) by (intros e Hx; now apply HB, Hin). clear - HV HB' HR HP Hdw. revert values HV. induction (window_edges edges q i) as [|e es IH]; intros values HV; inversion HV as [|? z ? zs (r & El & Ez) HV']; subst; constructor.
        * destruct (HB' e (or_introl eq_refl)) as (c & Hc). pose proof Hc as (nodes & Hin & Hk). destruct (HR _ _ _ Hin _ Hk) as (r' & El' & Lr' & Hr'). destruct (Hr' d Hdw) as (z' & Ez' & Fz & Rz).
          change (n_segment (fst e), n_cluster (fst e)) with (node_key (fst e)) in El'. rewrite El in El'. injection El' as <-. rewrite Ez in Ez'. injection Ez' as <-. eauto.
        * apply IH; auto. intros; apply HB'; now right. }
  destruct G as (rows & Em & HF). exists rows. pose proof (Forall2_len _ _ _ _ _ HF) as HL. rewrite seq_length in HL. ssplit; auto.
  - unfold contributions. rewrite Lg. cbn [bind]. rewrite Em. cbn [bind]. destruct rows; [cbn in HL; lia|reflexivity].
  - intros i row Hi. assert (i < num - q) by (rewrite HL; apply nth_error_Some; congruence). apply (Forall2_at _ _ _ _ _ i i row HF); [|assumption]. now rewrite nth_error_seq.
Qed.

(** ** C76 *)
(** Writing the contributions aborts exactly if the crossings agree in every dimension of every segment that the first window visits - otherwise one row per window is written. *)
Theorem C76_aborts_iff : forall w ms edges num q st g rows, proper w ms -> (Z.of_nat w <= 2 ^ 24)%Z -> proper_edges ms edges num q ->
  record_all w (map message ms) = Ok st -> single_graph edges num q = Ok g -> contributions fsum st g = Ok rows ->
  ((forall e c d, In e (window_edges edges q 0) -> belongs ms (fst e) c -> d < w -> uniform c d) -> contribution_file fsum rows = Panic Explicit) /\
  (~ (forall e c d, In e (window_edges edges q 0) -> belongs ms (fst e) c -> d < w -> uniform c d) -> exists out, contribution_file fsum rows = Ok out /\ length out = num - q).
Proof.
  intros w ms edges num q st g rows HP Hw HE Est Eg Er. destruct (C75_windows w ms edges num q HP Hw HE) as (st' & g' & rows' & Est' & Eg' & Er' & HL & HR).
  rewrite Est in Est'. injection Est' as <-. rewrite Eg in Eg'. injection Eg' as <-. rewrite Er in Er'. injection Er' as <-.
  destruct rows as [|r rows]; [cbn in HL; destruct HE as (_ & _ & _ & Hq & _); lia|].
  assert (HU : forall r', In r' (r :: rows) -> length r' = w /\ Forall unit_value r').
  { intros r' Hr'. apply In_nth_error in Hr'. destruct Hr' as (i & Hi). destruct (HR i r' Hi) as (Lr & Hv). split; [exact Lr|]. apply Forall_forall. intros x Hx. apply In_nth_error in Hx. destruct Hx as (d & Hd). destruct (Hv d x Hd) as (F & B & _). split; assumption. }
  destruct (HU r (or_introl eq_refl)) as (Lr & Ur).
  assert (HZ : blank fsum r = true <-> (forall e c d, In e (window_edges edges q 0) -> belongs ms (fst e) c -> d < w -> uniform c d)).
  { unfold blank. rewrite (sum_zero r (fsum r) (fsum_ok r) Ur) by lia. destruct (HR 0 r eq_refl) as (_ & Hv). split.
    - intros H e c d Hin Hc Hd. destruct (nth_error r d) as [x|] eqn:Ex; [|apply nth_error_None in Ex; lia]. destruct (Hv d x Ex) as (_ & _ & HZ & _). apply (proj1 HZ) with (e := e); auto. apply H. now apply nth_error_In in Ex.
    - intros H y Hy. apply In_nth_error in Hy. destruct Hy as (d & Hd). destruct (Hv d y Hd) as (_ & _ & HZ & _). apply HZ. intros e c Hin Hc. apply (H e c d Hin Hc). rewrite <- Lr. apply nth_error_Some. congruence. }
  pose proof (fill_none fsum r rows) as HF. unfold contribution_file. destruct (blank fsum r) eqn:Eb.
  - split; [now rewrite HF|]. intros C. exfalso. apply C. now apply HZ.
  - split; [intros C; apply HZ in C; discriminate|]. intros _. destruct HF as (filled & -> & HLf & Hcf). cbn [bind].
    assert (Hfr : forall r', In r' filled -> length r' = w /\ Forall unit_value r'). { intros r' Hr'. apply In_nth_error in Hr'. destruct Hr' as (i & Hi). destruct (Hcf i r' Hi) as (j & _ & Ej & _). apply HU. now apply nth_error_In in Ej. }
    destruct (subtract_ok w filled) as (out & mids & -> & HLo & _); auto; [intros C; rewrite C in HLf; discriminate|]. cbn [bind]. eexists. split; [reflexivity|].
    destruct (write_none fsum out) as (-> & _). lia.
Qed.

(** ** C77 *)
(** What is written, if it is: rows of zeros are replaced by the last row before; in every dimension a value is subtracted that lies less than 1/79 from the upper median
    (in the same interval of width 1/80); and rows that then sum up to zero are replaced by the last row before. *)
Theorem C77_file_partial : forall w rows out, rows <> [] -> (Z.of_nat w <= 2 ^ 24)%Z -> (forall r, In r rows -> length r = w /\ Forall unit_value r) -> contribution_file fsum rows = Ok out ->
  exists filled centred mids, carries (fun r => f_eq (fsum r) f_zero) rows filled /\ length mids = w /\
  (forall d m, nth_error mids d = Some m -> (exists t, upper_median (column d filled) t /\ (Rabs (f_real t - f_real m) <= 1 / 79)%R) /\
     forall i x, value_at filled i d = Some x -> value_at centred i d = Some (f_sub x m)) /\
  carries (fun r => f_eq (fsum r) f_zero) centred out.
Proof.
  intros w rows out Hne Hw HU Ho. destruct rows as [|r rows]; [congruence|]. unfold contribution_file in Ho. pose proof (fill_none fsum r rows) as HF. destruct (blank fsum r); [rewrite HF in Ho; discriminate|].
  destruct HF as (filled & E & HC). rewrite E in Ho. cbn [bind] in Ho. pose proof HC as (HLf & Hcf).
  assert (Hfr : forall r', In r' filled -> length r' = w /\ Forall unit_value r'). { intros r' Hr'. apply In_nth_error in Hr'. destruct Hr' as (i & Hi). destruct (Hcf i r' Hi) as (j & _ & Ej & _). apply HU. now apply nth_error_In in Ej. }
  destruct (subtract_ok w filled) as (centred & mids & Es & HLo & Lm & _ & Hm); auto; [intros C; rewrite C in HLf; discriminate|]. rewrite Es in Ho. cbn [bind] in Ho. injection Ho as <-.
  exists filled, centred, mids. ssplit; auto.
  - intros d m Hd. destruct (Hm d m Hd) as (_ & (t & Ht & At & Ut) & Um & Hx). split; [|exact Hx]. exists t. split; [exact Ht|]. now apply approximate_near.
  - apply write_none.
Qed.
End Run.

(** Adding from left to right is one of the orders. *)
Lemma f_sum_adds_up : forall l, adds_up l (f_sum l).
Proof.
  intros l. unfold f_sum. assert (G : forall l done x, adds_up done x -> adds_up (done ++ l) (fold_left f_add l x)).
  { clear l. intros l; induction l as [|y l IH]; intros done x H; cbn [fold_left]; [now rewrite app_nil_r|]. replace (done ++ y :: l) with ((done ++ [y]) ++ l) by (now rewrite <- app_assoc).
    apply IH. eapply add_two; [reflexivity|exact H|apply add_one]. }
  apply (G l [] f_zero). constructor.
Qed.
(** A series that passes every segment at one place: three segments with one centre each. *)
Definition one_center : clustered := {| labels := [0; 0]; centers := [[f_of 1 0; f_of 2 0]] |}.
Definition clean_segments : list segment_record := map (fun s => (s, one_center, [nd s 0 s; nd s 0 (s + 3)])) [0; 1; 2].
Definition clean_edges : list edge := [(nd 0 0 0, nd 1 0 1); (nd 1 0 1, nd 2 0 2); (nd 2 0 2, nd 0 0 3); (nd 0 0 3, nd 1 0 4); (nd 1 0 4, nd 2 0 5)].
Lemma clean_proper : proper 2 clean_segments /\ proper_edges clean_segments clean_edges 7 2.
Proof.
  split.
  - split; [discriminate|]. split; [repeat constructor; cbn; intuition discriminate|]. intros s c nodes H.
    assert (Hc : c = one_center /\ nodes_match s c nodes) by (cbn in H; destruct H as [H|[H|[H|[]]]]; injection H as <- <- <-; (split; [reflexivity|repeat constructor])). destruct Hc as (-> & Hm). split; [|exact Hm].
    split; [discriminate|]. split; [intros l; cbn; split; [intros [<-|[<-|[]]]; lia|intros Hl; left; lia]|]. split; [|cbn; lia]. intros r [<-|[]]. split; [reflexivity|repeat constructor; vm_compute; reflexivity].
  - split; [repeat constructor; cbn; lia|]. split; [intros e He; repeat (destruct He as [<-|He]; [cbn; lia|]); destruct He|]. split; [intros _; exists (nd 0 0 0, nd 1 0 1); split; [now left|discriminate]|].
    split; [lia|]. split; [cbn; lia|]. intros e He. exists one_center. repeat (destruct He as [<-|He]; [eexists; split; [cbn; eauto|cbn; lia]|]). destruct He.
Qed.
(** A clean series (no anomaly, every segment is passed at one place) makes the program abort instead of writing the contributions; all five windows have edges. *)
Theorem C76_never_aborts_refuted : exists w ms edges num q st g rows, proper w ms /\ proper_edges ms edges num q /\ (forall i, i < num - q -> window_edges edges q i <> [] \/ num - q <= i + 1) /\
  record_all w (map message ms) = Ok st /\ single_graph edges num q = Ok g /\ contributions f_sum st g = Ok rows /\ length rows = 5 /\ contribution_file f_sum rows = Panic Explicit.
Proof.
  destruct clean_proper as (HP & HE). destruct (C75_windows f_sum f_sum_adds_up 2 clean_segments clean_edges 7 2 HP ltac:(lia) HE) as (st & g & rows & Est & Eg & Er & HL & _).
  exists 2, clean_segments, clean_edges, 7, 2, st, g, rows. ssplit; auto.
  - intros i Hi. destruct i as [|[|[|[|[|i]]]]]; try (left; discriminate); right; lia.
  - apply (C76_aborts_iff f_sum f_sum_adds_up 2 clean_segments clean_edges 7 2 st g rows HP ltac:(lia) HE Est Eg Er). intros e c d He (nodes & Hin & _) Hd k l Hk Hl.
    assert (c = one_center) as -> by (cbn in Hin; destruct Hin as [H|[H|[H|[]]]]; injection H as _ <- _; reflexivity). destruct k as [|k]; [|cbn in Hk; lia]. destruct l as [|l]; [|cbn in Hl; lia]. destruct d as [|[|d]]; [vm_compute; reflexivity|vm_compute; reflexivity|lia].
Qed.
(** With several centres the file is written: the hypotheses of C77. *)
Definition mixed_segments : list segment_record := [(0, two_centers, [nd 0 0 0; nd 0 1 3; nd 0 1 5]); (1, one_center, [nd 1 0 1; nd 1 0 4])].
Definition mixed_edges : list edge := [(nd 0 0 0, nd 1 0 1); (nd 1 0 1, nd 0 1 3); (nd 0 1 3, nd 1 0 4); (nd 1 0 4, nd 0 1 5)].
Lemma mixed_proper : proper 2 mixed_segments /\ proper_edges mixed_segments mixed_edges 7 2.
Proof.
  split.
  - split; [discriminate|]. split; [repeat constructor; cbn; intuition discriminate|]. intros s c nodes H. cbn in H. destruct H as [H|[H|[]]]; injection H as <- <- <-; (split; [|repeat constructor]).
    + apply C75_case.
    + apply (proj1 clean_proper) with (s := 0) (nodes := [nd 0 0 0; nd 0 0 3]). now left.
  - split; [repeat constructor; cbn; lia|]. split; [intros e He; repeat (destruct He as [<-|He]; [cbn; lia|]); destruct He|]. split; [intros _; exists (nd 0 0 0, nd 1 0 1); split; [now left|discriminate]|].
    split; [lia|]. split; [cbn; lia|]. intros e He. repeat (destruct He as [<-|He]; [eexists; eexists; split; [cbn; eauto|cbn; lia]|]). destruct He.
Qed.
(** Twice a third of a crossing: the windows have the contributions 2/3, 0, 1/3, 1/3, 0 in the second dimension (rounded) ... *)
Definition third : f32 := f_of 11184810 (-26).
Definition two_thirds : f32 := f_of 11184810 (-25).
Definition mixed_rows : list (list f32) := [[f_zero; two_thirds]; [f_zero; f_zero]; [f_zero; third]; [f_zero; third]; [f_zero; f_zero]].
(** ... and the file says that all windows exceed the median by 1/3: the rows of the second, third, fourth and fifth window are copies of that of the first one. *)
Theorem C77_own_row_refuted : exists w ms edges num q st g rows out, proper w ms /\ proper_edges ms edges num q /\ record_all w (map message ms) = Ok st /\ single_graph edges num q = Ok g /\
  contributions f_sum st g = Ok rows /\ same_table rows mixed_rows = true /\ contribution_file f_sum rows = Ok out /\ same_table out (repeat [f_zero; third] 5) = true.
Proof.
  destruct mixed_proper as (HP & HE). destruct (C75_windows f_sum f_sum_adds_up 2 mixed_segments mixed_edges 7 2 HP ltac:(lia) HE) as (st & g & rows & Est & Eg & Er & HL & _).
  assert (H : match record_all 2 (map message mixed_segments), single_graph mixed_edges 7 2 with
    | Ok st, Ok g => match contributions f_sum st g with
                     | Ok rows => same_table rows mixed_rows && match contribution_file f_sum rows with Ok out => same_table out (repeat [f_zero; third] 5) | Panic _ => false end
                     | Panic _ => false end
    | _, _ => false end = true) by (vm_compute; reflexivity).
  rewrite Est, Eg, Er in H. apply andb_prop in H. destruct H as (H1 & H2). destruct (contribution_file f_sum rows) as [out|] eqn:Eo; [|discriminate].
  exists 2, mixed_segments, mixed_edges, 7, 2, st, g, rows, out. ssplit; auto.
Qed.
(** The value that is subtracted need not be the median: of 1/128, 1/1024 and 1/512 it is the smallest. *)
Theorem C77_median_refuted : exists l m, Forall unit_value l /\ length l = 3 /\ middle l = Ok m /\ ~ upper_median l m.
Proof.
  exists [f_of 1 (-7); f_of 1 (-10); f_of 1 (-9)], (f_of 1 (-10)). ssplit; auto.
  - assert (G : forall e, (-149 <= e <= 0)%Z -> unit_value (f_of 1 e)).
    { intros e He. assert (E : F2R (Float radix2 1 e) = bpow radix2 e) by (unfold F2R; cbn [Fnum Fexp]; ring). destruct (f_of_ok 1 e) as (A & B); rewrite E, rnd_format in * by (apply format_bpow; lia).
      - rewrite Rabs_pos_eq by apply bpow_ge_0. apply bpow_lt. lia.
      - split; [exact A|]. rewrite B. split; [apply bpow_ge_0|]. change 1%R with (bpow radix2 0). apply bpow_le. lia. }
    repeat (apply Forall_cons; [apply G; lia|]). constructor.
  - intros (_ & H). vm_compute in H. lia.
Qed.

Print Assumptions C75_entries.
Print Assumptions C75_clusterings.
Print Assumptions C75_windows.
Print Assumptions C76_aborts_iff.
Print Assumptions C76_never_aborts_refuted.
Print Assumptions C77_file_partial.
Print Assumptions C77_own_row_refuted.
Print Assumptions C77_median_refuted.
