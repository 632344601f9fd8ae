From Coq Require Import List Arith Bool ZArith Reals Lia Lra.
From Flocq Require Import IEEE754.BinarySingleNaN Core.
From Verif.Base Require Import Res Float32 Float32Proofs ListX.
From Verif.Stats Require Import Model Spec Proofs Single SingleSpec.
Import ListNotations.
Local Open Scope R_scope.

Lemma cmp_place : forall x y, f_nan x = false -> f_nan y = false -> f_cmp x y = Some (Rcompare (place x) (place y)).
Proof.
  intros x y Hx Hy. pose proof (f_real_lt x) as Lx. pose proof (f_real_lt y) as Ly. unfold max_real in *. apply Rabs_def2 in Lx, Ly.
  assert (P : 0 < bpow radix2 128) by apply bpow_gt_0.
  destruct (f_finite x) eqn:Fx.
  - destruct (f_finite y) eqn:Fy.
    + rewrite (f_cmp_ok x y Fx Fy). destruct x; try discriminate; destruct y; try discriminate; reflexivity.
    + destruct y as [|s| |]; try discriminate. unfold f_cmp. assert (E : place x = f_real x) by (destruct x; try discriminate; reflexivity). rewrite E. cbn [place].
      destruct s; [rewrite Rcompare_Gt by lra|rewrite Rcompare_Lt by lra]; destruct x as [[]| | |[]]; try discriminate; reflexivity.
  - destruct x as [|s| |]; try discriminate. destruct (f_finite y) eqn:Fy.
    + assert (E : place y = f_real y) by (destruct y; try discriminate; reflexivity). rewrite E. cbn [place].
      destruct s; [rewrite Rcompare_Lt by lra|rewrite Rcompare_Gt by lra]; destruct y as [[]| | |[]]; try discriminate; reflexivity.
    + destruct y as [|s'| |]; try discriminate. cbn [place]. destruct s, s'; [rewrite Rcompare_Eq|rewrite Rcompare_Lt|rewrite Rcompare_Gt|rewrite Rcompare_Eq]; try lra; reflexivity.
Qed.
Lemma gt_place : forall x y, f_nan x = false -> f_nan y = false -> f_gt x y = true <-> place x > place y.
Proof.
  intros x y Hx Hy. unfold f_gt. rewrite (cmp_place x y Hx Hy). destruct (Rcompare_spec (place x) (place y)); split; intros H'; try discriminate; try reflexivity; lra.
Qed.
Lemma gt_nan : forall x y, f_nan x = true \/ f_nan y = true -> f_gt x y = false.
Proof. intros x y H. unfold f_gt, f_cmp, f_nan in *. destruct x; cbn in H; destruct H as [H|H]; try discriminate; try reflexivity; destruct y; try discriminate; reflexivity. Qed.

Definition low (bound : f32) (l : list f32) (v : f32) : Prop :=
  f_nan v = false /\ (v = bound \/ In v l) /\ place v <= place bound /\ forall x, In x l -> f_nan x = false -> place v <= place x.
Definition high (bound : f32) (l : list f32) (v : f32) : Prop :=
  f_nan v = false /\ (v = bound \/ In v l) /\ place bound <= place v /\ forall x, In x l -> f_nan x = false -> place x <= place v.

Lemma fold_low : forall bound l done v, low bound done v -> low bound (done ++ l) (fold_left (fun smallest v => if f_gt smallest v then v else smallest) l v).
Proof.
  intros bound. induction l as [|x l IH]; intros done v H; [now rewrite app_nil_r|]. cbn [fold_left].
  replace (done ++ x :: l) with ((done ++ [x]) ++ l) by (now rewrite <- app_assoc). apply IH. destruct H as (A & B & C & D).
  destruct (f_nan x) eqn:Nx.
  - rewrite gt_nan by auto. repeat split; auto.
    + destruct B as [B|B]; [now left|right; apply in_app_iff; now left].
    + intros y Hy Ny. apply in_app_iff in Hy. destruct Hy as [Hy|[<-|[]]]; [auto|congruence].
  - destruct (f_gt v x) eqn:G.
    + apply gt_place in G; auto. repeat split; auto; [right; apply in_app_iff; right; now left|lra|].
      intros y Hy Ny. apply in_app_iff in Hy. destruct Hy as [Hy|[<-|[]]]; [specialize (D y Hy Ny); lra|lra].
    + assert (L : place v <= place x). { destruct (Rle_lt_dec (place v) (place x)) as [L|L]; [exact L|]. apply (gt_place v x A Nx) in L. congruence. }
      repeat split; auto; [destruct B as [B|B]; [now left|right; apply in_app_iff; now left]|].
      intros y Hy Ny. apply in_app_iff in Hy. destruct Hy as [Hy|[<-|[]]]; auto.
Qed.
Lemma fold_high : forall bound l done v, high bound done v -> high bound (done ++ l) (fold_left (fun largest v => if f_gt v largest then v else largest) l v).
Proof.
  intros bound. induction l as [|x l IH]; intros done v H; [now rewrite app_nil_r|]. cbn [fold_left].
  replace (done ++ x :: l) with ((done ++ [x]) ++ l) by (now rewrite <- app_assoc). apply IH. destruct H as (A & B & C & D).
  destruct (f_nan x) eqn:Nx.
  - rewrite gt_nan by auto. repeat split; auto.
    + destruct B as [B|B]; [now left|right; apply in_app_iff; now left].
    + intros y Hy Ny. apply in_app_iff in Hy. destruct Hy as [Hy|[<-|[]]]; [auto|congruence].
  - destruct (f_gt x v) eqn:G.
    + apply gt_place in G; auto. repeat split; auto; [right; apply in_app_iff; right; now left|lra|].
      intros y Hy Ny. apply in_app_iff in Hy. destruct Hy as [Hy|[<-|[]]]; [specialize (D y Hy Ny); lra|lra].
    + assert (L : place x <= place v). { destruct (Rle_lt_dec (place x) (place v)) as [L|L]; [exact L|]. apply (gt_place x v Nx A) in L. congruence. }
      repeat split; auto; [destruct B as [B|B]; [now left|right; apply in_app_iff; now left]|].
      intros y Hy Ny. apply in_app_iff in Hy. destruct Hy as [Hy|[<-|[]]]; auto.
Qed.
Lemma low_merge : forall bound l l' v v', low bound l v -> low bound l' v' -> low bound (l ++ l') (f_min2 v' v).
Proof.
  intros bound l l' v v' (A & B & C & D) (A' & B' & C' & D'). unfold f_min2. rewrite A, A'. destruct (f_gt v v') eqn:G.
  - apply gt_place in G; auto. repeat split; auto; [rewrite in_app_iff; tauto|].
    intros x Hx Nx. apply in_app_iff in Hx. destruct Hx as [Hx|Hx]; [specialize (D x Hx Nx); lra|auto].
  - assert (L : place v <= place v'). { destruct (Rle_lt_dec (place v) (place v')) as [L|L]; [exact L|]. apply (gt_place v v' A A') in L. congruence. }
    repeat split; auto; [rewrite in_app_iff; tauto|].
    intros x Hx Nx. apply in_app_iff in Hx. destruct Hx as [Hx|Hx]; [auto|specialize (D' x Hx Nx); lra].
Qed.
Lemma high_merge : forall bound l l' v v', high bound l v -> high bound l' v' -> high bound (l ++ l') (f_max2 v' v).
Proof.
  intros bound l l' v v' (A & B & C & D) (A' & B' & C' & D'). unfold f_max2. rewrite A, A'. destruct (f_gt v' v) eqn:G.
  - apply gt_place in G; auto. repeat split; auto; [rewrite in_app_iff; tauto|].
    intros x Hx Nx. apply in_app_iff in Hx. destruct Hx as [Hx|Hx]; [specialize (D x Hx Nx); lra|auto].
  - assert (L : place v' <= place v). { destruct (Rle_lt_dec (place v') (place v)) as [L|L]; [exact L|]. apply (gt_place v' v A' A) in L. congruence. }
    repeat split; auto; [rewrite in_app_iff; tauto|].
    intros x Hx Nx. apply in_app_iff in Hx. destruct Hx as [Hx|Hx]; [auto|specialize (D' x Hx Nx); lra].
Qed.

Definition f_good (w : nat) (rows : list (list f32)) (e : list f32 * list f32) : Prop :=
  length (fst e) = w /\ length (snd e) = w
  /\ forall j, (j < w)%nat -> exists v u, nth_error (fst e) j = Some v /\ nth_error (snd e) j = Some u /\ low f_largest (column j rows) v /\ high f_lowest (column j rows) u.
Lemma f_axis_good : forall w m, f_good w m (f_min_axis w m, f_max_axis w m).
Proof.
  intros w m. unfold f_good, f_min_axis, f_max_axis. cbn [fst snd]. rewrite !map_length, !seq_length. split; [reflexivity|]. split; [reflexivity|].
  intros j Hj. rewrite !nth_error_map_seq by exact Hj. do 2 eexists. split; [reflexivity|]. split; [reflexivity|]. split.
  - apply (fold_low f_largest (column j m) [] f_largest). repeat split; try reflexivity; [now left|lra|intros x []].
  - apply (fold_high f_lowest (column j m) [] f_lowest). repeat split; try reflexivity; [now left|lra|intros x []].
Qed.
Lemma f_good_merge : forall w m m' e e', f_good w m e -> f_good w m' e' ->
  f_good w (m ++ m') (map2 f_min2 (fst e') (fst e), map2 f_max2 (snd e') (snd e)).
Proof.
  intros w m m' e e' (L1 & L2 & H) (L1' & L2' & H'). unfold f_good. cbn [fst snd]. rewrite !map2_length by congruence. split; [exact L1'|]. split; [exact L2'|].
  intros j Hj. destruct (H j Hj) as (v & u & Ev & Eu & G & L). destruct (H' j Hj) as (v' & u' & Ev' & Eu' & G' & L').
  exists (f_min2 v' v), (f_max2 u' u). rewrite column_app. split; [now apply nth_error_map2|]. split; [now apply nth_error_map2|]. split; [now apply low_merge|now apply high_merge].
Qed.

Section Run.
Context {source : Type}.
Implicit Types parts : list (source * list (list f32)).
Definition f_msgs w parts := map (fun sp => f_calculate_minmax w (snd sp) (fst sp)) parts.
Lemma collect_good : forall N w todo done st, (length (fc_nodes st) + length todo = N)%nat -> todo <> [] ->
  (match fc_extremes st with Some e => f_good w done e | None => done = [] end) ->
  exists e, f_good w (done ++ concat (map snd todo)) e /\ f_collect N st (f_msgs w todo) = map (fun s => (s, e)) (fc_nodes st ++ map fst todo)
    /\ forall k, (k < length todo)%nat -> f_collect N st (firstn k (f_msgs w todo)) = [].
Proof.
  intros N w. induction todo as [|sp todo IH]; intros done st HL Hne Hst; [congruence|].
  set (e := match fc_extremes st with Some (mn, mx) => (map2 f_min2 (f_min_axis w (snd sp)) mn, map2 f_max2 (f_max_axis w (snd sp)) mx) | None => (f_min_axis w (snd sp), f_max_axis w (snd sp)) end).
  set (st' := {| fc_nodes := fc_nodes st ++ [fst sp]; fc_extremes := Some e |}).
  assert (Eh : f_handle_minmax N st (f_calculate_minmax w (snd sp) (fst sp)) = (st', if (length (fc_nodes st') =? N)%nat then map (fun s => (s, e)) (fc_nodes st') else [])) by reflexivity.
  assert (G : f_good w (done ++ snd sp) e).
  { unfold e. destruct (fc_extremes st) as [[mn mx]|]; [|subst done; apply f_axis_good]. exact (f_good_merge w done (snd sp) (mn, mx) _ Hst (f_axis_good w (snd sp))). }
  cbn [f_msgs map f_collect concat] in *. fold (f_msgs w todo). rewrite Eh. cbn [length] in HL.
  assert (Ln : length (fc_nodes st') = (length (fc_nodes st) + 1)%nat) by (unfold st'; cbn; rewrite app_length; reflexivity).
  destruct todo as [|sp' todo].
  - exists e. cbn [map concat f_msgs f_collect]. rewrite !app_nil_r. split; [exact G|]. rewrite Ln. cbn [length] in HL.
    destruct (Nat.eqb_spec (length (fc_nodes st) + 1) N) as [_|Ne]; [|lia]. split; [reflexivity|]. intros k Hk. destruct k; [reflexivity|cbn in Hk; lia].
  - rewrite Ln. destruct (Nat.eqb_spec (length (fc_nodes st) + 1) N) as [Ne|_]; [cbn in HL; lia|]. cbn [app].
    destruct (IH (done ++ snd sp) st') as (e' & G' & E' & K'); [rewrite Ln; lia|discriminate|exact G|].
    exists e'. rewrite app_assoc. split; [exact G'|]. split.
    + rewrite E'. unfold st'. cbn [fc_nodes map]. now rewrite <- app_assoc.
    + intros k Hk. destruct k as [|k]; [reflexivity|]. cbn [firstn f_collect]. rewrite Eh, Ln. destruct (Nat.eqb_spec (length (fc_nodes st) + 1) N) as [Ne|_]; [cbn in HL; lia|].
      cbn [app]. apply K'. cbn [length] in *. lia.
Qed.
End Run.
Lemma f_column_entry : forall j rows x, In x (column j rows) <-> f_entry rows j x.
Proof.
  intros j rows x. unfold column, f_entry. rewrite in_flat_map. split.
  - intros (r & Hr & Hx). exists r. split; [exact Hr|]. destruct (nth_error r j); [destruct Hx as [<-|[]]; reflexivity|destruct Hx].
  - intros (r & Hr & Hx). exists r. split; [exact Hr|]. rewrite Hx. now left.
Qed.
Lemma largest_bound : forall x, f_finite x = true -> f_nan x = false /\ place f_lowest <= place x <= place f_largest.
Proof.
  intros x Fx. split; [destruct x; try discriminate; reflexivity|].
  assert (Px : place x = f_real x) by (destruct x; try discriminate; reflexivity).
  assert (M : Rabs (f_real x) <= bpow radix2 128 - bpow radix2 104) by (apply (abs_B2R_le_emax_minus_prec 24 128 prec_max x)).
  assert (S1 : B2SF f_largest = SpecFloat.S754_finite false 16777215 104) by (vm_compute; reflexivity).
  assert (S2 : B2SF f_lowest = SpecFloat.S754_finite true 16777215 104) by (vm_compute; reflexivity).
  assert (E : bpow radix2 128 - bpow radix2 104 = 16777215 * bpow radix2 104).
  { replace 128%Z with (24 + 104)%Z by reflexivity. rewrite bpow_plus. replace (bpow radix2 24) with 16777216 by (cbn; lra). lra. }
  assert (V1 : place f_largest = 16777215 * bpow radix2 104).
  { destruct f_largest as [| | |s m e H] eqn:Q; try discriminate. cbn [place]. unfold f_real. rewrite <- SF2R_B2SF, S1. reflexivity. }
  assert (V2 : place f_lowest = - (16777215 * bpow radix2 104)).
  { destruct f_lowest as [| | |s m e H] eqn:Q; try discriminate. cbn [place]. unfold f_real. rewrite <- SF2R_B2SF, S2. unfold SF2R, F2R. cbn [Fnum Fexp cond_Zopp]. rewrite opp_IZR. ring_simplify. reflexivity. }
  rewrite Px, V1, V2. rewrite E in M. apply Rabs_le_inv in M. lra.
Qed.
