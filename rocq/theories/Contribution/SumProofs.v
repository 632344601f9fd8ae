From Coq Require Import List Arith Bool ZArith Reals Lia Lra Permutation.
From Flocq Require Import IEEE754.BinarySingleNaN Core.
From Verif.Base Require Import Res Assoc ListX Float32 Float32Proofs.
From Verif.Stats Require Import Model.
From Verif.Edges Require Import Model Proofs.
From Verif.Scoring Require Import Model WeightProofs.
From Verif.Normalize Require Import Model ScoreProofs.
From Verif.Kde Require Import Model Float FloatProofs PeakProofs.
From Verif.Contribution Require Import Model Spec Proofs.
Import ListNotations.
Local Open Scope R_scope.

(** ** Sums and means of numbers between 0 and 1, in any order *)
Definition unit_value (x : f32) : Prop := f_finite x = true /\ 0 <= f_real x <= 1.
Definition entry (x : f32) : Prop := f_finite x = true /\ 0 <= f_real x <= 1 /\ (f_real x = 0 \/ bpow radix2 (-24) <= f_real x).
Lemma entry_unit : forall x, entry x -> unit_value x.
Proof. intros x (A & B & _). split; assumption. Qed.
Lemma adds_up_bounds : forall l x, adds_up l x -> Forall unit_value l -> (Z.of_nat (length l) <= 2 ^ 24)%Z ->
  f_finite x = true /\ 0 <= f_real x <= INR (length l) /\ (forall y, In y l -> f_real y <= f_real x) /\ ((forall y, In y l -> f_real y = 0) -> f_real x = 0).
Proof.
  intros l x H. induction H as [|x|l1 l2 l x y Hp H1 IH1 H2 IH2]; intros HF HL.
  - cbn. ssplit; auto; try lra. intros y [].
  - inversion HF as [|? ? (Fx & Rx) _]; subst. cbn [length INR]. ssplit; auto; try lra. + intros y [->|[]]. lra. + intros H0. apply H0. now left.
  - assert (HF' : Forall unit_value (l1 ++ l2)) by (now apply (Permutation_Forall Hp)). apply Forall_app in HF'. destruct HF' as (HF1 & HF2).
    pose proof (Permutation_length Hp) as EL. rewrite app_length in EL. destruct IH1 as (Fx & Rx & Gx & Zx); [assumption|lia|]. destruct IH2 as (Fy & Ry & Gy & Zy); [assumption|lia|].
    assert (B : 0 <= rnd (f_real x + f_real y) <= INR (length l)).
    { split; [rewrite <- rnd_0; apply rnd_mono; lra|]. assert (Fm : format (INR (length l))) by (rewrite INR_IZR_INZ; apply format_Z; lia).
      rewrite <- (rnd_format _ Fm). apply rnd_mono. rewrite EL, plus_INR. lra. }
    destruct (f_add_ok x y Fx Fy) as (Fa & Ra).
    { rewrite Rabs_pos_eq by apply B. apply Rle_lt_trans with (1 := proj2 B). rewrite INR_IZR_INZ. apply Rle_lt_trans with (2 := IZR_lt_max (Z.of_nat (length l)) ltac:(lia)). apply Rle_abs. }
    rewrite Ra. ssplit; [assumption|apply B|apply B| |].
    + intros z Hz. apply (Permutation_in _ Hp) in Hz. apply in_app_or in Hz. destruct Hz as [Hz|Hz].
      * apply Rle_trans with (1 := Gx z Hz). rewrite <- (rnd_format _ (f_real_format x)) at 1. apply rnd_mono. lra.
      * apply Rle_trans with (1 := Gy z Hz). rewrite <- (rnd_format _ (f_real_format y)) at 1. apply rnd_mono. lra.
    + intros H0. rewrite Zx, Zy.
      * rewrite Rplus_0_r. exact rnd_0.
      * intros z Hz. apply H0. apply (Permutation_in _ (Permutation_sym Hp)). apply in_or_app. now right.
      * intros z Hz. apply H0. apply (Permutation_in _ (Permutation_sym Hp)). apply in_or_app. now left.
Qed.
Lemma finite_not_nan : forall x, f_finite x = true -> f_nan x = false.
Proof. intros [s|s| |s m e h]; cbn; auto; discriminate. Qed.
Lemma eq_zero : forall x, f_finite x = true -> f_eq x f_zero = true <-> f_real x = 0.
Proof.
  intros x F. unfold f_eq. rewrite (f_cmp_ok x f_zero F eq_refl). change (f_real f_zero) with 0. destruct (Rcompare_spec (f_real x) 0); split; intros; try discriminate; auto; lra.
Qed.
(** A sum is zero exactly if all numbers are. *)
Lemma sum_zero : forall l x, adds_up l x -> Forall unit_value l -> (Z.of_nat (length l) <= 2 ^ 24)%Z -> f_eq x f_zero = true <-> forall y, In y l -> f_real y = 0.
Proof.
  intros l x H HF HL. destruct (adds_up_bounds l x H HF HL) as (Fx & Bx & Gx & Zx). rewrite eq_zero by exact Fx. split; [|exact Zx]. intros E y Hy. pose proof (Gx y Hy).
  rewrite Forall_forall in HF. destruct (HF y Hy) as (_ & B). lra.
Qed.
Lemma mean_bounds : forall l x, l <> [] -> adds_up l x -> Forall entry l -> (Z.of_nat (length l) <= 2 ^ 24)%Z ->
  let m := f_div x (f_of_nat (length l)) in unit_value m /\ (f_real m = 0 <-> forall y, In y l -> f_real y = 0).
Proof.
  intros l x Hne H HE HL m. assert (HF : Forall unit_value l) by (apply Forall_impl with (2 := HE), entry_unit).
  destruct (adds_up_bounds l x H HF HL) as (Fx & Bx & Gx & Zx). destruct (of_nat_exact (length l) HL) as (Fn & Rn).
  assert (N1 : 1 <= INR (length l)) by (change 1 with (INR 1); apply le_INR; destruct l; [congruence|cbn; lia]).
  assert (Nb : INR (length l) <= bpow radix2 24) by (rewrite INR_IZR_INZ; change (bpow radix2 24) with (IZR (2 ^ 24)); now apply IZR_le).
  assert (Pn : 0 < / INR (length l)) by (apply Rinv_0_lt_compat; lra). assert (E : INR (length l) * / INR (length l) = 1) by (field; lra).
  assert (B : 0 <= f_real x / INR (length l) <= 1) by (unfold Rdiv; nra).
  assert (Bm : 0 <= rnd (f_real x / INR (length l)) <= 1) by (split; [rewrite <- rnd_0|rewrite <- rnd_1]; apply rnd_mono; lra).
  destruct (f_div_ok x (f_of_nat (length l)) Fx) as (Fm & Rm). { rewrite Rn. lra. } { rewrite Rn, Rabs_pos_eq by lra. pose proof one_lt_max. lra. }
  rewrite Rn in Rm. split; [split; [exact Fm|unfold m; rewrite Rm; exact Bm]|]. unfold m. rewrite Rm. split.
  - intros E0 y Hy. rewrite Forall_forall in HE. destruct (HE y Hy) as (Fy & By & [Hy0|Hy24]); [exact Hy0|]. exfalso. pose proof (Gx y Hy) as Hxy.
    assert (F48 : format (bpow radix2 (-48))) by (apply format_bpow; lia). assert (bpow radix2 (-48) <= rnd (f_real x / INR (length l))).
    { rewrite <- (rnd_format _ F48). apply rnd_mono. change (-48)%Z with (-24 + -24)%Z. rewrite bpow_plus. assert (bpow radix2 (-24) <= / INR (length l)). { change (-24)%Z with (- (24))%Z. rewrite bpow_opp. apply Rinv_le; lra. }
      unfold Rdiv. apply Rmult_le_compat; try apply bpow_ge_0; lra. }
    assert (0 < bpow radix2 (-48)) by apply bpow_gt_0. lra.
  - intros H0. rewrite (Zx H0). unfold Rdiv. rewrite Rmult_0_l. exact rnd_0.
Qed.
Local Open Scope nat_scope.

(** ** The recorded rows *)
Definition recorded (w : nat) (t : list ((nat * nat) * list f32)) (s : nat) (c : clustered) : Prop :=
  forall k, k < length (centers c) -> exists row, lookup key_eqb (s, k) t = Some row /\ length row = w /\
  forall d, d < w -> exists x, nth_error row d = Some x /\ f_finite x = true /\ f_real x = rarity c k d.
Lemma rarity_entry : forall w c k d x, well_clustered w c -> k < length (centers c) -> d < w -> f_finite x = true -> f_real x = rarity c k d ->
  entry x /\ (f_real x < 1)%R /\ (f_real x = 0%R <-> uniform c d).
Proof.
  intros w c k d x Hw Hk Hd Fx Rx. pose proof Hw as (Hne & Hl & Hc & Hn). pose proof (agreeing_bounds w c k d Hw Hk Hd) as Ha. destruct (entry_bounds _ _ Ha Hn) as (_ & B & C & D). fold (rarity c k d) in *.
  assert (P : (0 < bpow radix2 (-24))%R) by apply bpow_gt_0. unfold entry. rewrite Rx. assert (Hag : agreeing c k d = length (labels c) <-> uniform c d).
  { unfold agreeing. split.
    - intros E. assert (G : forall l, In l (labels c) -> agree (coordinate c k d) (coordinate c l d) = true).
      { revert E. generalize (labels c) as ls. intros ls; induction ls as [|a ls IH]; intros E l Hin; [destruct Hin|]. cbn [filter length] in E.
        pose proof (filter_split_length _ (fun l => agree (coordinate c k d) (coordinate c l d)) ls) as Sl. destruct (agree (coordinate c k d) (coordinate c a d)) eqn:Ea; cbn [length] in E; [|exfalso; rewrite E in Sl; lia].
        injection E as E. destruct Hin as [<-|Hin]; auto. }
      intros i j Hi Hj. apply Hl in Hi, Hj. apply G in Hi, Hj. unfold agree in *. destruct (coordinate c k d), (coordinate c i d), (coordinate c j d); try discriminate.
      apply f_eq_trans with f; [now apply f_eq_sym|assumption].
    - intros U. rewrite filter_all_true; [reflexivity|]. intros l Hin. apply U; [assumption|]. now apply Hl. }
  ssplit; try lra; auto.
  - destruct (Nat.lt_ge_cases (agreeing c k d) (length (labels c))); [right; auto|left; apply C; lia].
  - split; [|intros U; apply C; now apply Hag].
    intros E. apply Hag. destruct (Nat.lt_ge_cases (agreeing c k d) (length (labels c))) as [Lt|]; [|lia]. specialize (D Lt). lra.
Qed.
Lemma record_nodes : forall (scores : list (list f32)) nodes (t : list ((nat * nat) * list f32)), (forall x, In x nodes -> n_cluster x < length scores) ->
  exists t', foldM (fun t x => match nth_error scores (n_cluster x) with Some row => Ok (insert key_eqb (node_key x) row t) | None => Panic OutOfBounds end) nodes t = Ok t' /\
  (forall key, (forall x, In x nodes -> node_key x <> key) -> lookup key_eqb key t' = lookup key_eqb key t) /\
  (forall x, In x nodes -> lookup key_eqb (node_key x) t' = nth_error scores (n_cluster x)).
Proof.
  intros scores nodes; induction nodes as [|x nodes IH]; intros t H; cbn [foldM].
  - exists t. ssplit; auto. intros x [].
  - destruct (nth_error scores (n_cluster x)) as [row|] eqn:E; [|apply nth_error_None in E; pose proof (H x (or_introl eq_refl)); lia]. cbn [bind].
    destruct (IH (insert key_eqb (node_key x) row t)) as (t' & E' & A & B); [intros; apply H; now right|]. exists t'. ssplit; [exact E'| |].
    + intros key Hk. rewrite A by (intros; apply Hk; now right). apply (lookup_insert_other key_eqb key_eqb_spec). apply not_eq_sym, Hk. now left.
    + intros y [<-|Hy]; [|auto]. destruct (existsb (fun z => key_eqb (node_key z) (node_key x)) nodes) eqn:Ex.
      * apply existsb_exists in Ex. destruct Ex as (z & Hz & Ez). destruct (key_eqb_spec (node_key z) (node_key x)) as [Ek|]; [|discriminate]. rewrite <- Ek, (B z Hz). f_equal. now injection Ek.
      * rewrite A. -- rewrite (lookup_insert_same key_eqb key_eqb_spec). now symmetry.
        -- intros z Hz Hk. assert (true = false); [|discriminate]. rewrite <- Ex. symmetry. apply existsb_exists. exists z. split; [exact Hz|]. now destruct (key_eqb_spec (node_key z) (node_key x)).
Qed.
Lemma record_one : forall w s c nodes st, well_clustered w c -> nodes_match s c nodes -> exists st',
  record_contributions w nodes (centers c) (label_counts (labels c)) st = Ok st' /\ recorded w (node_contribution st') s c /\
  (forall s' k, s' <> s -> lookup key_eqb (s', k) (node_contribution st') = lookup key_eqb (s', k) (node_contribution st)) /\
  n_dims st' = match n_dims st with None => Some w | Some d => Some d end.
Proof.
  intros w s c nodes st Hw Hm. pose proof Hw as (Hne & Hl & Hc & Hn). destruct (uniqueness_ok w c Hw) as (scores & E & HL & HS). unfold record_contributions. rewrite E. cbn [bind].
  assert (Hin : forall x, In x nodes -> n_segment x = s /\ In (n_cluster x) (labels c)).
  { clear - Hm. induction Hm as [|x l xs ls (H1 & H2) Hm IH]; intros y Hy; [destruct Hy|]. destruct Hy as [<-|Hy]; [split; [exact H1|left; now symmetry]|]. destruct (IH y Hy). split; [assumption|now right]. }
  assert (Hout : forall k, In k (labels c) -> exists x, In x nodes /\ n_segment x = s /\ n_cluster x = k).
  { clear - Hm. induction Hm as [|x l xs ls (H1 & H2) Hm IH]; intros k Hk; [destruct Hk|]. destruct Hk as [<-|Hk]; [exists x; ssplit; auto; now left|]. destruct (IH k Hk) as (y & Hy & ?). exists y. split; [now right|assumption]. }
  destruct (record_nodes scores nodes (node_contribution st)) as (t' & -> & A & B). { intros x Hx. rewrite HL. apply Hl. now apply Hin. }
  cbn [bind]. eexists. split; [reflexivity|]. cbn [node_contribution n_dims]. ssplit; [| |reflexivity].
  - intros k Hk. destruct (HS k Hk) as (row & Er & Lr & Hr). exists row. split; [|auto]. destruct (Hout k) as (x & Hx & Sx & Cx); [now apply Hl|]. specialize (B x Hx). unfold node_key in B. now rewrite Sx, Cx, Er in B.
  - intros s' k Hs. apply A. intros x Hx Ek. destruct (Hin x Hx) as (Sx & _). unfold node_key in Ek. congruence.
Qed.
Lemma record_all_ok : forall w ms, NoDup (map (fun m => fst (fst m)) ms) -> (forall s c nodes, In (s, c, nodes) ms -> well_clustered w c /\ nodes_match s c nodes) ->
  exists st, record_all w (map message ms) = Ok st /\ (forall s c nodes, In (s, c, nodes) ms -> recorded w (node_contribution st) s c) /\ (ms <> [] -> n_dims st = Some w).
Proof.
  intros w ms. unfold record_all. assert (G : forall st0, n_dims st0 = None \/ n_dims st0 = Some w -> NoDup (map (fun m => fst (fst m)) ms) -> (forall s c nodes, In (s, c, nodes) ms -> well_clustered w c /\ nodes_match s c nodes) ->
    exists st, foldM (fun s '(nodes, centers, counts) => record_contributions w nodes centers counts s) (map message ms) st0 = Ok st /\ (forall s c nodes, In (s, c, nodes) ms -> recorded w (node_contribution st) s c) /\
    (forall s k, (forall m, In m ms -> fst (fst m) <> s) -> lookup key_eqb (s, k) (node_contribution st) = lookup key_eqb (s, k) (node_contribution st0)) /\ (ms <> [] \/ n_dims st0 = Some w -> n_dims st = Some w)).
  { induction ms as [|((s, c), nodes) ms IH]; intros st0 Hd HN H; cbn [map foldM].
    - exists st0. ssplit; auto; [intros ? ? ? []|]. intros [?|?]; [congruence|assumption].
    - inversion HN as [|? ? Hni HN']; subst. destruct (H s c nodes (or_introl eq_refl)) as (Hw & Hm). cbn [message]. destruct (record_one w s c nodes st0 Hw Hm) as (st1 & -> & R1 & O1 & D1). cbn [bind].
      assert (Hd1 : n_dims st1 = Some w) by (rewrite D1; destruct Hd as [->| ->]; reflexivity).
      destruct (IH st1) as (st & E & R & O & D); auto; [intros; apply (H s0 c0 nodes0); now right|]. exists st. ssplit; [exact E| | |].
      + intros s' c' nodes' [Hin|Hin]; [|now apply (R s' c' nodes')]. injection Hin as <- <- <-. intros k Hk. destruct (R1 k Hk) as (row & Er & Hrow). exists row. split; [|exact Hrow].
        rewrite O; [exact Er|]. intros m Hin Es. apply Hni. cbn [fst]. rewrite <- Es. now apply (in_map (fun m => fst (fst m))).
      + intros s' k Hs. rewrite O by (intros; apply Hs; now right). apply O1. intros ->. apply (Hs (s, c, nodes)); [now left|reflexivity].
      + intros _. apply D. now right. }
  intros HN H. destruct (G new_contribution) as (st & E & R & _ & D); auto. exists st. ssplit; auto.
Qed.
