From Coq Require Import List Arith Bool ZArith Reals Lia Lra Permutation.
From Flocq Require Import IEEE754.BinarySingleNaN Core.
From Verif.Base Require Import Res Assoc ListX Float32 Float32Proofs.
From Verif.Stats Require Import Model.
From Verif.Edges Require Import Model Proofs.
From Verif.Scoring Require Import Model.
From Verif.Normalize Require Import Model ScoreProofs.
From Verif.Kde Require Import Model Float FloatProofs PeakProofs.
From Verif.Contribution Require Import Model Spec.
Import ListNotations.
Local Open Scope nat_scope.

Lemma Forall2_at : forall A B (R : A -> B -> Prop) l m k a b, Forall2 R l m -> nth_error l k = Some a -> nth_error m k = Some b -> R a b.
Proof. intros A B R l m k a b HF. revert k. induction HF; intros [|k] Ea Eb; try discriminate; cbn in *; [congruence|eauto]. Qed.
Lemma Forall2_len : forall A B (R : A -> B -> Prop) l m, Forall2 R l m -> length l = length m.
Proof. intros A B R l m HF. induction HF; cbn; auto. Qed.
(** ** Counting *)
Lemma lookup_feq : forall (m : list (f32 * nat)) u v, f_eq v u = true -> lookup f_eq v m = lookup f_eq u m.
Proof.
  intros m u v H. induction m as [|[k c] m IH]; [reflexivity|]. cbn [lookup]. destruct (f_eq v k) eqn:E1, (f_eq u k) eqn:E2; auto.
  - rewrite (f_eq_trans u v k) in E2; [discriminate|now apply f_eq_sym|assumption].
  - rewrite (f_eq_trans v u k) in E1; [discriminate|assumption|assumption].
Qed.
Lemma lookup_app_none : forall (m : list (f32 * nat)) v u c, lookup f_eq v (m ++ [(u, c)]) = match lookup f_eq v m with Some x => Some x | None => if f_eq v u then Some c else None end.
Proof. intros m v u c. induction m as [|[k x] m IH]; [cbn; now destruct (f_eq v u)|]. cbn [lookup app]. now destruct (f_eq v k). Qed.
Lemma lookup_insert_feq : forall (m : list (f32 * nat)) v u c x, lookup f_eq u m = Some x -> lookup f_eq v (insert f_eq u c m) = if f_eq v u then Some c else lookup f_eq v m.
Proof.
  intros m v u c x H. induction m as [|[k y] m IH]; [discriminate|]. cbn [lookup insert] in *. destruct (f_eq u k) eqn:E.
  - cbn [lookup]. destruct (f_eq v u) eqn:E1; [now rewrite (f_eq_trans v u k)|]. destruct (f_eq v k) eqn:E2; [|reflexivity].
    rewrite (f_eq_trans v k u) in E1; [discriminate|assumption|now apply f_eq_sym].
  - cbn [lookup]. destruct (f_eq v k) eqn:E2; [|now apply IH]. destruct (f_eq v u) eqn:E1; [|reflexivity].
    rewrite (f_eq_trans u v k) in E; [discriminate|now apply f_eq_sym|assumption].
Qed.
Definition found (o : option nat) : nat := match o with Some x => x | None => 0 end.
Lemma count_value_ok : forall m u c, f_hashable u = true -> exists m', count_value m u c = Ok m' /\
  forall v, lookup f_eq v m' = if f_eq v u then Some (found (lookup f_eq v m) + c) else lookup f_eq v m.
Proof.
  intros m u c H. unfold count_value. rewrite H. cbn [negb]. eexists. split; [reflexivity|]. intros v. destruct (lookup f_eq u m) as [x|] eqn:E.
  - rewrite (lookup_insert_feq m v u _ x E). destruct (f_eq v u) eqn:E1; [|reflexivity]. rewrite (lookup_feq m u v E1), E. reflexivity.
  - rewrite lookup_app_none. destruct (f_eq v u) eqn:E1.
    + rewrite (lookup_feq m u v E1), E. reflexivity.
    + destruct (lookup f_eq v m); reflexivity.
Qed.
Fixpoint tally_values (v : f32) (dim : list f32) (counts : list nat) : nat :=
  match dim, counts with x :: dim, c :: counts => (if f_eq v x then c else 0) + tally_values v dim counts | _, _ => 0 end.
Lemma counter_ok : forall rest counts pre m, Forall (fun x => f_hashable x = true) rest -> length counts = length rest ->
  exists m', foldM (fun m '(i, c) => let! v := unwrap (nth_error (pre ++ rest) i) in count_value m v c) (combine (seq (length pre) (length counts)) counts) m = Ok m' /\
  forall v, lookup f_eq v m' = if existsb (f_eq v) rest then Some (found (lookup f_eq v m) + tally_values v rest counts) else lookup f_eq v m.
Proof.
  intros rest; induction rest as [|x rest IH]; intros [|c counts] pre m Hh HL; try discriminate; cbn [length seq combine foldM existsb].
  - exists m. auto.
  - inversion Hh as [|? ? Hx Hr]; subst. injection HL as HL. rewrite nth_error_app2, Nat.sub_diag by lia. cbn [nth_error unwrap bind].
    destruct (count_value_ok m x c Hx) as (m1 & -> & H1). cbn [bind]. destruct (IH counts (pre ++ [x]) m1 Hr HL) as (m2 & E2 & H2).
    rewrite app_length, <- app_assoc in E2. cbn [length app] in E2. rewrite Nat.add_1_r in E2. exists m2. split; [exact E2|]. intros v. rewrite H2, H1. cbn [tally_values].
    destruct (f_eq v x); cbn [orb found]; destruct (existsb (f_eq v) rest) eqn:Ex; try reflexivity; try (f_equal; lia).
    f_equal. assert (Z0 : tally_values v rest counts = 0); [|lia]. clear - Ex. revert counts. induction rest as [|y rest IH]; intros [|c counts]; cbn in *; try reflexivity.
    apply orb_false_iff in Ex. destruct Ex as (-> & Ex). now rewrite IH.
Qed.

(** The counts of the labels. *)
Lemma fold_max_spec : forall l a, a <= fold_left Nat.max l a /\ (forall x, In x l -> x <= fold_left Nat.max l a) /\ (fold_left Nat.max l a = a \/ In (fold_left Nat.max l a) l).
Proof.
  intros l; induction l as [|x l IH]; intros a; cbn [fold_left In]; [ssplit; auto; tauto|]. destruct (IH (Nat.max a x)) as (A & B & C). ssplit; [lia| |].
  - intros y [->|Hy]; [lia|auto].
  - destruct C as [C|C]; [|auto]. rewrite C. destruct (Nat.max_spec a x) as [(? & ->)|(? & ->)]; auto.
Qed.
Lemma label_counts_ok : forall w c, well_clustered w c -> label_counts (labels c) = map (fun k => length (filter (Nat.eqb k) (labels c))) (seq 0 (length (centers c))).
Proof.
  intros w c (Hne & Hl & _ & _). unfold label_counts. do 2 f_equal. destruct (fold_max_spec (labels c) 0) as (_ & B & C). destruct (labels c) as [|l0 ls] eqn:E; [congruence|].
  assert (H0 : l0 < length (centers c)) by (apply Hl; now left). assert (Hm : fold_left Nat.max (l0 :: ls) 0 < length (centers c)).
  { destruct C as [C|C]; [rewrite C; lia|now apply Hl]. }
  assert (length (centers c) - 1 <= fold_left Nat.max (l0 :: ls) 0) by (apply B, Hl; lia). lia.
Qed.
Lemma total_label_counts : forall n l, (forall x, In x l -> x < n) -> total (map (fun k => length (filter (Nat.eqb k) l)) (seq 0 n)) = length l.
Proof.
  intros n l H. assert (G : forall (f g h : nat -> nat) r, (forall k, In k r -> f k = g k + h k) -> total (map f r) = total (map g r) + total (map h r)).
  { intros f g h r; induction r as [|x r IH]; intros E; [reflexivity|]. cbn [map]. rewrite !total_cons, E by now left. rewrite IH; [lia|]. intros k Hk. apply E. now right. }
  induction l as [|x l IH].
  - cbn [filter length]. generalize 0 at 2 as a. induction n as [|n IHn]; intros a; [reflexivity|]. cbn [seq map]. rewrite total_cons, IHn; [reflexivity|]. intros x [].
  - rewrite (G _ (fun k => if k =? x then 1 else 0) (fun k => length (filter (Nat.eqb k) l))).
    + rewrite IH by (intros y Hy; apply H; now right). cbn [length]. f_equal. assert (S : forall n a, total (map (fun k => if k =? x then 1 else 0) (seq a n)) = if (a <=? x) && (x <? a + n) then 1 else 0).
      { intros m; induction m as [|m IHm]; intros a; [cbn [seq map]; destruct (Nat.leb_spec a x), (Nat.ltb_spec x (a + 0)); cbn; auto; lia|]. cbn [seq map]. rewrite total_cons, IHm.
        destruct (Nat.eqb_spec a x), (Nat.leb_spec a x), (Nat.leb_spec (S a) x), (Nat.ltb_spec x (a + S m)), (Nat.ltb_spec x (S a + m)); cbn [andb]; lia. }
      rewrite S. assert (x < n) by (apply H; now left). destruct (Nat.ltb_spec x (0 + n)); [|lia]. reflexivity.
    + intros k _. cbn [filter]. destruct (k =? x); reflexivity.
Qed.
(** Column [d] of the centres. *)
Lemma column_length : forall A d w (m : list (list A)), d < w -> (forall r, In r m -> length r = w) -> length (column d m) = length m.
Proof.
  intros A d w m Hd. induction m as [|r m IH]; intros H; [reflexivity|]. cbn [column flat_map length]. rewrite app_length. unfold column in IH. rewrite IH by (intros; apply H; now right).
  destruct (nth_error r d) eqn:E; [reflexivity|]. apply nth_error_None in E. rewrite H in E by now left. lia.
Qed.
Lemma column_nth : forall A d w (m : list (list A)) i, d < w -> (forall r, In r m -> length r = w) ->
  nth_error (column d m) i = match nth_error m i with Some r => nth_error r d | None => None end.
Proof.
  intros A d w m i Hd. revert i. induction m as [|r m IH]; intros i H; [destruct i; reflexivity|]. assert (Hr : length r = w) by (apply H; now left).
  cbn [column flat_map]. destruct (nth_error r d) as [x|] eqn:E; [|apply nth_error_None in E; lia]. destruct i as [|i]; cbn [app nth_error]; [now rewrite E|]. apply IH. intros; apply H; now right.
Qed.
Lemma column_in : forall A d (m : list (list A)) x, In x (column d m) -> exists r, In r m /\ nth_error r d = Some x.
Proof.
  intros A d m x H. apply in_flat_map in H. destruct H as (r & Hr & Hx). exists r. split; [exact Hr|]. destruct (nth_error r d); [|destruct Hx]. destruct Hx as [->|[]]. reflexivity.
Qed.
Lemma tally_filter : forall v dim l, (forall x, In x l -> x < length dim) ->
  tally_values v dim (map (fun k => length (filter (Nat.eqb k) l)) (seq 0 (length dim))) = length (filter (fun k => match nth_error dim k with Some y => f_eq v y | None => false end) l).
Proof.
  intros v dim l. induction l as [|x l IH]; intros H.
  - cbn [filter length]. generalize 0 at 2 as a. induction dim as [|y dim IHd]; intros a; [reflexivity|]. cbn [length seq map tally_values]. rewrite IHd; [now destruct (f_eq v y)|intros x []].
  - assert (G : forall dim a, tally_values v dim (map (fun k => length (filter (Nat.eqb k) (x :: l))) (seq a (length dim))) =
      (if (a <=? x) then match nth_error dim (x - a) with Some y => if f_eq v y then 1 else 0 | None => 0 end else 0) + tally_values v dim (map (fun k => length (filter (Nat.eqb k) l)) (seq a (length dim)))).
    { intros dm; induction dm as [|y dm IHd]; intros a; [cbn; destruct (a <=? x), (x - a); reflexivity|]. cbn [length seq map tally_values]. rewrite IHd. clear IHd. cbn [filter].
      destruct (Nat.eqb_spec a x) as [->|Hn]; cbn [length].
      - rewrite Nat.leb_refl, Nat.sub_diag. cbn [nth_error]. destruct (Nat.leb_spec (S x) x); [lia|]. destruct (f_eq v y); lia.
      - destruct (Nat.leb_spec a x), (Nat.leb_spec (S a) x); try lia. + replace (x - a) with (S (x - S a)) by lia. cbn [nth_error]. lia. }
    rewrite G, IH by (intros; apply H; now right). rewrite Nat.sub_0_r. cbn [filter Nat.leb]. destruct (nth_error dim x); [|reflexivity]. destruct (f_eq v f); reflexivity.
Qed.

(** ** The entries in single precision *)
Local Open Scope R_scope.
Lemma format_pred_one : format (1 - bpow radix2 (-24)).
Proof.
  replace (1 - bpow radix2 (-24)) with (IZR (2 ^ 24 - 1) * bpow radix2 (-24)); [apply format_int; lia|]. rewrite minus_IZR. change (IZR (2 ^ 24)) with (bpow radix2 24).
  rewrite Rmult_minus_distr_r, <- bpow_plus. change (bpow radix2 (24 + -24)) with 1. ring.
Qed.
Lemma ratio_bounds : forall k n, (1 <= k <= n)%nat -> (Z.of_nat n <= 2 ^ 24)%Z -> bpow radix2 (-24) <= INR k / INR n <= 1 /\ ((k < n)%nat -> INR k / INR n <= 1 - bpow radix2 (-24)).
Proof.
  intros k n Hk Hn. assert (K1 : 1 <= INR k) by (change 1 with (INR 1); apply le_INR; lia). assert (Kn : INR k <= INR n) by (apply le_INR; lia).
  assert (Nb : INR n <= bpow radix2 24) by (rewrite INR_IZR_INZ; change (bpow radix2 24) with (IZR (2 ^ 24)); now apply IZR_le).
  assert (Pn : 0 < / INR n) by (apply Rinv_0_lt_compat; lra). assert (In1 : bpow radix2 (-24) <= / INR n).
  { change (-24)%Z with (- (24))%Z. rewrite bpow_opp. apply Rinv_le; lra. }
  assert (E : INR n * / INR n = 1) by (field; lra). unfold Rdiv. ssplit.
  - nra.
  - nra.
  - intros H. assert (INR k + 1 <= INR n) by (rewrite <- S_INR; apply le_INR; lia). nra.
Qed.
Lemma entry_bounds : forall k n, (1 <= k <= n)%nat -> (Z.of_nat n <= 2 ^ 24)%Z -> let x := rnd (1 - rnd (INR k / INR n)) in
  0 <= rnd (INR k / INR n) <= 1 /\ 0 <= x <= 1 - bpow radix2 (-24) /\ (k = n -> x = 0) /\ ((k < n)%nat -> bpow radix2 (-24) <= x).
Proof.
  intros k n Hk Hn x. destruct (ratio_bounds k n Hk Hn) as ((A & B) & C). assert (P24 : 0 < bpow radix2 (-24)) by apply bpow_gt_0.
  assert (F24 : format (bpow radix2 (-24))) by (apply format_bpow; lia).
  assert (R1 : bpow radix2 (-24) <= rnd (INR k / INR n) <= 1). { split; [rewrite <- (rnd_format _ F24)|rewrite <- rnd_1]; now apply rnd_mono. }
  subst x. ssplit.
  - lra.
  - lra.
  - rewrite <- rnd_0. apply rnd_mono. lra.
  - rewrite <- (rnd_format _ format_pred_one). apply rnd_mono. lra.
  - intros ->. assert (0 < INR n) by (apply lt_0_INR; lia). replace (INR n / INR n) with 1 by (field; lra). rewrite rnd_1, Rminus_diag_eq by reflexivity. exact rnd_0.
  - intros H. specialize (C H). assert (R2 : rnd (INR k / INR n) <= 1 - bpow radix2 (-24)) by (rewrite <- (rnd_format _ format_pred_one); now apply rnd_mono).
    rewrite <- (rnd_format _ F24). apply rnd_mono. lra.
Qed.
Lemma one_ok : f_finite (f_of 1 0) = true /\ f_real (f_of 1 0) = 1.
Proof. exact (of_nat_exact 1 ltac:(lia)). Qed.
Lemma entry_ok : forall k n N, (1 <= k <= n)%nat -> (Z.of_nat n <= 2 ^ 24)%Z -> f_finite N = true -> f_real N = INR n ->
  let x := f_sub (f_of 1 0) (f_div (f_of_nat k) N) in f_finite x = true /\ f_real x = rnd (1 - rnd (INR k / INR n)).
Proof.
  intros k n N Hk Hn FN RN x. destruct (entry_bounds k n Hk Hn) as (A & B & _). destruct (of_nat_exact k ltac:(lia)) as (Fk & Rk). destruct one_ok as (F1 & R1).
  pose proof one_lt_max as M. assert (0 < bpow radix2 (-24)) by apply bpow_gt_0. assert (0 < INR n) by (apply lt_0_INR; lia).
  destruct (f_div_ok (f_of_nat k) N Fk) as (Fd & Rd). { rewrite RN. lra. } { rewrite RN, Rk. rewrite Rabs_pos_eq; lra. }
  rewrite RN, Rk in Rd. destruct (f_sub_ok (f_of 1 0) (f_div (f_of_nat k) N) F1 Fd) as (Fx & Rx). { rewrite R1, Rd. rewrite Rabs_pos_eq; lra. }
  rewrite R1, Rd in Rx. auto.
Qed.
Local Open Scope nat_scope.

Lemma agreeing_bounds : forall w c k d, well_clustered w c -> k < length (centers c) -> d < w -> 1 <= agreeing c k d <= length (labels c).
Proof.
  intros w c k d (Hne & Hl & Hc & Hn) Hk Hd. split.
  - unfold agreeing. apply Hl in Hk as Hin. assert (In k (filter (fun l => agree (coordinate c k d) (coordinate c l d)) (labels c))).
    { apply filter_In. split; [exact Hin|]. unfold coordinate. destruct (nth_error (centers c) k) as [r|] eqn:E; [|apply nth_error_None in E; lia].
      apply nth_error_In in E. destruct (Hc r E) as (Hr & Hh). destruct (nth_error r d) as [x|] eqn:Ex; [|apply nth_error_None in Ex; lia].
      cbn. apply f_eq_refl, f_hashable_nan. rewrite Forall_forall in Hh. apply Hh. now apply nth_error_In in Ex. }
    destruct (filter _ _); [contradiction|cbn; lia].
  - unfold agreeing. rewrite <- (filter_split_length _ (fun l => agree (coordinate c k d) (coordinate c l d)) (labels c)). lia.
Qed.
(** One column. *)
Lemma column_uniqueness_ok : forall w c d N, well_clustered w c -> d < w -> f_finite N = true -> f_real N = INR (length (labels c)) ->
  exists col, column_uniqueness N (column d (centers c)) (label_counts (labels c)) = Ok col /\ length col = length (centers c) /\
  forall k, k < length (centers c) -> exists x, nth_error col k = Some x /\ f_finite x = true /\ f_real x = rarity c k d.
Proof.
  intros w c d N Hw Hd FN RN. pose proof Hw as (Hne & Hl & Hc & Hn). rewrite (label_counts_ok w c Hw). set (dim := column d (centers c)).
  assert (HL : length dim = length (centers c)) by (apply (column_length _ d w); [exact Hd|intros r Hr; now apply Hc]).
  assert (Hh : Forall (fun x => f_hashable x = true) dim).
  { apply Forall_forall. intros x Hx. apply column_in in Hx. destruct Hx as (r & Hr & Hx). destruct (Hc r Hr) as (_ & Hh). rewrite Forall_forall in Hh. apply Hh. now apply nth_error_In in Hx. }
  unfold column_uniqueness. rewrite <- HL. set (counts := map _ _). destruct (counter_ok dim counts [] [] Hh) as (m & E & Hm); [subst counts; now rewrite map_length, seq_length|].
  cbn [app length] in E. rewrite E. cbn [bind].
  assert (G : exists col, mapM (fun v => if negb (f_hashable v) then Panic UnwrapNone else let! c := unwrap (lookup f_eq v m) in Ok (f_sub (f_of 1 0) (f_div (f_of_nat c) N))) dim = Ok col /\
    Forall2 (fun v x => x = f_sub (f_of 1 0) (f_div (f_of_nat (tally_values v dim counts)) N)) dim col).
  { apply mapM_total. intros v Hv. rewrite Forall_forall in Hh. rewrite (Hh v Hv). cbn [negb]. rewrite Hm. cbn [lookup found]. assert (Ex : existsb (f_eq v) dim = true).
    { apply existsb_exists. exists v. split; [exact Hv|]. apply f_eq_refl, f_hashable_nan, Hh, Hv. }
    rewrite Ex. cbn [unwrap bind Nat.add]. eauto. }
  destruct G as (col & -> & HF). exists col. split; [reflexivity|]. assert (LC : length col = length dim). { symmetry. exact (Forall2_len _ _ _ _ _ HF). }
  split; [lia|]. intros k Hk. destruct (nth_error dim k) as [v|] eqn:Ev; [|apply nth_error_None in Ev; lia].
  destruct (nth_error col k) as [x|] eqn:Ex; [|apply nth_error_None in Ex; lia]. exists x. split; [reflexivity|].
  assert (Hx : x = f_sub (f_of 1 0) (f_div (f_of_nat (tally_values v dim counts)) N)).
  { exact (Forall2_at _ _ _ _ _ _ _ _ HF Ev Ex). }
  assert (Et : tally_values v dim counts = agreeing c k d).
  { subst counts. rewrite tally_filter by (intros y Hy; rewrite HL; now apply Hl). unfold agreeing. f_equal. apply filter_ext. intros l. unfold dim in *.
    rewrite (column_nth _ d w) in * by (exact Hd || (intros r Hr; now apply Hc)). fold (coordinate c k d) in Ev. fold (coordinate c l d). rewrite Ev. cbn. destruct (coordinate c l d); reflexivity. }
  rewrite Hx, Et. apply entry_ok; auto. apply (agreeing_bounds w); auto. lia.
Qed.
Lemma uniqueness_ok : forall w c, well_clustered w c -> exists rows, uniqueness w (centers c) (label_counts (labels c)) = Ok rows /\ length rows = length (centers c) /\
  forall k, k < length (centers c) -> exists row, nth_error rows k = Some row /\ length row = w /\
  forall d, d < w -> exists x, nth_error row d = Some x /\ f_finite x = true /\ f_real x = rarity c k d.
Proof.
  intros w c Hw. unfold uniqueness. set (N := fold_left f_add _ _). pose proof Hw as (Hne & Hl & Hc & Hn).
  assert (HN : f_finite N = true /\ f_real N = INR (length (labels c))).
  { subst N. rewrite (label_counts_ok w c Hw). set (cs := map (fun k => _) _). assert (Tc : total cs = length (labels c)) by (apply total_label_counts; intros x Hx; now apply Hl).
    assert (Es : forall xs a, fold_left f_add (map f_of_nat xs) a = fold_left (fun s x => f_add s (f_of_nat x)) xs a).
    { intros xs; induction xs as [|x xs IH]; intros a; [reflexivity|]. cbn. apply IH. }
    rewrite Es, <- Tc. apply (sum_exact cs). lia. }
  destruct HN as (FN & RN). clearbody N.
  assert (G : exists cols, mapM (fun d => column_uniqueness N (column d (centers c)) (label_counts (labels c))) (seq 0 w) = Ok cols /\
    Forall2 (fun d col => length col = length (centers c) /\ forall k, k < length (centers c) -> exists x, nth_error col k = Some x /\ f_finite x = true /\ f_real x = rarity c k d) (seq 0 w) cols).
  { apply mapM_total. intros d Hd. apply in_seq in Hd. apply (column_uniqueness_ok w); auto. lia. }
  destruct G as (cols & -> & HF). cbn [bind]. eexists. split; [reflexivity|]. unfold rows_of. split; [now rewrite map_length, seq_length|]. intros k Hk.
  eexists. split; [rewrite nth_error_map, nth_error_seq by exact Hk; reflexivity|]. cbn [Nat.add].
  assert (H : forall a ds cols, Forall2 (fun d col => length col = length (centers c) /\ forall k, k < length (centers c) -> exists x, nth_error col k = Some x /\ f_finite x = true /\ f_real x = rarity c k d) ds cols -> ds = seq a (length ds) ->
    let row := flat_map (fun col => match nth_error col k with Some x => [x] | None => [] end) cols in length row = length ds /\ forall i, i < length ds -> exists x, nth_error row i = Some x /\ f_finite x = true /\ f_real x = rarity c k (a + i)).
  { clear - Hk. intros a ds cols HF. revert a. induction HF as [|d col ds cols (HL & Hx) HF IH]; intros a Hs row; [split; [reflexivity|]; intros i Hi; cbn in Hi; lia|].
    cbn [length seq] in Hs. injection Hs as -> Hs. destruct (IH (S a) Hs) as (A & B). destruct (Hx k Hk) as (x & Ex & Fx & Rx). subst row. cbn [flat_map]. rewrite Ex. cbn [app length]. split; [lia|].
    intros [|i] Hi; [exists x; rewrite Nat.add_0_r; auto|]. replace (a + S i) with (S a + i) by lia. apply B. lia. }
  destruct (H 0 (seq 0 w) cols HF ltac:(now rewrite seq_length)) as (A & B). rewrite seq_length in *. cbn [Nat.add] in B. auto.
Qed.
