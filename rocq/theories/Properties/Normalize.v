(** Scores in single precision and their normalization: C46, C72. *)
From Coq Require Import ZArith Bool List Reals Lia Lra.
From Flocq Require Import IEEE754.BinarySingleNaN Core.
From Verif.Base Require Import Res ListX Float32 Float32Proofs.
From Verif.Edges Require Import Model.
From Verif.Transposition Require Import Spec.
From Verif.Scoring Require Import Model Spec WeightProofs.
From Verif.Normalize Require Import Model Proofs ScoreProofs.
From Verif.Properties Require Import Transposition Scoring.
Import ListNotations.
Open Scope R_scope.

(** ** C46 *)
(** For every vector of finite single precision numbers that are not all equal and whose range does not overflow: every result is a number in [0, 1], smallest scores become 0,
    largest become 1, and the order is preserved.  [f] is what happens to each entry. *)
Theorem C46_normalized : forall scores, (forall x, In x scores -> f_finite x = true) -> (exists x y, In x scores /\ In y scores /\ f_real x <> f_real y) ->
  (forall x y, In x scores -> In y scores -> f_finite (f_sub x y) = true) ->
  exists f, normalize_score scores = Ok (map f scores) /\ forall x, In x scores ->
    f_finite (f x) = true /\ 0 <= f_real (f x) <= 1
    /\ ((forall y, In y scores -> f_real x <= f_real y) -> f_real (f x) = 0)
    /\ ((forall y, In y scores -> f_real y <= f_real x) -> f_real (f x) = 1)
    /\ (forall y, In y scores -> f_real x <= f_real y -> f_real (f x) <= f_real (f y)).
Proof.
  intros scores Hf (a & b & Ha & Hb & Hab) Ho. assert (Hne : scores <> []) by (intros ->; easy).
  destruct (extreme_ok Gt ltac:(discriminate) scores Hne Hf) as (hi & Ehi & Ihi & Bhi). destruct (extreme_ok Lt ltac:(discriminate) scores Hne Hf) as (lo & Elo & Ilo & Blo). cbn [le'] in *.
  exists (fun x => f_div (f_sub x lo) (f_sub hi lo)). split; [unfold normalize_score, f_max, f_min; rewrite Ehi, Elo; reflexivity|].
  assert (Hlt : f_real lo < f_real hi). { pose proof (Bhi a Ha). pose proof (Bhi b Hb). pose proof (Blo a Ha). pose proof (Blo b Hb). lra. }
  assert (N : forall x, In x scores -> f_finite (f_div (f_sub x lo) (f_sub hi lo)) = true /\ f_real (f_div (f_sub x lo) (f_sub hi lo)) = rnd (rnd (f_real x - f_real lo) / rnd (f_real hi - f_real lo))
    /\ 0 <= rnd (f_real x - f_real lo) / rnd (f_real hi - f_real lo) <= 1 /\ 0 < rnd (f_real hi - f_real lo)).
  { intros x Hx. apply normalized; auto. }
  intros x Hx. destruct (N x Hx) as (F & E & D & P). ssplit.
  - exact F.
  - rewrite E, <- rnd_0. apply rnd_mono. lra.
  - rewrite E, <- rnd_1. apply rnd_mono. lra.
  - intros Hm. rewrite E. pose proof (Hm lo Ilo). pose proof (Blo x Hx). replace (f_real x - f_real lo) with 0 by lra. rewrite rnd_0. unfold Rdiv. rewrite Rmult_0_l. apply rnd_0.
  - intros Hm. rewrite E. pose proof (Hm hi Ihi). pose proof (Bhi x Hx). replace (f_real x) with (f_real hi) by lra. unfold Rdiv. rewrite Rinv_r by lra. apply rnd_1.
  - intros y Hy Hle. destruct (N y Hy) as (_ & E' & _ & _). rewrite E, E'. apply rnd_mono. unfold Rdiv. apply Rmult_le_compat_r; [left; now apply Rinv_0_lt_compat|]. apply rnd_mono. lra.
Qed.
(** Scores are never positive; then the range does not overflow. *)
Theorem C46_no_overflow : forall x y, f_finite x = true -> f_finite y = true -> f_real x <= 0 -> f_real y <= 0 -> f_finite (f_sub x y) = true.
Proof.
  intros x y Hx Hy Nx Ny. apply f_sub_ok; auto. pose proof (f_real_lt x) as Lx. pose proof (f_real_lt y) as Ly. rewrite Rabs_left1 in Lx, Ly by assumption.
  assert (H1 : rnd (f_real x) <= rnd (f_real x - f_real y)) by (apply rnd_mono; lra). assert (H2 : rnd (f_real x - f_real y) <= rnd (- f_real y)) by (apply rnd_mono; lra).
  rewrite (rnd_format (f_real x)) in H1 by apply f_real_format. rewrite (rnd_format (- f_real y)) in H2 by (apply generic_format_opp, f_real_format). apply Rabs_def1; lra.
Qed.
(** If all scores are equal every result is NaN. *)
Theorem C46_constant_is_nan_refuted : forall c n, f_finite c = true -> normalize_score (repeat c (S n)) = Ok (repeat B754_nan (S n)).
Proof.
  intros c n Hc. assert (Hf : forall x, In x (repeat c (S n)) -> f_finite x = true) by (intros x H; apply repeat_spec in H; now subst).
  destruct (extreme_ok Gt ltac:(discriminate) (repeat c (S n)) ltac:(discriminate) Hf) as (hi & Ehi & Ihi & _). destruct (extreme_ok Lt ltac:(discriminate) (repeat c (S n)) ltac:(discriminate) Hf) as (lo & Elo & Ilo & _).
  apply repeat_spec in Ihi, Ilo. subst hi lo. unfold normalize_score, f_max, f_min. rewrite Ehi, Elo. cbn [bind]. f_equal.
  assert (E : f_div (f_sub c c) (f_sub c c) = B754_nan).
  { destruct (f_sub_ok c c Hc Hc) as (F & R). { rewrite Rminus_diag_eq, rnd_0, Rabs_R0 by reflexivity. pose proof one_lt_max. lra. }
    rewrite Rminus_diag_eq, rnd_0 in R by reflexivity. revert F R. generalize (f_sub c c). intros z. destruct z as [s|s| |s m e H]; cbn; intros F R; try discriminate; [reflexivity|].
    exfalso. pose proof (F2R_neq_0 radix2 {| Fnum := cond_Zopp s (Z.pos m); Fexp := e |}) as N. apply N; [destruct s; discriminate|exact R]. }
  generalize (S n). intros k. induction k as [|k IH]; [reflexivity|]. cbn [repeat map]. now rewrite IH, E.
Qed.
(** The same if the scores are equal as numbers (the two zeros are). *)
Theorem C46_equal_scores_are_nan_refuted : forall scores, scores <> [] -> (forall x, In x scores -> f_finite x = true) -> (forall x y, In x scores -> In y scores -> f_real x = f_real y) ->
  normalize_score scores = Ok (repeat B754_nan (length scores)).
Proof.
  intros scores Hne Hf He.
  destruct (extreme_ok Gt ltac:(discriminate) scores Hne Hf) as (hi & Ehi & Ihi & _). destruct (extreme_ok Lt ltac:(discriminate) scores Hne Hf) as (lo & Elo & Ilo & _).
  unfold normalize_score, f_max, f_min. rewrite Ehi, Elo. cbn [bind]. f_equal.
  assert (Z : forall x y, In x scores -> In y scores -> exists s, f_sub x y = B754_zero s).
  { intros x y Hx Hy. destruct (f_sub_ok x y (Hf x Hx) (Hf y Hy)) as (F & R). { rewrite Rminus_diag_eq, rnd_0, Rabs_R0 by now apply He. pose proof one_lt_max. lra. }
    rewrite Rminus_diag_eq, rnd_0 in R by now apply He. revert F R. generalize (f_sub x y). intros z. destruct z as [s|s| |s m e H]; cbn; intros F R; try discriminate; [now exists s|].
    exfalso. pose proof (F2R_neq_0 radix2 {| Fnum := cond_Zopp s (Z.pos m); Fexp := e |}) as N. apply N; [destruct s; discriminate|exact R]. }
  destruct (Z hi lo Ihi Ilo) as (s & ->).
  assert (G : forall l, (forall x, In x l -> In x scores) -> map (fun x => f_div (f_sub x lo) (B754_zero s)) l = repeat B754_nan (length l)).
  { induction l as [|x l IH]; intros Hl; [reflexivity|]. cbn [map length repeat]. rewrite IH by (intros; apply Hl; now right). destruct (Z x lo (Hl x (or_introl eq_refl)) Ilo) as (s' & ->). reflexivity. }
  apply G. auto.
Qed.
Theorem C46_empty_aborts : normalize_score [] = Panic EmptyInput.
Proof. reflexivity. Qed.
(** -3, -1, -2.5, -3 become 0, 1, 0.25, 0. *)
Example C46_case : (let! l := normalize_score [f_of (-3) 0; f_of (-1) 0; f_of (-5) (-1); f_of (-3) 0] in Ok (map (@B2SF 24 128) l)) = Ok (map (@B2SF 24 128) [f_zero; f_of 1 0; f_of 1 (-2); f_zero]).
Proof. vm_compute. reflexivity. Qed.

(** ** C72 *)
(** The score of a window with up to 2^24 edges whose summands add up to at most 2^24 is the negated average, rounded once to the nearest single precision number:
    the sum is exact and the constant 0.00000001 has no effect. *)
Theorem C72_negated_average : forall xs, (1 <= Z.of_nat (length xs) <= 2 ^ 24)%Z -> (Z.of_nat (fold_left Nat.add xs 0%nat) <= 2 ^ 24)%Z ->
  f_finite (score_value xs) = true
  /\ f_real (score_value xs) = - round radix2 (FLT_exp (-149) 24) ZnearestE (INR (fold_left Nat.add xs 0%nat) / INR (length xs)).
Proof. exact value_exact. Qed.
Example C72_case : (@B2SF 24 128 (score_value [3; 0; 5; 3]%nat)) = @B2SF 24 128 (f_of (-11) (-2)).
Proof. vm_compute. reflexivity. Qed.
(** A window without edges would be 0 / 0.00000001; it is never divided. Scores are finite and never positive. *)
Theorem C72_not_positive : forall xs, (1 <= Z.of_nat (length xs) <= 2 ^ 24)%Z -> (forall x, In x xs -> (Z.of_nat x <= 2 ^ 64)%Z) ->
  f_finite (score_value xs) = true /\ f_real (score_value xs) <= 0.
Proof. exact value_bounds. Qed.

(** ** C46 for what one machine computes *)
Lemma carry_all : forall (P : f32 -> Prop) windows before, P before -> (forall w, In w windows -> w <> [] -> P (score_value w)) -> forall x, In x (carry score_value before windows) -> P x.
Proof.
  intros P windows. induction windows as [|w ws IH]; intros before Hb Hw x Hx; [easy|]. cbn [carry] in Hx.
  assert (Hv : P (match w with [] => before | _ => score_value w end)) by (destruct w; [exact Hb|]; apply Hw; [now left|discriminate]).
  destruct Hx as [<-|Hx]; [exact Hv|]. apply (IH _ Hv (fun w' H => Hw w' (or_intror H)) x Hx).
Qed.
Lemma filter_length_le : forall A (f : A -> bool) l, (length (filter f l) <= length l)%nat.
Proof. intros A f l. induction l as [|x l IH]; [auto|]. cbn [filter]. destruct (f x); cbn [length]; lia. Qed.
Lemma distinct_length : forall l, (length (distinct l) <= length l)%nat.
Proof. induction l as [|e l IH]; [auto|]. cbn [distinct length]. pose proof (filter_length_le _ (fun x => negb (same_edge e x)) (distinct l)). lia. Qed.
Lemma edge_term_bound : forall all e, (Z.of_nat (length all) <= 2 ^ 24)%Z -> (Z.of_nat (edge_term all e) <= 2 ^ 64)%Z.
Proof.
  intros all e H. unfold edge_term. assert (M : (multiplicity all e <= length all)%nat) by apply filter_length_le.
  assert (D : (degree all (fst e) <= 2 * length all)%nat). { unfold degree, count. pose proof (distinct_length all). pose proof (filter_length_le _ (fun x => same_node (fst e) (fst x)) (distinct all)). pose proof (filter_length_le _ (fun x => same_node (fst e) (snd x)) (distinct all)). unfold edge in *. lia. }
  rewrite Nat2Z.inj_mul. apply Z.le_trans with (2 ^ 24 * 2 ^ 25)%Z; [|now apply Z.leb_le]. apply Z.mul_le_mono_nonneg; lia.
Qed.
Lemma window_length : forall edges q i, (length (window_edges edges q i) <= length edges)%nat.
Proof.
  intros edges q i. unfold window_edges. rewrite app_length, firstn_length. set (f := fun e => _). set (g := fun e => (i + q - 1 <? to_id e)%nat).
  assert (H : (length (filter f edges) + length (filter g edges) <= length edges)%nat).
  { induction edges as [|e edges IH]; [auto|]. cbn [filter]. destruct (f e) eqn:Ef, (g e) eqn:Eg; cbn [length]; try lia.
    unfold f, g in Ef, Eg. rewrite andb_true_iff, Nat.leb_le in Ef. rewrite Nat.ltb_lt in Eg. lia. }
  lia.
Qed.
(** Every graph of up to 2^24 edges, all thread counts and response orders: the vector passed on is normalized without abort; all entries are numbers in [0, 1], unless all raw scores are equal. *)
Theorem C46_one_machine : forall edges num q threads g, (Z.of_nat (length edges) <= 2 ^ 24)%Z ->
  ascending edges -> (forall e, In e edges -> (to_id e < num - 1)%nat) -> (edges <> [] -> exists e, In e edges /\ to_id e <> 0%nat) -> (1 <= q)%nat -> (1 <= threads)%nat -> (threads <= num - q)%nat ->
  single_graph edges num q = Ok g ->
  exists w0, start_scoring f_zero score_value g threads = Ok w0 /\ forall w, scoring_run (fun x => f_eq x f_zero) w0 w -> flying w = [] ->
    exists raw first_empty, c_delivered (collecting w) = [(raw, first_empty)] /\ ((exists x y, In x raw /\ In y raw /\ f_real x <> f_real y) ->
      exists out, normalize_score raw = Ok out /\ length out = (num - q)%nat /\ forall y, In y out -> f_finite y = true /\ 0 <= f_real y <= 1).
Proof.
  intros edges num q threads g HE Ha Ht Hp Hq Hth Hle Hg.
  destruct (C43_independent_of_threads f32 f_zero (fun x => f_eq x f_zero) score_value edges num q threads g eq_refl Ha Ht Hp Hq Hth Hle Hg) as (w0 & E0 & R). exists w0. split; [exact E0|].
  intros w Hr Hf. destruct (R w Hr) as (_ & _ & _ & X). specialize (X Hf). destruct (c_delivered (collecting w)) as [|[raw fe] [|? ?]]; try discriminate. injection X as Er. exists raw, fe. split; [reflexivity|]. intros Hd.
  assert (B : forall x, In x raw -> f_finite x = true /\ f_real x <= 0).
  { rewrite Er. apply (carry_all (fun x => f_finite x = true /\ f_real x <= 0)).
    - split; [reflexivity|]. cbn. lra.
    - intros ws Hw Hne. apply in_map_iff in Hw. destruct Hw as (i & <- & _). apply value_bounds.
      + rewrite map_length. pose proof (window_length edges q i). destruct (window_edges edges q i); [exfalso; apply Hne; reflexivity|]. cbn [length] in *. unfold edge in *. lia.
      + intros x Hx. apply in_map_iff in Hx. destruct Hx as (e & <- & _). now apply edge_term_bound. }
  destruct (C46_normalized raw) as (f & En & P).
  - intros x Hx. now apply B.
  - exact Hd.
  - intros x y Hx Hy. apply C46_no_overflow; now apply B.
  - exists (map f raw). split; [exact En|]. split.
    + rewrite map_length, Er. assert (G : forall ws b, length (carry score_value b ws) = length ws) by (induction ws as [|x ws IH]; intros b; [reflexivity|]; cbn [carry length]; now rewrite IH). now rewrite G, map_length, seq_length.
    + intros y Hy. apply in_map_iff in Hy. destruct Hy as (x & <- & Hx). destruct (P x Hx) as (A & C & _). auto.
Qed.
(** The example graph of C42 with two threads. *)
Example C46_one_machine_case : (let! g := single_graph ex_edges 9 3 in let! w0 := start_scoring f_zero score_value g 2 in
    let! l := normalize_score (concat (map r_scores (flying w0))) in Ok (map (@B2SF 24 128) l))
  = Ok (map (@B2SF 24 128) [f_zero; f_of 11184808 (-26); f_of 3 (-2); f_of 3 (-2); f_of 1 0; f_of 1 0]).
Proof. vm_compute. reflexivity. Qed.

Print Assumptions C46_normalized.
Print Assumptions C46_no_overflow.
Print Assumptions C46_constant_is_nan_refuted.
Print Assumptions C72_negated_average.
Print Assumptions C46_one_machine.
