(** Owners along a counter-clockwise run of segments. *)
From Coq Require Import List Arith ZArith Bool Lia.
From Verif.Base Require Import Res Params Assoc ListX.
From Verif.Topology Require Import Model Proofs.
From Verif.Transition Require Import Model Spec Proofs.
From Verif.Segmentation Require Import Model Spec.
Import ListNotations.

Section B.
Variable p : params.
Hypothesis HN : 1 <= n_cluster_nodes p <= rate p.
Notation N := (n_cluster_nodes p).
Notation r := (rate p).
Notation spn := (rate p / n_cluster_nodes p).

Lemma owner_ok : forall s, segment_id_to_assignment p s = Ok (owner p s).
Proof. intros s. now apply assignment_ok. Qed.
Lemma owner_lt : forall s, owner p s < N.
Proof. intros s. unfold owner. lia. Qed.
Lemma spn_mul : N * spn <= r.
Proof. apply Nat.mul_div_le. lia. Qed.

Lemma div_step : forall s w, 1 <= w -> (s + 1) / w = s / w \/ ((s + 1) / w = s / w + 1 /\ s + 1 = (s / w + 1) * w).
Proof.
  intros s w Hw. pose proof (Nat.div_mod s w ltac:(lia)) as E. pose proof (Nat.mod_upper_bound s w ltac:(lia)) as B.
  destruct (Nat.eq_dec (s mod w) (w - 1)) as [Em|Em].
  - right. assert (E1 : s + 1 = (s / w + 1) * w) by nia. split; [|exact E1]. rewrite E1 at 1. now rewrite Nat.div_mul by lia.
  - left. symmetry. apply (Nat.div_unique (s + 1) w (s / w) (s mod w + 1)); lia.
Qed.

Lemma owner_step : forall s, s < r -> owner p ((s + 1) mod r) <> owner p s ->
  owner p ((s + 1) mod r) = (owner p s + 1) mod N /\ (s + 1) mod r = ((owner p s + 1) mod N) * spn.
Proof.
  intros s Hs Hne. pose proof (spn_pos p HN) as Hw. pose proof spn_mul as Hm. destruct (Nat.eq_dec (s + 1) r) as [E|E].
  - rewrite E, Nat.mod_same in * by lia.
    assert (Eo : owner p s = N - 1).
    { unfold owner. apply Nat.min_r. apply Nat.div_le_lower_bound; [lia|]. nia. }
    rewrite Eo. replace (N - 1 + 1) with N by lia. rewrite Nat.mod_same by lia. split; [|lia]. unfold owner. rewrite Nat.div_0_l by lia. lia.
  - rewrite (Nat.mod_small (s + 1)) in * by lia. destruct (div_step s spn Hw) as [D|(D & D2)]; [unfold owner in Hne; rewrite D in Hne; congruence|].
    unfold owner in *. rewrite D in *. destruct (le_lt_dec (N - 1) (s / spn)) as [L|L]; [rewrite !Nat.min_r in Hne by lia; congruence|].
    rewrite (Nat.min_l (s / spn)) by lia. rewrite Nat.min_l by lia. rewrite Nat.mod_small by lia. auto.
Qed.

(** The steps [l] (from [a + l] to [a + l + 1]) at which the owner changes. *)
Definition change (a l : nat) : bool := negb (owner p ((a + l) mod r) =? owner p ((a + l + 1) mod r)).
Definition changes (a d : nat) : list nat := filter (change a) (seq 0 d).

Lemma changes_S : forall a d, changes a (S d) = changes a d ++ (if change a d then [d] else []).
Proof. intros a d. unfold changes. rewrite seq_S, filter_app. cbn [Nat.add filter]. now destruct (change a d). Qed.

Lemma mod_add_1 : forall x, (x mod r + 1) mod r = (x + 1) mod r.
Proof. intros x. rewrite Nat.add_mod_idemp_l by lia. reflexivity. Qed.

Lemma changes_spec : forall a d, a < r ->
  map (fun l => (a + l + 1) mod r) (changes a d) = map (fun j => ((owner p a + j + 1) mod N) * spn) (seq 0 (length (changes a d))) /\
  owner p ((a + d) mod r) = (owner p a + length (changes a d)) mod N.
Proof.
  intros a d Ha. induction d as [|d (I1 & I2)].
  - cbn. split; [reflexivity|]. rewrite !Nat.add_0_r. rewrite Nat.mod_small by exact Ha. symmetry. apply Nat.mod_small. apply owner_lt.
  - rewrite changes_S. destruct (change a d) eqn:C.
    + unfold change in C. apply negb_true_iff, Nat.eqb_neq in C.
      pose proof (owner_step ((a + d) mod r) ltac:(apply Nat.mod_upper_bound; lia)) as St. rewrite mod_add_1 in St. destruct (St ltac:(congruence)) as (S1 & S2).
      rewrite I2 in S1, S2. rewrite Nat.add_mod_idemp_l in S1, S2 by lia.
      rewrite map_app, app_length. cbn [map length]. split.
      * rewrite (Nat.add_1_r (length (changes a d))), seq_S, map_app. cbn [map Nat.add]. rewrite I1. f_equal. f_equal. rewrite S2. reflexivity.
      * replace (a + S d) with (a + d + 1) by lia. rewrite S1. f_equal. lia.
    + unfold change in C. apply negb_false_iff, Nat.eqb_eq in C. rewrite app_nil_r. split; [exact I1|]. replace (a + S d) with (a + d + 1) by lia. rewrite <- C. exact I2.
Qed.

Lemma changes_lt : forall a d l, In l (changes a d) -> l < d /\ change a l = true.
Proof. intros a d l H. unfold changes in H. apply filter_In in H. rewrite in_seq in H. destruct H. split; [lia|assumption]. Qed.

Lemma half_block : 2 <= N -> r / 2 <= (N - 1) * spn.
Proof.
  intros H2. pose proof (spn_pos p HN) as Hq. pose proof (half_bounds r) as Hh.
  pose proof (Nat.div_mod r N ltac:(lia)) as E. pose proof (Nat.mod_upper_bound r N ltac:(lia)) as B. set (q := spn) in *. set (m := r mod N) in *. nia.
Qed.

Lemma owner_bounds : forall a, a < r -> owner p a * spn <= a.
Proof.
  intros a Ha. pose proof (spn_pos p HN) as Hq. unfold owner. pose proof (Nat.div_mod a spn ltac:(lia)). pose proof (Nat.mod_upper_bound a spn ltac:(lia)). nia.
Qed.

(** Fewer changes than hosts on at most half of the circle. *)
Lemma changes_few : forall a d, a < r -> d <= r / 2 -> length (changes a d) < N.
Proof.
  intros a d Ha Hd. destruct (le_lt_dec N (length (changes a d))) as [L|L]; [|exact L]. exfalso.
  pose proof (spn_pos p HN) as Hq. pose proof spn_mul as Hm. pose proof (half_bounds r) as Hh.
  destruct (changes_spec a d Ha) as (E & _). set (c := length (changes a d)) in *.
  apply (f_equal (fun l => nth_error l (N - 1))) in E. rewrite !nth_error_map in E. rewrite nth_error_seq in E by lia. cbn [option_map Nat.add] in E.
  destruct (nth_error (changes a d) (N - 1)) as [l|] eqn:En; [|discriminate]. cbn [option_map] in E. injection E as E.
  apply nth_error_In in En. destruct (changes_lt a d l En) as (Hl & Hc).
  replace (owner p a + (N - 1) + 1) with (owner p a + 1 * N) in E by lia. rewrite Nat.mod_add in E by lia. rewrite (Nat.mod_small (owner p a)) in E by apply owner_lt.
  pose proof (owner_bounds a Ha) as Ho.
  destruct (le_lt_dec r (a + l + 1)) as [W|W].
  - assert (E2 : (a + l + 1) mod r = a + l + 1 - r).
    { replace (a + l + 1) with (a + l + 1 - r + 1 * r) at 1 by lia. rewrite Nat.mod_add by lia. apply Nat.mod_small. lia. }
    destruct (Nat.eq_dec N 1) as [E1|E1].
    + unfold change in Hc. unfold owner in Hc. rewrite E1 in Hc. cbn [Nat.sub] in Hc. rewrite !Nat.min_0_r in Hc. discriminate.
    + pose proof (half_block ltac:(lia)) as Hb.
      (* a is at most the last segment of its block *)
      assert (Ha2 : a + 1 <= owner p a * spn + (r - (N - 1) * spn)).
      { unfold owner. pose proof (Nat.div_mod a spn ltac:(lia)). pose proof (Nat.mod_upper_bound a spn ltac:(lia)).
        destruct (le_lt_dec (N - 1) (a / spn)); [rewrite Nat.min_r by lia; nia|]. rewrite Nat.min_l by lia. nia. }
      lia.
  - rewrite (Nat.mod_small (a + l + 1)) in E by lia. lia.
Qed.

Lemma same_window : forall a b, a < r -> b < r -> ccw r a b <= r / 2 -> 
  cluster_node_diff p (owner p a) (owner p b) = Ok (length (changes a (ccw r a b))).
Proof.
  intros a b Ha Hb Hd. destruct (node_diff p (owner p a) (owner p b) (owner_lt a) (owner_lt b)) as (d & E & Ld & Ed). rewrite E. f_equal.
  destruct (changes_spec a (ccw r a b) Ha) as (_ & Ec). rewrite ccw_to in Ec by assumption. rewrite Ec in Ed.
  eapply mod_inj_window; [exact Ld|apply changes_few; assumption|exact Ed].
Qed.

Lemma changes_none : forall a b, a < r -> b < r -> ccw r a b <= r / 2 -> owner p a = owner p b -> changes a (ccw r a b) = [].
Proof.
  intros a b Ha Hb Hd Eo. pose proof (same_window a b Ha Hb Hd) as E. destruct (changes a (ccw r a b)) as [|x t] eqn:Ec; [reflexivity|]. exfalso.
  rewrite Eo in E. unfold cluster_node_diff in E. destruct (N =? 0); [discriminate|]. rewrite Z.sub_diag, Zmod_0_l in E. cbn in E. discriminate.
Qed.

Lemma first_segment_ok : forall a j, a < r -> first_segment_of_i_next_cluster_node p a (j + 1) = Ok (((owner p a + j + 1) mod N) * spn).
Proof.
  intros a j Ha. unfold first_segment_of_i_next_cluster_node. rewrite owner_ok. cbn [bind]. rewrite umod_ok by lia. cbn [bind]. rewrite spn_ok by exact HN. cbn [bind].
  now rewrite Nat.add_assoc.
Qed.

Lemma before_ok : forall x, Z.to_nat ((Z.of_nat ((x + 1) mod r) - 1) mod Z.of_nat r) = x mod r.
Proof.
  intros x. rewrite <- (Nat2Z.id (x mod r)). f_equal. rewrite !Nat2Z.inj_mod. rewrite Zminus_mod_idemp_l. f_equal. lia.
Qed.

(** The [j]-th change. *)
Lemma wanted_ok : forall t d j, from_segment t < r -> j < length (changes (from_segment t) d) ->
  get_wanted_segment p t j = Ok ((from_segment t + nth j (changes (from_segment t) d) 0 + 1) mod r, (from_segment t + nth j (changes (from_segment t) d) 0) mod r).
Proof.
  intros t d j Ha Hj. unfold get_wanted_segment. rewrite first_segment_ok by exact Ha. cbn [bind].
  destruct (Nat.eqb_spec r 0); [lia|].
  destruct (changes_spec (from_segment t) d Ha) as (E & _). apply (f_equal (fun l => nth_error l j)) in E. rewrite !nth_error_map in E.
  rewrite nth_error_seq in E by exact Hj. cbn [option_map Nat.add] in E. rewrite (nth_error_nth' _ 0 Hj) in E. cbn [option_map] in E. injection E as E.
  rewrite <- E. f_equal. f_equal. apply before_ok.
Qed.

Lemma changes_zero_first : forall a d j, j < length (changes a d) -> nth j (changes a d) 0 = 0 -> j = 0.
Proof.
  intros a d j Hj E. destruct d as [|d]; [cbn in Hj; lia|].
  assert (S : forall m s j, j < length (filter (change a) (seq (S s) m)) -> nth j (filter (change a) (seq (S s) m)) 0 <> 0).
  { intros m s i Hi Hz. pose proof (nth_In _ 0 Hi) as Hin. rewrite Hz in Hin. apply filter_In in Hin. rewrite in_seq in Hin. lia. }
  unfold changes in *. cbn [seq filter] in *. destruct (change a 0).
  - destruct j as [|j]; [reflexivity|]. exfalso. cbn [nth length] in *. eapply S; [|exact E]. lia.
  - exfalso. eapply S; [exact Hj|exact E].
Qed.
End B.
