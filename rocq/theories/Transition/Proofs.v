From Coq Require Import List Arith ZArith Bool Lia.
From Verif.Transition Require Import Model Spec.
Import ListNotations.

Lemma ccw_cases : forall rate from to, from < rate -> to < rate ->
  (from <= to /\ ccw rate from to = to - from) \/ (to < from /\ ccw rate from to = to + rate - from).
Proof.
  intros rate from to Hf Ht. unfold ccw. destruct (le_lt_dec from to).
  - left. split; [lia|]. replace (to + (rate - from)) with ((to - from) + 1 * rate) by lia. rewrite Nat.mod_add by lia. apply Nat.mod_small. lia.
  - right. split; [lia|]. rewrite Nat.mod_small; lia.
Qed.

Lemma half_Z : forall rate, (Z.of_nat rate / 2)%Z = Z.of_nat (rate / 2).
Proof. intros. now rewrite Nat2Z.inj_div. Qed.

Lemma half_bounds : forall rate, 2 * (rate / 2) <= rate < 2 * (rate / 2) + 2.
Proof. intros rate. pose proof (Nat.div_mod rate 2 ltac:(lia)). pose proof (Nat.mod_upper_bound rate 2 ltac:(lia)). lia. Qed.

Lemma valid_iff : forall rate from to, from < rate -> to < rate ->
  (has_valid_direction rate from to = true <-> ccw rate from to <= rate / 2).
Proof.
  intros rate from to Hf Ht. pose proof (half_bounds rate). unfold has_valid_direction, raw_diff. rewrite half_Z.
  rewrite orb_true_iff, !andb_true_iff, !Z.leb_le, Z.ltb_lt.
  destruct (ccw_cases rate from to Hf Ht) as [(H1 & ->)|(H1 & ->)]; lia.
Qed.

Lemma usable_iff : forall rate from to, from < rate -> to < rate ->
  (crosses_segments from to = true /\ has_valid_direction rate from to = true <-> 1 <= ccw rate from to <= rate / 2).
Proof.
  intros rate from to Hf Ht. rewrite valid_iff by assumption. unfold crosses_segments. rewrite negb_true_iff, Nat.eqb_neq.
  destruct (ccw_cases rate from to Hf Ht) as [(H1 & ->)|(H1 & ->)]; lia.
Qed.

Lemma ccw_reverse : forall rate from to, from < rate -> to < rate -> from <> to -> ccw rate from to + ccw rate to from = rate.
Proof.
  intros rate from to Hf Ht Hn. destruct (ccw_cases rate from to Hf Ht) as [(H1 & ->)|(H1 & ->)]; destruct (ccw_cases rate to from Ht Hf) as [(H2 & ->)|(H2 & ->)]; lia.
Qed.

Lemma ccw_to : forall rate from to, from < rate -> to < rate -> (from + ccw rate from to) mod rate = to.
Proof.
  intros rate from to Hf Ht. destruct (ccw_cases rate from to Hf Ht) as [(H1 & ->)|(H1 & ->)].
  - rewrite Nat.mod_small; lia.
  - replace (from + (to + rate - from)) with (to + 1 * rate) by lia. rewrite Nat.mod_add by lia. apply Nat.mod_small. lia.
Qed.

Lemma border_count_eq : forall rate from to, from < rate -> to < rate -> ccw rate from to <= rate / 2 -> border_count rate from to = ccw rate from to.
Proof.
  intros rate from to Hf Ht H. pose proof (half_bounds rate). unfold border_count, segment_diff, raw_diff.
  destruct (ccw_cases rate from to Hf Ht) as [(H1 & E)|(H1 & E)]; rewrite E in *.
  - replace (Z.to_nat (Z.abs (Z.of_nat to - Z.of_nat from))) with (to - from) by lia.
    destruct (Nat.ltb_spec (rate / 2) (to - from)); lia.
  - replace (Z.to_nat (Z.abs (Z.of_nat to - Z.of_nat from))) with (from - to) by lia.
    destruct (Nat.ltb_spec (rate / 2) (from - to)).
    + destruct (Nat.ltb_spec (rate / 2) to); [lia|]. destruct (Nat.ltb_spec (rate / 2) from); lia.
    + lia.
Qed.

Lemma crossed_eq : forall rate from to, from < rate -> to < rate -> ccw rate from to <= rate / 2 ->
  crossed_segments rate from to = map (fun lag => (from + lag) mod rate) (seq 1 (ccw rate from to)).
Proof. intros. unfold crossed_segments. now rewrite border_count_eq. Qed.

Lemma mod_inj_window : forall rate from a b, a < rate -> b < rate -> (from + a) mod rate = (from + b) mod rate -> a = b.
Proof.
  intros rate from a b Ha Hb E. pose proof (Nat.div_mod (from + a) rate ltac:(lia)). pose proof (Nat.div_mod (from + b) rate ltac:(lia)).
  rewrite E in *. assert (Hq : (from + a) / rate = (from + b) / rate \/ (from + a) / rate < (from + b) / rate \/ (from + b) / rate < (from + a) / rate) by lia.
  destruct Hq as [Hq|[Hq|Hq]]; [rewrite Hq in *; lia|nia|nia].
Qed.

Lemma crossed_nodup : forall rate from to, from < rate -> to < rate -> ccw rate from to <= rate / 2 -> NoDup (crossed_segments rate from to).
Proof.
  intros rate from to Hf Ht H. rewrite crossed_eq by assumption. pose proof (half_bounds rate).
  assert (G : forall n a, a + n <= S (rate / 2) -> 1 <= a -> NoDup (map (fun lag => (from + lag) mod rate) (seq a n))).
  { induction n as [|n IH]; intros a Hn Ha; cbn; constructor.
    - intros Hin. apply in_map_iff in Hin. destruct Hin as (x & E & Hx). apply in_seq in Hx. 
      destruct (Nat.eq_dec rate 1); [assert (rate / 2 = 0) by (subst; reflexivity); lia|].
      apply mod_inj_window in E; lia.
    - apply IH; lia. }
  apply G; lia.
Qed.
