(** Arithmetic of the reduction tree. *)
From Coq Require Import List Arith Bool Lia Permutation.
From Verif.Base Require Import ListX.
From Verif.Pca Require Import Model Spec.
Import ListNotations.

Lemma pow_pos : forall k, 1 <= 2 ^ k.
Proof. intros k. pose proof (Nat.pow_nonzero 2 k). lia. Qed.

Lemma pow_S : forall k, 2 ^ S k = 2 * 2 ^ k.
Proof. intros. cbn. lia. Qed.

Lemma pow_mono : forall a b, a <= b -> 2 ^ a <= 2 ^ b.
Proof. intros. apply Nat.pow_le_mono_r; lia. Qed.

Lemma mod_double : forall q m, 0 < m -> q mod (2 * m) = q mod m \/ q mod (2 * m) = q mod m + m.
Proof.
  intros q m Hm. rewrite (Nat.mul_comm 2 m), Nat.mod_mul_r by lia.
  pose proof (Nat.mod_upper_bound (q / m) 2 ltac:(lia)).
  destruct ((q / m) mod 2) as [|[|]]; [left|right|]; lia.
Qed.

Section Tree.
Variable N : nat.
Hypothesis HN : 1 <= N.
Notation K := (Nat.log2_up N).

Lemma N_le : N <= 2 ^ K.
Proof. destruct (Nat.eq_dec N 1) as [->|]; [cbn; lia|]. apply Nat.log2_up_spec. lia. Qed.

Lemma half_lt : 2 <= N -> 2 ^ (K - 1) < N.
Proof. intros H. replace (K - 1) with (pred K) by lia. apply Nat.log2_up_spec. lia. Qed.

Lemma K_pos : 2 <= N -> 1 <= K.
Proof. intros H. pose proof N_le. destruct K; [cbn in *; lia|lia]. Qed.

Lemma thr_pow : forall c, c < K -> threshold N c = 2 ^ (K - 1 - c).
Proof.
  intros c Hc. unfold threshold, next_2_power. replace K with ((K - 1 - c) + (c + 1)) at 1 by lia.
  rewrite Nat.pow_add_r. apply Nat.div_mul. pose proof (pow_pos (c + 1)). lia.
Qed.

Lemma thr_zero : forall c, K <= c -> threshold N c = 0.
Proof.
  intros c Hc. unfold threshold, next_2_power. apply Nat.div_small. apply Nat.pow_lt_mono_r; lia.
Qed.

(** Nodes merged into [p] after [c] rounds. *)
Definition seg (p c : nat) : list nat := filter (fun q => q mod 2 ^ (K - c) =? p) (seq 0 N).

Lemma In_seg : forall p c q, In q (seg p c) <-> q < N /\ q mod 2 ^ (K - c) = p.
Proof. intros. unfold seg. rewrite filter_In, in_seq, Nat.eqb_eq. lia. Qed.

Lemma NoDup_seg : forall p c, NoDup (seg p c).
Proof. intros. apply NoDup_filter, seq_NoDup. Qed.

Lemma seg_0 : forall p, p < N -> seg p 0 = [p].
Proof.
  intros p Hp. assert (P : Permutation [p] (seg p 0)).
  { apply NoDup_Permutation; [repeat constructor; intros []|apply NoDup_seg|].
    intros q. rewrite In_seg, Nat.sub_0_r. pose proof N_le. cbn. split.
    - intros [<-|[]]. split; [exact Hp|apply Nat.mod_small; lia].
    - intros [Hq H2]. rewrite Nat.mod_small in H2 by lia. auto. }
  now apply Permutation_length_1_inv in P.
Qed.

Lemma seg_K : seg 0 K = seq 0 N.
Proof.
  unfold seg. rewrite Nat.sub_diag. change (2 ^ 0) with 1. induction (seq 0 N) as [|a t IH]; cbn [filter]; [reflexivity|].
  rewrite Nat.mod_1_r. change (0 =? 0) with true. cbv iota. now rewrite IH.
Qed.

Lemma seg_skip : forall p, p < 2 ^ (K - 1) -> N <= p + 2 ^ (K - 1) -> Permutation (seg p 0) (seg p 1).
Proof.
  intros p Hp Hn. apply NoDup_Permutation; [apply NoDup_seg|apply NoDup_seg|].
  intros q. rewrite !In_seg, Nat.sub_0_r. pose proof N_le.
  split; intros [Hq H2]; (split; [exact Hq|]).
  - rewrite Nat.mod_small in H2 by lia. subst q. apply Nat.mod_small. lia.
  - rewrite Nat.mod_small by lia.
    pose proof (Nat.div_mod q (2 ^ (K - 1))) as D. pose proof (pow_pos (K - 1)).
    rewrite H2 in D. specialize (D ltac:(lia)).
    destruct (q / 2 ^ (K - 1)); [lia|]. exfalso. nia.
Qed.

Lemma seg_merge : forall p c, 1 <= c -> c <= K -> p < 2 ^ (K - c) ->
  Permutation (seg p (c - 1) ++ seg (p + 2 ^ (K - c)) (c - 1)) (seg p c).
Proof.
  intros p c H1 H2 Hp.
  assert (E : 2 ^ (K - (c - 1)) = 2 * 2 ^ (K - c)) by (rewrite <- pow_S; f_equal; lia).
  pose proof (pow_pos (K - c)) as Hpos.
  apply NoDup_Permutation.
  - apply NoDup_app_intro; [apply NoDup_seg|apply NoDup_seg|]. intros q. rewrite !In_seg. lia.
  - apply NoDup_seg.
  - intros q. rewrite in_app_iff, !In_seg, E.
    pose proof (Nat.mod_upper_bound q (2 ^ (K - c)) ltac:(lia)).
    destruct (mod_double q (2 ^ (K - c)) ltac:(lia)); lia.
Qed.

Lemma decide_spec : forall p c, p < N -> c <= K -> p < 2 ^ (K - c) ->
  let (c', a) := decide N p c in
  (a = AFinalize /\ p = 0 /\ c' = c /\ c = K)
  \/ ((c' = c \/ (c = 0 /\ c' = 1 /\ p < 2 ^ (K - 1) /\ N <= p + 2 ^ (K - 1))) /\ c' < K
      /\ ((a = ASend (p - 2 ^ (K - 1 - c')) (c' + 1) /\ 2 ^ (K - 1 - c') <= p /\ 0 < p /\ p < 2 ^ (K - c'))
          \/ (a = AWait /\ p < 2 ^ (K - 1 - c') /\ p + 2 ^ (K - 1 - c') < N))).
Proof.
  intros p c Hp Hc Hpc. unfold decide.
  destruct (Nat.eq_dec c K) as [Ec|Hcn].
  - (* c = K: p = 0 *)
    assert (p = 0). { subst c. rewrite Nat.sub_diag in Hpc. cbn in Hpc. lia. } subst p.
    rewrite (thr_zero c) by lia. change (0 <? 0) with false. rewrite andb_false_r.
    replace (N <=? 0 + 0) with false by (symmetry; apply Nat.leb_gt; lia). rewrite andb_false_r. cbn. left. auto.
  - assert (c < K) as HcK by lia. rewrite (thr_pow c) by lia. pose proof (pow_pos (K - 1 - c)) as Hpos.
    destruct (2 ^ (K - 1 - c) <=? p) eqn:E1.
    + apply Nat.leb_le in E1. destruct (0 <? p) eqn:E0; [|apply Nat.ltb_ge in E0; lia]. cbn [andb].
      right. split; [auto|]. split; [lia|]. left. apply Nat.ltb_lt in E0. auto.
    + apply Nat.leb_gt in E1. cbn [andb].
      destruct ((c =? 0) && (N <=? p + 2 ^ (K - 1 - c))) eqn:E2.
      * apply andb_true_iff in E2. destruct E2 as [E2 E3]. apply Nat.eqb_eq in E2. apply Nat.leb_le in E3. subst c.
        rewrite Nat.sub_0_r in *.
        assert (2 <= N). { pose proof N_le. destruct (Nat.eq_dec N 1) as [E|]; [rewrite E in HcK; cbn in HcK; lia|lia]. }
        pose proof half_lt ltac:(lia) as Hh.
        assert (2 <= K). { destruct (le_lt_dec 2 K); [lia|]. exfalso. replace (K - 1) with 0 in * by lia. cbn in *. lia. }
        right. assert (1 < K) by lia. split; [right; auto|]. split; [lia|].
        rewrite (thr_pow 1) by lia.
        assert (E4 : 2 ^ (K - 1) = 2 * 2 ^ (K - 1 - 1)) by (rewrite <- pow_S; f_equal; lia).
        destruct (2 ^ (K - 1 - 1) <=? p) eqn:E5.
        -- apply Nat.leb_le in E5. pose proof (pow_pos (K - 1 - 1)).
           replace (0 <? p) with true by (symmetry; apply Nat.ltb_lt; lia). cbn [andb]. left. repeat split; lia.
        -- apply Nat.leb_gt in E5. cbn [andb].
           replace ((p =? 0) && (2 ^ (K - 1 - 1) =? 0)) with false.
           2:{ symmetry. apply andb_false_iff. right. apply Nat.eqb_neq. pose proof (pow_pos (K - 1 - 1)). lia. }
           right. split; [auto|]. split; lia.
      * replace ((p =? 0) && (2 ^ (K - 1 - c) =? 0)) with false.
        2:{ symmetry. apply andb_false_iff. right. apply Nat.eqb_neq. lia. }
        right. split; [auto|]. split; [lia|]. right. split; [auto|]. split; [lia|].
        apply andb_false_iff in E2. destruct E2 as [E2|E2]; [|apply Nat.leb_gt in E2; lia].
        apply Nat.eqb_neq in E2.
        assert (2 <= N). { destruct (Nat.eq_dec N 1) as [E|]; [rewrite E in HcK; cbn in HcK; lia|lia]. }
        pose proof half_lt ltac:(lia). pose proof (pow_mono (S (K - 1 - c)) (K - 1) ltac:(lia)) as M. rewrite pow_S in M. lia.
Qed.
End Tree.
