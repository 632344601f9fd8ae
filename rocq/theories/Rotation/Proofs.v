From Coq Require Import List Arith Bool Lia.
From Verif.Base Require Import ListX.
From Verif.Rotation Require Import Model.
Import ListNotations.

Definition flag (b : bool) : nat := if b then 1 else 0.
Definition count (p : nat) (l : list nat) : nat := count_occ Nat.eq_dec l p.

Lemma count_app : forall p a b, count p (a ++ b) = count p a + count p b.
Proof. intros. apply count_occ_app. Qed.
Lemma count_mid : forall p q l r, count p (l ++ q :: r) = count p (l ++ r) + flag (p =? q).
Proof.
  intros. rewrite !count_app. unfold count at 2. cbn. destruct (Nat.eq_dec q p); destruct (Nat.eqb_spec p q); unfold flag, count in *; try congruence; lia.
Qed.
Lemma count_seq : forall p a n, count p (seq a n) = flag ((a <=? p) && (p <? a + n)).
Proof.
  intros p a n. revert a. induction n as [|n IH]; intros a.
  - cbn [seq]. destruct (Nat.leb_spec a p); destruct (Nat.ltb_spec p (a + 0)); cbn [andb flag]; reflexivity || lia.
  - unfold count in *. cbn [seq count_occ]. rewrite IH. destruct (Nat.eq_dec a p); destruct (Nat.leb_spec (S a) p); destruct (Nat.leb_spec a p);
      destruct (Nat.ltb_spec p (S a + n)); destruct (Nat.ltb_spec p (a + S n)); cbn [andb flag]; lia.
Qed.

Definition inv (n c : nat) (w : world) : Prop :=
  (forall p, In p (flying w) -> p < n) /\
  forall p, p < n ->
    let h := hosts_ w p in
    (broadcasted h = false -> 1 <= pca_left w p /\ n_reduced h + pca_left w p = S c /\ applied h = 0) /\
    (broadcasted h = true -> pca_left w p = 0 /\ matrix_buffer h = false) /\
    done_ h = applied h /\
    applied h + flag (matrix_buffer h) + count p (flying w) = flag (broadcasted (hosts_ w 0)).

Lemma set_same : forall A (f : nat -> A) i a, set f i a i = a.
Proof. intros. unfold set. now rewrite Nat.eqb_refl. Qed.
Lemma set_other : forall A (f : nat -> A) i j a, j <> i -> set f i a j = f j.
Proof. intros. unfold set. destruct (Nat.eqb_spec j i); congruence. Qed.

Lemma inv_start : forall n c, 1 <= c -> inv n c (start c).
Proof. intros n c Hc. split; [cbn; tauto|]. intros p Hp. cbn. ssplit; auto; try discriminate; intros; ssplit; lia. Qed.

Lemma inv_step : forall n c w w', 1 <= n -> inv n c w -> step n c w w' -> inv n c w'.
Proof.
  intros n c w w' Hn (HF & H) Hs. destruct Hs as [w p Hp Hl|w p l r E].
  - assert (Hb : broadcasted (hosts_ w p) = false).
    { destruct (broadcasted (hosts_ w p)) eqn:B; [|reflexivity]. destruct (H p Hp) as (_ & B2 & _). specialize (B2 B). lia. }
    destruct (H p Hp) as (B1 & _ & Hd & Hc). specialize (B1 Hb). unfold pca_done. destruct (Nat.ltb_spec (n_reduced (hosts_ w p)) c) as [L|L].
    + cbn [fst snd]. split; cbn [flying hosts_ pca_left]; [rewrite app_nil_r; exact HF|]. intros q Hq.
      rewrite app_nil_r.
      assert (E0 : broadcasted (set (hosts_ w) p {| n_reduced := S (n_reduced (hosts_ w p)); broadcasted := broadcasted (hosts_ w p); matrix_buffer := matrix_buffer (hosts_ w p);
        applied := applied (hosts_ w p); done_ := done_ (hosts_ w p) |} 0) = broadcasted (hosts_ w 0)).
      { unfold set. destruct (Nat.eqb_spec 0 p) as [<-|]; reflexivity. }
      cbn zeta. rewrite E0. destruct (Nat.eq_dec q p) as [->|Hqp].
      * rewrite !set_same. cbn [n_reduced broadcasted matrix_buffer applied done_]. ssplit; try congruence; try lia.
      * rewrite !set_other by exact Hqp. apply (H q Hq).
    + cbn [fst snd]. split; cbn [flying hosts_ pca_left].
      * intros q Hq. apply in_app_iff in Hq. destruct Hq as [Hq|Hq]; [now apply HF|]. apply in_app_iff in Hq. destruct Hq as [Hq|Hq].
        -- destruct (p =? 0); [apply in_seq in Hq; lia|destruct Hq].
        -- destruct (matrix_buffer (hosts_ w p)); [destruct Hq as [<-|[]]; exact Hp|destruct Hq].
      * intros q Hq. cbn zeta. rewrite !count_app.
        assert (Ec : count q (if p =? 0 then seq 0 n else []) = flag (p =? 0)).
        { destruct (p =? 0); [|reflexivity]. rewrite count_seq. destruct (Nat.leb_spec 0 q); destruct (Nat.ltb_spec q (0 + n)); cbn [andb flag]; lia. }
        assert (E0 : flag (broadcasted (set (hosts_ w) p {| n_reduced := n_reduced (hosts_ w p); broadcasted := true; matrix_buffer := false;
          applied := applied (hosts_ w p); done_ := done_ (hosts_ w p) |} 0)) = flag (broadcasted (hosts_ w 0)) + flag (p =? 0)).
        { unfold set. rewrite (Nat.eqb_sym 0 p). destruct (Nat.eqb_spec p 0) as [->|]; cbn; [rewrite Hb; reflexivity|lia]. }
        rewrite Ec, E0. destruct (Nat.eq_dec q p) as [->|Hqp].
        -- rewrite !set_same. cbn [n_reduced broadcasted matrix_buffer applied done_]. ssplit; try congruence; try lia.
           destruct (matrix_buffer (hosts_ w p)); cbn [flag] in *; unfold count at 2; cbn; [destruct (Nat.eq_dec p p); [|congruence]|]; lia.
        -- rewrite !set_other by exact Hqp. destruct (H q Hq) as (Q1 & Q2 & Q3 & Q4). ssplit; auto.
           destruct (matrix_buffer (hosts_ w p)); unfold count at 2; cbn; [destruct (Nat.eq_dec p q); [congruence|]|]; lia.
  - assert (Hp : p < n) by (apply HF; rewrite E; apply in_elt). split; cbn [flying hosts_ pca_left].
    + intros q Hq. apply HF. rewrite E. apply in_app_iff in Hq. apply in_app_iff. destruct Hq; [now left|right; now right].
    + intros q Hq. cbn zeta.
      assert (E0 : broadcasted (set (hosts_ w) p (matrix (hosts_ w p)) 0) = broadcasted (hosts_ w 0)).
      { unfold set. destruct (Nat.eqb_spec 0 p) as [<-|]; [|reflexivity]. unfold matrix. destruct (broadcasted (hosts_ w 0)) eqn:B; reflexivity. }
      rewrite E0. destruct (H q Hq) as (Q1 & Q2 & Q3 & Q4). rewrite E, count_mid in Q4. destruct (Nat.eq_dec q p) as [->|Hqp].
      * rewrite set_same. rewrite Nat.eqb_refl in Q4. cbn [flag] in Q4. unfold matrix. destruct (broadcasted (hosts_ w p)) eqn:B; cbn [n_reduced broadcasted matrix_buffer applied done_].
        -- ssplit; auto; try discriminate; try lia.
        -- assert (flag (broadcasted (hosts_ w 0)) <= 1) by (destruct (broadcasted (hosts_ w 0)); cbn; lia). ssplit; auto; try discriminate. cbn [flag].
           destruct (matrix_buffer (hosts_ w p)); cbn [flag] in *; lia.
      * rewrite set_other by exact Hqp. ssplit; auto. destruct (Nat.eqb_spec q p); [congruence|]. cbn [flag] in Q4. lia.
Qed.

Lemma inv_reachable : forall n c w, 1 <= n -> 1 <= c -> reachable n c w -> inv n c w.
Proof. intros n c w Hn Hc. induction 1; [now apply inv_start|eapply inv_step; eauto]. Qed.

(** ** Termination *)
Definition sum (n : nat) (f : nat -> nat) : nat := list_sum (map f (seq 0 n)).
Lemma sum_set : forall n f p a, p < n -> sum n (set f p a) + f p = sum n f + a.
Proof.
  intros n f p a Hp. unfold sum. assert (G : forall m s, s <= p < s + m -> list_sum (map (set f p a) (seq s m)) + f p = list_sum (map f (seq s m)) + a).
  { induction m as [|m IH]; intros s Hs; [lia|]. cbn [seq map]. change (set f p a s + list_sum (map (set f p a) (seq (S s) m)) + f p = f s + list_sum (map f (seq (S s) m)) + a). destruct (Nat.eq_dec s p) as [->|Hne].
    - rewrite set_same. assert (Em : map (set f p a) (seq (S p) m) = map f (seq (S p) m)).
      { apply map_ext_in. intros q Hq. apply in_seq in Hq. apply set_other. lia. }
      rewrite Em. lia.
    - rewrite set_other by exact Hne. specialize (IH (S s) ltac:(lia)). lia. }
  apply G. lia.
Qed.
Definition measure (n : nat) (w : world) : nat := (n + 2) * sum n (pca_left w) + length (flying w).

Lemma step_measure : forall n c w w', step n c w w' -> measure n w' < measure n w.
Proof.
  intros n c w w' Hs. unfold measure. destruct Hs as [w p Hp Hl|w p l r E]; cbn [pca_left flying].
  - pose proof (sum_set n (pca_left w) p (pca_left w p - 1) Hp) as S1. rewrite app_length.
    assert (length (snd (pca_done n c p (hosts_ w p))) <= n + 1).
    { unfold pca_done. destruct (n_reduced (hosts_ w p) <? c); cbn [snd]; [cbn; lia|]. rewrite app_length.
      destruct (p =? 0); destruct (matrix_buffer (hosts_ w p)); rewrite ?seq_length; cbn; lia. }
    assert (sum n (pca_left w) = S (sum n (set (pca_left w) p (pca_left w p - 1)))) as -> by lia. lia.
  - rewrite E, !app_length. cbn. lia.
Qed.

Lemma no_infinite : forall n c (r : nat -> world), ~ (forall i, step n c (r i) (r (S i))).
Proof.
  intros n c r H. assert (G : forall i, measure n (r i) + i <= measure n (r 0)).
  { induction i as [|i IH]; [lia|]. pose proof (step_measure n c _ _ (H i)). lia. }
  specialize (G (S (measure n (r 0)))). lia.
Qed.

Lemma quiet : forall n c w, (forall w', ~ step n c w w') -> flying w = [] /\ forall p, p < n -> pca_left w p = 0.
Proof.
  intros n c w H. split.
  - destruct (flying w) as [|p r] eqn:E; [reflexivity|]. exfalso. eapply H. apply (deliver n c w p [] r). exact E.
  - intros p Hp. destruct (pca_left w p) eqn:E; [reflexivity|]. exfalso. eapply H. apply (finish n c w p Hp). lia.
Qed.
