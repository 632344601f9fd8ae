From Coq Require Import List Arith Lia.
From Verif.Base Require Import ListX.
From Verif.Pca Require Import Model.
Import ListNotations.

Lemma ceil_spec : forall a b, 1 <= b -> 1 <= a -> let q := (a + b - 1) / b in a <= q * b /\ (q - 1) * b < a /\ 1 <= q.
Proof.
  intros a b Hb Ha q. unfold q. pose proof (Nat.div_mod (a + b - 1) b ltac:(lia)) as D.
  pose proof (Nat.mod_upper_bound (a + b - 1) b ltac:(lia)) as M.
  set (k := (a + b - 1) / b) in *. rewrite (Nat.mul_comm b k) in D.
  assert (1 <= k). { destruct k; [lia|lia]. }
  rewrite Nat.mul_sub_distr_r. lia.
Qed.

Section C.
Variables m t : nat.
Hypothesis (Hm : 1 <= m) (Ht : 1 <= t).
Notation c := (chunk_size m t).
Notation n := ((m + c - 1) / c).

Lemma c_pos : 1 <= c.
Proof. apply (ceil_spec m t Ht Hm). Qed.

Lemma n_le_t : n <= t.
Proof.
  destruct (ceil_spec m t Ht Hm) as (H1 & _). destruct (ceil_spec m c c_pos Hm) as (_ & H2 & H3).
  fold (chunk_size m t) in H1. set (k := n) in *.
  destruct (Nat.le_gt_cases k t) as [|Hgt]; [assumption|]. exfalso.
  assert (t * c <= (k - 1) * c) by (apply Nat.mul_le_mono_r; lia). lia.
Qed.

Lemma assigned_chunks : assigned m t = map (fun i => (i * c, Nat.min m ((i + 1) * c))) (seq 0 n).
Proof. unfold assigned. apply firstn_all2. unfold chunks. rewrite map_length, seq_length. apply n_le_t. Qed.

Lemma assigned_length : length (assigned m t) = n.
Proof. rewrite assigned_chunks, map_length, seq_length. reflexivity. Qed.

Lemma assigned_nth : forall k lo hi, nth_error (assigned m t) k = Some (lo, hi) -> k < n /\ lo = k * c /\ hi = Nat.min m ((k + 1) * c).
Proof.
  intros k lo hi H. rewrite assigned_chunks in H.
  assert (Hk : k < n).
  { assert (nth_error (map (fun i => (i * c, Nat.min m ((i + 1) * c))) (seq 0 n)) k <> None) as Hs by congruence.
    apply nth_error_Some in Hs. now rewrite map_length, seq_length in Hs. }
  rewrite nth_error_map, nth_error_seq in H by exact Hk. cbn in H. injection H as <- <-. auto.
Qed.

Lemma assigned_tile : forall r, r < m -> exists k lo hi, nth_error (assigned m t) k = Some (lo, hi) /\ lo <= r < hi
  /\ forall k' lo' hi', nth_error (assigned m t) k' = Some (lo', hi') -> lo' <= r < hi' -> k' = k.
Proof.
  intros r Hr. pose proof c_pos as Hc. pose proof (Nat.div_mod r c ltac:(lia)) as D. pose proof (Nat.mod_upper_bound r c ltac:(lia)) as M.
  set (k := r / c) in *. rewrite (Nat.mul_comm c k) in D.
  destruct (ceil_spec m c Hc Hm) as (H1 & _).
  assert (Hk : k < n).
  { destruct (Nat.lt_ge_cases k n) as [|Hge]; [assumption|]. exfalso. assert (n * c <= k * c) by now apply Nat.mul_le_mono_r. lia. }
  exists k, (k * c), (Nat.min m ((k + 1) * c)). ssplit.
  - rewrite assigned_chunks, nth_error_map, nth_error_seq by exact Hk. reflexivity.
  - lia.
  - rewrite Nat.mul_add_distr_r. lia.
  - intros k' lo' hi' E (L & U). destruct (assigned_nth _ _ _ E) as (_ & -> & ->).
    rewrite Nat.mul_add_distr_r in U.
    destruct (Nat.lt_trichotomy k k') as [Hlt|[->|Hgt]]; [exfalso|reflexivity|exfalso].
    + assert ((k + 1) * c <= k' * c) by (apply Nat.mul_le_mono_r; lia). lia.
    + assert ((k' + 1) * c <= k * c) by (apply Nat.mul_le_mono_r; lia). lia.
Qed.

Lemma assigned_nonempty : forall k lo hi, nth_error (assigned m t) k = Some (lo, hi) -> lo < hi <= m.
Proof.
  intros k lo hi H. destruct (assigned_nth _ _ _ H) as (Hk & -> & ->). pose proof c_pos.
  destruct (ceil_spec m c c_pos Hm) as (_ & H2 & _). assert (k * c <= (n - 1) * c) by (apply Nat.mul_le_mono_r; lia).
  rewrite Nat.mul_add_distr_r. lia.
Qed.

Lemma assigned_next : forall k lo hi lo' hi', nth_error (assigned m t) k = Some (lo, hi) -> nth_error (assigned m t) (S k) = Some (lo', hi') -> lo' = hi.
Proof.
  intros k lo hi lo' hi' H H'. destruct (assigned_nth _ _ _ H) as (Hk & -> & ->). pose proof (assigned_nonempty _ _ _ H') as Hne.
  destruct (assigned_nth _ _ _ H') as (Hk' & -> & ->). replace (k + 1) with (S k) in * by lia. lia.
Qed.

Lemma all_used : length (assigned m t) = t <-> (t - 1) * c < m.
Proof.
  rewrite assigned_length. destruct (ceil_spec m c c_pos Hm) as (H1 & H2 & H3). pose proof n_le_t.
  set (k := n) in *. split.
  - intros E. replace (t - 1) with (k - 1) by lia. exact H2.
  - intros Hlt. destruct (Nat.eq_dec k t) as [|Hne]; [assumption|]. exfalso.
    assert (k * c <= (t - 1) * c) by (apply Nat.mul_le_mono_r; lia). lia.
Qed.

Lemma enough_rows : (t - 1) * (t - 1) < m -> (t - 1) * c < m.
Proof.
  intros H. destruct (ceil_spec m t Ht Hm) as (_ & H2 & H3). fold (chunk_size m t) in *.
  assert (H5 : (t - 1) * ((c - 1) * t) <= (t - 1) * (m - 1)) by (apply Nat.mul_le_mono_l; lia).
  destruct t as [|u]; [lia|]. replace (S u - 1) with u in * by lia.
  destruct (chunk_size m (S u)) as [|d]; [lia|]. replace (S d - 1) with d in * by lia.
  destruct m as [|x]; [lia|]. replace (S x - 1) with x in * by lia.
  destruct (Nat.lt_ge_cases (u * S d) (S x)) as [|Hge]; [assumption|]. exfalso.
  (* u*d*(u+1) <= u*x, u*d >= x+1-u, u*u <= x *)
  assert (u * S d = u * d + u) by lia.
  assert (E : u * (d * S u) = (u * d) * S u) by lia. rewrite E in H5.
  assert ((S x - u) * S u <= u * d * S u) by (apply Nat.mul_le_mono_r; lia).
  assert (u <= x) by nia. nia.
Qed.
End C.
