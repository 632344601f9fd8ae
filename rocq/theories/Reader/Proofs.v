From Coq Require Import List Arith ZArith Lia Bool.
From Verif.Base Require Import Res Params Assoc ListX.
From Verif.Topology Require Import Model Spec Proofs.
From Verif.Reader Require Import Model Spec.
Import ListNotations.

Section R.
Context {addr cell : Type}.
Implicit Types c : cluster_nodes addr.
Notation row := (list cell).

Lemma foldM_prefix : forall A S (f : S -> A -> res S) (Inv : nat -> S -> Prop) (rows : list A) s0,
  Inv 0 s0 ->
  (forall m s r, nth_error rows m = Some r -> Inv m s -> exists s', f s r = Ok s' /\ Inv (Datatypes.S m) s') ->
  exists s, foldM f rows s0 = Ok s /\ Inv (length rows) s.
Proof.
  intros A S f Inv rows s0 H0 Hstep.
  assert (G : forall t m s, skipn m rows = t -> Inv m s -> m <= length rows ->
            exists s', foldM f t s = Ok s' /\ Inv (length rows) s').
  { induction t as [|r t IH]; intros m s E HI Hm.
    - exists s. split; [reflexivity|].
      assert (length (skipn m rows) = 0) as L by (now rewrite E). rewrite skipn_length in L.
      replace (length rows) with m by lia. exact HI.
    - assert (Hn : nth_error rows m = Some r).
      { replace m with (m + 0) by lia. rewrite <- nth_error_skipn, E. reflexivity. }
      destruct (Hstep m s r Hn HI) as (s' & Ef & HI'). cbn [foldM]. rewrite Ef. cbn [bind].
      apply (IH (Datatypes.S m)); [|exact HI'|].
      + replace (Datatypes.S m) with (m + 1) by lia. rewrite Nat.add_comm. rewrite <- skipn_skipn, E. reflexivity.
      + assert (m < length rows) by (apply nth_error_Some; congruence). lia. }
  apply (G rows 0 s0 eq_refl H0). lia.
Qed.

Definition sent_upto c (w ov k : nat) (rows : list row) : list (any_addr addr * list row) :=
  map (fun j => (address_of c j, slice (j * w) (S j * w + ov) rows)) (seq 0 k).

Definition rinv c (w ov : nat) (rows : list row) (i m : nat) (s : rstate addr cell) : Prop :=
  position s = i
  /\ i * w <= m
  /\ buffer s ++ overlap_buffer s = slice (i * w) m rows
  /\ length (buffer s) = Nat.min w (m - i * w)
  /\ m - i * w <= w + ov
  /\ sent s = sent_upto c w ov i rows.

Lemma rinv_lengths : forall c w ov rows i m s, m <= length rows -> rinv c w ov rows i m s ->
  length (overlap_buffer s) = (m - i * w) - Nat.min w (m - i * w).
Proof.
  intros c w ov rows i m s Hm (Hp & Hle & Hbuf & Hlen & Hw & Hs).
  assert (L : length (buffer s ++ overlap_buffer s) = length (slice (i * w) m rows)) by (now rewrite Hbuf).
  rewrite app_length, slice_length, Hlen in L. rewrite (Nat.min_l (m - i * w)) in L by lia. lia.
Qed.

Lemma send_next_ok : forall c (d : list row) s, position s < len_incl_own c ->
  send_next c d s = Ok {| buffer := buffer s; overlap_buffer := overlap_buffer s; position := position s + 1;
                          sent := sent s ++ [(address_of c (position s), d)] |}.
Proof.
  intros c d s H. unfold send_next, iter_next.
  destruct (Nat.leb_spec (len_incl_own c) (position s)); [lia|]. reflexivity.
Qed.

Lemma send_next_panic : forall c (d : list row) s, len_incl_own c <= position s -> send_next c d s = Panic UnwrapNone.
Proof.
  intros c d s H. unfold send_next, iter_next.
  destruct (Nat.leb_spec (len_incl_own c) (position s)); [reflexivity|lia].
Qed.

(** One step while the iterator has not been exhausted. *)
Lemma rinv_step : forall c width w lo ov rows i m s r,
  2 <= len_incl_own c -> ov < w -> length r = width ->
  nth_error rows m = Some r -> i < len_incl_own c -> rinv c w ov rows i m s ->
  exists s', read_step c width w lo ov s r = Ok s'
    /\ ((m - i * w < w + ov /\ rinv c w ov rows i (S m) s')
        \/ (m - i * w = w + ov /\ rinv c w ov rows (S i) (S m) s')).
Proof.
  intros c width w lo ov rows i m s r HN Hov Hr Hn Hi HI.
  assert (Hm : m < length rows) by (apply nth_error_Some; congruence).
  pose proof (rinv_lengths _ _ _ _ _ _ _ (Nat.lt_le_incl _ _ Hm) HI) as Lo.
  destruct HI as (Hp & Hle & Hbuf & Hlen & Hw & Hs).
  unfold read_step. rewrite Hr, Nat.eqb_refl. cbn [negb].
  destruct (Nat.ltb_spec (length (buffer s)) w) as [Hb|Hb].
  - (* fill the buffer *)
    eexists; split; [reflexivity|]. left. split; [lia|].
    assert (overlap_buffer s = []) as Ho by (apply length_zero_iff_nil; lia).
    unfold rinv. cbn [position buffer overlap_buffer sent]. repeat split; auto; try lia.
    + rewrite Ho in *. rewrite app_nil_r in *. rewrite Hbuf. symmetry. apply slice_snoc; [lia|exact Hn].
    + rewrite app_length. cbn [length]. lia.
  - destruct (Nat.ltb_spec 1 (len_incl_own c)) as [_|]; [|lia]. cbn [andb].
    assert (Hlp : last_position c (position s) = false).
    { unfold last_position. apply Nat.leb_gt. lia. }
    rewrite Hlp. cbn [negb]. rewrite andb_true_r, andb_false_r, orb_false_r.
    destruct (Nat.ltb_spec (length (overlap_buffer s)) ov) as [Ho|Ho].
    + eexists; split; [reflexivity|]. left. split; [lia|].
      unfold rinv. cbn [position buffer overlap_buffer sent]. repeat split; auto; try lia.
      rewrite app_assoc, Hbuf. symmetry. apply slice_snoc; [lia|exact Hn].
    + assert (Em : m - i * w = w + ov) by lia.
      rewrite send_next_ok by lia. cbn [bind sent position]. eexists; split; [reflexivity|]. right. split; [exact Em|].
      unfold rinv. cbn [position buffer overlap_buffer sent]. rewrite app_nil_r.
      assert (Eo : overlap_buffer s = slice (S i * w) m rows).
      { rewrite <- (slice_app _ rows (i * w) (S i * w) m) in Hbuf by lia.
        apply (f_equal (skipn w)) in Hbuf. rewrite !skipn_app in Hbuf.
        rewrite (skipn_all2 (buffer s)) in Hbuf by lia.
        rewrite (skipn_all2 (slice (i * w) (S i * w) rows)) in Hbuf by (rewrite slice_length; lia).
        rewrite slice_length in Hbuf. cbn [app] in Hbuf.
        replace (w - length (buffer s)) with 0 in Hbuf by lia.
        replace (w - Nat.min (S i * w - i * w) (length rows - i * w)) with 0 in Hbuf by lia.
        exact Hbuf. }
      repeat split; try lia.
      * rewrite Eo. symmetry. apply slice_snoc; [lia|exact Hn].
      * rewrite app_length, Lo. cbn [length]. lia.
      * rewrite Hs. unfold sent_upto. rewrite seq_S, map_app. cbn [map]. f_equal. rewrite Hp, Hbuf.
        replace m with (S i * w + ov) by lia. reflexivity.
Qed.

Lemma Forall_nth : forall (rows : list row) width m r, Forall (fun r => length r = width) rows ->
  nth_error rows m = Some r -> length r = width.
Proof. intros rows width m r HF Hn. rewrite Forall_forall in HF. apply HF. eapply nth_error_In; eauto. Qed.

(** The case of several receivers. *)
Lemma read_fold : forall c width w lo ov rows,
  2 <= len_incl_own c -> ov < w -> Forall (fun r => length r = width) rows ->
  length rows = len_incl_own c * w + lo -> lo <= ov ->
  exists s, foldM (read_step c width w lo ov) rows
              {| buffer := []; overlap_buffer := []; position := 0; sent := [] |} = Ok s
            /\ rinv c w ov rows (len_incl_own c - 1) (length rows) s.
Proof.
  intros c width w lo ov rows HN Hov HF Hlen Hlo.
  destruct (foldM_prefix _ _ (read_step c width w lo ov)
    (fun m s => exists i, i < len_incl_own c /\ rinv c w ov rows i m s) rows
    {| buffer := []; overlap_buffer := []; position := 0; sent := [] |}) as (s & E & i & Hi & HI).
  - exists 0. split; [lia|]. unfold rinv, sent_upto. cbn [position buffer overlap_buffer sent app length].
    repeat split; auto; try lia.
  - intros m s r Hn (i & Hi & HI).
    assert (Hm : m < length rows) by (apply nth_error_Some; congruence).
    destruct (rinv_step c width w lo ov rows i m s r HN Hov (Forall_nth _ _ _ _ HF Hn) Hn Hi HI)
      as (s' & E' & [[Hc HI']|[Hc HI']]); exists s'; (split; [exact E'|]).
    + now exists i.
    + exists (S i). split; [|exact HI']. destruct HI as (_ & Hle & _).
      assert (S i * w < len_incl_own c * w) by lia. apply Nat.mul_lt_mono_pos_r in H; lia.
  - exists s. split; [exact E|].
    assert (i = len_incl_own c - 1) as <-; [|exact HI].
    destruct HI as (_ & Hle & _ & _ & Hw & _).
    destruct (Nat.lt_ge_cases i (len_incl_own c - 1)) as [Hlt|]; [|lia]. exfalso.
    assert (len_incl_own c * w >= (i + 2) * w) by (apply Nat.mul_le_mono_r; lia). lia.
Qed.

Lemma combine_map_addr : forall c (g : nat -> list row) n a,
  combine (map (address_of c) (seq a n)) (map g (seq a n)) = map (fun j => (address_of c j, g j)) (seq a n).
Proof. intros c g n; induction n as [|n IH]; intros a; cbn; [reflexivity|]. now rewrite IH. Qed.

Lemma read_csv_ok : forall p c width (rows : list row),
  1 <= pattern_length p -> Forall (fun r => length r = width) rows ->
  (len_incl_own c = 1 \/ (pattern_length p <= length rows / len_incl_own c
                          /\ length rows mod len_incl_own c <= pattern_length p - 1)) ->
  read_csv p c (S (length rows)) width rows
  = Ok (combine (iter_take c 0 (len_incl_own c))
                (map (fun i => partition_of (len_incl_own c) (pattern_length p - 1) i rows) (seq 0 (len_incl_own c)))).
Proof.
  intros p c width rows HP HF Hc.
  assert (HN : 1 <= len_incl_own c) by (unfold len_incl_own; lia).
  rewrite iter_take_spec, Nat.sub_0_r, Nat.min_id.
  unfold read_csv. rewrite !usub_ok by lia. cbn [bind]. replace (S (length rows) - 1) with (length rows) by lia.
  rewrite udiv_ok by lia. cbn [bind].
  pose proof (Nat.div_mod (length rows) (len_incl_own c) ltac:(lia)) as Hdm.
  rewrite usub_ok by (rewrite Nat.mul_comm; lia). cbn [bind].
  replace (length rows - length rows / len_incl_own c * len_incl_own c) with (length rows mod len_incl_own c)
    by (rewrite (Nat.mul_comm (_ / _)); lia).
  set (w := length rows / len_incl_own c) in *. set (lo := length rows mod len_incl_own c) in *.
  set (ov := pattern_length p - 1) in *.
  destruct (Nat.eq_dec (len_incl_own c) 1) as [E1|E1].
  - (* one receiver *)
    assert (Ew : w = length rows) by (unfold w; rewrite E1; apply Nat.div_1_r).
    destruct (foldM_prefix _ _ (read_step c width w lo ov)
      (fun m s => buffer s = slice 0 m rows /\ overlap_buffer s = [] /\ position s = 0 /\ sent s = []) rows
      {| buffer := []; overlap_buffer := []; position := 0; sent := [] |}) as (s & E & Hb & Ho & Hp & Hs).
    + cbn. auto.
    + intros m s r Hn (Hb & Ho & Hp & Hs).
      assert (Hm : m < length rows) by (apply nth_error_Some; congruence).
      unfold read_step. rewrite (Forall_nth _ _ _ _ HF Hn), Nat.eqb_refl. cbn [negb].
      rewrite Hb, slice_length.
      destruct (Nat.ltb_spec (Nat.min (m - 0) (length rows - 0)) w); [|lia].
      eexists; split; [reflexivity|]. cbn [buffer overlap_buffer position sent]. repeat split; auto. symmetry. apply slice_snoc; [lia|exact Hn].
    + rewrite E. cbn [bind]. rewrite send_next_ok by lia. cbn [bind sent].
      rewrite Hs, Hb, Ho, Hp, app_nil_r, E1. cbn [app seq map combine]. unfold partition_of. cbn [Nat.eqb].
      reflexivity.
  - destruct Hc as [Hc|[Hc1 Hc2]]; [lia|].
    destruct (read_fold c width w lo ov rows) as (s & E & HI); try lia; [exact HF|].
    rewrite E. cbn [bind]. destruct HI as (Hp & Hle & Hbuf & Hlen & Hw & Hs).
    rewrite send_next_ok by lia. cbn [bind sent]. f_equal.
    rewrite Hs, Hbuf, Hp, combine_map_addr. unfold sent_upto.
    replace (len_incl_own c) with (S (len_incl_own c - 1)) at 4 by lia.
    rewrite seq_S, map_app. cbn [map plus]. f_equal.
    + apply map_ext_in. intros j Hj. apply in_seq in Hj. unfold partition_of. fold w.
      destruct (Nat.eqb_spec (S j) (len_incl_own c)); [lia|reflexivity].
    + unfold partition_of. fold w. destruct (Nat.eqb_spec (S (len_incl_own c - 1)) (len_incl_own c)); [reflexivity|lia].
Qed.

(** Once the iterator is exhausted the reader can only abort. *)
Lemma exhausted_step : forall c width w lo ov (s : rstate addr cell) r s', len_incl_own c <= position s ->
  read_step c width w lo ov s r = Ok s' -> len_incl_own c <= position s'.
Proof.
  intros c width w lo ov s r s' Hp H. unfold read_step in H.
  destruct (negb (length r =? width)); [discriminate|].
  destruct (length (buffer s) <? w); [injection H as <-; exact Hp|].
  match type of H with (if ?b then _ else _) = _ => destruct b end; [injection H as <-; exact Hp|].
  rewrite send_next_panic in H by exact Hp. discriminate.
Qed.

Lemma exhausted_panics : forall c width w lo ov (rows : list row) s, len_incl_own c <= position s ->
  Forall (fun r => length r = width) rows ->
  (let! s' := foldM (read_step c width w lo ov) rows s in
   let! s'' := send_next c (buffer s' ++ overlap_buffer s') s' in Ok (sent s'')) = Panic UnwrapNone.
Proof.
  intros c width w lo ov rows; induction rows as [|r t IH]; intros s Hp HF.
  - cbn [foldM bind]. rewrite send_next_panic by exact Hp. reflexivity.
  - inversion HF as [|? ? Hr HF']; subst. cbn [foldM].
    destruct (read_step c (length r) w lo ov s r) as [s'|q] eqn:E.
    + cbn [bind]. apply IH; [eapply exhausted_step; eauto|exact HF'].
    + cbn [bind]. unfold read_step in E. rewrite Nat.eqb_refl in E. cbn [negb] in E.
      destruct (length (buffer s) <? w); [discriminate|].
      match type of E with (if ?b then _ else _) = _ => destruct b end; [discriminate|].
      rewrite send_next_panic in E by exact Hp. cbn in E. congruence.
Qed.

Lemma read_csv_remainder_panics : forall p c width (rows : list row),
  1 <= pattern_length p -> Forall (fun r => length r = width) rows -> 2 <= len_incl_own c ->
  pattern_length p <= length rows / len_incl_own c ->
  pattern_length p - 1 < length rows mod len_incl_own c ->
  read_csv p c (S (length rows)) width rows = Panic UnwrapNone.
Proof.
  intros p c width rows HP HF HN Hpl Hrem.
  unfold read_csv. rewrite !usub_ok by lia. cbn [bind]. replace (S (length rows) - 1) with (length rows) by lia.
  rewrite udiv_ok by lia. cbn [bind].
  pose proof (Nat.div_mod (length rows) (len_incl_own c) ltac:(lia)) as Hdm.
  rewrite usub_ok by (rewrite Nat.mul_comm; lia). cbn [bind].
  replace (length rows - length rows / len_incl_own c * len_incl_own c) with (length rows mod len_incl_own c)
    by (rewrite (Nat.mul_comm (_ / _)); lia).
  set (w := length rows / len_incl_own c) in *. set (lo := length rows mod len_incl_own c) in *.
  set (ov := pattern_length p - 1) in *. set (N := len_incl_own c) in *.
  (* the rows up to and including number N*w+ov exhaust the iterator *)
  assert (HM : N * w + ov < length rows) by lia.
  set (M := N * w + ov) in *.
  rewrite <- (firstn_skipn (S M) rows) at 1. rewrite foldM_app.
  assert (L1 : length (firstn (S M) rows) = S M) by (rewrite firstn_length; lia).
  destruct (foldM_prefix _ _ (read_step c width w lo ov)
    (fun m s => (m = S M /\ position s = N) \/ (m <= M /\ exists i, i < N /\ rinv c w ov rows i m s))
    (firstn (S M) rows)
    {| buffer := []; overlap_buffer := []; position := 0; sent := [] |}) as (s & E & HI).
  - right. split; [lia|]. exists 0. split; [lia|]. unfold rinv, sent_upto. cbn [position buffer overlap_buffer sent app length].
    repeat split; auto; try lia.
  - intros m s r Hn Hor. rewrite nth_error_firstn in Hn. destruct (Nat.ltb_spec m (S M)) as [HmM|]; [|discriminate].
    destruct Hor as [[Hm _]|[_ (i & Hi & HI)]]; [lia|].
    destruct (rinv_step c width w lo ov rows i m s r HN ltac:(lia) (Forall_nth _ _ _ _ HF Hn) Hn Hi HI)
      as (s' & E' & [[Hc HI']|[Hc HI']]); exists s'; (split; [exact E'|]).
    + right. destruct (Nat.eq_dec m M) as [->|]; [|split; [lia|now exists i]].
      exfalso. destruct HI as (_ & Hle & _). 
      assert (i * w <= (N - 1) * w) by (apply Nat.mul_le_mono_r; lia).
      assert ((N - 1) * w + w = N * w) by (destruct N; [lia|cbn; rewrite Nat.sub_0_r; lia]). lia.
    + destruct (Nat.eq_dec (S i) N) as [Ei|Ei].
      * left. destruct HI' as (Hp' & _). split; [|lia]. destruct HI as (_ & Hle & _).
        assert (i * w + w = N * w) by (rewrite <- Ei; cbn; lia). lia.
      * right. split; [|exists (S i); split; [lia|exact HI']].
        destruct HI as (_ & Hle & _). assert (S i * w <= (N - 1) * w) by (apply Nat.mul_le_mono_r; lia).
        assert ((N - 1) * w + w = N * w) by (destruct N; [lia|cbn; rewrite Nat.sub_0_r; lia]). cbn in H. lia.
  - rewrite E. cbn [bind]. rewrite L1 in HI. destruct HI as [[_ Hp]|[Hbad _]]; [|lia].
    apply exhausted_panics; [fold N; lia|].
    rewrite Forall_forall in HF |- *. intros x Hx. apply HF.
    rewrite <- (firstn_skipn (S M) rows). apply in_app_iff. now right.
Qed.
End R.

(** ** Columns *)
Section C.
Context {cell num : Type} (parse : cell -> option num).

Lemma fromto_loop_spec : forall A (l : list A) index from to, (0 <= to)%Z ->
  fromto_loop index from to l = firstn (Z.to_nat to - (index + from)) l.
Proof.
  intros A l; induction l as [|x t IH]; intros index from to Hto; cbn [fromto_loop].
  - now rewrite firstn_nil.
  - destruct (Z.ltb_spec (Z.of_nat (index + from)) to).
    + rewrite IH by exact Hto. replace (Z.to_nat to - (index + from)) with (S (Z.to_nat to - (S index + from))) by lia.
      reflexivity.
    + replace (Z.to_nat to - (index + from)) with 0 by lia. reflexivity.
Qed.

Lemma fromto_spec : forall A (l : list A) from to, (0 <= to)%Z ->
  fromto from to l = slice from (Z.to_nat to) l.
Proof. intros A l from to Hto. unfold fromto. rewrite fromto_loop_spec by exact Hto. unfold slice. reflexivity. Qed.

Lemma mapM_ok : forall A B (f : A -> res B) (g : A -> B) l, (forall x, In x l -> f x = Ok (g x)) ->
  mapM f l = Ok (map g l).
Proof.
  intros A B f g l; induction l as [|a t IH]; intros H; [reflexivity|].
  cbn [mapM]. rewrite H by (now left). cbn [bind]. rewrite IH by (intros x Hx; apply H; now right). reflexivity.
Qed.

Lemma mapM_length : forall A B (f : A -> res B) l l', mapM f l = Ok l' -> length l' = length l.
Proof.
  intros A B f l; induction l as [|a t IH]; intros l' H; cbn in H; [injection H as <-; reflexivity|].
  destruct (f a) as [b|]; [|discriminate]. cbn in H. destruct (mapM f t) as [bs|] eqn:E; [|discriminate].
  cbn in H. injection H as <-. cbn. f_equal. now apply IH.
Qed.

Lemma concat_rect_length : forall A (rows : list (list A)) k, Forall (fun r => length r = k) rows ->
  length (concat rows) = length rows * k.
Proof. intros A rows k H. induction H; cbn; [reflexivity|]. rewrite app_length. lia. Qed.

Lemma concat_rect_slice : forall A (rows : list (list A)) k, Forall (fun r => length r = k) rows ->
  map (fun i => slice (i * k) (S i * k) (concat rows)) (seq 0 (length rows)) = rows.
Proof.
  intros A rows k H. induction H as [|r t Hr HF IH]; [reflexivity|].
  cbn [concat length seq map]. f_equal.
  - cbn [Nat.mul]. unfold slice. cbn [skipn]. rewrite Nat.sub_0_r, Nat.add_0_r, <- Hr.
    rewrite firstn_app, Nat.sub_diag, firstn_all. cbn. apply app_nil_r.
  - rewrite <- seq_shift, map_map. rewrite <- IH at 2. apply map_ext. intros i.
    unfold slice. replace (S (S i) * k - S i * k) with (S i * k - i * k) by lia. f_equal.
    replace (S i * k) with (k + i * k) by lia. rewrite Nat.add_comm, <- skipn_skipn. f_equal.
    rewrite skipn_app, <- Hr, Nat.sub_diag, skipn_all. reflexivity.
Qed.

Lemma until_column_ok : forall p (data : list (list cell)) w, data <> [] -> Forall (fun r => length r = w) data ->
  (0 <= column_limit w (column_end p) <= Z.of_nat w)%Z \/ (0 <= column_end p)%Z ->
  (Z.of_nat w < 2 ^ 64)%Z ->
  until_column p data = Ok (column_limit w (column_end p)).
Proof.
  intros p data w Hne HF Hl Hw. unfold until_column, column_limit in *.
  destruct data as [|r t]; [congruence|]. inversion HF as [|? ? Hr HF']; subst.
  destruct (column_end p) as [|q|q]; cbn [Z.eqb Z.ltb Z.compare] in *; try reflexivity.
  f_equal. apply Z.mod_small. lia.
Qed.

Lemma load_ok : forall p data w (val : cell -> num), data <> [] -> Forall (fun r => length r = w) data ->
  (Z.of_nat w < 2 ^ 64)%Z ->
  (forall r b, In r data -> In b r -> parse b = Some (val b)) ->
  (Z.of_nat (column_start p) <= column_limit w (column_end p) <= Z.of_nat w)%Z ->
  load_partition parse p data
  = Ok (map (fun r => map val (slice (column_start p) (Z.to_nat (column_limit w (column_end p))) r)) data).
Proof.
  intros p data w val Hne HF Hw Hparse Hlim. unfold load_partition.
  rewrite (until_column_ok p data w Hne HF) by (auto; left; lia). cbn [bind].
  destruct (Z.ltb_spec (column_limit w (column_end p)) (Z.of_nat (column_start p))); [lia|]. cbn [bind].
  set (u := column_limit w (column_end p)) in *.
  rewrite (mapM_ok _ _ _ (fun r => map val (slice (column_start p) (Z.to_nat u) r))).
  2:{ intros r Hr. rewrite fromto_spec by lia. apply mapM_ok. intros b Hb. rewrite (Hparse r b); [reflexivity|exact Hr|].
      unfold slice in Hb. apply In_nth_error in Hb. destruct Hb as [i Hi]. rewrite nth_error_firstn in Hi.
      destruct (_ <? _); [|discriminate]. rewrite nth_error_skipn in Hi. eapply nth_error_In; eauto. }
  cbn [bind]. set (rows := map _ data).
  assert (HR : Forall (fun r => length r = Z.to_nat (u - Z.of_nat (column_start p))) rows).
  { unfold rows. rewrite Forall_forall. intros x Hx. apply in_map_iff in Hx. destruct Hx as (r & <- & Hr).
    rewrite map_length, slice_length. rewrite Forall_forall in HF. rewrite (HF r Hr). lia. }
  unfold into_shape2. rewrite (concat_rect_length _ _ _ HR).
  assert (L : length rows = length data) by apply map_length. rewrite L.
  rewrite Nat2Z.inj_mul, Z2Nat.id by lia. rewrite Z.eqb_refl. f_equal.
  rewrite <- L. now apply concat_rect_slice.
Qed.

(** Outside of the range loading aborts (if there is at least one row). *)
Lemma load_bad_range : forall p data w, data <> [] -> Forall (fun r => length r = w) data ->
  (- 2 ^ 63 <= column_end p < 2 ^ 63)%Z -> (Z.of_nat (column_start p) < 2 ^ 63)%Z ->
  (Z.of_nat w < 2 ^ 63)%Z ->
  (column_limit w (column_end p) < Z.of_nat (column_start p)
   \/ (Z.of_nat w < column_limit w (column_end p) /\ Z.of_nat (column_start p) < column_limit w (column_end p)))%Z ->
  exists q, load_partition parse p data = Panic q.
Proof.
  intros p data w Hne HF He Hs Hw2 Hbad. unfold load_partition.
  assert (Hu : exists u, until_column p data = Ok u /\
     (u < Z.of_nat (column_start p) \/ (0 <= u /\ Z.of_nat w < u /\ Z.of_nat (column_start p) < u))%Z).
  { unfold until_column, column_limit in *. destruct data as [|r t]; [congruence|].
    inversion HF as [|? ? Hr HF']; subst.
    destruct (column_end p) as [|q|q]; cbn [Z.eqb Z.ltb Z.compare] in *; eexists; (split; [reflexivity|]); try lia. }
  destruct Hu as (u & -> & Hcase). cbn [bind].
  destruct (Z.ltb_spec u (Z.of_nat (column_start p))) as [|Hge]; [cbn [bind]; eauto|]. cbn [bind].
  destruct Hcase as [|(Hu0 & Huw & Hus)]; [lia|].
  match goal with |- context [mapM ?f data] => destruct (mapM f data) as [flat|q] eqn:E end; cbn [bind]; [|eauto].
  unfold into_shape2.
  assert (HR : Forall (fun r => length r = w - column_start p) flat).
  { clear -E HF Hu0 Huw. revert flat E. induction HF as [|r t Hr HF IH]; intros flat E; cbn [mapM] in E.
    - injection E as <-. constructor.
    - match type of E with bind ?x _ = _ => destruct x as [y|] eqn:E1 end; [|discriminate]. cbn [bind] in E.
      match type of E with bind ?x _ = _ => destruct x as [ys|] eqn:E2 end; [|discriminate]. cbn [bind] in E.
      injection E as <-. constructor; [|now apply IH].
      apply mapM_length in E1. rewrite E1, fromto_spec, slice_length by exact Hu0. lia. }
  rewrite (concat_rect_length _ _ _ HR).
  apply mapM_length in E. rewrite E.
  destruct (Z.eqb_spec (Z.of_nat (length data * (w - column_start p)))
              (Z.of_nat (length data) * (u - Z.of_nat (column_start p)))) as [Heq|]; [|eauto].
  exfalso. rewrite Nat2Z.inj_mul in Heq. apply Z.mul_reg_l in Heq; [lia|]. destruct data; [congruence|cbn; lia].
Qed.

Lemma load_empty : forall p, (column_end p <= 0)%Z -> load_partition parse p [] = Panic OutOfBounds.
Proof. intros p H. unfold load_partition, until_column. destruct (column_end p); cbn; [reflexivity|lia|reflexivity]. Qed.
End C.
