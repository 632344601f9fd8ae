(** What the reader sends for every number of rows, every number of receivers and every pattern length. *)
From Coq Require Import List Arith ZArith Lia Bool.
From Verif.Base Require Import Res Params Assoc ListX.
From Verif.Topology Require Import Model Spec Proofs.
From Verif.Reader Require Import Model Spec Proofs.
Import ListNotations.

Section E.
Context {addr cell : Type}.
Implicit Types c : cluster_nodes addr.
Notation row := (list cell).

Definition cap (w o i : nat) : nat := match i with O => w | S _ => Nat.max w (S o) end.

Lemma part_start_S : forall w o i, part_start w o (S i) = part_start w o i + cap w o i.
Proof. intros w o [|i]; cbn [part_start cap]; lia. Qed.

Lemma part_start_mono : forall w o i j, i <= j -> part_start w o i <= part_start w o j.
Proof.
  intros w o i j H. induction H as [|j H IH]; [lia|]. rewrite part_start_S. lia.
Qed.

Definition sent_parts c (w o k : nat) (rows : list row) : list (any_addr addr * list row) :=
  map (fun j => (address_of c j, slice (part_start w o j) (part_start w o (S j) + o) rows)) (seq 0 k).

Definition einv c (w o : nat) (rows : list row) (i m : nat) (s : rstate addr cell) : Prop :=
  position s = i
  /\ (i = 0 \/ part_start w o i + o < m)
  /\ buffer s ++ overlap_buffer s = slice (part_start w o i) m rows
  /\ length (buffer s) = Nat.min (cap w o i) (m - part_start w o i)
  /\ m <= part_start w o (S i) + o
  /\ sent s = sent_parts c w o i rows.

Lemma einv_lengths : forall c w o rows i m s, m <= length rows -> einv c w o rows i m s ->
  part_start w o i <= m
  /\ length (overlap_buffer s) = (m - part_start w o i) - Nat.min (cap w o i) (m - part_start w o i).
Proof.
  intros c w o rows i m s Hm (Hp & Hle & Hbuf & Hlen & Hw & Hs).
  assert (Hs0 : part_start w o i <= m) by (destruct Hle as [->|]; cbn [part_start]; lia). split; [exact Hs0|].
  assert (L : length (buffer s ++ overlap_buffer s) = length (slice (part_start w o i) m rows)) by (now rewrite Hbuf).
  rewrite app_length, slice_length, Hlen in L. rewrite (Nat.min_l (m - part_start w o i)) in L by lia. lia.
Qed.

(** One record read while a receiver is left. *)
Lemma einv_step : forall c width w lo o rows i m s r,
  2 <= len_incl_own c -> length r = width ->
  nth_error rows m = Some r -> i < len_incl_own c -> einv c w o rows i m s ->
  exists s', read_step c width w lo o s r = Ok s'
    /\ ((m < part_start w o (S i) + o /\ einv c w o rows i (S m) s')
        \/ (m = part_start w o (S i) + o /\ einv c w o rows (S i) (S m) s')).
Proof.
  intros c width w lo o rows i m s r HN Hr Hn Hi HI.
  assert (Hm : m < length rows) by (apply nth_error_Some; congruence).
  destruct (einv_lengths _ _ _ _ _ _ _ (Nat.lt_le_incl _ _ Hm) HI) as [Hst Lo].
  destruct HI as (Hp & Hle & Hbuf & Hlen & Hw & Hs).
  pose proof (part_start_S w o i) as ES.
  unfold read_step. rewrite Hr, Nat.eqb_refl. cbn [negb].
  destruct (Nat.ltb_spec (length (buffer s)) w) as [Hb|Hb].
  - assert (Hroom : m - part_start w o i < cap w o i).
    { destruct i as [|i]; cbn [cap] in *; [lia|]. destruct Hle as [|Hle]; [discriminate|]. lia. }
    eexists; split; [reflexivity|]. left. split; [lia|].
    assert (overlap_buffer s = []) as Ho by (apply length_zero_iff_nil; lia).
    unfold einv. cbn [position buffer overlap_buffer sent]. repeat split; auto; try lia.
    + rewrite Ho in *. rewrite app_nil_r in *. rewrite Hbuf. symmetry. apply slice_snoc; [lia|exact Hn].
    + rewrite app_length. cbn [length]. lia.
  - destruct (Nat.ltb_spec 1 (len_incl_own c)) as [_|]; [|lia]. cbn [andb].
    assert (Hlp : last_position c (position s) = false).
    { unfold last_position. apply Nat.leb_gt. lia. }
    assert (Hfull : cap w o i <= m - part_start w o i).
    { destruct i as [|i]; cbn [cap] in *; [lia|]. destruct Hle as [|Hle]; [discriminate|]. lia. }
    rewrite Hlp. cbn [negb]. rewrite andb_true_r, andb_false_r, orb_false_r.
    destruct (Nat.ltb_spec (length (overlap_buffer s)) o) as [Ho|Ho].
    + eexists; split; [reflexivity|]. left. split; [lia|].
      unfold einv. cbn [position buffer overlap_buffer sent]. repeat split; auto; try lia.
      rewrite app_assoc, Hbuf. symmetry. apply slice_snoc; [lia|exact Hn].
    + assert (Em : m = part_start w o (S i) + o) by lia.
      rewrite send_next_ok by lia. cbn [bind sent position]. eexists; split; [reflexivity|]. right. split; [exact Em|].
      unfold einv. cbn [position buffer overlap_buffer sent]. rewrite app_nil_r.
      assert (Eo : overlap_buffer s = slice (part_start w o (S i)) m rows).
      { rewrite <- (slice_app _ rows (part_start w o i) (part_start w o (S i)) m) in Hbuf by lia.
        apply (f_equal (skipn (cap w o i))) in Hbuf. rewrite !skipn_app in Hbuf.
        rewrite (skipn_all2 (buffer s)) in Hbuf by lia.
        rewrite (skipn_all2 (slice (part_start w o i) (part_start w o (S i)) rows)) in Hbuf by (rewrite slice_length; lia).
        rewrite slice_length in Hbuf. cbn [app] in Hbuf.
        replace (cap w o i - length (buffer s)) with 0 in Hbuf by lia.
        replace (cap w o i - Nat.min (part_start w o (S i) - part_start w o i) (length rows - part_start w o i))
          with 0 in Hbuf by lia.
        exact Hbuf. }
      pose proof (part_start_S w o (S i)) as ES'.
      assert (Hcap : S o <= cap w o (S i)) by (cbn [cap]; lia).
      repeat split; try lia.
      * rewrite Eo. symmetry. apply slice_snoc; [lia|exact Hn].
      * rewrite app_length, Lo. cbn [length]. lia.
      * rewrite Hs. unfold sent_parts. rewrite (seq_S i), map_app. cbn [map plus]. f_equal. rewrite Hp, Hbuf.
        rewrite <- Em. reflexivity.
Qed.

Lemma einv_start : forall c w o (rows : list row),
  einv c w o rows 0 0 {| buffer := []; overlap_buffer := []; position := 0; sent := [] |}.
Proof.
  intros c w o rows. unfold einv, sent_parts. cbn [position buffer overlap_buffer sent app length part_start seq map].
  repeat split; auto; lia.
Qed.

(** The receiver that is served at the end. *)
Lemma served_at : forall N w o n i, i < N -> (i = 0 \/ part_start w o i + o < n) -> n <= part_start w o (S i) + o ->
  served N w o n = S i.
Proof.
  intros N w o n i Hi Hle Hge. unfold served. f_equal.
  replace (N - 1) with (i + (N - 1 - i)) by lia. rewrite seq_app, filter_app, app_length.
  assert (G1 : forall a k, a + k <= S i -> 1 <= a -> length (filter (fun j => part_start w o j + o <? n) (seq a k)) = k).
  { intros a k; revert a; induction k as [|k IH]; intros a H1 H2; [reflexivity|]. cbn [seq filter].
    destruct (Nat.ltb_spec (part_start w o a + o) n) as [_|Hbad].
    - cbn [length]. f_equal. apply IH; lia.
    - exfalso. destruct Hle as [->|Hle]; [lia|]. pose proof (part_start_mono w o a i ltac:(lia)). lia. }
  assert (G2 : forall k a, S i <= a -> filter (fun j => part_start w o j + o <? n) (seq a k) = []).
  { induction k as [|k IH]; intros a H1; [reflexivity|]. cbn [seq filter].
    destruct (Nat.ltb_spec (part_start w o a + o) n) as [Hbad|_]; [|apply IH; lia].
    exfalso. pose proof (part_start_mono w o (S i) a H1). lia. }
  rewrite (G1 1 i) by lia. rewrite (G2 (N - 1 - i) (1 + i)) by lia. cbn [length]. lia.
Qed.

Lemma fold_exact : forall c width w lo o rows,
  2 <= len_incl_own c -> Forall (fun r => length r = width) rows ->
  length rows <= part_start w o (len_incl_own c) + o ->
  exists s i, foldM (read_step c width w lo o) rows
              {| buffer := []; overlap_buffer := []; position := 0; sent := [] |} = Ok s
            /\ i < len_incl_own c /\ einv c w o rows i (length rows) s.
Proof.
  intros c width w lo o rows HN HF Hlen.
  destruct (foldM_prefix _ _ (read_step c width w lo o)
    (fun m s => exists i, i < len_incl_own c /\ einv c w o rows i m s) rows
    {| buffer := []; overlap_buffer := []; position := 0; sent := [] |}) as (s & E & i & Hi & HI).
  - exists 0. split; [lia|apply einv_start].
  - intros m s r Hn (i & Hi & HI).
    assert (Hm : m < length rows) by (apply nth_error_Some; congruence).
    destruct (einv_step c width w lo o rows i m s r HN (Forall_nth _ _ _ _ HF Hn) Hn Hi HI)
      as (s' & E' & [[Hc HI']|[Hc HI']]); exists s'; (split; [exact E'|]).
    + now exists i.
    + exists (S i). split; [|exact HI']. destruct (Nat.eq_dec (S i) (len_incl_own c)) as [Ei|]; [|lia].
      rewrite Ei in Hc. lia.
  - exists s, i. auto.
Qed.

Lemma read_csv_exact : forall p c width (rows : list row),
  1 <= pattern_length p -> Forall (fun r => length r = width) rows -> 2 <= len_incl_own c ->
  read_csv p c (S (length rows)) width rows =
  let w := length rows / len_incl_own c in
  let o := pattern_length p - 1 in
  if length rows <=? part_start w o (len_incl_own c) + o
  then Ok (sent_parts c w o (served (len_incl_own c) w o (length rows)) rows)
  else Panic UnwrapNone.
Proof.
  intros p c width rows HP HF HN. cbv zeta.
  unfold read_csv. rewrite !usub_ok by lia. cbn [bind]. replace (S (length rows) - 1) with (length rows) by lia.
  rewrite udiv_ok by lia. cbn [bind].
  pose proof (Nat.div_mod (length rows) (len_incl_own c) ltac:(lia)) as Hdm.
  rewrite usub_ok by (rewrite Nat.mul_comm; lia). cbn [bind].
  set (lo := length rows - _). clearbody lo. clear Hdm.
  set (w := length rows / len_incl_own c) in *. set (o := pattern_length p - 1) in *.
  destruct (Nat.leb_spec (length rows) (part_start w o (len_incl_own c) + o)) as [Hle|Hgt].
  - destruct (fold_exact c width w lo o rows HN HF Hle) as (s & i & E & Hi & HI). rewrite E. cbn [bind].
    destruct HI as (Hp & Hlo & Hbuf & Hlen & Hw & Hs).
    rewrite send_next_ok by lia. cbn [bind sent]. f_equal.
    rewrite (served_at (len_incl_own c) w o (length rows) i Hi Hlo Hw).
    rewrite Hs, Hbuf, Hp. unfold sent_parts. rewrite seq_S, map_app. cbn [map plus]. do 3 f_equal.
    unfold slice. rewrite !firstn_all2; [reflexivity| |]; rewrite skipn_length; lia.
  - set (N := len_incl_own c) in *. set (M := part_start w o N + o) in *.
    rewrite <- (firstn_skipn (S M) rows) at 1. rewrite foldM_app.
    assert (L1 : length (firstn (S M) rows) = S M) by (rewrite firstn_length; lia).
    destruct (foldM_prefix _ _ (read_step c width w lo o)
      (fun m s => (m = S M /\ position s = N) \/ (m <= M /\ exists i, i < N /\ einv c w o rows i m s))
      (firstn (S M) rows)
      {| buffer := []; overlap_buffer := []; position := 0; sent := [] |}) as (s & E & HI).
    + right. split; [lia|]. exists 0. split; [lia|apply einv_start].
    + intros m s r Hn Hor. rewrite nth_error_firstn in Hn. destruct (Nat.ltb_spec m (S M)) as [HmM|]; [|discriminate].
      destruct Hor as [[Hm _]|[_ (i & Hi & HI)]]; [lia|].
      pose proof (part_start_mono w o (S i) N ltac:(lia)) as Hmono.
      destruct (einv_step c width w lo o rows i m s r HN (Forall_nth _ _ _ _ HF Hn) Hn Hi HI)
        as (s' & E' & [[Hc HI']|[Hc HI']]); exists s'; (split; [exact E'|]).
      * right. split; [lia|now exists i].
      * destruct (Nat.eq_dec (S i) N) as [Ei|Ei].
        -- left. destruct HI' as (Hp' & _). rewrite Ei in Hc. split; lia.
        -- right. split; [|exists (S i); split; [lia|exact HI']].
           destruct HI' as (_ & _ & _ & _ & Hw' & _). pose proof (part_start_mono w o (S (S i)) N ltac:(lia)). lia.
    + rewrite E. cbn [bind]. rewrite L1 in HI. destruct HI as [[_ Hp]|[Hbad _]]; [|lia].
      apply exhausted_panics; [fold N; lia|].
      rewrite Forall_forall in HF |- *. intros x Hx. apply HF.
      rewrite <- (firstn_skipn (S M) rows). apply in_app_iff. now right.
Qed.

(** It aborts exactly when the pattern fits into a share and the remainder is longer than the overlap. *)
Lemma covers_iff : forall N w o n, 2 <= N -> n = N * w + n mod N ->
  (n <= part_start w o N + o <-> (S o <= w -> n mod N <= o)).
Proof.
  intros N w o n HN Hn. destruct N as [|N]; [lia|]. cbn [part_start].
  pose proof (Nat.mod_upper_bound n (S N) ltac:(lia)) as Hlt. split.
  - intros Hle Hw. rewrite (Nat.max_l w (S o)) in Hle by lia. cbn [Nat.mul] in Hn. lia.
  - intros H. destruct (Nat.le_gt_cases (S o) w) as [Hw|Hw].
    + specialize (H Hw). rewrite (Nat.max_l w (S o)) by lia. cbn [Nat.mul] in Hn. lia.
    + rewrite (Nat.max_r w (S o)) by lia.
      assert (N * w + N <= N * S o) by (rewrite <- (Nat.mul_1_r N) at 2; rewrite <- Nat.mul_add_distr_l;
                                          apply Nat.mul_le_mono_l; lia).
      cbn [Nat.mul] in Hn. lia.
Qed.

Lemma read_csv_aborts_iff : forall p c width (rows : list row),
  1 <= pattern_length p -> Forall (fun r => length r = width) rows -> 2 <= len_incl_own c ->
  ((exists q, read_csv p c (S (length rows)) width rows = Panic q)
   <-> pattern_length p <= length rows / len_incl_own c /\ pattern_length p <= length rows mod len_incl_own c).
Proof.
  intros p c width rows HP HF HN. rewrite (read_csv_exact p c width rows HP HF HN). cbv zeta.
  pose proof (Nat.div_mod (length rows) (len_incl_own c) ltac:(lia)) as Hdm.
  pose proof (covers_iff (len_incl_own c) (length rows / len_incl_own c) (pattern_length p - 1) (length rows) HN Hdm) as HC.
  destruct (Nat.leb_spec (length rows) (part_start (length rows / len_incl_own c) (pattern_length p - 1) (len_incl_own c)
    + (pattern_length p - 1))) as [Hle|Hgt].
  - split; [intros (q & H); discriminate|]. intros [H1 H2]. apply HC in Hle; lia.
  - split; [|intros _; eauto]. intros _.
    destruct (Nat.le_gt_cases (pattern_length p) (length rows / len_incl_own c)) as [H1|H1].
    + split; [exact H1|].
      destruct (Nat.le_gt_cases (pattern_length p) (length rows mod len_incl_own c)) as [H2|H2]; [exact H2|].
      exfalso. assert (length rows <= part_start (length rows / len_incl_own c) (pattern_length p - 1) (len_incl_own c)
    + (pattern_length p - 1)) by (apply HC; lia). lia.
    + exfalso. assert (length rows <= part_start (length rows / len_incl_own c) (pattern_length p - 1) (len_incl_own c)
    + (pattern_length p - 1)) by (apply HC; lia). lia.
Qed.

(** Exactly when every receiver gets its partition. *)
Lemma read_csv_right_iff : forall p c width (rows : list row),
  1 <= pattern_length p -> Forall (fun r => length r = width) rows -> 2 <= len_incl_own c ->
  (read_csv p c (S (length rows)) width rows
   = Ok (combine (iter_take c 0 (len_incl_own c))
                (map (fun i => partition_of (len_incl_own c) (pattern_length p - 1) i rows) (seq 0 (len_incl_own c))))
   <-> (pattern_length p <= length rows / len_incl_own c /\ length rows mod len_incl_own c < pattern_length p)
       \/ (len_incl_own c = 2 /\ length rows = 2 * pattern_length p - 1)).
Proof.
  intros p c width rows HP HF HN.
  pose proof (Nat.div_mod (length rows) (len_incl_own c) ltac:(lia)) as Hdm.
  pose proof (Nat.mod_upper_bound (length rows) (len_incl_own c) ltac:(lia)) as Hmod.
  split.
  - intros E. destruct (Nat.le_gt_cases (pattern_length p) (length rows / len_incl_own c)) as [H1|H1].
    + left. split; [exact H1|]. apply Nat.lt_nge. intros H2.
      destruct (proj2 (read_csv_aborts_iff p c width rows HP HF HN) (conj H1 H2)) as [q Eq]. congruence.
    + right. rewrite (read_csv_exact p c width rows HP HF HN) in E. cbv zeta in E.
      set (w := length rows / len_incl_own c) in *. set (o := pattern_length p - 1) in *.
      set (N := len_incl_own c) in *. set (n := length rows) in *.
      destruct (n <=? part_start w o N + o); [|discriminate]. injection E as E.
      rewrite iter_take_spec in E. fold N in E. rewrite Nat.sub_0_r, Nat.min_id, combine_map_addr in E.
      assert (ES : served N w o n = N).
      { apply (f_equal (@length _)) in E. unfold sent_parts in E. rewrite !map_length, !seq_length in E. exact E. }
      (* the second receiver is served *)
      assert (H2 : part_start w o (N - 1) + o < n).
      { unfold served in ES.
        assert (GF : forall (f : nat -> bool) l, length (filter f l) = length l -> forall x, In x l -> f x = true).
        { intros f l; induction l as [|a t IH]; intros HL x Hx; [easy|]. cbn [filter length] in HL.
          destruct (f a) eqn:Ef; cbn [length] in HL.
          - destruct Hx as [<-|Hx]; [exact Ef|]. apply IH; [lia|exact Hx].
          - exfalso. assert (HF' : forall l', length (filter f l') <= length l') by (induction l' as [|b l' IHl]; cbn [filter]; [lia|destruct (f b); cbn [length]; lia]).
            specialize (HF' t). lia. }
        apply Nat.ltb_lt. apply (GF (fun j => part_start w o j + o <? n) (seq 1 (N - 1))).
        - rewrite seq_length. lia.
        - apply in_seq. lia. }
      destruct (Nat.eq_dec N 2) as [E2|E2].
      * split; [exact E2|]. rewrite E2 in *. cbn [Nat.sub part_start Nat.mul] in H2. lia.
      * exfalso. rewrite ES in E. unfold sent_parts in E.
        apply (f_equal (fun l => nth_error l 1)) in E. rewrite !nth_error_map in E.
        assert (Es : nth_error (seq 0 N) 1 = Some 1).
        { destruct N as [|[|N']]; [lia|lia|reflexivity]. }
        rewrite Es in E. cbn [option_map] in E. injection E as E.
        apply (f_equal (@length _)) in E. unfold partition_of in E. fold n N w in E.
        destruct (Nat.eqb_spec 2 N); [lia|]. rewrite !slice_length in E. fold n in E.
        pose proof (part_start_mono w o 2 (N - 1) ltac:(lia)) as HM. cbn [part_start Nat.mul] in *. lia.
  - intros [[H1 H2]|[H1 H2]].
    + apply read_csv_ok; [exact HP|exact HF|]. right. lia.
    + rewrite (read_csv_exact p c width rows HP HF HN). cbv zeta. rewrite iter_take_spec, Nat.sub_0_r, Nat.min_id, combine_map_addr.
      rewrite H1 in *. set (n := length rows) in *. set (o := pattern_length p - 1) in *.
      assert (Ew : n / 2 = o).
      { symmetry. apply (Nat.div_unique n 2 o 1); lia. }
      rewrite Ew. destruct (Nat.leb_spec n (part_start o o 2 + o)) as [_|Hbad]; [|cbn [part_start] in Hbad; lia].
      rewrite (served_at 2 o o n 1); [|lia|right; cbn [part_start]; lia|cbn [part_start]; lia].
      f_equal. unfold sent_parts, partition_of. fold n. rewrite Ew. cbn [seq map Nat.eqb part_start].
      replace (o + 0 * Nat.max o (S o)) with (1 * o) by lia.
      assert (EL : slice (1 * o) (o + 1 * Nat.max o (S o) + o) rows = slice (1 * o) n rows)
        by (unfold slice; rewrite !firstn_all2; [reflexivity| |]; rewrite skipn_length; fold n; lia).
      rewrite EL. reflexivity.
Qed.

Lemma served_le : forall N w o n, 1 <= N -> served N w o n <= N.
Proof.
  intros N w o n HN. unfold served.
  assert (HF' : forall (f : nat -> bool) l, length (filter f l) <= length l)
    by (intros f; induction l as [|b l IHl]; cbn [filter]; [lia|destruct (f b); cbn [length]; lia]).
  specialize (HF' (fun j => part_start w o j + o <? n) (seq 1 (N - 1))). rewrite seq_length in HF'. lia.
Qed.

Lemma read_csv_sent : forall p c width (rows : list row) sent,
  1 <= pattern_length p -> Forall (fun r => length r = width) rows -> 2 <= len_incl_own c ->
  read_csv p c (S (length rows)) width rows = Ok sent ->
  let w := length rows / len_incl_own c in
  let o := pattern_length p - 1 in
  let k := served (len_incl_own c) w o (length rows) in
  k <= len_incl_own c
  /\ sent = combine (iter_take c 0 k) (map (fun j => slice (part_start w o j) (part_start w o (S j) + o) rows) (seq 0 k)).
Proof.
  intros p c width rows sent HP HF HN E w o k.
  assert (Hk : k <= len_incl_own c) by (apply served_le; lia). split; [exact Hk|].
  rewrite (read_csv_exact p c width rows HP HF HN) in E. cbv zeta in E. fold w o in E.
  destruct (_ <=? _); [|discriminate]. injection E as <-. fold k.
  rewrite iter_take_spec. replace (Nat.min k (len_incl_own c - 0)) with k by lia. now rewrite combine_map_addr.
Qed.
End E.
