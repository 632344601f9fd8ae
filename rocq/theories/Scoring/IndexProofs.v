From Coq Require Import List Arith Bool Lia Permutation Sorting.Sorted.
From Verif.Base Require Import Res Assoc ListX.
From Verif.Edges Require Import Model Proofs HostProofs.
From Verif.Transposition Require Import Spec.
From Verif.Scoring Require Import Model Spec.
Import ListNotations.

(** Number of [ids] below [b]. *)
Definition below (ids : list nat) (b : nat) : nat := count (fun x => x <? b) ids.
Lemma below_mono : forall ids a b, a <= b -> below ids a <= below ids b.
Proof.
  intros ids a b H. unfold below, count. induction ids as [|x l IH]; [reflexivity|]. cbn [filter]. destruct (Nat.ltb_spec x a), (Nat.ltb_spec x b); cbn [length]; lia.
Qed.
Lemma below_all : forall ids b, (forall x, In x ids -> x < b) -> below ids b = length ids.
Proof. intros ids b H. unfold below, count. rewrite filter_all_true; [reflexivity|]. intros x Hx. apply Nat.ltb_lt. now apply H. Qed.
Lemma below_none : forall ids b, (forall x, In x ids -> b <= x) -> below ids b = 0.
Proof. intros ids b H. unfold below, count. rewrite filter_nil; [reflexivity|]. intros x Hx. apply Nat.ltb_ge. now apply H. Qed.
Lemma below_app : forall l m b, below (l ++ m) b = below l b + below m b.
Proof. intros. unfold below, count. now rewrite filter_app, app_length. Qed.
Lemma below_length : forall ids b, below ids b <= length ids.
Proof. intros ids b. unfold below, count. induction ids as [|x l IH]; [reflexivity|]. cbn [filter length]. destruct (x <? b); cbn [length]; lia. Qed.

Lemma sorted_app_inv : forall l m, StronglySorted le (l ++ m) -> forall x y, In x l -> In y m -> x <= y.
Proof.
  intros l m. induction l as [|a l IH]; intros H x y Hx Hy; [easy|]. cbn [app] in H. inversion H as [|? ? H' F]; subst. destruct Hx as [->|Hx]; [|now apply IH].
  rewrite Forall_forall in F. apply F. apply in_or_app. now right.
Qed.

Section Index.
Variable start : nat.
Variable ids : list nat.
Hypothesis Hsorted : StronglySorted le ids.
Hypothesis Hstart : forall x, In x ids -> start <= x.

Definition entries (m : nat) : list nat := map (fun t => below ids (S (start + t))) (seq 0 m).
Lemma entries_length : forall m, length (entries m) = m.
Proof. intros. unfold entries. now rewrite map_length, seq_length. Qed.
Lemma pad_entries : forall m n v, (forall t, m <= t < n -> below ids (S (start + t)) = v) -> m <= n -> pad n v (entries m) = entries n.
Proof.
  intros m n v H L. unfold pad. rewrite entries_length. unfold entries. replace n with (m + (n - m)) at 2 by lia. rewrite seq_app, map_app. f_equal. cbn [Nat.add].
  assert (G : forall k a, (forall t, a <= t < a + k -> below ids (S (start + t)) = v) -> repeat v k = map (fun t => below ids (S (start + t))) (seq a k)).
  { induction k as [|k IH]; intros a Ha; [reflexivity|]. cbn [repeat seq map]. rewrite Ha by lia. f_equal. apply IH. intros; apply Ha; lia. }
  apply G. intros t Ht. apply H. lia.
Qed.
Lemma entries_S : forall m, entries (S m) = entries m ++ [below ids (S (start + m))].
Proof. intros. unfold entries. now rewrite seq_S, map_app. Qed.

(** State after [pre], whose last element is [l]. *)
Definition iinv (l : nat) (s : list nat * option nat * nat) : Prop :=
  exists m, s = (entries m, Some l, below ids l) /\ m <= l - start /\ below ids (start + m) = below ids l.

Lemma index_flush : forall l i id m, start <= l -> id <> l -> below ids (S l) = i -> m <= l - start -> below ids (start + m) = below ids l ->
  index_step start (entries m, Some l, below ids l) (i, id) = Ok (entries (S (l - start)), Some id, i).
Proof.
  intros l i id m Hl Hne Hi Hm Hb. cbn [index_step]. replace (id =? l) with false by (symmetry; now apply Nat.eqb_neq). rewrite usub_ok by exact Hl. cbn [bind].
  rewrite (pad_entries m (l - start)); [|intros t Ht; pose proof (below_mono ids (start + m) (S (start + t)) ltac:(lia)); pose proof (below_mono ids (S (start + t)) l ltac:(lia)); lia|exact Hm].
  rewrite entries_S. replace (start + (l - start)) with l by lia. now rewrite Hi.
Qed.

Lemma index_run : forall suf pre l s, ids = (pre ++ [l]) ++ suf -> iinv l s ->
  exists l' s', foldM (index_step start) (combine (seq (S (length pre)) (length suf)) suf) s = Ok s' /\ iinv l' s' /\ exists pre', ids = pre' ++ [l'].
Proof.
  induction suf as [|id suf IH]; intros pre l s Hids (m & -> & Hm & Hb).
  - exists l. eexists. split; [reflexivity|]. split; [exists m; auto|]. exists pre. now rewrite app_nil_r in Hids.
  - cbn [length seq combine foldM].
    assert (Hll : start <= l) by (apply Hstart; rewrite Hids; apply in_or_app; left; apply in_or_app; right; now left).
    assert (Hle : l <= id) by (pose proof Hsorted as Hs; rewrite Hids in Hs; apply (sorted_app_inv _ _ Hs); [apply in_or_app; right; now left|now left]).
    assert (Hids' : ids = ((pre ++ [l]) ++ [id]) ++ suf) by (rewrite Hids, <- !app_assoc; reflexivity).
    destruct (Nat.eq_dec id l) as [->|Hne].
    + cbn [index_step]. rewrite Nat.eqb_refl. cbn [bind]. destruct (IH (pre ++ [l]) l (entries m, Some l, below ids l) Hids') as (l' & s' & E & I & P); [exists m; auto|].
      exists l', s'. rewrite app_length in E. cbn [length] in E. rewrite Nat.add_1_r in E. auto.
    + assert (Hi : forall b, l < b -> b <= id -> below ids b = S (length pre)).
      { intros b Hb1 Hb2. rewrite Hids, below_app. rewrite below_all, below_none; [rewrite app_length; cbn; lia| |].
        - intros x Hx. pose proof Hsorted as Hs. rewrite Hids' in Hs. rewrite <- app_assoc in Hs. cbn [app] in Hs. clear - Hs Hx Hb2. apply Nat.le_trans with id; [exact Hb2|].
          destruct Hx as [->|Hx]; [lia|]. replace ((pre ++ [l]) ++ id :: suf) with (((pre ++ [l]) ++ [id]) ++ suf) in Hs by (now rewrite <- !app_assoc).
          apply (sorted_app_inv _ _ Hs); [apply in_or_app; right; now left|exact Hx].
        - intros x Hx. apply in_app_or in Hx. destruct Hx as [Hx|[->|[]]]; [|exact Hb1]. pose proof Hsorted as Hs. rewrite Hids, <- app_assoc in Hs. pose proof (sorted_app_inv _ _ Hs x l Hx ltac:(apply in_or_app; left; now left)). lia. }
      rewrite (index_flush l (S (length pre)) id m Hll Hne (Hi (S l) ltac:(lia) ltac:(lia)) Hm Hb). cbn [bind].
      destruct (IH (pre ++ [l]) id (entries (S (l - start)), Some id, S (length pre)) Hids') as (l' & s' & E & I & P).
      { exists (S (l - start)). ssplit; [rewrite (Hi id) by lia; reflexivity|lia|]. rewrite !Hi by lia. reflexivity. }
      exists l', s'. rewrite app_length in E. cbn [length] in E. rewrite Nat.add_1_r in E. auto.
Qed.

Lemma index_spec : forall n, (forall x, In x ids -> x < start + n) -> (ids <> [] -> exists x, In x ids /\ x <> 0) ->
  exists l s, foldM (index_step start) (combine (seq 0 (length (ids ++ [0]))) (ids ++ [0])) ([], None, 0) = Ok (s, Some 0, l) /\ pad n l s = entries n.
Proof.
  intros n Hn Hpos. assert (D : ids = [] \/ exists id suf, ids = id :: suf) by (clear; destruct ids; eauto). destruct D as [Hids0|(id & suf & Hids0)].
  - exists 0, []. split; [now rewrite Hids0|]. change (pad n 0 (entries 0) = entries n). apply pad_entries; [|lia]. intros t _. rewrite Hids0. reflexivity.
  - assert (G : foldM (index_step start) (combine (seq 0 (length (ids ++ [0]))) (ids ++ [0])) ([], None, 0) =
       (let! s := foldM (index_step start) (combine (seq 1 (length suf)) suf) ([], Some id, 0) in index_step start s (length ids, 0))).
    { rewrite app_length. cbn [length]. rewrite Nat.add_1_r, seq_S. cbn [Nat.add].
      assert (C : combine (seq 0 (length ids) ++ [length ids]) (ids ++ [0]) = combine (seq 0 (length ids)) ids ++ [(length ids, 0)]).
      { assert (K : forall (a : list nat) (b : list nat) x y, length a = length b -> combine (a ++ [x]) (b ++ [y]) = combine a b ++ [(x, y)]).
        { induction a as [|a0 a IHa]; intros [|b0 b] x y L; cbn in L; try lia; [reflexivity|]. cbn [app combine]. f_equal. apply IHa. lia. }
        apply K. apply seq_length. }
      rewrite C, foldM_app, Hids0. cbn [length seq combine foldM index_step bind]. destruct (foldM _ _ _); cbn [bind foldM]; [|reflexivity]. now destruct (index_step _ _ _). }
    destruct (index_run suf [] id ([], Some id, 0) Hids0) as (l & s & E & (m & -> & Hm & Hb) & (pre & Hpre)).
    { assert (Z : below ids id = 0).
      { apply below_none. intros x Hx. rewrite Hids0 in Hx. destruct Hx as [->|Hx]; [lia|]. pose proof Hsorted as Hs. rewrite Hids0 in Hs. inversion Hs as [|? ? _ F]; subst. rewrite Forall_forall in F. now apply F. }
      exists 0. ssplit; [rewrite Z; reflexivity|lia|]. rewrite Nat.add_0_r, Z. apply below_none. exact Hstart. }
    cbn [length] in E. rewrite G, E. cbn [bind].
    assert (Hll : In l ids) by (rewrite Hpre; apply in_or_app; right; now left).
    assert (Hmax : forall x, In x ids -> x <= l).
    { intros x Hx. rewrite Hpre in Hx. apply in_app_or in Hx. destruct Hx as [Hx|[->|[]]]; [|lia]. pose proof Hsorted as Hs. rewrite Hpre in Hs. apply (sorted_app_inv _ _ Hs); [exact Hx|now left]. }
    assert (Hl0 : 0 <> l). { destruct Hpos as (x & Hx & Hx0); [rewrite Hids0; discriminate|]. specialize (Hmax x Hx). lia. }
    assert (Hall : forall b, l < b -> below ids b = length ids) by (intros b Hb'; apply below_all; intros x Hx; specialize (Hmax x Hx); lia).
    rewrite (index_flush l (length ids) 0 m (Hstart l Hll) Hl0 (Hall _ (Nat.lt_succ_diag_r l)) Hm Hb).
    exists (length ids), (entries (S (l - start))). split; [reflexivity|]. apply pad_entries.
    + intros t Ht. apply Hall. pose proof (Hstart l Hll). lia.
    + pose proof (Hn l Hll). pose proof (Hstart l Hll). lia.
Qed.
End Index.

Lemma below_edges : forall edges t, below (map to_id edges) (S t) = edges_until edges t.
Proof.
  intros edges t. unfold below, edges_until, count. induction edges as [|e l IH]; [reflexivity|]. cbn [map filter]. destruct (Nat.ltb_spec (to_id e) (S t)), (Nat.leb_spec (to_id e) t); cbn [length]; lia.
Qed.
Lemma count_spec : forall start edges num (last : bool), ascending edges -> (forall e, In e edges -> start <= to_id e < start + (num - if last then 1 else 0)) -> (last = true -> 1 <= num) ->
  (edges <> [] -> exists e, In e edges /\ to_id e <> 0) ->
  count_edges_in_time start edges num last = Ok (map (fun t => edges_until edges (start + t)) (seq 0 (num - if last then 1 else 0))).
Proof.
  intros start edges num last Hs Hb Hl Hp. unfold count_edges_in_time.
  destruct (index_spec start (map to_id edges) Hs) with (n := num - if last then 1 else 0) as (l & s & E & P).
  - intros x Hx. apply in_map_iff in Hx. destruct Hx as (e & <- & He). now apply Hb.
  - intros x Hx. apply in_map_iff in Hx. destruct Hx as (e & <- & He). now apply Hb.
  - intros Hne. destruct Hp as (e & He & H0); [intros ->; now apply Hne|]. exists (to_id e). split; [now apply in_map|exact H0].
  - rewrite E. cbn [bind]. rewrite usub_ok by (destruct last; [now apply Hl|lia]). cbn [bind]. rewrite P. unfold entries. f_equal. apply map_ext. intros t. apply below_edges.
Qed.
(** Only time stamp 0: nothing is counted. *)
Lemma count_zero : forall edges num (last : bool), (forall e, In e edges -> to_id e = 0) -> (last = true -> 1 <= num) ->
  count_edges_in_time 0 edges num last = Ok (repeat 0 (num - if last then 1 else 0)).
Proof.
  intros edges num last H Hl. unfold count_edges_in_time.
  assert (G : forall ids k, (forall x, In x ids -> x = 0) -> ids <> [] -> foldM (index_step 0) (combine (seq k (length ids)) ids) ([], Some 0, 0) = Ok ([], Some 0, 0)).
  { induction ids as [|x ids IH]; intros k Hx Hne; [congruence|]. cbn [length seq combine foldM index_step]. rewrite (Hx x) by now left. cbn [Nat.eqb bind].
    destruct ids as [|y ids]; [reflexivity|]. apply IH; [|discriminate]. intros z Hz. apply Hx. now right. }
  assert (E : foldM (index_step 0) (combine (seq 0 (length (map to_id edges ++ [0]))) (map to_id edges ++ [0])) ([], None, 0) = Ok ([], Some 0, 0)).
  { destruct (map to_id edges ++ [0]) as [|x ids] eqn:Ei; [now destruct (map to_id edges)|].
    assert (Hx : forall y, In y (x :: ids) -> y = 0).
    { rewrite <- Ei. intros y Hy. apply in_app_or in Hy. destruct Hy as [Hy|[<-|[]]]; [|reflexivity]. apply in_map_iff in Hy. destruct Hy as (e & <- & He). now apply H. }
    cbn [length seq combine foldM index_step bind]. rewrite (Hx x) by now left. destruct ids as [|y ids]; [reflexivity|]. apply G; [|discriminate]. intros z Hz. apply Hx. now right. }
  rewrite E. cbn [bind]. rewrite usub_ok by (destruct last; [now apply Hl|lia]). cbn [bind]. unfold pad. cbn [length app]. now rewrite Nat.sub_0_r.
Qed.
