From Coq Require Import List Arith Bool Lia Permutation Sorting.Sorted.
From Verif.Base Require Import Res Assoc ListX.
From Verif.Edges Require Import Model Proofs HostProofs.
From Verif.Protocol Require Import Model Exchange.
From Verif.Transposition Require Import Spec Proofs.
From Verif.Scoring Require Import Model Spec WeightProofs IndexProofs CollectProofs WindowProofs Overlap OverlapProofs.
Import ListNotations.

Section Cluster.
(** [d]: length of a part, [l]: number of index entries of the last host. *)
Variables N q d l : nat.
Hypothesis HN : 2 <= N.
Hypothesis Hq : 1 <= q.
Hypothesis Hd : 1 <= d.
Hypothesis Hl : q <= l.
Variable E : nat -> list edge.
Hypothesis Hasc : forall k, k < N -> ascending (E k).
Hypothesis Hrange : forall k e, k < N -> In e (E k) -> k * d <= to_id e < k * d + (if k =? N - 1 then l else d).
Notation G := (all_edges N E).
Notation U := (edges_until G).

Definition len (k : nat) : nat := if k =? N - 1 then l else d.
Definition B (k : nat) : nat := length (concat (map E (seq 0 k))).
Definition M (k : nat) : nat := if k =? N - 1 then length G else U (S k * d + q - 1).
Definition flen (k : nat) : nat := if k =? N - 1 then l else d + q - 1.

Lemma G_split : forall k, k < N -> G = concat (map E (seq 0 k)) ++ E k ++ concat (map E (seq (S k) (N - S k))).
Proof. intros k Hk. unfold all_edges. replace N with (k + S (N - S k)) at 1 by lia. rewrite seq_app, map_app, concat_app. reflexivity. Qed.
Lemma before_lt : forall k e, k < N -> In e (concat (map E (seq 0 k))) -> to_id e < k * d.
Proof.
  intros k e Hk H. apply in_concat in H. destruct H as (c & Hc & He). apply in_map_iff in Hc. destruct Hc as (i & <- & Hi). apply in_seq in Hi.
  pose proof (Hrange i e ltac:(lia) He) as R. destruct (Nat.eqb_spec i (N - 1)); [lia|]. nia.
Qed.
Lemma after_ge : forall k e, In e (concat (map E (seq (S k) (N - S k)))) -> S k * d <= to_id e.
Proof.
  intros k e H. apply in_concat in H. destruct H as (c & Hc & He). apply in_map_iff in Hc. destruct Hc as (i & <- & Hi). apply in_seq in Hi.
  pose proof (Hrange i e ltac:(lia) He) as R. nia.
Qed.
Lemma G_asc : ascending G.
Proof.
  assert (K : forall k, k <= N -> ascending (concat (map E (seq 0 k)))).
  { induction k as [|k IH]; intros Hk; [constructor|]. rewrite seq_S, map_app, concat_app. cbn [map concat Nat.add]. rewrite app_nil_r. unfold ascending. rewrite map_app. apply sorted_app.
    - apply IH. lia.
    - now apply Hasc.
    - intros x y Hx Hy. apply in_map_iff in Hx, Hy. destruct Hx as (a & <- & Ha), Hy as (b & <- & Hb). pose proof (before_lt k a Hk Ha). pose proof (Hrange k b Hk Hb). lia. }
  now apply K.
Qed.
Lemma U_part : forall k x, k < N -> k * d <= S x -> (k = N - 1 \/ S x <= S k * d) -> U x = B k + edges_until (E k) x.
Proof.
  intros k x Hk H1 H2. rewrite (G_split k Hk) at 1. rewrite !edges_until_app. rewrite edges_until_all.
  - rewrite (edges_until_none (concat (map E (seq (S k) (N - S k))))); [unfold B; lia|]. intros e He. pose proof (after_ge k e He). destruct H2 as [->|H2]; [|lia].
    replace (N - S (N - 1)) with 0 in He by lia. destruct He.
  - intros e He. pose proof (before_lt k e Hk He). lia.
Qed.
Lemma U_ge : forall k x, k < N -> k * d <= S x -> B k <= U x.
Proof.
  intros k x Hk H1. rewrite (G_split k Hk). rewrite !edges_until_app. rewrite edges_until_all; [unfold B; lia|]. intros e He. pose proof (before_lt k e Hk He). lia.
Qed.
Lemma B_S : forall k, B (S k) = B k + length (E k).
Proof. intros k. unfold B. rewrite seq_S, map_app, concat_app, app_length. cbn [map concat Nat.add]. now rewrite app_nil_r. Qed.
Lemma B_le : forall k, k <= N -> B k <= length G.
Proof.
  intros k Hk. destruct (Nat.eq_dec k N) as [->|]; [reflexivity|]. rewrite (G_split k ltac:(lia)), app_length. unfold B. lia.
Qed.
Lemma E_slice : forall k, k < N -> E k = slice (B k) (B (S k)) G.
Proof.
  intros k Hk. rewrite B_S. rewrite (G_split k Hk). unfold slice, B. replace (length (concat (map E (seq 0 k))) + length (E k) - length (concat (map E (seq 0 k)))) with (length (E k)) by lia.
  rewrite skipn_app, skipn_all, Nat.sub_diag. cbn [app skipn]. rewrite firstn_app, firstn_all, Nat.sub_diag. cbn [firstn]. now rewrite app_nil_r.
Qed.
Lemma E_until : forall k x, k < N -> (k * d + len k <= S x) -> edges_until (E k) x = length (E k).
Proof. intros k x Hk H. apply edges_until_all. intros e He. pose proof (Hrange k e Hk He) as R. unfold len in H. destruct (k =? N - 1); lia. Qed.

(** The data of a host before the exchange, and at the end. *)
Definition data (k : nat) : list edge * list nat := (E k, map (fun t => edges_until (E k) (k * d + t)) (seq 0 (len k))).
Definition final (k : nat) : list edge * list nat := (slice (B k) (M k) G, map (fun t => U (k * d + t) - B k) (seq 0 (flen k))).
Definition out (k : nat) : overlap_message := (slice (B k) (U (k * d + q - 1)) G, map (fun t => U (k * d + t) - B k) (seq 0 (q - 1))).

Lemma last_data : final (N - 1) = data (N - 1).
Proof.
  unfold final, data, M, flen, len. rewrite Nat.eqb_refl. f_equal.
  - rewrite (E_slice (N - 1)) by lia. f_equal. unfold B at 1, all_edges. do 4 f_equal. lia.
  - apply map_ext_in. intros t Ht. apply in_seq in Ht. rewrite (U_part (N - 1)) by lia. lia.
Qed.
Lemma slice_map_seq : forall (f : nat -> nat) a n, a <= n -> slice 0 a (map f (seq 0 n)) = map f (seq 0 a).
Proof.
  intros f a n H. unfold slice. cbn [skipn]. rewrite Nat.sub_0_r. replace n with (a + (n - a)) by lia. rewrite seq_app, map_app, firstn_app.
  rewrite map_length, seq_length, Nat.sub_diag. cbn [firstn]. rewrite app_nil_r. apply firstn_all2. rewrite map_length, seq_length. lia.
Qed.
Lemma M_bounds : forall k, k < N -> U (k * d + q - 1) <= M k <= length G.
Proof.
  intros k Hk. unfold M. destruct (k =? N - 1); split; try apply edges_until_length; [reflexivity|]. apply edges_until_mono. nia.
Qed.
Lemma out_ok : forall k, k < N -> overlap_of q (final k) = Ok (out k).
Proof.
  intros k Hk. unfold overlap_of, final, out. rewrite usub_ok by exact Hq. cbn [bind].
  assert (Hf : q - 1 < flen k) by (unfold flen; destruct (k =? N - 1); lia). rewrite get_map_seq by exact Hf. cbn [bind]. pose proof (M_bounds k Hk) as HM.
  pose proof (U_ge k (k * d + q - 1) Hk ltac:(lia)) as HU. replace (k * d + (q - 1)) with (k * d + q - 1) by lia.
  unfold get_slice at 1. rewrite slice_length. destruct (Nat.leb_spec (U (k * d + q - 1) - B k) (Nat.min (M k - B k) (length G - B k))); [|lia]. cbn [Nat.leb andb bind].
  unfold get_slice. rewrite map_length, seq_length. destruct (Nat.leb_spec (q - 1) (flen k)); [|lia]. cbn [Nat.leb andb bind].
  rewrite slice_slice by lia. rewrite slice_map_seq by lia. do 2 f_equal. f_equal; lia.
Qed.
Lemma add_ok : forall k, k < N - 1 -> add_overlap (data k) (out (S k)) = Ok (final k).
Proof.
  intros k Hk. unfold add_overlap, data, out, final, len, M, flen. destruct (Nat.eqb_spec k (N - 1)); [lia|]. rewrite map_length, seq_length.
  rewrite nth_error_map, nth_error_seq by lia. cbn [option_map unwrap bind fst snd Nat.add].
  assert (Elast : edges_until (E k) (k * d + (d - 1)) = length (E k)). { apply E_until; [lia|]. unfold len. destruct (Nat.eqb_spec k (N - 1)); lia. }
  rewrite Elast. pose proof (U_ge (S k) (S k * d + q - 1) ltac:(lia) ltac:(lia)) as HU. do 2 f_equal.
  - rewrite (E_slice k) at 1 by lia. apply slice_app; [rewrite B_S; lia|exact HU].
  - replace (d + q - 1) with (d + (q - 1)) by lia. rewrite seq_app, map_app. f_equal.
    + apply map_ext_in. intros t Ht. apply in_seq in Ht. rewrite (U_part k) by lia. lia.
    + cbn [Nat.add]. rewrite map_map. rewrite <- (map_map (fun t => d + t) (fun t => U (k * d + t) - B k)) || idtac.
      assert (Es : seq d (q - 1) = map (fun t => d + t) (seq 0 (q - 1))). { clear. generalize (q - 1). intros n. replace d with (d + 0) at 1 by lia. generalize 0. induction n as [|n IH]; intros a; [reflexivity|]. cbn [seq map]. f_equal. replace (S (d + a)) with (d + S a) by lia. apply IH. }
      rewrite Es, map_map. apply map_ext_in. intros t Ht. replace (k * d + (d + t)) with (S k * d + t) by (cbn [Nat.mul]; lia).
      pose proof (U_ge (S k) (S k * d + t) ltac:(lia) ltac:(lia)). rewrite B_S in *. lia.
Qed.

Lemma final_view : forall k w dg, k < N -> view G (B k) (M k) (k * d) (flen k) {| g_edges := fst (final k); g_index := snd (final k); g_weight := w; g_degree := dg; g_query := q |}.
Proof.
  intros k w dg Hk. unfold view. cbn [g_edges g_index final fst snd]. ssplit; [exact G_asc|apply M_bounds; exact Hk|reflexivity|reflexivity|].
  intros t Ht. split; [apply U_ge; lia|]. unfold M, flen in *. destruct (k =? N - 1); [apply edges_until_length|]. apply edges_until_mono. cbn [Nat.mul]. lia.
Qed.
(** What a host knows at the end, in words. *)
Lemma final_edges : forall k, k < N -> fst (final k) = filter (fun e => (k * d <=? to_id e) && ((to_id e <=? S k * d + q - 1) || (k =? N - 1))) G.
Proof.
  intros k Hk. cbn [final fst]. unfold M. assert (HB : k * d = 0 \/ B k = U (k * d - 1)).
  { destruct (Nat.eq_dec (k * d) 0); [now left|right]. rewrite (U_part k) by lia. rewrite edges_until_none; [lia|]. intros e He. pose proof (Hrange k e Hk He). lia. }
  pose proof G_asc as HG. destruct HB as [Z|HB].
  - assert (k = 0) by nia. subst k. assert (B0 : B 0 = 0) by reflexivity. rewrite B0. destruct (Nat.eqb_spec 0 (N - 1)); [lia|]. unfold slice. cbn [skipn]. rewrite Nat.sub_0_r, firstn_until by exact HG.
    apply filter_ext. intros e. now rewrite orb_false_r.
  - destruct (Nat.eq_dec (k * d) 0) as [Z|Z].
    + assert (k = 0) by nia. subst k. assert (B0 : B 0 = 0) by reflexivity. rewrite B0. destruct (Nat.eqb_spec 0 (N - 1)); [lia|]. unfold slice. cbn [skipn]. rewrite Nat.sub_0_r, firstn_until by exact HG.
      apply filter_ext. intros e. now rewrite orb_false_r.
    + destruct (k =? N - 1) eqn:Ek; rewrite HB.
      * rewrite slice_from by exact HG. apply filter_ext. intros e. rewrite orb_true_r, andb_true_r. destruct (Nat.ltb_spec (k * d - 1) (to_id e)), (Nat.leb_spec (k * d) (to_id e)); try reflexivity; lia.
      * rewrite slice_until by (exact HG || (cbn [Nat.mul]; lia)). apply filter_ext. intros e. rewrite orb_false_r. f_equal. destruct (Nat.ltb_spec (k * d - 1) (to_id e)), (Nat.leb_spec (k * d) (to_id e)); try reflexivity; lia.
Qed.
Lemma final_index : forall k, k < N -> snd (final k) = map (fun t => count (fun e => (k * d <=? to_id e) && (to_id e <=? k * d + t)) G) (seq 0 (flen k)).
Proof.
  intros k Hk. cbn [final snd]. apply map_ext. intros t. unfold count.
  assert (HB : B k = count (fun e => to_id e <? k * d) G).
  { rewrite (G_split k Hk) at 1. unfold count. rewrite !filter_app, !app_length. rewrite filter_all_true; [|intros e He; apply Nat.ltb_lt; now apply before_lt].
    rewrite (filter_nil _ _ (E k)); [|intros e He; apply Nat.ltb_ge; now apply Hrange]. rewrite filter_nil; [unfold B; cbn; lia|]. intros e He. apply Nat.ltb_ge. pose proof (after_ge k e He). lia. }
  rewrite HB. unfold edges_until, count. clear. induction (all_edges N E) as [|e g IH]; [reflexivity|]. cbn [filter].
  destruct (Nat.leb_spec (to_id e) (k * d + t)), (Nat.ltb_spec (to_id e) (k * d)), (Nat.leb_spec (k * d) (to_id e)); cbn [andb length]; try lia.
  assert (length (filter (fun e => to_id e <? k * d) g) <= length (filter (fun e => to_id e <=? k * d + t) g)); [|lia].
  clear. induction g as [|e g IH]; [reflexivity|]. cbn [filter]. destruct (Nat.ltb_spec (to_id e) (k * d)), (Nat.leb_spec (to_id e) (k * d + t)); cbn [length]; lia.
Qed.
End Cluster.
