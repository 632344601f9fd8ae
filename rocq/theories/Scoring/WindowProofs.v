From Coq Require Import List Arith Bool Lia Permutation Sorting.Sorted.
From Verif.Base Require Import Res Assoc ListX.
From Verif.Edges Require Import Model Proofs HostProofs.
From Verif.Segmentation Require Import Proofs.
From Verif.Transposition Require Import Spec.
From Verif.Scoring Require Import Model Spec WeightProofs CollectProofs.
Import ListNotations.

Lemma skipn_firstn_comm' : forall A (l : list A) a b, a <= b -> skipn a (firstn b l) = firstn (b - a) (skipn a l).
Proof. intros. now rewrite skipn_firstn_comm. Qed.
Lemma In_firstn' : forall A (l : list A) k x, In x (firstn k l) -> In x l.
Proof. intros A l k x H. rewrite <- (firstn_skipn k l). apply in_or_app. now left. Qed.
Lemma In_skipn' : forall A (l : list A) k x, In x (skipn k l) -> In x l.
Proof. intros A l k x H. rewrite <- (firstn_skipn k l). apply in_or_app. now right. Qed.

(** ** Ascending edge lists *)
Lemma edges_until_app : forall l m t, edges_until (l ++ m) t = edges_until l t + edges_until m t.
Proof. intros. unfold edges_until, count. now rewrite filter_app, app_length. Qed.
Lemma edges_until_mono : forall l a b, a <= b -> edges_until l a <= edges_until l b.
Proof. intros l a b H. unfold edges_until, count. induction l as [|x l IH]; [reflexivity|]. cbn [filter]. destruct (Nat.leb_spec (to_id x) a), (Nat.leb_spec (to_id x) b); cbn [length]; lia. Qed.
Lemma edges_until_length : forall l t, edges_until l t <= length l.
Proof. intros l t. unfold edges_until, count. induction l as [|x l IH]; [reflexivity|]. cbn [filter length]. destruct (_ <=? t); cbn [length]; lia. Qed.
Lemma edges_until_all : forall l t, (forall e, In e l -> to_id e <= t) -> edges_until l t = length l.
Proof. intros l t H. unfold edges_until, count. rewrite filter_all_true; [reflexivity|]. intros e He. apply Nat.leb_le. now apply H. Qed.
Lemma edges_until_none : forall l t, (forall e, In e l -> t < to_id e) -> edges_until l t = 0.
Proof. intros l t H. unfold edges_until, count. rewrite filter_nil; [reflexivity|]. intros e He. apply Nat.leb_gt. now apply H. Qed.

Lemma asc_tail : forall e l, ascending (e :: l) -> ascending l.
Proof. intros e l H. unfold ascending in *. cbn [map] in H. now inversion H. Qed.
Lemma asc_head : forall e l x, ascending (e :: l) -> In x l -> to_id e <= to_id x.
Proof. intros e l x H Hx. unfold ascending in *. cbn [map] in H. inversion H as [|? ? _ F]; subst. rewrite Forall_forall in F. apply F. now apply in_map. Qed.
Lemma firstn_until : forall G t, ascending G -> firstn (edges_until G t) G = filter (fun e => to_id e <=? t) G.
Proof.
  induction G as [|e G IH]; intros t H; [reflexivity|]. unfold edges_until, count. cbn [filter]. destruct (Nat.leb_spec (to_id e) t) as [Hl|Hl].
  - cbn [length firstn]. f_equal. apply IH. now apply asc_tail in H.
  - rewrite filter_nil; [reflexivity|]. intros x Hx. apply Nat.leb_gt. pose proof (asc_head e G x H Hx). lia.
Qed.
Lemma skipn_until : forall G t, ascending G -> skipn (edges_until G t) G = filter (fun e => t <? to_id e) G.
Proof.
  induction G as [|e G IH]; intros t H; [reflexivity|]. unfold edges_until, count. cbn [filter]. destruct (Nat.leb_spec (to_id e) t) as [Hl|Hl].
  - cbn [length skipn]. replace (t <? to_id e) with false by (symmetry; apply Nat.ltb_ge; lia). apply IH. now apply asc_tail in H.
  - rewrite filter_nil; [|intros x Hx; apply Nat.leb_gt; pose proof (asc_head e G x H Hx); lia]. cbn [length skipn]. replace (t <? to_id e) with true by (symmetry; apply Nat.ltb_lt; lia).
    f_equal. symmetry. apply filter_all_true. intros x Hx. apply Nat.ltb_lt. pose proof (asc_head e G x H Hx). lia.
Qed.
Lemma slice_until : forall G a b, ascending G -> a <= b -> slice (edges_until G a) (edges_until G b) G = filter (fun e => (a <? to_id e) && (to_id e <=? b)) G.
Proof.
  intros G a b H Hab. unfold slice. pose proof (edges_until_mono G a b Hab) as M. rewrite <- skipn_firstn_comm'; [|exact M].
  rewrite (firstn_until G b H).
  assert (E : skipn (edges_until G a) (filter (fun e => to_id e <=? b) G) = filter (fun e => a <? to_id e) (filter (fun e => to_id e <=? b) G)).
  { assert (Hf : ascending (filter (fun e => to_id e <=? b) G)) by now apply sorted_filter.
    rewrite <- (skipn_until _ a Hf). f_equal. unfold edges_until, count. rewrite filter_and. f_equal. apply filter_ext. intros e. destruct (Nat.leb_spec (to_id e) a), (Nat.leb_spec (to_id e) b); try reflexivity; lia. }
  rewrite E, filter_and. apply filter_ext. intros e. apply andb_comm.
Qed.
Lemma slice_from : forall G a, ascending G -> slice (edges_until G a) (length G) G = filter (fun e => a <? to_id e) G.
Proof. intros G a H. unfold slice. rewrite firstn_all2 by (rewrite skipn_length; lia). now apply skipn_until. Qed.

(** The window of [i] as a part of the list, cut at [m]. *)
Lemma slice_window : forall G a b m, ascending G -> a <= b -> edges_until G b <= m <= length G ->
  slice (edges_until G a) (Nat.min (edges_until G b + 1) m) G = filter (fun e => (a <? to_id e) && (to_id e <=? b)) G ++ firstn (Nat.min 1 (m - edges_until G b)) (filter (fun e => b <? to_id e) G).
Proof.
  intros G a b m H Hab Hm. pose proof (edges_until_mono G a b Hab) as M. rewrite <- (slice_app _ G _ (edges_until G b)) by lia. rewrite slice_until by assumption. f_equal.
  rewrite <- skipn_until by exact H. unfold slice. f_equal. lia.
Qed.

(** ** Windows of a host *)
(** A host sees the part [o .. m) of the edges [G] of the whole graph; its time begins at [s]; its index has [len] entries. *)
Definition view (G : list edge) (o m s len : nat) (g : graph) : Prop :=
  ascending G /\ m <= length G /\ g_edges g = slice o m G /\ g_index g = map (fun t => edges_until G (s + t) - o) (seq 0 len)
  /\ (forall t, t < len -> o <= edges_until G (s + t) <= m).
Lemma get_map_seq : forall (f : nat -> nat) len i, i < len -> get (map f (seq 0 len)) i = Ok (f i).
Proof. intros f len i H. unfold get. rewrite nth_error_map, nth_error_seq by exact H. reflexivity. Qed.
Lemma window_view : forall G o m s len g i, view G o m s len g -> 1 <= g_query g -> i + g_query g <= len ->
  window g i = Ok (slice (edges_until G (s + i)) (Nat.min (edges_until G (s + i + g_query g - 1) + 1) m) G).
Proof.
  intros G o m s len g i (Ha & Hm & He & Hi & Hb) Hq Hl. unfold window. rewrite Hi. rewrite get_map_seq by lia. cbn [bind]. rewrite usub_ok by lia. cbn [bind].
  rewrite get_map_seq by lia. cbn [bind]. pose proof (Hb i ltac:(lia)) as B1. pose proof (Hb (i + g_query g - 1) ltac:(lia)) as B2.
  pose proof (edges_until_mono G (s + i) (s + (i + g_query g - 1)) ltac:(lia)) as M.
  rewrite He, slice_length. replace (s + i + g_query g - 1) with (s + (i + g_query g - 1)) by lia. set (a := edges_until G (s + i)) in *. set (b := edges_until G (s + (i + g_query g - 1))) in *.
  unfold get_slice. rewrite slice_length. replace (Nat.min (m - o) (length G - o)) with (m - o) by lia.
  assert (E : (a - o <=? Nat.min (b - o + 1) (m - o)) && (Nat.min (b - o + 1) (m - o) <=? m - o) = true) by (apply andb_true_iff; split; apply Nat.leb_le; lia).
  rewrite E. f_equal. rewrite slice_slice by lia. f_equal; lia.
Qed.
Lemma view_empty_later : forall G o m s len g i j, view G o m s len g -> 1 <= g_query g -> i <= j -> j + g_query g <= len ->
  slice (edges_until G (s + i)) (Nat.min (edges_until G (s + i + g_query g - 1) + 1) m) G = [] ->
  slice (edges_until G (s + j)) (Nat.min (edges_until G (s + j + g_query g - 1) + 1) m) G = [].
Proof.
  intros G o m s len g i j (Ha & Hm & He & Hi & Hb) Hq Hij Hl E. apply (f_equal (@length _)) in E. rewrite slice_length in E. cbn in E.
  apply length_zero_iff_nil. rewrite slice_length. pose proof (edges_until_mono G (s + i) (s + j) ltac:(lia)). pose proof (edges_until_mono G (s + i) (s + i + g_query g - 1) ltac:(lia)).
  pose proof (Hb i ltac:(lia)). pose proof (Hb j ltac:(lia)). lia.
Qed.

(** The summands of all windows of a host. *)
Definition window_terms (G : list edge) (term : edge -> nat) (m s q i : nat) : list nat :=
  map term (slice (edges_until G (s + i)) (Nat.min (edges_until G (s + i + q - 1) + 1) m) G).
Lemma slice_In : forall A (l : list A) a b x, In x (slice a b l) -> In x l.
Proof. intros A l a b x H. unfold slice in H. apply (In_skipn' _ l a). eapply In_firstn'. exact H. Qed.
Lemma summands_view : forall G o m s len g term i, view G o m s len g -> 1 <= g_query g -> i + g_query g <= len -> (forall e, In e G -> summand g e = Ok (term e)) ->
  summands g i = Ok (window_terms G term m s (g_query g) i).
Proof.
  intros G o m s len g term i V Hq Hl Ht. unfold summands. rewrite (window_view G o m s len g i V Hq Hl). cbn [bind]. apply mapM_all. intros e He. apply Ht. now apply slice_In in He.
Qed.
Lemma score_length_view : forall G o m s len g, view G o m s len g -> 1 <= g_query g -> g_query g <= len + 1 -> score_length g = Ok (len + 1 - g_query g).
Proof.
  intros G o m s len g (Ha & Hm & He & Hi & Hb) Hq Hl. unfold score_length. rewrite usub_ok by lia. cbn [bind]. rewrite Hi, map_length, seq_length.
  destruct (Nat.ltb_spec len (g_query g - 1)); [lia|]. f_equal. lia.
Qed.
Lemma view_windows : forall G o m s len g term, view G o m s len g -> 1 <= g_query g -> (forall e, In e G -> summand g e = Ok (term e)) ->
  let ws := map (window_terms G term m s (g_query g)) (seq 0 (len + 1 - g_query g)) in
  (forall i w, nth_error ws i = Some w -> summands g i = Ok w) /\ empty_tail ws.
Proof.
  intros G o m s len g term V Hq Ht ws. split.
  - intros i w E. unfold ws in E. rewrite nth_error_map in E. destruct (Nat.lt_ge_cases i (len + 1 - g_query g)) as [Hi|Hi].
    + rewrite nth_error_seq in E by exact Hi. cbn in E. injection E as <-. apply (summands_view G o m s len g term i V Hq ltac:(lia) Ht).
    + rewrite (proj2 (nth_error_None _ _)) in E by (rewrite seq_length; lia). discriminate.
  - intros a b E w Hw. pose proof (f_equal (@length _) E) as L. unfold ws in L. rewrite map_length, seq_length, app_length in L. cbn [length] in L.
    apply In_nth_error in Hw. destruct Hw as (k & Hk).
    assert (E1 : nth_error ws (length a) = Some []) by (rewrite E, nth_error_app2 by lia; rewrite Nat.sub_diag; reflexivity).
    assert (E2 : nth_error ws (length a + S k) = Some w) by (rewrite E, nth_error_app2 by lia; replace (length a + S k - length a) with (S k) by lia; exact Hk).
    assert (Hk' : k < length b) by (apply nth_error_Some; congruence).
    unfold ws in E1, E2. rewrite nth_error_map, nth_error_seq in E1, E2 by lia. cbn [option_map Nat.add] in E1, E2. injection E1 as E1. injection E2 as <-.
    unfold window_terms in *. apply map_eq_nil in E1. rewrite (view_empty_later G o m s len g (length a) (length a + S k) V Hq); [reflexivity|lia|lia|exact E1].
Qed.
