From Coq Require Import List Arith Bool Lia Permutation Sorting.Sorted.
From Verif.Base Require Import Res Params Assoc ListX.
From Verif.Topology Require Import Proofs.
From Verif.Transition Require Import Spec Proofs.
From Verif.Segmentation Require Import Model Spec Blocks Proofs PathProofs.
From Verif.Edges Require Import Model Spec OrdererProofs Proofs.
Import ListNotations.

Lemma map_add_seq : forall a m, map (fun j => a + j) (seq 0 m) = seq a m.
Proof. intros a m. induction m as [|m IH]; [reflexivity|]. rewrite !seq_S, map_app, IH. reflexivity. Qed.
Lemma last_cons : forall A (l : list A) x d, last (x :: l) d = last l x.
Proof. intros A l. induction l as [|y l IH]; intros x d; [reflexivity|]. change (last (x :: y :: l) d) with (last (y :: l) d). now rewrite (IH y d), (IH y x). Qed.
Lemma last_error_last : forall A (l : list A) x, last_error (x :: l) = Some (last l x).
Proof.
  intros A l x. destruct (exists_last (l := x :: l) ltac:(discriminate)) as (l' & z & E). rewrite E, last_error_snoc. f_equal.
  rewrite <- (last_cons A l x x), E. now rewrite last_last.
Qed.

Section Arc.
Variable r : nat.
Variable lab : nat -> node.
Hypothesis lab_seg : forall s, n_segment (lab s) = s.

(** The nodes of a list in the order of their segments. *)
Definition by_segment (l : list node) : list node := concat (map (fun s => filter (fun x => n_segment x =? s) l) (seq 0 r)).

Lemma consecutive_seq : forall k b, 1 <= k -> consecutive (map lab (seq b k)).
Proof.
  induction k as [|k IH]; intros b Hk; [lia|]. destruct k as [|k]; [constructor|]. cbn [seq map]. apply c_more; [rewrite !lab_seg; lia|]. apply (IH (S b)). lia.
Qed.
Lemma filter_seg_in : forall L s, NoDup L -> In s L -> filter (fun x => n_segment x =? s) (map lab L) = [lab s].
Proof.
  induction L as [|a L IH]; intros s ND Hi; [easy|]. inversion ND as [|? ? Hn ND']; subst. cbn [map filter]. rewrite lab_seg. destruct (Nat.eqb_spec a s) as [->|Hne].
  - f_equal. apply filter_nil. intros x Hx. apply in_map_iff in Hx. destruct Hx as (s' & <- & Hs'). rewrite lab_seg. apply Nat.eqb_neq. intros ->. contradiction.
  - apply IH; [assumption|]. destruct Hi; [congruence|assumption].
Qed.
Lemma filter_seg_out : forall L s, ~ In s L -> filter (fun x => n_segment x =? s) (map lab L) = [].
Proof. intros L s Hn. apply filter_nil. intros x Hx. apply in_map_iff in Hx. destruct Hx as (s' & <- & Hs'). rewrite lab_seg. apply Nat.eqb_neq. intros ->. contradiction. Qed.

Lemma by_segment_straight : forall b m, b + m <= r -> by_segment (map lab (seq b m)) = map lab (seq b m).
Proof.
  intros b m Hb. unfold by_segment. replace r with (b + (m + (r - b - m))) by lia. rewrite !seq_app, !map_app, !concat_app. cbn [Nat.add].
  rewrite (concat_nils _ _ _ (seq 0 b)) by (intros s Hs; apply filter_seg_out; rewrite in_seq in *; lia).
  rewrite (concat_singles _ _ _ lab (seq b m)) by (intros s Hs; apply filter_seg_in; [apply seq_NoDup|exact Hs]).
  rewrite (concat_nils _ _ _ (seq (b + m) _)) by (intros s Hs; apply filter_seg_out; rewrite in_seq in *; lia). apply app_nil_r.
Qed.
Lemma by_segment_wrapping : forall b c, c <= b < r -> by_segment (map lab (seq b (r - b) ++ seq 0 c)) = map lab (seq 0 c) ++ map lab (seq b (r - b)).
Proof.
  intros b c Hb. unfold by_segment. 
  assert (ND : NoDup (seq b (r - b) ++ seq 0 c)).
  { apply NoDup_app_intro; [apply seq_NoDup|apply seq_NoDup|]. intros s H1 H2. rewrite in_seq in *. lia. }
  assert (E : seq 0 r = seq 0 c ++ seq c (b - c) ++ seq b (r - b)).
  { rewrite <- (seq_app (b - c) (r - b) c) || idtac. replace r with (c + ((b - c) + (r - b))) at 1 by lia. rewrite !seq_app. cbn [Nat.add]. now replace (c + (b - c)) with b by lia. }
  rewrite E, !map_app, !concat_app. rewrite <- map_app.
  rewrite (concat_singles _ _ _ lab (seq 0 c)) by (intros s Hs; apply filter_seg_in; [exact ND|apply in_or_app; now right]).
  rewrite (concat_nils _ _ _ (seq c (b - c))) by (intros s Hs; apply filter_seg_out; rewrite in_app_iff, !in_seq in *; lia).
  rewrite (concat_singles _ _ _ lab (seq b (r - b))) by (intros s Hs; apply filter_seg_in; [exact ND|apply in_or_app; now left]). reflexivity.
Qed.

(** The nodes at [m] segments from [a] on, counter-clockwise. *)
Definition arc (a m : nat) : list node := map (fun j => lab ((a + j) mod r)) (seq 0 m).
Lemma arc_straight : forall a m, a + m <= r -> arc a m = map lab (seq a m).
Proof. intros a m H. unfold arc. rewrite <- (map_add_seq a m), map_map. apply map_ext_in. intros j Hj. apply in_seq in Hj. rewrite Nat.mod_small by lia. reflexivity. Qed.
Lemma arc_wrapping : forall a m, a < r -> r < a + m -> m <= r -> arc a m = map lab (seq a (r - a) ++ seq 0 (a + m - r)).
Proof.
  intros a m Ha Hm Hr. unfold arc. replace m with ((r - a) + (a + m - r)) at 1 by lia. rewrite seq_app, !map_app. cbn [Nat.add]. f_equal.
  - rewrite <- (map_add_seq a (r - a)), map_map. apply map_ext_in. intros j Hj. apply in_seq in Hj. rewrite Nat.mod_small by lia. reflexivity.
  - rewrite <- (map_add_seq (r - a)), map_map. apply map_ext_in. intros j Hj. apply in_seq in Hj. replace (a + (r - a + j)) with (j + 1 * r) by lia. rewrite Nat.mod_add by lia. rewrite Nat.mod_small by lia. reflexivity.
Qed.

Lemma arc_connect : forall previous a m, a < r -> 1 <= m < r -> 
  (previous = None -> a = r - 1 -> 2 <= m -> connect_point previous (by_segment (arc a m)) = Panic UnwrapNone) /\
  (previous <> None \/ a <> r - 1 \/ m = 1 -> connect_point previous (by_segment (arc a m)) = Ok (pairs (opt_list previous ++ arc a m), last_error (arc a m))) /\
  by_segment (arc a m) <> [].
Proof.
  intros previous a m Ha Hm. destruct (le_lt_dec (a + m) r) as [L|L].
  - rewrite arc_straight by lia. rewrite by_segment_straight by lia. destruct m as [|m]; [lia|]. ssplit.
    + intros; lia.
    + intros _. pose proof (consecutive_seq (S m) a ltac:(lia)) as C. cbn [seq map] in *. rewrite connect_consecutive by exact C. now rewrite last_error_last.
    + discriminate.
  - rewrite arc_wrapping by lia. rewrite by_segment_wrapping by lia. rewrite map_app.
    pose proof (consecutive_seq (r - a) a ltac:(lia)) as C1. pose proof (consecutive_seq (a + m - r) 0 ltac:(lia)) as C2.
    destruct (a + m - r) as [|c] eqn:Ec; [lia|]. destruct (r - a) as [|d] eqn:Ed; [lia|]. cbn [seq map app] in *.
    assert (G : n_segment (lab a) <> n_segment (last (map lab (seq 1 c)) (lab 0)) + 1).
    { rewrite <- (last_cons _ (map lab (seq 1 c)) (lab 0) (lab 0)). change (lab 0 :: map lab (seq 1 c)) with (map lab (seq 0 (S c))). rewrite seq_S, map_app. cbn [map]. rewrite last_last, !lab_seg. lia. }
    rewrite (connect_wrapping _ _ _ _ _ C2 C1 G). ssplit.
    + intros -> Ea _. destruct d; [reflexivity|lia].
    + intros H. 
      assert (EE : last_error (lab a :: map lab (seq (S a) d) ++ lab 0 :: map lab (seq 1 c)) = Some (last (map lab (seq 1 c)) (lab 0))).
      { destruct (exists_last (l := lab 0 :: map lab (seq 1 c)) ltac:(discriminate)) as (l' & z & E). rewrite E. change (lab a :: map lab (seq (S a) d) ++ l' ++ [z]) with ((lab a :: map lab (seq (S a) d)) ++ l' ++ [z]).
        rewrite app_assoc, last_error_snoc. f_equal. rewrite <- (last_cons _ _ (lab 0) (lab 0)), E. now rewrite last_last. }
      rewrite EE. destruct previous as [pt|]; [reflexivity|]. destruct (map lab (seq (S a) d)) as [|u us] eqn:Em; [|reflexivity]. exfalso. destruct d; [|discriminate]. destruct H as [H|[H|H]]; [congruence|lia|lia].
    + discriminate.
Qed.
End Arc.
