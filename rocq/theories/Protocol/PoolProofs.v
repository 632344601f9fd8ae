From Coq Require Import List Arith Bool Lia Permutation.
From Verif.Base Require Import Res ListX.
From Verif.Protocol Require Import Model Pool.
Import ListNotations.

Lemma iter_sent : forall n h, Nat.iter n h_sent_one h = {| h_total := h_total h; h_sent := n + h_sent h; h_received := h_received h |}.
Proof. induction n as [|n IH]; intros h; [now destruct h|]. change (Nat.iter (S n) h_sent_one h) with (h_sent_one (Nat.iter n h_sent_one h)). now rewrite IH. Qed.

Lemma answered_all : forall A (l : list A) n a0 k p, k + length l <= n ->
  foldM answered l {| pool := {| h_total := n; h_sent := n - k; h_received := k |}; answers := a0; proceeds := p |}
  = Ok {| pool := {| h_total := n; h_sent := n - (k + length l); h_received := k + length l |}; answers := a0 ++ l;
          proceeds := p + (if (k <? n) && (k + length l =? n) then 1 else 0) |}.
Proof.
  intros A. induction l as [|a l IH]; intros n a0 k p H; cbn [foldM length].
  - rewrite !Nat.add_0_r, app_nil_r. f_equal. f_equal. destruct (Nat.ltb_spec k n); destruct (Nat.eqb_spec k n); cbn [andb]; lia.
  - cbn [length] in H. unfold answered at 1. unfold h_received_one. cbn [pool h_total h_sent h_received]. rewrite usub_ok by lia. cbn [bind answers proceeds].
    replace (n - k - 1) with (n - S k) by lia. rewrite IH by lia. unfold h_running. cbn [h_received h_total]. f_equal.
    replace (k + S (length l)) with (S k + length l) by lia. rewrite <- app_assoc. cbn [app]. f_equal.
    destruct (Nat.ltb_spec (S k) n); destruct (Nat.ltb_spec k n); destruct (Nat.eqb_spec (S k + length l) n); cbn [andb]; lia.
Qed.

Lemma run_pool_ok : forall A n (arrivals : list A), 1 <= n -> length arrivals <= n ->
  run_pool n arrivals = Ok {| pool := {| h_total := n; h_sent := n - length arrivals; h_received := length arrivals |}; answers := arrivals;
    proceeds := if length arrivals =? n then 1 else 0 |}.
Proof.
  intros A n arrivals Hn Hl. unfold run_pool, dispatch. rewrite iter_sent. cbn [h_total h_sent h_received new_helper].
  replace (n + 0) with (n - 0) by lia. rewrite answered_all by lia. cbn [Nat.add app]. f_equal. f_equal.
  destruct (Nat.ltb_spec 0 n); [reflexivity|lia].
Qed.

Definition init_inv (n d e : nat) (s : init_state) : Prop :=
  d <= n - 1 /\ e <= n - 1 /\
  degrees_protocol s = {| n_total := n - 1; n_received := d; n_sent := Nat.min (S d) (n - 1); buffer := [] |} /\
  weights_protocol s = {| n_total := n - 1; n_received := e; n_sent := Nat.min (S e) (n - 1); buffer := [] |} /\
  init_done_sent s = if (d =? n - 1) && (e =? n - 1) then 1 else 0.

Lemma running_counts : forall n d, d <= n - 1 -> is_running {| n_total := n - 1; n_received := d; n_sent := Nat.min (S d) (n - 1); buffer := @nil unit |} = negb (d =? n - 1).
Proof.
  intros n d H. unfold is_running. cbn [n_received n_total n_sent].
  destruct (Nat.ltb_spec d (n - 1)); destruct (Nat.ltb_spec (Nat.min (S d) (n - 1)) (n - 1)); destruct (Nat.eqb_spec d (n - 1)); cbn; auto; lia.
Qed.

Lemma init_step_degrees : forall n d e s, 2 <= n -> init_inv n d e s -> S d <= n - 1 -> init_inv n (S d) e (ring_handle s Degrees).
Proof.
  intros n d e s Hn (Hd & He & Ed & Ee & Ei) Hs. unfold ring_handle. rewrite Ed. unfold received. rewrite running_counts by lia.
  destruct (Nat.eqb_spec d (n - 1)) as [|_]; [lia|]. cbn [negb]. cbn [n_total n_received n_sent buffer].
  unfold is_running at 1. cbn [n_total n_received n_sent]. replace (Nat.min (S d) (n - 1)) with (S d) by lia.
  destruct (Nat.ltb_spec (S d) (n - 1)) as [L|L]; cbn [orb].
  - unfold init_inv. cbn [degrees_protocol weights_protocol init_done_sent sent n_total n_received n_sent buffer]. ssplit; try lia; auto.
    + unfold sent. cbn [n_total n_received n_sent buffer]. f_equal. lia.
    + rewrite Ei. destruct (Nat.eqb_spec d (n - 1)); destruct (Nat.eqb_spec (S d) (n - 1)); cbn [andb]; try lia; reflexivity.
  - assert (E : init_done {| degrees_protocol := {| n_total := n - 1; n_received := S d; n_sent := S d; buffer := [] |}; weights_protocol := weights_protocol s; init_done_sent := init_done_sent s |} = (e =? n - 1)).
    { unfold init_done. cbn [degrees_protocol weights_protocol]. rewrite Ee, running_counts by lia. unfold is_running. cbn [n_total n_received n_sent].
      destruct (Nat.ltb_spec (S d) (n - 1)); [lia|]. cbn [orb]. now rewrite negb_involutive. }
    rewrite E. destruct (Nat.eqb_spec d (n - 1)); [lia|]. cbn [andb] in Ei.
    destruct (Nat.eqb_spec e (n - 1)) as [E'|E']; unfold init_inv; cbn [degrees_protocol weights_protocol init_done_sent]; ssplit; try lia; auto.
    + f_equal. lia.
    + rewrite Ei. replace (S d =? n - 1) with true by (symmetry; apply Nat.eqb_eq; lia). replace (e =? n - 1) with true by (symmetry; now apply Nat.eqb_eq). reflexivity.
    + f_equal. lia.
    + rewrite Ei. replace (e =? n - 1) with false by (symmetry; now apply Nat.eqb_neq). now rewrite andb_false_r.
Qed.

Lemma init_step_weights : forall n d e s, 2 <= n -> init_inv n d e s -> S e <= n - 1 -> init_inv n d (S e) (ring_handle s Weights).
Proof.
  intros n d e s Hn (Hd & He & Ed & Ee & Ei) Hs. unfold ring_handle. rewrite Ee. unfold received. rewrite running_counts by lia.
  destruct (Nat.eqb_spec e (n - 1)) as [|_]; [lia|]. cbn [negb]. cbn [n_total n_received n_sent buffer].
  unfold is_running at 1. cbn [n_total n_received n_sent]. replace (Nat.min (S e) (n - 1)) with (S e) by lia.
  destruct (Nat.ltb_spec (S e) (n - 1)) as [L|L]; cbn [orb].
  - unfold init_inv. cbn [degrees_protocol weights_protocol init_done_sent sent n_total n_received n_sent buffer]. ssplit; try lia; auto.
    + unfold sent. cbn [n_total n_received n_sent buffer]. f_equal. lia.
    + rewrite Ei. destruct (Nat.eqb_spec e (n - 1)); destruct (Nat.eqb_spec (S e) (n - 1)); try lia; rewrite !andb_false_r; reflexivity.
  - assert (E : init_done {| degrees_protocol := degrees_protocol s; weights_protocol := {| n_total := n - 1; n_received := S e; n_sent := S e; buffer := [] |}; init_done_sent := init_done_sent s |} = (d =? n - 1)).
    { unfold init_done. cbn [degrees_protocol weights_protocol]. rewrite Ed, running_counts by lia. unfold is_running. cbn [n_total n_received n_sent].
      destruct (Nat.ltb_spec (S e) (n - 1)); [lia|]. cbn [orb]. now rewrite orb_false_r, negb_involutive. }
    rewrite E. destruct (Nat.eqb_spec e (n - 1)); [lia|]. rewrite andb_false_r in Ei.
    destruct (Nat.eqb_spec d (n - 1)) as [E'|E']; unfold init_inv; cbn [degrees_protocol weights_protocol init_done_sent]; ssplit; try lia; auto.
    + f_equal. lia.
    + rewrite Ei. replace (S e =? n - 1) with true by (symmetry; apply Nat.eqb_eq; lia). replace (d =? n - 1) with true by (symmetry; now apply Nat.eqb_eq). reflexivity.
    + f_equal. lia.
    + rewrite Ei. replace (d =? n - 1) with false by (symmetry; now apply Nat.eqb_neq). reflexivity.
Qed.

Lemma init_run : forall n ms, 2 <= n -> length (filter is_degrees ms) <= n - 1 -> length (filter (fun m => negb (is_degrees m)) ms) <= n - 1 ->
  init_inv n (length (filter is_degrees ms)) (length (filter (fun m => negb (is_degrees m)) ms)) (fold_left ring_handle ms (init_rings n)).
Proof.
  intros n ms Hn. induction ms as [|m ms IH] using rev_ind; intros Hd He.
  - cbn [filter length fold_left]. unfold init_inv, init_rings, sent, start, new_protocol. cbn [degrees_protocol weights_protocol init_done_sent n_total n_received n_sent buffer].
    ssplit; try lia; try (f_equal; lia). destruct (Nat.eqb_spec 0 (n - 1)); [lia|reflexivity].
  - rewrite !filter_app, !app_length in *. rewrite fold_left_app. cbn [fold_left]. destruct m; cbn [filter is_degrees negb length] in *.
    + rewrite Nat.add_1_r, Nat.add_0_r in *. apply init_step_degrees; auto. apply IH; lia.
    + rewrite Nat.add_1_r, Nat.add_0_r in *. apply init_step_weights; auto. apply IH; lia.
Qed.
