From Coq Require Import List Arith Lia Bool Permutation.
From Verif.Base Require Import Res ListX.
From Verif.Preprocess Require Import Model.
Import ListNotations.

Section D.
Variables (T n : nat).
Hypothesis HT : 1 <= T.

Definition inv (d : dispatch) : Prop :=
  n_cols_total d = n /\ n_cols_distributed d <= n /\ n_cols_processed d <= n_cols_distributed d
  /\ sent d = seq 0 (n_cols_distributed d)
  /\ Permutation (answered d ++ inflight d) (sent d)
  /\ length (answered d) = n_cols_processed d
  /\ length (inflight d) <= T
  /\ done d = (if andb (n_cols_processed d =? n) (1 <=? n) then 1 else 0)
  /\ (length (inflight d) = T \/ n_cols_distributed d = n).

Lemma firstn_seq : forall k a m, firstn k (seq a m) = seq a (Nat.min k m).
Proof. induction k as [|k IH]; intros a [|m]; cbn; auto. now rewrite IH. Qed.

Lemma distribute_inv : forall d, n_cols_total d = n -> n_cols_distributed d <= n ->
  n_cols_processed d <= n_cols_distributed d -> sent d = seq 0 (n_cols_distributed d) ->
  Permutation (answered d ++ inflight d) (sent d) -> length (answered d) = n_cols_processed d ->
  length (inflight d) <= T -> done d = 0 -> (n_cols_processed d <> n \/ n = 0) ->
  exists d', distribute_work T d = Ok d' /\ inv d' /\ n_cols_processed d' = n_cols_processed d.
Proof.
  intros d E1 H1 H2 H3 H4 H5 H6 H7 H8.
  assert (Li : length (inflight d) = n_cols_distributed d - n_cols_processed d).
  { apply Permutation_length in H4. rewrite app_length, H3, seq_length in H4. lia. }
  unfold distribute_work. rewrite usub_ok by lia. cbn [bind]. rewrite usub_ok by lia. cbn [bind].
  eexists. split; [reflexivity|]. rewrite E1, firstn_seq. unfold inv.
  cbn [n_cols_total n_cols_distributed n_cols_processed sent inflight answered done].
  rewrite !seq_length, !app_length, seq_length.
  set (k := Nat.min (T - (n_cols_distributed d - n_cols_processed d)) (n - n_cols_distributed d)).
  ssplit; try lia.
  - rewrite H3. rewrite <- seq_app. reflexivity.
  - rewrite app_assoc. now apply Permutation_app_tail.
  - rewrite H7. destruct (Nat.eqb_spec (n_cols_processed d) n); destruct (Nat.leb_spec 1 n); cbn; lia.
Qed.

Lemma reachable_inv : forall d, reachable T n d -> inv d.
Proof.
  intros d H. induction H as [d E|d col d' _ IH Hs].
  - destruct (distribute_inv (dispatch_new n)) as (d' & E' & HI & _); cbn; try lia; auto.
    rewrite E in E'. injection E' as ->. exact HI.
  - destruct Hs as [d before col after d' Hin Hh].
    destruct IH as (I1 & I2 & I3 & I4 & I5 & I6 & I7 & I8 & I9).
    assert (Li : length (inflight d) = n_cols_distributed d - n_cols_processed d).
    { apply Permutation_length in I5. rewrite app_length, I4, seq_length in I5. lia. }
    rewrite Hin, app_length in Li, I7. cbn [length] in Li, I7.
    assert (HP : Permutation ((answered d ++ [col]) ++ before ++ after) (sent d)).
    { rewrite <- I5, Hin, <- app_assoc. apply Permutation_app_head. cbn. apply Permutation_middle. }
    assert (Hd0 : done d = 0).
    { rewrite I8. destruct (Nat.eqb_spec (n_cols_processed d) n); [lia|reflexivity]. }
    unfold handle_processed in Hh. cbn [n_cols_processed n_cols_total n_cols_distributed sent inflight answered done] in Hh.
    rewrite I1 in Hh. destruct (Nat.eqb_spec (n_cols_processed d + 1) n) as [En|En].
    + injection Hh as <-. unfold inv. cbn [n_cols_processed n_cols_total n_cols_distributed sent inflight answered done].
      rewrite !app_length in *. cbn [length]. ssplit; auto; try lia.
      destruct (Nat.eqb_spec (n_cols_processed d + 1) n); destruct (Nat.leb_spec 1 n); cbn; lia.
    + edestruct distribute_inv as (d2 & E2 & HI & _); [..|rewrite E2 in Hh; injection Hh as <-; exact HI];
        cbn [n_cols_processed n_cols_total n_cols_distributed sent inflight answered done]; auto; rewrite ?app_length; cbn [length]; lia.
Qed.

Lemma reachable_start : exists d, reachable T n d.
Proof.
  destruct (distribute_inv (dispatch_new n)) as (d' & E' & _); cbn; try lia; auto.
  exists d'. now constructor.
Qed.

(** No deadlock and no abort: as long as the end has not been reported some column is in flight, and any answer can be handled. *)
Lemma answer_enabled : forall d before col after, reachable T n d -> inflight d = before ++ col :: after ->
  exists d', answer_step T d col d' /\ length (answered d') = S (length (answered d)).
Proof.
  intros d before col after Hr Hin.
  pose proof (reachable_inv d Hr) as (I1 & I2 & I3 & I4 & I5 & I6 & I7 & I8 & I9).
  assert (Li : length (inflight d) = n_cols_distributed d - n_cols_processed d).
  { apply Permutation_length in I5. rewrite app_length, I4, seq_length in I5. lia. }
  rewrite Hin, app_length in Li, I7. cbn [length] in Li, I7.
  assert (Hd0 : done d = 0).
  { rewrite I8. destruct (Nat.eqb_spec (n_cols_processed d) n); [lia|reflexivity]. }
  assert (HP : Permutation ((answered d ++ [col]) ++ before ++ after) (sent d)).
  { rewrite <- I5, Hin, <- app_assoc. apply Permutation_app_head. cbn. apply Permutation_middle. }
  assert (E : exists d', handle_processed T
      {| n_cols_total := n_cols_total d; n_cols_processed := n_cols_processed d; n_cols_distributed := n_cols_distributed d;
         sent := sent d; inflight := before ++ after; answered := answered d ++ [col]; done := done d |} = Ok d').
  { unfold handle_processed. cbn [n_cols_processed n_cols_total n_cols_distributed sent inflight answered done].
    rewrite I1. destruct (Nat.eqb_spec (n_cols_processed d + 1) n) as [En|En]; [eauto|].
    edestruct distribute_inv as (d2 & E2 & _); [..|exists d2; exact E2];
      cbn [n_cols_processed n_cols_total n_cols_distributed sent inflight answered done]; auto; rewrite ?app_length; cbn [length]; lia. }
  destruct E as (d' & E). assert (Hs : answer_step T d col d') by (econstructor; eauto).
  exists d'. split; [exact Hs|].
  assert (Hr' : reachable T n d') by (eapply r_step; eauto).
  pose proof (reachable_inv d' Hr') as (_ & _ & _ & _ & _ & J6 & _).
  rewrite J6, I6. unfold handle_processed in E. cbn [n_cols_processed n_cols_total n_cols_distributed sent inflight answered done] in E.
  destruct (n_cols_processed d + 1 =? n_cols_total d).
  - injection E as <-. cbn. lia.
  - unfold distribute_work in E. apply bind_ok_inv in E. destruct E as (? & _ & E). apply bind_ok_inv in E.
    destruct E as (? & _ & E). injection E as <-. cbn. lia.
Qed.

Theorem dispatch_ok : forall d, reachable T n d ->
  NoDup (sent d) /\ (forall col, In col (sent d) -> col < n)
  /\ Permutation (answered d ++ inflight d) (sent d)
  /\ length (inflight d) <= T
  /\ (done d = 1 <-> (1 <= n /\ Permutation (answered d) (seq 0 n)))
  /\ done d <= 1
  /\ (1 <= n -> done d = 0 -> inflight d <> []).
Proof.
  intros d Hr. pose proof (reachable_inv d Hr) as (I1 & I2 & I3 & I4 & I5 & I6 & I7 & I8 & I9).
  assert (Li : length (inflight d) = n_cols_distributed d - n_cols_processed d).
  { apply Permutation_length in I5. rewrite app_length, I4, seq_length in I5. lia. }
  ssplit; auto.
  - rewrite I4. apply seq_NoDup.
  - intros col Hc. rewrite I4 in Hc. apply in_seq in Hc. lia.
  - rewrite I8. destruct (Nat.leb_spec 1 n); [|rewrite andb_false_r; split; [discriminate|lia]].
    rewrite andb_true_r. destruct (Nat.eqb_spec (n_cols_processed d) n) as [En|En].
    + split; [intros _|reflexivity]. split; [lia|].
      assert (inflight d = []) as E0 by (apply length_zero_iff_nil; lia).
      rewrite E0, app_nil_r, I4 in I5. replace n with (n_cols_distributed d) by lia. exact I5.
    + split; [discriminate|]. intros (_ & HP). apply Permutation_length in HP. rewrite seq_length in HP. lia.
  - rewrite I8. destruct (_ && _); lia.
  - intros Hn Hd E0. rewrite E0 in *. cbn [length] in *.
    assert (n_cols_distributed d = n) by lia. assert (n_cols_processed d = n) by lia.
    rewrite I8 in Hd. destruct (Nat.eqb_spec (n_cols_processed d) n); [|lia].
    destruct (Nat.leb_spec 1 n); [discriminate|lia].
Qed.

End D.

(** With no worker thread nothing is ever handed out. *)
Lemma no_threads_hang : forall n d, reachable 0 n d -> inflight d = [] /\ sent d = [] /\ done d = 0.
Proof.
  intros n d H. induction H as [d E|d col d' _ (I1 & _ & _) Hs].
  - unfold distribute_work in E. cbn in E. injection E as <-. cbn. auto.
  - destruct Hs as [d before col after d' Hin _]. rewrite I1 in Hin. destruct before; discriminate.
Qed.

Lemma no_columns_hang : forall T d, reachable T 0 d -> inflight d = [] /\ done d = 0.
Proof.
  intros T d H. induction H as [d E|d col d' _ (I1 & _) Hs].
  - unfold distribute_work in E. cbn in E. rewrite firstn_nil in E.
    injection E as <-. auto.
  - destruct Hs as [d before col after d' Hin _]. rewrite I1 in Hin. destruct before; discriminate.
Qed.

(** ** The worker *)
Section H.
Context {num : Type} (eqb : num -> num -> bool) (add mul : num -> num -> num) (of_nat : nat -> num) (tenth : num).

Lemma flat_loop_bound : forall ws data r last current regions bound,
  r + length data <= bound -> Forall (fun i => i < r) current -> Forall (Forall (fun i => i < bound)) regions ->
  Forall (Forall (fun i => i < bound)) (flat_loop eqb ws r last current regions data).
Proof.
  intros ws data; induction data as [|v t IH]; intros r last current regions bound Hb Hc Hr; cbn [flat_loop length] in *.
  - destruct (_ <? _); [|exact Hr]. apply Forall_app. split; [exact Hr|]. constructor; [|constructor].
    eapply Forall_impl; [|exact Hc]. cbn. intros; lia.
  - destruct (_ && _).
    + apply IH; [lia| |exact Hr]. apply Forall_app. split; [|repeat constructor].
      eapply Forall_impl; [|exact Hc]. cbn. intros; lia.
    + apply IH; [lia|constructor|]. destruct (_ <? _); [|exact Hr]. apply Forall_app. split; [exact Hr|].
      constructor; [|constructor]. eapply Forall_impl; [|exact Hc]. cbn. intros; lia.
Qed.

Lemma select_ok : forall data idx, Forall (fun i => i < length data) idx -> exists s, @select num data idx = Ok s.
Proof.
  intros data idx H. unfold select. induction H as [|i t Hi HF (s & IH)]; [eexists; reflexivity|].
  cbn [mapM]. destruct (nth_error data i) as [x|] eqn:E; [|apply nth_error_None in E; lia].
  cbn [bind]. rewrite IH. eexists; reflexivity.
Qed.

Theorem preprocess_identity : forall ws data std, data <> [] ->
  preprocess eqb add mul of_nat tenth ws data std = Ok data.
Proof.
  intros ws data std Hne. unfold preprocess. destruct data as [|x t]; [congruence|]. clear Hne.
  assert (HF : Forall (Forall (fun i => i < length (x :: t))) (flat_loop eqb ws 0 x [] [] (x :: t))).
  { apply flat_loop_bound; [lia|constructor|constructor]. }
  cbv zeta. set (data := x :: t) in *. clearbody data.
  induction HF as [|region rs Hr HF IH]; [reflexivity|]. cbn [foldM].
  destruct (select_ok data region Hr) as (s & Es). unfold background_oscillation. rewrite Es. cbn [bind]. exact IH.
Qed.
End H.
