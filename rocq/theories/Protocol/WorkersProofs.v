From Coq Require Import List Arith Lia Permutation.
From Verif.Base Require Import Res ListX.
From Verif.Protocol Require Import Model Pool PoolProofs Workers.
Import ListNotations.

Section Proofs.
Context {T A : Type}.
Variable work : T -> res A.
Variable pa : bool.
Notation world := (@world T A).

Lemma foldM_snoc : forall X Y (f : Y -> X -> res Y) l x s, foldM f (l ++ [x]) s = bind (foldM f l s) (fun s' => f s' x).
Proof.
  intros X Y f l. induction l as [|y l IH]; intros x s; cbn [app foldM bind].
  - destruct (f s x); reflexivity.
  - destruct (f s y) as [s'|q]; cbn [bind]; [apply IH|reflexivity].
Qed.

Lemma run_pool_snoc : forall n (arr : list A) a r, run_pool n arr = Ok r -> run_pool n (arr ++ [a]) = answered r a.
Proof. intros n arr a r H. unfold run_pool in *. rewrite foldM_snoc, H. reflexivity. Qed.

(** Every task is waiting, lost with its thread, or done; every answer belongs to a done task. *)
Definition accounted (running : nat) (tasks : list T) (w : world) : Prop := exists lost fin arrivals,
  Permutation tasks (queue w ++ lost ++ fin) /\ (forall t, In t lost -> exists q, work t = Panic q) /\ threads w + length lost = running
  /\ Permutation (map Ok (arrivals ++ under_way w)) (map work fin) /\ run_pool (length tasks) arrivals = Ok (asker w).

Lemma accounted_counts : forall running tasks w, accounted running tasks w -> exists arrivals,
  run_pool (length tasks) arrivals = Ok (asker w) /\ length arrivals + length (under_way w) + length (queue w) <= length tasks.
Proof.
  intros running tasks w (lost & fin & arr & P & _ & _ & Q & R). exists arr. split; [exact R|].
  apply Permutation_length in P. apply Permutation_length in Q. rewrite !app_length in P. rewrite !map_length, app_length in Q. lia.
Qed.

Lemma accounted_start : forall running tasks, accounted running tasks (sent_off running tasks).
Proof.
  intros running tasks. exists [], [], []. cbn. rewrite app_nil_r. split; [reflexivity|]. split; [intros t []|]. split; [lia|]. split; reflexivity.
Qed.

Lemma accounted_step : forall running tasks w w', accounted running tasks w -> happens work pa w w' -> accounted running tasks w'.
Proof.
  intros running tasks w w' (lost & fin & arr & P & L & N & Q & R) H.
  destruct H as [l t r k fly a0 a E | l t r k fly a0 q E | q k l a r a0 a1 E]; cbn [queue threads under_way asker] in *.
  - exists lost, (t :: fin), arr. cbn [queue threads under_way asker]. split; [|split; [|split; [|split]]]; auto.
    + etransitivity; [exact P|]. rewrite <- !app_assoc. cbn [app]. apply Permutation_app_head.
      replace (r ++ lost ++ t :: fin) with ((r ++ lost) ++ t :: fin) by now rewrite app_assoc.
      replace (r ++ lost ++ fin) with ((r ++ lost) ++ fin) by now rewrite app_assoc. apply Permutation_middle.
    + cbn [map]. rewrite E. rewrite app_assoc, map_app. cbn [map]. etransitivity; [apply Permutation_app_comm|]. cbn [app]. now constructor.
  - exists (t :: lost), fin, arr. cbn [queue threads under_way asker]. split; [|split; [|split; [|split]]]; auto.
    + etransitivity; [exact P|]. rewrite <- !app_assoc. cbn [app]. apply Permutation_app_head. apply Permutation_middle.
    + intros x [<-|I]; [now exists q | now apply L].
    + cbn [length]. lia.
  - exists lost, fin, (arr ++ [a]). cbn [queue threads under_way asker]. split; [|split; [|split; [|split]]]; auto.
    + etransitivity; [|exact Q]. apply Permutation_map. rewrite <- app_assoc. apply Permutation_app_head. cbn [app]. apply Permutation_middle.
    + now rewrite (run_pool_snoc _ _ _ _ R).
Qed.

Lemma accounted_history : forall running tasks w w', history work pa w w' -> accounted running tasks w -> accounted running tasks w'.
Proof. intros running tasks w w' H. induction H; intros I; [exact I|]. apply IHhistory. eapply accounted_step; eauto. Qed.

Lemma reached : forall running tasks w, history work pa (sent_off running tasks) w -> accounted running tasks w.
Proof. intros running tasks w H. eapply accounted_history; [exact H|apply accounted_start]. Qed.

Lemma all_tasks_used : forall running tasks w t q, accounted running tasks w -> In t tasks -> work t = Panic q -> 
  exists arrivals, run_pool (length tasks) arrivals = Ok (asker w) /\ length arrivals + length (under_way w) < length tasks.
Proof.
  intros running tasks w t q (lost & fin & arr & P & L & N & Q & R) I E. exists arr. split; [exact R|].
  assert (~ In t fin).
  { intros F. assert (J : In (work t) (map Ok (arr ++ under_way w))).
    { eapply Permutation_in; [symmetry; exact Q|]. now apply in_map. }
    rewrite E in J. apply in_map_iff in J. destruct J as (a & J & _). discriminate J. }
  pose proof (Permutation_length P) as PL. pose proof (Permutation_length Q) as QL. rewrite !app_length in PL. rewrite !map_length, app_length in QL.
  assert (J : In t (queue w ++ lost ++ fin)) by (eapply Permutation_in; eauto).
  rewrite app_assoc in J. apply in_app_or in J. destruct J as [J|J]; [|contradiction].
  assert (1 <= length (queue w ++ lost)) by (destruct (queue w ++ lost); [destruct J|cbn; lia]). rewrite app_length in H0. lia.
Qed.

Lemma next_answer : forall running tasks w l a r, tasks <> [] -> accounted running tasks w -> under_way w = l ++ a :: r -> exists s, answered (asker w) a = Ok s.
Proof.
  intros running tasks w l a r Hn I U. destruct (accounted_counts _ _ _ I) as (arr & R & C).
  rewrite <- (run_pool_snoc _ _ a _ R). rewrite U, app_length in C. cbn [length] in C.
  rewrite run_pool_ok; [eexists; reflexivity| |rewrite app_length; cbn [length]; lia]. destruct tasks; [contradiction|cbn; lia].
Qed.

Lemma rest_inv : forall running tasks w, tasks <> [] -> accounted running tasks w -> at_rest work pa w -> ended w = false -> under_way w = [] /\ (queue w = [] \/ threads w = 0).
Proof.
  intros running tasks w Hn I Z En. split.
  - destruct (under_way w) as [|a r] eqn:U; [reflexivity|]. exfalso.
    destruct (next_answer _ _ w [] a r Hn I U) as (s & S1). destruct w as [qu k fl a0 en]. cbn in *. subst fl en.
    exact (Z _ (handles work pa qu k [] a r a0 s S1)).
  - destruct (queue w) as [|t r] eqn:U; [now left|]. right. destruct (threads w) as [|k] eqn:K; [reflexivity|]. exfalso.
    destruct w as [qu k' fl a0 en]. cbn in *. subst qu k' en. destruct (work t) as [a|q] eqn:W.
    + exact (Z _ (finishes work pa [] t r k fl a0 a W)).
    + exact (Z _ (breaks work pa [] t r k fl a0 q W)).
Qed.

(** The process only ends with a failed task. *)
Definition ended_why (running : nat) (w : world) : Prop := if pa then threads w + (if ended w then 1 else 0) = running else ended w = false.
Lemma ended_history : forall running w w', history work pa w w' -> ended_why running w -> ended_why running w'.
Proof.
  intros running w w' H. induction H as [|w1 w2 w3 H _ IH]; intros E; [exact E|]. apply IH. clear IH. unfold ended_why in *.
  destruct H; cbn [threads ended] in *; destruct pa; lia || assumption || reflexivity.
Qed.

Lemma still_running : forall running tasks w, (forall t, In t tasks -> exists a, work t = Ok a) -> history work pa (sent_off running tasks) w -> ended w = false.
Proof.
  intros running tasks w Hok H.
  assert (G : forall w0 w, history work pa w0 w -> (forall t, In t (queue w0) -> exists a, work t = Ok a) -> ended w0 = false -> ended w = false).
  { intros w0 w1 K. induction K as [|w1 w2 w3 K _ IH]; intros Q E; [exact E|]. apply IH; destruct K as [l t r k fl a0 a W|l t r k fl a0 q W|]; cbn [queue ended] in *.
    - intros x I. apply Q. apply in_app_or in I. apply in_or_app. destruct I; [now left|right; now right].
    - intros x I. apply Q. apply in_app_or in I. apply in_or_app. destruct I; [now left|right; now right].
    - exact Q.
    - reflexivity.
    - destruct (Q t) as (a & Wa); [apply in_or_app; right; now left|congruence].
    - reflexivity. }
  apply (G _ _ H); [exact Hok|reflexivity].
Qed.

Definition measure (w : world) : nat := 2 * length (queue w) + length (under_way w).
Lemma measure_step : forall w w', happens work pa w w' -> measure w' < measure w.
Proof. intros w w' H. destruct H; unfold measure; cbn [queue under_way]; rewrite ?app_length; cbn [length]; rewrite ?app_length; lia. Qed.

Lemma no_infinite : forall f : nat -> world, ~ (forall i, happens work pa (f i) (f (S i))).
Proof.
  intros f H. assert (B : forall i, measure (f i) + i <= measure (f 0)).
  { induction i as [|i IH]; [lia|]. pose proof (measure_step _ _ (H i)). lia. }
  specialize (B (S (measure (f 0)))). lia.
Qed.
Lemma history_trans : forall w1 w2 w3, history work pa w1 w2 -> history work pa w2 w3 -> history work pa w1 w3.
Proof. intros w1 w2 w3 H. induction H; intros K; [exact K|]. eapply later; eauto. Qed.
End Proofs.
