(** A scheduler that carries out a list of choices; used to exhibit runs. *)
From Coq Require Import List Arith Bool Lia.
From Verif.Pca Require Import Model Spec.
Import ListNotations.

(** [Deliver k]: message number [k] of the network arrives; [Handle p]: node [p] handles its next message.  Impossible choices do nothing. *)
Inductive choice := Deliver (k : nat) | Handle (p : nat).

Definition choose (cf : config) (s : pstate) (c : choice) : pstate :=
  match c with
  | Deliver k =>
      match nth_error (net s) k with
      | None => s
      | Some (src, d, m) =>
          if fifo cf && existsb (fun x => let '(a, b, _) := x in (a =? src) && (b =? d)) (firstn k (net s)) then s
          else {| nodes := upd (nodes s) d (with_mail (nodes s d) (mail (nodes s d) ++ [m]));
                  net := firstn k (net s) ++ skipn (S k) (net s); finals := finals s; panicked := panicked s |}
      end
  | Handle p =>
      if p <? n_nodes cf then match mail (nodes s p) with [] => s | m :: rest => process cf p s m rest end else s
  end.

Definition run (cf : config) (cs : list choice) : pstate := fold_left (choose cf) cs (initial cf).

Lemma choose_step : forall cf s c, choose cf s c = s \/ step cf s (choose cf s c).
Proof.
  intros cf s c. destruct c as [k|p]; cbn [choose].
  - destruct (nth_error (net s) k) as [[[src d] m]|] eqn:E; [|now left].
    destruct (fifo cf && _) eqn:Ef; [now left|]. right.
    apply nth_error_split in E. destruct E as (l1 & l2 & E & El). subst k.
    rewrite E in *. rewrite firstn_app, Nat.sub_diag, firstn_all in *. cbn [firstn] in *. rewrite app_nil_r in *.
    replace (skipn (S (length l1)) (l1 ++ (src, d, m) :: l2)) with l2.
    2:{ rewrite skipn_app, skipn_all2 by lia. replace (S (length l1) - length l1) with 1 by lia. reflexivity. }
    apply s_arrive with (src := src); [exact E|].
    intros Hf m' Hin. rewrite Hf in Ef. cbn [andb] in Ef.
    assert (existsb (fun x : nat * nat * pmsg => let '(a, b, _) := x in (a =? src) && (b =? d)) l1 = true).
    { apply existsb_exists. exists (src, d, m'). split; [exact Hin|]. now rewrite !Nat.eqb_refl. }
    congruence.
  - destruct (Nat.ltb_spec p (n_nodes cf)); [|now left]. destruct (mail (nodes s p)) as [|m rest] eqn:E; [now left|].
    right. now apply s_process.
Qed.

Lemma choose_reach : forall cf s c, reachable cf any_run s -> reachable cf any_run (choose cf s c).
Proof.
  intros cf s c H. destruct (choose_step cf s c) as [->|Hs]; [exact H|]. eapply reach_step; [exact H|exact Hs|exact I].
Qed.

Lemma run_reach : forall cf cs, reachable cf any_run (run cf cs).
Proof.
  intros cf cs. unfold run. assert (G : forall l s, reachable cf any_run s -> reachable cf any_run (fold_left (choose cf) l s)).
  { induction l as [|c l IH]; intros s H; [exact H|]. cbn [fold_left]. apply IH. now apply choose_reach. }
  apply G. constructor.
Qed.

(** Runs that stay inside [nobody_early]. *)
Definition early_b (cf : config) (s : pstate) : bool :=
  forallb (fun p => started (nodes s p) || match buffer (nodes s p) with [] => true | _ => false end) (seq 0 (n_nodes cf)).

Lemma early_b_ok : forall cf s, early_b cf s = true -> nobody_early cf s.
Proof.
  intros cf s H p Hp Hs. unfold early_b in H. rewrite forallb_forall in H. specialize (H p). rewrite in_seq in H. specialize (H ltac:(lia)).
  rewrite Hs in H. cbn in H. destruct (buffer (nodes s p)); [reflexivity|discriminate].
Qed.

Lemma run_early : forall cf cs, forallb (fun k => early_b cf (run cf (firstn k cs))) (seq 0 (S (length cs))) = true ->
  reachable cf (nobody_early cf) (run cf cs).
Proof.
  intros cf cs H. rewrite forallb_forall in H.
  assert (G : forall k, k <= length cs -> reachable cf (nobody_early cf) (run cf (firstn k cs))).
  { induction k as [|k IH]; intros Hk; [constructor|]. specialize (IH ltac:(lia)).
    assert (E : exists c, firstn (S k) cs = firstn k cs ++ [c]).
    { destruct (nth_error cs k) as [c|] eqn:En; [|apply nth_error_None in En; lia]. exists c. apply nth_error_split in En.
      destruct En as (l1 & l2 & -> & El). subst k. rewrite !firstn_app, Nat.sub_diag, firstn_all. replace (S (length l1) - length l1) with 1 by lia.
      rewrite firstn_all2 by lia. cbn. now rewrite app_nil_r. }
    destruct E as (c & E). pose proof (H (S k)) as Hok. rewrite in_seq in Hok. specialize (Hok ltac:(lia)). apply early_b_ok in Hok.
    rewrite E in *. unfold run in *. rewrite fold_left_app in *. cbn [fold_left] in *.
    destruct (choose_step cf (fold_left (choose cf) (firstn k cs) (initial cf)) c) as [Es|Es]; [now rewrite Es|].
    econstructor; eauto. }
  specialize (G (length cs) (le_n _)). now rewrite firstn_all in G.
Qed.

(** Runs that stay inside any decidable condition. *)
Lemma run_inside : forall cf (ok : pstate -> Prop) (okb : pstate -> bool) cs, (forall s, okb s = true -> ok s) ->
  forallb (fun k => okb (run cf (firstn k cs))) (seq 0 (S (length cs))) = true -> reachable cf ok (run cf cs).
Proof.
  intros cf ok okb cs Hok H. rewrite forallb_forall in H.
  assert (G : forall k, k <= length cs -> reachable cf ok (run cf (firstn k cs))).
  { induction k as [|k IH]; intros Hk; [constructor|]. specialize (IH ltac:(lia)).
    assert (E : exists c, firstn (S k) cs = firstn k cs ++ [c]).
    { destruct (nth_error cs k) as [c|] eqn:En; [|apply nth_error_None in En; lia]. exists c. apply nth_error_split in En.
      destruct En as (l1 & l2 & -> & El). subst k. rewrite !firstn_app, Nat.sub_diag, firstn_all. replace (S (length l1) - length l1) with 1 by lia.
      rewrite firstn_all2 by lia. cbn. now rewrite app_nil_r. }
    destruct E as (c & E). pose proof (H (S k)) as Ho. rewrite in_seq in Ho. specialize (Ho ltac:(lia)). apply Hok in Ho.
    rewrite E in *. unfold run in *. rewrite fold_left_app in *. cbn [fold_left] in *.
    destruct (choose_step cf (fold_left (choose cf) (firstn k cs) (initial cf)) c) as [Es|Es]; [now rewrite Es|].
    econstructor; eauto. }
  specialize (G (length cs) (le_n _)). now rewrite firstn_all in G.
Qed.

Definition none_b {A} (l : list A) : bool := match l with [] => true | _ => false end.
Definition nothing_b (cf : config) (s : pstate) : bool :=
  forallb (fun p => started (nodes s p) || (none_b (buffer (nodes s p)) && none_b (means_buffer (nodes s p)))) (seq 0 (n_nodes cf)).
Lemma nothing_b_ok : forall cf s, nothing_b cf s = true -> nothing_early cf s.
Proof.
  intros cf s H p Hp Hs. unfold nothing_b in H. rewrite forallb_forall in H. specialize (H p). rewrite in_seq in H. specialize (H ltac:(lia)).
  rewrite Hs in H. cbn [orb] in H. apply andb_true_iff in H. destruct H as (A & B).
  destruct (buffer (nodes s p)); [|discriminate]. destruct (means_buffer (nodes s p)); [|discriminate]. auto.
Qed.
Definition means_of (x : nat * nat * pmsg) : list nat := match x with (_, 0, Means q) => [q] | _ => [] end.
Definition leaves_of (m : pmsg) : list nat := match m with R t _ => leaves t | _ => [] end.
Definition ahead_b (s : pstate) : bool :=
  forallb (fun q => negb (existsb (Nat.eqb q) (flat_map means_of (net s)))) (flat_map leaves_of (mail (nodes s 0))).
Lemma ahead_b_ok : forall s, ahead_b s = true -> means_ahead s.
Proof.
  intros s H t c q from Hi Hq Hn. unfold ahead_b in H. rewrite forallb_forall in H. specialize (H q).
  assert (E : existsb (Nat.eqb q) (flat_map means_of (net s)) = true).
  { apply existsb_exists. exists q. split; [|apply Nat.eqb_refl]. apply in_flat_map. eexists. split; [exact Hn|]. now left. }
  rewrite E in H. discriminate H. apply in_flat_map. exists (R t c). split; [exact Hi|exact Hq].
Qed.
Lemma run_nothing_early : forall cf cs, forallb (fun k => nothing_b cf (run cf (firstn k cs))) (seq 0 (S (length cs))) = true ->
  reachable cf (nothing_early cf) (run cf cs).
Proof. intros cf cs H. exact (run_inside cf _ (nothing_b cf) cs (nothing_b_ok cf) H). Qed.
Lemma run_ahead : forall cf cs, forallb (fun k => nothing_b cf (run cf (firstn k cs)) && ahead_b (run cf (firstn k cs))) (seq 0 (S (length cs))) = true ->
  reachable cf (fun s => nothing_early cf s /\ means_ahead s) (run cf cs).
Proof.
  intros cf cs H. refine (run_inside cf _ (fun s => nothing_b cf s && ahead_b s) cs _ H). intros s E. apply andb_true_iff in E. destruct E.
  split; [now apply nothing_b_ok|now apply ahead_b_ok].
Qed.
Definition apart_b (cf : config) (s : pstate) : bool :=
  forallb (fun p => match mail (nodes s p) with
    | R _ _ :: _ | Means _ :: _ => forallb (fun q => n_reduced (nodes s q) <=? n_reduced (nodes s p)) (seq 0 (n_nodes cf))
    | _ => true end) (seq 0 (n_nodes cf)).
Lemma apart_b_ok : forall cf s, apart_b cf s = true -> rounds_apart cf s.
Proof.
  intros cf s H p q Hp Hq Hlt. unfold apart_b in H. rewrite forallb_forall in H. specialize (H p). rewrite in_seq in H. specialize (H ltac:(lia)).
  destruct (mail (nodes s p)) as [|[] rest]; try exact I; rewrite forallb_forall in H; specialize (H q); rewrite in_seq in H; specialize (H ltac:(lia));
    apply Nat.leb_le in H; lia.
Qed.
Lemma run_apart : forall cf cs, forallb (fun k => apart_b cf (run cf (firstn k cs)) && ahead_b (run cf (firstn k cs))) (seq 0 (S (length cs))) = true ->
  reachable cf (fun s => rounds_apart cf s /\ means_ahead s) (run cf cs).
Proof.
  intros cf cs H. refine (run_inside cf _ (fun s => apart_b cf s && ahead_b s) cs _ H). intros s E. apply andb_true_iff in E. destruct E.
  split; [now apply apart_b_ok|now apply ahead_b_ok].
Qed.
Definition before_b (cf : config) (s : pstate) : bool :=
  forallb (fun p => match local (nodes s p) with None => none_b (buffer (nodes s p)) && none_b (means_buffer (nodes s p)) | Some _ => true end) (seq 0 (n_nodes cf)).
Lemma before_b_ok : forall cf s, before_b cf s = true -> nothing_before cf s.
Proof.
  intros cf s H p Hp Hs. unfold before_b in H. rewrite forallb_forall in H. specialize (H p). rewrite in_seq in H. specialize (H ltac:(lia)).
  rewrite Hs in H. apply andb_true_iff in H. destruct H as (A & B).
  destruct (buffer (nodes s p)); [|discriminate]. destruct (means_buffer (nodes s p)); [|discriminate]. auto.
Qed.
Lemma run_threads : forall cf cs, forallb (fun k => apart_b cf (run cf (firstn k cs)) && ahead_b (run cf (firstn k cs)) && before_b cf (run cf (firstn k cs))) (seq 0 (S (length cs))) = true ->
  reachable cf (fun s => rounds_apart cf s /\ means_ahead s /\ nothing_before cf s) (run cf cs).
Proof.
  intros cf cs H. refine (run_inside cf _ (fun s => apart_b cf s && ahead_b s && before_b cf s) cs _ H). intros s E. apply andb_true_iff in E. destruct E as (E & E2).
  apply andb_true_iff in E. destruct E. split; [now apply apart_b_ok|split; [now apply ahead_b_ok|now apply before_b_ok]].
Qed.
