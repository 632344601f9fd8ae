From Coq Require Import List Arith Lia.
From Verif.Base Require Import Res.
From Verif.Interface Require Import Model.
Import ListNotations.

Section Sink.
Context {T : Type}.

Lemma polls_channel : forall (l : list (call T)) s, Forall (fun c => forall x, c <> Send x) l ->
  content (calls l s) = content s
  /\ channel (calls l s) = channel s ++ match content s with Some x => repeat x (length l) | None => [] end.
Proof.
  intros l. induction l as [|c t IH]; intros s HF.
  - cbn. destruct (content s); now rewrite app_nil_r.
  - inversion HF as [|c' t' Hc Ht]; subst. cbn [calls fold_left]. fold (calls t (on_call s c)).
    assert (E : on_call s c = poll_ready s) by (destruct c; try reflexivity; exfalso; eapply Hc; reflexivity). rewrite E.
    destruct (IH (poll_ready s) Ht) as (A & B). unfold poll_ready in *. destruct (content s) as [x|] eqn:Ec.
    + cbn [content channel] in *. rewrite A, B. split; [reflexivity|]. cbn [length repeat]. now rewrite <- app_assoc.
    + rewrite A, B, Ec. auto.
Qed.

Lemma one_send : forall (before after : list (call T)) x,
  Forall (fun c => forall y, c <> Send y) before -> Forall (fun c => forall y, c <> Send y) after ->
  channel (calls (before ++ Send x :: after) new_sink) = repeat x (length after).
Proof.
  intros before after x Hb Ha. unfold calls. rewrite fold_left_app. cbn [fold_left]. fold (calls before (@new_sink T)).
  destruct (polls_channel before new_sink Hb) as (A & B). cbn in A, B.
  match goal with |- channel (fold_left on_call after ?s) = _ => fold (calls after s); destruct (polls_channel after s Ha) as (_ & C) end.
  rewrite C. cbn [on_call start_send content channel]. rewrite B. reflexivity.
Qed.
End Sink.
