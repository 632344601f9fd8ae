(** Executable schedules of the ring exchange: choices that are not possible are skipped, so every run is reachable. *)
From Coq Require Import List Arith Bool.
From Verif.Protocol Require Import Model Exchange Ring.
Import ListNotations.

Inductive rchoice := CBegin (p : nat) | CArrive (p : nat) | CTake (p : nat).

Definition rdo {T} (n : nat) (contribution : nat -> T) (w : rworld T) (c : rchoice) : rworld T :=
  match c with
  | CBegin p => if (p <? n) && negb (begun (node_of w p)) then put n w p (begin_ring n contribution p (node_of w p)) else w
  | CArrive p =>
      match transit w p with
      | m :: r => if p <? n then {| node_of := set (node_of w) p (pop (node_of w p) (mailbox (node_of w p) ++ [m])); transit := set (transit w) p r |} else w
      | [] => w
      end
  | CTake p => match mailbox (node_of w p) with m :: r => if p <? n then put n w p (take_in m (pop (node_of w p) r)) else w | [] => w end
  end.
Definition rrun {T} (n : nat) (contribution : nat -> T) (cs : list rchoice) : rworld T := fold_left (rdo n contribution) cs rinitial.

Lemma rdo_step : forall T n (contribution : nat -> T) w c, rdo n contribution w c = w \/ rstep n contribution anytime w (rdo n contribution w c).
Proof.
  intros T n contribution w c. destruct c as [p|p|p]; cbn [rdo].
  - destruct (Nat.ltb_spec p n); cbn [andb]; [|now left]. destruct (begun (node_of w p)) eqn:E; cbn [negb]; [now left|]. right. apply begins; auto. exact I.
  - destruct (transit w p) as [|m r] eqn:E; [now left|]. destruct (Nat.ltb_spec p n); [|now left]. right. now apply arrives.
  - destruct (mailbox (node_of w p)) as [|m r] eqn:E; [now left|]. destruct (Nat.ltb_spec p n); [|now left]. right. now apply takes_in.
Qed.
Lemma rrun_reachable : forall T n (contribution : nat -> T) cs, rreachable n contribution anytime (rrun n contribution cs).
Proof.
  intros T n contribution cs. unfold rrun. assert (H : rreachable n contribution anytime rinitial) by constructor. revert H. generalize (@rinitial T).
  induction cs as [|c cs IH]; intros w H; cbn [fold_left]; [exact H|]. apply IH. destruct (rdo_step T n contribution w c) as [->|Hs]; [exact H|]. eapply r_after; eauto.
Qed.
