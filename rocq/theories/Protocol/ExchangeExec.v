(** Schedules of Protocol/Exchange.v as lists, for concrete runs. *)
From Coq Require Import List Arith Bool.
From Verif.Protocol Require Import Model Exchange.
Import ListNotations.

(** [Enter p]: host [p] enters; [Deliver i]: the [i]-th message under way is delivered.  A choice that is not possible changes nothing. *)
Inductive choice := Enter (p : nat) | Deliver (i : nat).
Definition do {T} (x : exchange T) (w : world T) (c : choice) : world T :=
  match c with
  | Enter p => if (p <? hosts x) && negb (entered (state w p))
               then {| state := set (state w) p (fst (enter x p (state w p))); net := net w ++ snd (enter x p (state w p)) |} else w
  | Deliver i => match nth_error (net w) i with
                 | Some (p, m) => {| state := set (state w) p (handle m (state w p)); net := firstn i (net w) ++ skipn (S i) (net w) |}
                 | None => w end
  end.
Definition run {T} (x : exchange T) (cs : list choice) : world T := fold_left (do x) cs initial.
Lemma run_reachable : forall T (x : exchange T) cs, reachable x (run x cs).
Proof.
  intros T x cs. unfold run. assert (G : forall w, reachable x w -> reachable x (fold_left (do x) cs w)).
  { induction cs as [|c cs IH]; intros w Hw; [exact Hw|]. cbn [fold_left]. apply IH. destruct c as [p|i]; cbn [do].
    - destruct (Nat.ltb_spec p (hosts x)) as [H|]; [|exact Hw]. destruct (entered (state w p)) eqn:E; [exact Hw|]. cbn [andb negb]. eapply after; [exact Hw|]. now apply enters.
    - destruct (nth_error (net w) i) as [[p m]|] eqn:E; [|exact Hw]. eapply after; [exact Hw|]. apply delivers. now apply nth_error_split' in E || (apply nth_error_split in E; destruct E as (l1 & l2 & E & L); rewrite E; subst i;
      rewrite firstn_app, firstn_all, Nat.sub_diag; cbn [firstn]; rewrite app_nil_r; f_equal; f_equal; rewrite skipn_app, skipn_all2 by auto; rewrite Nat.sub_succ_l, Nat.sub_diag by auto; reflexivity). }
  apply G. constructor.
Qed.
(** Nothing is left to do when everybody entered and nothing is under way. *)
Lemma run_stuck : forall T (x : exchange T) w, net w = [] -> (forall p, p < hosts x -> entered (state w p) = true) -> stuck x w.
Proof.
  intros T x w Hn He w' Hs. inversion Hs as [v p Hp Hf|v p m l r E]; subst.
  - rewrite (He p Hp) in Hf. discriminate.
  - rewrite Hn in E. destruct l; discriminate.
Qed.
