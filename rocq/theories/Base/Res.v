(** Result type used by every model.  A Rust panic is a value, never a default. *)
From Coq Require Import List Arith ZArith Lia Bool.
Import ListNotations.

(** Why a piece of the modelled code aborts.  (Debug-build semantics: arithmetic underflow aborts.) *)
Inductive panic : Type :=
| DivByZero        (** integer division or remainder by zero *)
| Underflow        (** [usize] subtraction below zero *)
| UnwrapNone       (** [Option::unwrap] / [expect] on [None] *)
| OutOfBounds      (** slice or index out of bounds *)
| BadShape         (** [into_shape] with a non-matching number of elements *)
| EmptyInput       (** min/max of an empty array *)
| Explicit.        (** an explicit [panic!] *)

Inductive res (A : Type) : Type :=
| Ok (a : A)
| Panic (p : panic).
Arguments Ok {A} a.
Arguments Panic {A} p.

Definition bind {A B} (r : res A) (f : A -> res B) : res B :=
  match r with Ok a => f a | Panic p => Panic p end.

Declare Scope res_scope.
Delimit Scope res_scope with res.
Notation "'let!' x ':=' r 'in' b" := (bind r (fun x => b))
  (at level 200, x pattern, r at level 100, b at level 200) : res_scope.
Open Scope res_scope.

(** [a / b] on [usize]. *)
Definition udiv (a b : nat) : res nat := if b =? 0 then Panic DivByZero else Ok (a / b).
(** [a % b] on [usize]. *)
Definition umod (a b : nat) : res nat := if b =? 0 then Panic DivByZero else Ok (a mod b).
(** [a - b] on [usize]. *)
Definition usub (a b : nat) : res nat := if a <? b then Panic Underflow else Ok (a - b).
(** [Option::unwrap]. *)
Definition unwrap {A} (o : option A) : res A :=
  match o with Some a => Ok a | None => Panic UnwrapNone end.

Lemma usub_ok : forall a b, b <= a -> usub a b = Ok (a - b).
Proof. intros a b H. unfold usub. destruct (Nat.ltb_spec a b); [lia|reflexivity]. Qed.
Lemma udiv_ok : forall a b, b <> 0 -> udiv a b = Ok (a / b).
Proof. intros a b H. unfold udiv. destruct (Nat.eqb_spec b 0); [lia|reflexivity]. Qed.
Lemma umod_ok : forall a b, b <> 0 -> umod a b = Ok (a mod b).
Proof. intros a b H. unfold umod. destruct (Nat.eqb_spec b 0); [lia|reflexivity]. Qed.

Lemma bind_ok_inv : forall A B (r : res A) (f : A -> res B) b,
  bind r f = Ok b -> exists a, r = Ok a /\ f a = Ok b.
Proof. intros A B [a|p] f b H; cbn in H; [eauto|discriminate]. Qed.

(** Running a fallible function over a list, stopping at the first panic. *)
Fixpoint mapM {A B} (f : A -> res B) (l : list A) : res (list B) :=
  match l with
  | [] => Ok []
  | a :: t => let! b := f a in let! bs := mapM f t in Ok (b :: bs)
  end.

Fixpoint foldM {A S} (f : S -> A -> res S) (l : list A) (s : S) : res S :=
  match l with
  | [] => Ok s
  | a :: t => let! s' := f s a in foldM f t s'
  end.

Lemma foldM_app : forall A S (f : S -> A -> res S) l1 l2 s,
  foldM f (l1 ++ l2) s = (let! s' := foldM f l1 s in foldM f l2 s').
Proof.
  intros A S f l1; induction l1 as [|a t IH]; intros l2 s; cbn; [reflexivity|].
  destruct (f s a); cbn; [apply IH|reflexivity].
Qed.
