(** What clustering is supposed to compute. *)
From Coq Require Import List Arith Bool.
Import ListNotations.

(** Position [i] is a strict peak of order [o]: not at the border, and greater than every other value at distance up to [o]. *)
Definition is_peak {A} (gt : A -> A -> bool) (o : nat) (e : list A) (i : nat) : Prop :=
  0 < i /\ i + 1 < length e /\ exists x, nth_error e i = Some x /\ forall j y, nth_error e j = Some y -> j <> i -> i <= j + o -> j <= i + o -> gt x y = true.
(** Sum of a list. *)
Definition total {A} (zero : A) (add : A -> A -> A) (l : list A) : A := fold_left add l zero.
(** A number of columns: contributions of all points added position by position. *)
Definition pointwise {A} (zero : A) (add : A -> A -> A) (kernel : nat -> list A) (n j : nat) : A :=
  total zero add (map (fun i => nth j (kernel i) zero) (seq 0 n)).
(** Equality of centres, entry by entry. *)
Definition same_center {A} (eqb : A -> A -> bool) (a b : list A) : Prop := Forall2 (fun x y => eqb x y = true) a b.
