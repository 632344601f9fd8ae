(** Specification vocabulary for the numbers of the PCA. *)
From Coq Require Import List Arith Reals.
From Verif.Stats Require Import Spec.
Import ListNotations.
Local Open Scope R_scope.

(** Entry (a,b) of M^T M. *)
Definition gram (M : list (nat -> R)) (a b : nat) : R := Rsum (map (fun r => r a * r b) M).
(** Column mean, and entry (a,b) of the scatter matrix: sum over all rows x of (x-m)(x-m)^T. *)
Definition column_mean (rows : list (nat -> R)) (j : nat) : R := mean (map (fun r => r j) rows).
Definition scatter_matrix (rows : list (nat -> R)) (a b : nat) : R :=
  Rsum (map (fun r => (r a - column_mean rows a) * (r b - column_mean rows b)) rows).
(** A QR decomposition M = QR with orthonormal Q: R has the Gram matrix of M. *)
Definition preserves_gram (qr : list (nat -> R) -> list (nat -> R)) : Prop := forall M a b, gram (qr M) a b = gram M a b.
(** All rows of the first [n] parts. *)
Definition all_rows {A} (data : nat -> list A) (n : nat) : list A := concat (map data (seq 0 n)).
