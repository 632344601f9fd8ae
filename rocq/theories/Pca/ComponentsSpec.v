(** Specification vocabulary for principal components. *)
From Verif.Pca Require Import Model Spec.
From Coq Require Import List Arith Reals Permutation.
From Verif.Stats Require Import Spec.
From Verif.Pca Require Import GramSpec.
From Verif.Pca Require Gram.
Import ListNotations.
Local Open Scope R_scope.

(** Inner product of the first [d] entries. *)
Definition inner (d : nat) (u w : nat -> R) : R := Rsum (map (fun j => u j * w j) (seq 0 d)).
(** u^T G u. *)
Definition quadratic (d : nat) (G : nat -> nat -> R) (u : nat -> R) : R := inner d u (fun a => inner d (G a) u).
Definition delta (i k : nat) : R := if Nat.eqb i k then 1 else 0.
(** The rows of [v] are an orthonormal basis, the singular values [s] descend, and G = v^T s^2 v: what a singular value decomposition of M says of v and s, with G = M^T M. *)
Definition diagonalises (d : nat) (G : nat -> nat -> R) (v : nat -> nat -> R) (s : nat -> R) : Prop :=
  (forall i k, (i < d)%nat -> (k < d)%nat -> inner d (v i) (v k) = delta i k) /\
  (forall a b, (a < d)%nat -> (b < d)%nat -> Rsum (map (fun i => v i a * v i b) (seq 0 d)) = delta a b) /\
  (forall i, (i < d)%nat -> 0 <= s i) /\ (forall i k, (i <= k)%nat -> (k < d)%nat -> s k <= s i) /\
  (forall a b, (a < d)%nat -> (b < d)%nat -> G a b = Rsum (map (fun i => (s i * s i) * (v i a * v i b)) (seq 0 d))).
(** [svd] is correct on the matrix [M]. *)
Definition svd_correct (d : nat) (svd : list (nat -> R) -> nat -> nat -> R) (M : list (nat -> R)) : Prop := exists s, diagonalises d (gram M) (svd M) s.
(** The three largest principal values are different from each other and from the others. *)
Definition separated (d : nat) (s : nat -> R) : Prop := forall i k, (i < 3)%nat -> (i < k)%nat -> (k < d)%nat -> s k < s i.

(** [means] and [r] are what some run of the distributed PCA of [rows] arrives at, on some number of hosts with one or several threads, when the main host knows all means (C18) and no factor came early (C19); the last two: for one channel of several (C59). *)
Inductive pca_of (qr : list (nat -> R) -> list (nat -> R)) (rows : list (nat -> R)) : (nat -> R) -> list (nat -> R) -> Prop :=
| on_hosts : forall data n ordered s o, (1 <= n)%nat -> (forall k, (k < n)%nat -> data k <> []) -> rows = all_rows data n ->
    let cf := hosts n false ordered 1 in reachable cf (nobody_early cf) s -> In o (finals s) -> Permutation (fst o) (seq 0 n) ->
    pca_of qr rows (Gram.host_means data o) (Gram.host_r qr data o)
| on_threads : forall data n t ordered s o inner, (1 <= n)%nat -> (forall i, (i < n)%nat -> (1 <= t i)%nat) -> (forall i k, (i < n)%nat -> (k < t i)%nat -> data i k <> []) ->
    rows = all_rows (fun i => all_rows (data i) (t i)) n ->
    (forall i, (i < n)%nat -> exists si, reachable (helper_threads (t i) (t i)) any_run si /\ In (inner i) (finals si)) ->
    let cf := hosts n true ordered 1 in reachable cf (nobody_early cf) s -> In o (finals s) -> Permutation (fst o) (seq 0 n) ->
    pca_of qr rows (Gram.threads_means data inner o) (Gram.threads_r qr data inner o)
| channel_on_hosts : forall data n o, (1 <= n)%nat -> (forall k, (k < n)%nat -> data k <> []) -> rows = all_rows data n -> of_several_channels n false o ->
    pca_of qr rows (Gram.host_means data o) (Gram.host_r qr data o)
| channel_on_threads : forall data n t o inner, (1 <= n)%nat -> (forall i, (i < n)%nat -> (1 <= t i)%nat) -> (forall i k, (i < n)%nat -> (k < t i)%nat -> data i k <> []) ->
    rows = all_rows (fun i => all_rows (data i) (t i)) n ->
    (forall i, (i < n)%nat -> exists si, reachable (helper_threads (t i) (t i)) any_run si /\ In (inner i) (finals si)) -> of_several_channels n true o ->
    pca_of qr rows (Gram.threads_means data inner o) (Gram.threads_r qr data inner o).

(** A series in other units: every column has its own offset, and all have the same positive factor. *)
Definition in_units (a : R) (b : nat -> R) (rows : list (nat -> R)) : list (nat -> R) := map (fun r j => a * r j + b j) rows.
