(** Specification vocabulary for geometry. *)
From Coq Require Import List Arith Reals.
From Verif.Stats Require Import Spec.
Import ListNotations.
Local Open Scope R_scope.

(** 3x3 matrices as functions. *)
Definition orthogonal (m : nat -> nat -> R) : Prop :=
  forall i j, (i < 3)%nat -> (j < 3)%nat ->
    m i 0%nat * m j 0%nat + m i 1%nat * m j 1%nat + m i 2%nat * m j 2%nat = if Nat.eqb i j then 1 else 0.
Definition determinant (m : nat -> nat -> R) : R :=
  m 0%nat 0%nat * (m 1%nat 1%nat * m 2%nat 2%nat - m 1%nat 2%nat * m 2%nat 1%nat)
  - m 0%nat 1%nat * (m 1%nat 0%nat * m 2%nat 2%nat - m 1%nat 2%nat * m 2%nat 0%nat)
  + m 0%nat 2%nat * (m 1%nat 0%nat * m 2%nat 1%nat - m 1%nat 1%nat * m 2%nat 0%nat).
Definition image (m : nat -> nat -> R) (v : R * R * R) : R * R * R :=
  let '(x, y, z) := v in
  (m 0%nat 0%nat * x + m 0%nat 1%nat * y + m 0%nat 2%nat * z,
   m 1%nat 0%nat * x + m 1%nat 1%nat * y + m 1%nat 2%nat * z,
   m 2%nat 0%nat * x + m 2%nat 1%nat * y + m 2%nat 2%nat * z).

(** (x, y) lies in direction [phi]. *)
Definition direction (x y phi : R) : Prop := exists r, 0 < r /\ x = r * cos phi /\ y = r * sin phi.
(** Sector [k] of [n] equal sectors, counted counter-clockwise from the x-axis; lower border included. *)
Definition in_sector (n k : nat) (x y : R) : Prop :=
  exists phi, 2 * PI * INR k / INR n <= phi < 2 * PI * INR (k + 1) / INR n /\ direction x y phi.
Definition inside_sector (n k : nat) (x y : R) : Prop :=
  exists phi, 2 * PI * INR k / INR n < phi < 2 * PI * INR (k + 1) / INR n /\ direction x y phi.

(** [m'] is a left inverse of the d x d matrix [m]. *)
Definition left_inverse (d : nat) (m' m : nat -> nat -> R) : Prop :=
  forall i j, (i < d)%nat -> (j < d)%nat -> Rsum (map (fun k => m' i k * m k j) (seq 0 d)) = if Nat.eqb i j then 1 else 0.
