(** What the clustering of the crossings of a segment is meant to be. *)
From Coq Require Import List Arith Reals.
From Verif.Stats Require Import Spec.
Import ListNotations.
Local Open Scope R_scope.

(** Scott's rule for the width of the kernel. *)
Definition bandwidth (xs : list R) : R := sample_std xs * Rpower (INR (length xs)) (-1 / 5).
(** The Gaussian kernel density of the numbers [xs] at [x]. *)
Definition kernel_density (xs : list R) (x : R) : R :=
  Rsum (map (fun xi => exp (- ((x - xi) / bandwidth xs * ((x - xi) / bandwidth xs)) / 2)) xs) / (INR (length xs) * bandwidth xs * sqrt (2 * PI)).
(** 250 positions at equal distances, from a tenth of the extent below the smallest number to a tenth above the largest one. *)
Definition position (lo hi : R) (j : nat) : R := (lo - (hi - lo) / 10) + INR j * ((hi - lo) * (12 / 10) / 249).
Definition smallest (xs : list R) (m : R) : Prop := In m xs /\ forall x, In x xs -> m <= x.
Definition largest (xs : list R) (m : R) : Prop := In m xs /\ forall x, In x xs -> x <= m.
(** Position [g] is a peak of the density: denser than both neighbouring positions. *)
Definition density_peak (xs : list R) (g : R) : Prop :=
  exists lo hi j, smallest xs lo /\ largest xs hi /\ (j + 2 < 250)%nat /\ g = position lo hi (S j) /\
    kernel_density xs (position lo hi j) < kernel_density xs g /\ kernel_density xs (position lo hi (S (S j))) < kernel_density xs g.
(** The centre of [x]: the nearest peak - of two at the same distance the lower one -, or 0 if there is no peak. *)
Definition centre (xs : list R) (x c : R) : Prop :=
  (density_peak xs c /\ forall g, density_peak xs g -> Rabs (c - x) < Rabs (g - x) \/ (Rabs (c - x) = Rabs (g - x) /\ c <= g)) \/
  ((forall g, ~ density_peak xs g) /\ c = 0).
(** Column [k] of the rows. *)
Definition column (k : nat) (rows : list (list R)) : list R := map (fun r => nth k r 0) rows.
(** Two rows have the same centre in every column. *)
Definition same_centres (d : nat) (rows : list (list R)) (r r' : list R) : Prop :=
  forall k, (k < d)%nat -> exists c, centre (column k rows) (nth k r 0) c /\ centre (column k rows) (nth k r' 0) c.
(** At least two rows of [d] entries; no column is constant. *)
Definition spread_rows (d : nat) (rows : list (list R)) : Prop :=
  (1 <= d)%nat /\ (2 <= length rows)%nat /\ Forall (fun r => length r = d) rows /\
  forall k, (k < d)%nat -> exists x y, In x (column k rows) /\ In y (column k rows) /\ x <> y.
(** Labels are numbered from 0 in the order in which they appear. *)
Definition numbered_by_appearance (labels : list nat) : Prop :=
  forall i l m, nth_error labels i = Some l -> (m < l)%nat -> exists j, (j < i)%nat /\ nth_error labels j = Some m.
(** The same rows in other units: every column has a factor and an offset of its own. *)
Definition converted (d : nat) (a b : nat -> R) (rows rows' : list (list R)) : Prop :=
  Forall2 (fun r r' => length r' = d /\ forall k, (k < d)%nat -> nth k r' 0 = a k * nth k r 0 + b k) rows rows'.
(** [labels] and [labels'] group two lists of rows alike. *)
Definition same_groups (rows rows' : list (list R)) (labels labels' : list nat) : Prop :=
  forall i j i' j' r r' l m l' m', nth_error rows i = Some r -> nth_error rows j = Some r' -> nth_error rows' i' = Some r -> nth_error rows' j' = Some r' ->
    nth_error labels i = Some l -> nth_error labels j = Some m -> nth_error labels' i' = Some l' -> nth_error labels' j' = Some m' -> (l = m <-> l' = m').
