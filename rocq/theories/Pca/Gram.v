(** The numbers behind the distributed PCA: src/training/rotation/pca/mod.rs:92-114, 191-249 and helper.rs:36-55, 107-149.
    Simplifications: f32 is the real numbers; a row is a function from column numbers, so that shapes need no treatment (all arrays of one PCA have the same
    number of columns).  The LAPACK call [qr] is a parameter; the singular value decomposition that follows is not modelled. *)
From Verif.Pca Require Import Model.
From Coq Require Import List Arith Reals.
From Verif.Stats Require Import Spec.
Import ListNotations.
Local Open Scope R_scope.

Notation row := (nat -> R) (only parsing).
Notation matrix := (list (nat -> R)) (only parsing).

(** [mean_axis(Axis(0))], mod.rs:100-105, helper.rs:41-46. *)
Definition col_means (rows : matrix) : row := fun j => mean (map (fun r => r j) rows).
(** [data - column_means], mod.rs:107, helper.rs:48. *)
Definition centred (rows : matrix) : matrix := map (fun (r : row) j => r j - col_means rows j) rows.

Section QR.
(** The triangular factor of [qr()]. *)
Variable qr : matrix -> matrix.

(** [local_r] computed by one thread from its rows, mod.rs:92-114, helper.rs:36-55. *)
Definition own_factor (rows : matrix) : matrix := qr (centred rows).

(** The factor a tree of merges stands for: [combine_remote_r], mod.rs:191-203, helper.rs:107-119; [loc i] is the factor node [i] started with. *)
Fixpoint eval (loc : nat -> matrix) (t : rtree) : matrix :=
  match t with Own i => loc i | Combine a b => qr (eval loc a ++ eval loc b) end.

(** [global_means], mod.rs:205-211, helper.rs:121-127: [ms] are the nodes whose means and row counts are known. *)
Definition global_means (n : nat -> R) (mu : nat -> row) (ms : list nat) : row :=
  fun j => Rsum (map (fun i => n i * mu i j) ms) / Rsum (map n ms).
(** The final factor, mod.rs:213-223, helper.rs:129-139. *)
Definition final_r (loc : nat -> matrix) (n : nat -> R) (mu : nat -> row) (ms : list nat) (t : rtree) : matrix :=
  qr (map (fun i j => sqrt (n i) * (mu i j - global_means n mu ms j)) ms ++ eval loc t).

(** A host that computes with one thread. *)
(** Row counts of all threads of a host, pca/helper.rs:141-148. *)
Definition count (rows : matrix) : R := INR (length rows).
(** The factor a host receives from its threads, pca/helper.rs:129-148. *)
Definition host_r (data : nat -> matrix) (o : outcome) : matrix :=
  final_r (fun i => own_factor (data i)) (fun i => count (data i)) (fun i => col_means (data i)) (fst o) (snd o).
(** The means a host receives from its threads, pca/helper.rs:121-127, 141-148. *)
Definition host_means (data : nat -> matrix) (o : outcome) : row :=
  global_means (fun i => count (data i)) (fun i => col_means (data i)) (fst o).

(** Hosts that compute with several threads (mod.rs:320-343): host [i] starts with the factor, means and row count its helper threads
    arrived at with outcome [inner i]; thread [k] of host [i] has the rows [data i k]. *)
Definition threads_r (data : nat -> nat -> matrix) (inner : nat -> outcome) (o : outcome) : matrix :=
  final_r (fun i => host_r (data i) (inner i)) (fun i => Rsum (map (fun k => count (data i k)) (fst (inner i))))
          (fun i => host_means (data i) (inner i)) (fst o) (snd o).
(** The means of the threads of a host, pca/helper.rs:36-55. *)
Definition threads_means (data : nat -> nat -> matrix) (inner : nat -> outcome) (o : outcome) : row :=
  global_means (fun i => Rsum (map (fun k => count (data i k)) (fst (inner i)))) (fun i => host_means (data i) (inner i)) (fst o).
End QR.

(** [normalize], mod.rs:235-249, one component: the sign is chosen such that its first entry is not negative. *)
Definition normalize_row (v : list R) : list R :=
  match v with
  | [] => []
  | x :: _ => if Rge_dec x 0 then v else map (fun y => y * -1) v
  end.
