(** The principal components computed from the final factor, src/training/rotation/pca/mod.rs:225-249, and the reduction to three dimensions, src/training/rotation/mod.rs:73-129.
    Simplifications: f32 is the real numbers; rows are functions from column numbers, as in Pca/Gram.v; the LAPACK call [svd] is a parameter. *)
From Coq Require Import List Arith Reals.
From Verif.Base Require Import Res.
From Verif.Stats Require Import Spec.
From Verif.Pca Require Import Gram.
Import ListNotations.
Local Open Scope R_scope.

(** [finalize], mod.rs:225-231: the first three rows of [v] ([slice] aborts if there are fewer), each with its sign normalised; [svd r i] is row [i] of [v], which has [width] rows and columns. *)
Definition components (svd : list (nat -> R) -> nat -> nat -> R) (width : nat) (r : list (nat -> R)) : res (list (list R)) :=
  if (width <? 3)%nat then Panic OutOfBounds else Ok (map (fun i => normalize_row (map (svd r i) (seq 0 width))) (seq 0 3)).

(** [(x - global_means).dot(components^T)], rotation/mod.rs:84-128, for one row [x]: one number per component. *)
Definition reduce_row (means : nat -> R) (comps : list (list R)) (x : nat -> R) : list R :=
  map (fun c => Rsum (map (fun jc => (x (fst jc) - means (fst jc)) * snd jc) (combine (seq 0 (length c)) c))) comps.
