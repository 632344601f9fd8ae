(** Specification vocabulary: what the stages before the rotated points have computed. *)
From Verif.Pca Require Import Model Spec.
From Coq Require Import List Arith Reals.
From Verif.Stats Require Import Spec.
From Verif.Pca Require Import GramSpec Components ComponentsSpec.
From Verif.Front Require Import Model.
Import ListNotations.
Local Open Scope R_scope.

(** [mins] and [maxs] are the extremes of the [dim] columns (what the statistics deliver, C10). *)
Definition extremes (dim : nat) (rows : list (list R)) (mins maxs : list R) : Prop :=
  length mins = dim /\ length maxs = dim /\
  forall j, (j < dim)%nat -> exists lo hi, nth_error mins j = Some lo /\ nth_error maxs j = Some hi /\ column_minimum rows j lo /\ column_maximum rows j hi.
(** [pc] is what some run of the distributed analysis of the rows arrives at. *)
Definition analysed (qr : list (nat -> R) -> list (nat -> R)) (svd : list (nat -> R) -> nat -> nat -> R) (width : nat) (rows : list (nat -> R)) (pc : components_of) : Prop :=
  exists r, pca_of qr rows (fst pc) r /\ components svd width r = Verif.Base.Res.Ok (snd pc) /\ svd_correct width svd r.
(** The analyses of all [dim] channels of the windows; each channel has its own run. *)
Definition all_analysed qr svd (width dim : nat) (windows : list (list (list R))) (pcs : list components_of) : Prop :=
  length pcs = dim /\ forall c pc, nth_error pcs c = Some pc -> analysed qr svd width (channel c windows) pc.
(** The rows have three distinct largest principal values, and no principal direction is orthogonal to the first coordinate axis: the components are determined (C84). *)
Definition determined (width : nat) (rows : list (nat -> R)) : Prop :=
  exists v s, diagonalises width (scatter_matrix rows) v s /\ separated width s /\ forall i, (i < 3)%nat -> v i 0%nat <> 0.
