(** The memory layout of an array given by the caller: s2gpp/__init__.py:36-48, src/python_binding.rs:31,
    src/utils/ndarray_extensions/mod.rs:92-131. *)
From Coq Require Import List Arith ZArith Bool Reals.
From Verif.Base Require Import Res.
From Verif.Stats Require Import Model.
Import ListNotations.
Local Open Scope Z_scope.

(** A two-dimensional array of numpy or of ndarray ([Array2<f32>], python_binding.rs:12, interface/mod.rs:15): its shape, the distances in memory between
    neighbours in a column and in a row, and the memory, counted from the first entry. *)
Record array := { height : nat; width : nat; row_stride : Z; column_stride : Z; memory : Z -> R }.
(** [a[[i, j]]], as used by [index_axis(..).iter()], ndarray_extensions/mod.rs:100. *)
Definition entry_at (a : array) (i j : nat) : R := memory a (Z.of_nat i * row_stride a + Z.of_nat j * column_stride a).
(** The rows of the array, as LocalReadDataMessage hands them over, data_manager/mod.rs:226-233. *)
Definition rows_of (a : array) : list (list R) := map (fun i => map (entry_at a i) (seq 0 (width a))) (seq 0 (height a)).

(** A new array of the entries of [a], row after row: what [astype] (s2gpp/__init__.py:37) allocates with order C. *)
Definition by_rows (a : array) : array :=
  {| height := height a; width := width a; row_stride := Z.of_nat (width a); column_stride := 1;
     memory := fun k => entry_at a (Z.to_nat (k / Z.of_nat (width a))) (Z.to_nat (k mod Z.of_nat (width a))) |}.
(** The same, column after column: what [astype] (s2gpp/__init__.py:37) allocates with order F. *)
Definition by_columns (a : array) : array :=
  {| height := height a; width := width a; row_stride := 1; column_stride := Z.of_nat (height a);
     memory := fun k => entry_at a (Z.to_nat (k mod Z.of_nat (height a))) (Z.to_nat (k / Z.of_nat (height a))) |}.
(** numpy's flag C_CONTIGUOUS of an array that is not empty; an axis of length one does not matter.  Used by [astype], s2gpp/__init__.py:37. *)
Definition c_contiguous (a : array) : bool :=
  ((width a =? 1)%nat || (column_stride a =? 1)) && ((height a =? 1)%nat || (row_stride a =? Z.of_nat (width a))).
(** [X.astype(np.float32)], s2gpp/__init__.py:37: numpy's default order 'K' keeps the order of the axes in memory: the axis with the smaller stride varies fastest in the
    copy.  The conversion of the numbers is not modelled (see C92). *)
Definition astype (a : array) : array :=
  if negb (c_contiguous a) && (Z.abs (row_stride a) <? Z.abs (column_stride a)) then by_columns a else by_rows a.

(** [min_axis(Axis(0))] and [max_axis(Axis(0))] with their test of the layout, ndarray_extensions/mod.rs:92-131, called by [calculate_minmax], minmax.rs:28-30.
    [as_array().to_owned()] (python_binding.rs:31) and [to_shared()] (minmax.rs:29) keep the layout of a contiguous array. *)
Definition array_extremes (fmax : R) (a : array) : res (list R * list R) :=
  if column_stride a =? 1 then Ok (min_axis fmax (width a) (rows_of a), max_axis fmax (width a) (rows_of a)) else Panic Explicit.
(** [fit_predict], s2gpp/__init__.py:36-48, up to the extremes of the columns. *)
Definition fit_predict_extremes (fmax : R) (a : array) : res (list R * list R) := array_extremes fmax (astype a).
