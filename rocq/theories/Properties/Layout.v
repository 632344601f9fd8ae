From Coq Require Import List Arith ZArith Bool Reals Lia Lra.
From Verif.Base Require Import Res ListX.
From Verif.Stats Require Import Model Spec Proofs.
From Verif.Manager Require Import CollectSpec Layout LayoutProofs.
Import ListNotations.
Local Open Scope Z_scope.

(** Row [i] of the rows that are analysed holds the entries [a[i, 0]], [a[i, 1]], ... of the caller's array, wherever numpy keeps them. *)
Theorem C98_rows : forall a i j, (i < height a)%nat -> (j < width a)%nat ->
  length (rows_of (astype a)) = height a
  /\ exists r, nth_error (rows_of (astype a)) i = Some r /\ length r = width a
     /\ nth_error r j = Some (memory a (Z.of_nat i * row_stride a + Z.of_nat j * column_stride a)).
Proof.
  intros a i j Hi Hj. rewrite astype_rows. split; [unfold rows_of; now rewrite map_length, seq_length|].
  exists (map (entry_at a i) (seq 0 (width a))). split; [unfold rows_of; now rewrite nth_error_map_seq|]. rewrite map_length, seq_length.
  split; [reflexivity|]. now rewrite nth_error_map_seq.
Qed.
Print Assumptions C98_rows.

(** C98 is false: an array of at least two rows that is kept column by column makes the program abort, whatever it contains (a single column only
    if it is kept with gaps). *)
Theorem C98_any_layout_refuted : forall fmax a, (2 <= height a)%nat -> (1 <= width a)%nat ->
  Z.abs (row_stride a) < Z.abs (column_stride a) -> (width a <> 1%nat \/ row_stride a <> 1) ->
  fit_predict_extremes fmax a = Panic Explicit.
Proof.
  intros fmax a Hh Hw Hs Hg. unfold fit_predict_extremes, astype.
  assert (C : c_contiguous a = false).
  { unfold c_contiguous. destruct (Nat.eqb_spec (height a) 1); [lia|]. cbn [orb].
    destruct (Z.eqb_spec (row_stride a) (Z.of_nat (width a))) as [Er|]; [|apply andb_false_r]. rewrite andb_true_r.
    destruct (Nat.eqb_spec (width a) 1) as [Ew|]; [lia|]. cbn [orb]. destruct (Z.eqb_spec (column_stride a) 1) as [E|]; [lia|reflexivity]. }
  rewrite C. apply Z.ltb_lt in Hs. rewrite Hs. cbn [negb andb]. unfold array_extremes, by_columns. cbn [column_stride].
  destruct (Z.eqb_spec (Z.of_nat (height a)) 1); [lia|reflexivity].
Qed.
Print Assumptions C98_any_layout_refuted.

(** All other arrays are analysed, and the extremes are those of their columns. *)
Theorem C98_row_by_row : forall fmax a, (1 <= height a)%nat -> (1 <= width a)%nat ->
  (Z.abs (column_stride a) <= Z.abs (row_stride a) \/ width a = 1%nat /\ row_stride a = 1 \/ height a = 1%nat) ->
  (forall j x, entry (rows_of a) j x -> (- fmax <= x <= fmax)%R) ->
  exists mn mx, fit_predict_extremes fmax a = Ok (mn, mx) /\ column_extremes (rows_of a) (width a) mn mx.
Proof.
  intros fmax a Hh Hw Hs Hb. exists (min_axis fmax (width a) (rows_of a)), (max_axis fmax (width a) (rows_of a)).
  split; [|apply axis_extremes; [now apply rows_not_empty|apply rows_width|exact Hb]].
  assert (E : column_stride (astype a) = 1).
  { unfold astype. destruct (c_contiguous a) eqn:C; [reflexivity|]. cbn [negb andb].
    destruct (Z.ltb_spec (Z.abs (row_stride a)) (Z.abs (column_stride a))) as [L|L]; [|reflexivity].
    destruct Hs as [Hs|[(Hs & Hr)|Hs]]; [lia| |cbn; lia].
    exfalso. unfold c_contiguous in C. rewrite Hs, Hr in C. cbn in C. rewrite orb_true_r in C. discriminate. }
  unfold fit_predict_extremes, array_extremes. destruct (astype_shape a) as (_ & ->). rewrite E, astype_rows. reflexivity.
Qed.
Print Assumptions C98_row_by_row.

(** The interface for Rust takes the array as it is: it aborts exactly if neighbours in a row are not neighbours in memory. *)
Theorem C98_rust_exactly : forall fmax a, array_extremes fmax a = Panic Explicit <-> column_stride a <> 1.
Proof. intros fmax a. unfold array_extremes. destruct (Z.eqb_spec (column_stride a) 1); split; intros H; try discriminate; try contradiction; auto. Qed.
Print Assumptions C98_rust_exactly.

(** Three rows (1, 10), (2, 20), (3, 30): kept by columns, as pandas hands them over, the program aborts; kept by rows it does not.  A single column kept
    as column of such an array is analysed. *)
Definition table_values (by_row : bool) (k : Z) : R := IZR (if by_row then (if Z.even k then 1 else 10) * (k / 2 + 1) else if k <? 3 then k + 1 else 10 * (k - 2)).
Definition pandas_table : array := {| height := 3; width := 2; row_stride := 1; column_stride := 3; memory := table_values false |}.
Definition row_table : array := {| height := 3; width := 2; row_stride := 2; column_stride := 1; memory := table_values true |}.
Definition pandas_column : array := {| height := 3; width := 1; row_stride := 1; column_stride := 3; memory := table_values false |}.
Example C98_case : rows_of pandas_table = [[1; 10]; [2; 20]; [3; 30]]%R /\ rows_of row_table = rows_of pandas_table /\ rows_of (astype pandas_table) = rows_of row_table
  /\ fit_predict_extremes 1000 pandas_table = Panic Explicit
  /\ (exists mn mx, fit_predict_extremes 1000 row_table = Ok (mn, mx) /\ column_extremes (rows_of row_table) 2 mn mx)
  /\ (exists mn mx, fit_predict_extremes 1000 pandas_column = Ok (mn, mx) /\ column_extremes (rows_of pandas_column) 1 mn mx).
Proof.
  assert (E1 : rows_of pandas_table = [[1; 10]; [2; 20]; [3; 30]]%R) by reflexivity.
  assert (E2 : rows_of row_table = rows_of pandas_table) by reflexivity.
  assert (E3 : rows_of pandas_column = [[1]; [2]; [3]]%R) by reflexivity.
  split; [exact E1|]. split; [exact E2|]. split; [rewrite astype_rows; symmetry; exact E2|]. split; [apply C98_any_layout_refuted; cbn; try lia|]. split.
  - apply C98_row_by_row; [cbn; lia|cbn; lia|left; cbn; lia|]. rewrite E2, E1. intros j x (r & Hr & Hj).
    repeat (destruct Hr as [<-|Hr]; [destruct j as [|[|[|]]]; cbn in Hj; try discriminate; injection Hj as <-; lra|]). destruct Hr.
  - apply C98_row_by_row; [cbn; lia|cbn; lia|right; left; split; reflexivity|]. rewrite E3. intros j x (r & Hr & Hj).
    repeat (destruct Hr as [<-|Hr]; [destruct j as [|[|[|]]]; cbn in Hj; try discriminate; injection Hj as <-; lra|]). destruct Hr.
Qed.
