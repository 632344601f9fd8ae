From Coq Require Import List Arith ZArith Bool Reals Lia Lra.
From Verif.Base Require Import Res ListX.
From Verif.Reader Require Import Model Spec Proofs.
From Verif.Stats Require Import Model Spec Proofs.
From Verif.Manager Require Import Layout CollectSpec.
Import ListNotations.
Local Open Scope Z_scope.

Lemma div_row : forall i j w, (j < w)%nat -> (Z.of_nat i * Z.of_nat w + Z.of_nat j * 1) / Z.of_nat w = Z.of_nat i /\ (Z.of_nat i * Z.of_nat w + Z.of_nat j * 1) mod Z.of_nat w = Z.of_nat j.
Proof.
  intros i j w H. rewrite Z.mul_1_r. split.
  - symmetry. apply (Z.div_unique_pos _ _ _ (Z.of_nat j)); lia.
  - symmetry. apply (Z.mod_unique_pos _ _ (Z.of_nat i)); lia.
Qed.
Lemma by_rows_entry : forall a i j, (j < width a)%nat -> entry_at (by_rows a) i j = entry_at a i j.
Proof. intros a i j H. unfold entry_at at 1, by_rows. cbn. destruct (div_row i j (width a) H) as (-> & ->). now rewrite !Nat2Z.id. Qed.
Lemma by_columns_entry : forall a i j, (i < height a)%nat -> entry_at (by_columns a) i j = entry_at a i j.
Proof.
  intros a i j H. unfold entry_at at 1, by_columns. cbn. rewrite Z.add_comm.
  destruct (div_row j i (height a) H) as (-> & ->). now rewrite !Nat2Z.id.
Qed.
Lemma by_rows_rows : forall a, rows_of (by_rows a) = rows_of a.
Proof.
  intros a. unfold rows_of. apply map_ext. intros i. cbn [by_rows width]. apply map_ext_in. intros j Hj. apply in_seq in Hj. apply by_rows_entry. lia.
Qed.
Lemma by_columns_rows : forall a, rows_of (by_columns a) = rows_of a.
Proof.
  intros a. unfold rows_of. cbn [by_columns width height]. apply map_ext_in. intros i Hi. apply in_seq in Hi. apply map_ext. intros j. apply by_columns_entry. lia.
Qed.
Lemma astype_rows : forall a, rows_of (astype a) = rows_of a.
Proof. intros a. unfold astype. destruct (_ && _); [apply by_columns_rows|apply by_rows_rows]. Qed.
Lemma astype_shape : forall a, height (astype a) = height a /\ width (astype a) = width a.
Proof. intros a. unfold astype. destruct (_ && _); split; reflexivity. Qed.

Lemma axis_extremes : forall fmax w d, d <> [] -> Forall (fun r => length r = w) d -> (forall j x, entry d j x -> (- fmax <= x <= fmax)%R) ->
  column_extremes d w (min_axis fmax w d) (max_axis fmax w d).
Proof.
  intros fmax w d Hd HW Hb. destruct (minmax_global 1 0 fmax w d [(tt, d)]) as ((mn & mx & c1 & E & L1 & L2 & H) & _); auto.
  - cbn [map snd seq]. unfold partition_of. cbn [Nat.eqb Nat.mul]. rewrite slice_full by lia. reflexivity.
  - cbn in E. injection E as _ <- <-. split; [exact L1|]. split; [exact L2|]. exact H.
Qed.
Lemma rows_width : forall a, Forall (fun r => length r = width a) (rows_of a).
Proof. intros a. apply Forall_forall. intros r Hr. apply in_map_iff in Hr. destruct Hr as (i & <- & _). now rewrite map_length, seq_length. Qed.
Lemma rows_not_empty : forall a, (1 <= height a)%nat -> rows_of a <> [].
Proof. intros a H E. apply (f_equal (@length _)) in E. unfold rows_of in E. rewrite map_length, seq_length in E. cbn in E. lia. Qed.
