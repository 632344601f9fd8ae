(** Reading the file and selecting columns in a release build, src/data_manager/data_reader/mod.rs, src/data_manager/mod.rs:167-221. *)
From Coq Require Import List Arith ZArith Bool.
From Verif.Base Require Import Res Params ListX Release.
From Verif.Topology Require Import Model.
From Verif.Reader Require Import Model.
Import ListNotations.

(** [read_csv], data_reader/mod.rs:32-101, with the overlap of data_manager/mod.rs:167-170. *)
Definition read_csv_release {addr cell : Type} (word : nat) (p : params) (c : cluster_nodes addr) (n_file_lines width : nat) (rows : list (list cell))
    : res (list (any_addr addr * list (list cell))) :=
  let overlap := rsub word (pattern_length p) 1 in
  let n_lines := rsub word n_file_lines 1 in
  let! partition_len := udiv n_lines (len_incl_own c) in
  let last_overlap := rsub word n_lines (partition_len * len_incl_own c) in
  let! s := foldM (read_step c width partition_len last_overlap overlap) rows
              {| buffer := []; overlap_buffer := []; position := 0; sent := [] |} in
  let! s' := send_next c (buffer s ++ overlap_buffer s) s in
  Ok (sent s').

(** [until_column - column_start] wraps around, data_manager/mod.rs:203-221. *)
Definition load_partition_release {cell num} (parse : cell -> option num) (p : params) (data : list (list cell)) : res (list (list num)) :=
  let n_rows := length data in
  let! until := until_column p data in
  let n_columns := ((until - Z.of_nat (column_start p)) mod 2 ^ 64)%Z in
  let! flat := mapM (fun rec => mapM (fun b => unwrap (parse b)) (fromto (column_start p) until rec)) data in
  into_shape2 n_rows n_columns (concat flat).
