(** Reading and distributing the CSV file, and turning a partition into a matrix.
    src/data_manager/data_reader/mod.rs and src/data_manager/mod.rs:184-225.
    Not modelled: the file system, UTF-8, trimming and quoting rules of the csv crate; a record is a list of cells. *)
From Coq Require Import List Arith ZArith Bool.
From Verif.Base Require Import Res Params ListX.
From Verif.Topology Require Import Model.
Import ListNotations.

Section Reader.
Context {addr cell : Type}.
Notation row := (list cell).

(** Local variables of the loop: [buffer], [overlap_buffer] (53-54), the iterator position (52), and the messages sent. *)
Record rstate := mkR {
  buffer : list row;
  overlap_buffer : list row;
  position : nat;
  sent : list (any_addr addr * list row)
}.

(** [receiver_iterator.next().unwrap().do_send(DataPartitionMessage { data })], 70-75 and 91-96. *)
Definition send_next (c : cluster_nodes addr) (data : list row) (s : rstate) : res rstate :=
  match iter_next c (position s) with
  | (Some a, pos') => Ok {| buffer := buffer s; overlap_buffer := overlap_buffer s; position := pos';
                            sent := sent s ++ [(a, data)] |}
  | (None, _) => Panic UnwrapNone
  end.

(** Body of the loop over the records, 56-89.  [width] is the number of fields of the header: the csv reader (not
    flexible) yields an error for a record of another length, which the code turns into a panic (87). *)
Definition read_step (c : cluster_nodes addr) (width partition_len last_overlap overlap : nat)
    (s : rstate) (r : row) : res rstate :=
  if negb (length r =? width) then Panic Explicit
  else if length (buffer s) <? partition_len then
    Ok {| buffer := buffer s ++ [r]; overlap_buffer := overlap_buffer s; position := position s; sent := sent s |}
  else if (1 <? len_incl_own c)
          && (((length (overlap_buffer s) <? overlap) && negb (last_position c (position s)))
              || ((length (overlap_buffer s) <? last_overlap) && last_position c (position s))) then
    Ok {| buffer := buffer s; overlap_buffer := overlap_buffer s ++ [r]; position := position s; sent := sent s |}
  else
    let! s' := send_next c (buffer s ++ overlap_buffer s) s in
    Ok {| buffer := overlap_buffer s ++ [r]; overlap_buffer := []; position := position s'; sent := sent s' |}.

(** [read_csv], 32-101.  [n_file_lines] is the number of lines of the file including the header line
    ([with_header] is always true: src/data_manager/mod.rs:167-170, where also [overlap = pattern_length - 1]). *)
Definition read_csv (p : params) (c : cluster_nodes addr) (n_file_lines width : nat) (rows : list row)
    : res (list (any_addr addr * list row)) :=
  let! overlap := usub (pattern_length p) 1 in
  let! n_lines := usub n_file_lines 1 in
  let! partition_len := udiv n_lines (len_incl_own c) in
  let! last_overlap := usub n_lines (partition_len * len_incl_own c) in
  let! s := foldM (read_step c width partition_len last_overlap overlap) rows
              {| buffer := []; overlap_buffer := []; position := 0; sent := [] |} in
  let! s' := send_next c (buffer s ++ overlap_buffer s) s in
  Ok (sent s').
End Reader.
Arguments rstate : clear implicits.

(** [FromTo], src/utils/itertools.rs:6-52: skip [from] items, then stop at the first item whose index reaches [to].
    [to] is in [Z] because the caller may pass a wrapped-around huge value. *)
Section FromTo.
Context {A : Type}.
(** [next] of [FromTo], utils/itertools.rs:18-51. *)
Fixpoint fromto_loop (index from : nat) (to : Z) (l : list A) : list A :=
  match l with
  | [] => []
  | x :: t => if (Z.of_nat (index + from) <? to)%Z then x :: fromto_loop (S index) from to t else []
  end.
(** [fromto], utils/itertools.rs:6-52. *)
Definition fromto (from : nat) (to : Z) (l : list A) : list A := fromto_loop 0 from to (skipn from l).
End FromTo.

(** Column selection, src/data_manager/mod.rs:197-221. *)
Section Columns.
Context {cell num : Type} (parse : cell -> option num).

(** 198-202; the cast of a negative [isize] to [usize] wraps modulo 2^64. *)
Definition until_column (p : params) (data : list (list cell)) : res Z :=
  match column_end p with
  | Z0 => match data with [] => Panic OutOfBounds | r :: _ => Ok (Z.of_nat (length r)) end
  | Zpos _ => Ok (column_end p)
  | Zneg _ => match data with
              | [] => Panic OutOfBounds
              | r :: _ => Ok ((Z.of_nat (length r) + column_end p) mod 2 ^ 64)%Z
              end
  end.

(** [into_shape(Dim([n_rows, n_columns]))]: row-major; fails unless the number of elements matches. *)
(** [into_shape(Dim([r, c]))], data_manager/mod.rs:217-221: fails unless r * c elements. *)
Definition into_shape2 {A} (n_rows : nat) (n_columns : Z) (flat : list A) : res (list (list A)) :=
  if (Z.of_nat (length flat) =? Z.of_nat n_rows * n_columns)%Z then
    Ok (map (fun i => slice (i * Z.to_nat n_columns) (S i * Z.to_nat n_columns) flat) (seq 0 n_rows))
  else Panic BadShape.

(** 184-221: the matrix stored as [self.data]. *)
Definition load_partition (p : params) (data : list (list cell)) : res (list (list num)) :=
  let n_rows := length data in
  let! until := until_column p data in
  let! n_columns := (if (until <? Z.of_nat (column_start p))%Z then Panic Underflow
                     else Ok (until - Z.of_nat (column_start p))%Z) in
  let! flat := mapM (fun rec => mapM (fun b => unwrap (parse b)) (fromto (column_start p) until rec)) data in
  into_shape2 n_rows n_columns (concat flat).
End Columns.
