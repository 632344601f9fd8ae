From Coq Require Import List Arith ZArith Lia Bool.
From Verif.Base Require Import Res Params ListX.
From Verif.Topology Require Import Model.
From Verif.Reader Require Import Model Spec Proofs Exact.
Import ListNotations.

(** C06: every receiver, in index order, gets exactly one message, holding exactly its partition.  [iter_take c 0 N] is the
    list of receiver addresses (characterised by C03_iterator). *)
Theorem C06_rows_reach_their_nodes : forall addr cell p (c : cluster_nodes addr) width (rows : list (list cell)),
  1 <= pattern_length p -> Forall (fun r => length r = width) rows ->
  (len_incl_own c = 1 \/ (pattern_length p <= length rows / len_incl_own c
                          /\ length rows mod len_incl_own c <= pattern_length p - 1)) ->
  read_csv p c (S (length rows)) width rows
  = Ok (combine (iter_take c 0 (len_incl_own c))
                (map (fun i => partition_of (len_incl_own c) (pattern_length p - 1) i rows) (seq 0 (len_incl_own c)))).
Proof. exact @read_csv_ok. Qed.
Print Assumptions C06_rows_reach_their_nodes.

Definition ex_params (pl : nat) : params :=
  {| rate := 100; n_threads := 1; n_cluster_nodes := 3; pattern_length := pl; latent := 1; query_length := 5;
     column_start := 0; column_end := 0%Z; self_correction := false |}.
Definition ex_nodes : cluster_nodes nat := [(2, 902); (1, 901)].
Definition ex_rows (n : nat) : list (list nat) := map (fun i => [i; 10 * i]) (seq 0 n).

Example C06_example :
  (len_incl_own ex_nodes = 1 \/ (3 <= length (ex_rows 10) / len_incl_own ex_nodes
     /\ length (ex_rows 10) mod len_incl_own ex_nodes <= 3 - 1))
  /\ read_csv (ex_params 3) ex_nodes 11 2 (ex_rows 10)
     = Ok [(Local, [[0;0];[1;10];[2;20];[3;30];[4;40]]);
           (Remote 901, [[3;30];[4;40];[5;50];[6;60];[7;70]]);
           (Remote 902, [[6;60];[7;70];[8;80];[9;90]])].
Proof. split; [right; cbn; lia|]. vm_compute. reflexivity. Qed.

(** C07 is false: every remainder larger than the overlap makes the reader abort. *)
Theorem C07_large_remainder_aborts : forall addr cell p (c : cluster_nodes addr) width (rows : list (list cell)),
  1 <= pattern_length p -> Forall (fun r => length r = width) rows -> 2 <= len_incl_own c ->
  pattern_length p <= length rows / len_incl_own c ->
  pattern_length p - 1 < length rows mod len_incl_own c ->
  read_csv p c (S (length rows)) width rows = Panic UnwrapNone.
Proof. exact @read_csv_remainder_panics. Qed.
Print Assumptions C07_large_remainder_aborts.

Theorem C07_every_remainder_refuted : exists p (c : cluster_nodes nat) width (rows : list (list nat)),
  1 <= pattern_length p /\ Forall (fun r => length r = width) rows
  /\ pattern_length p <= length rows / len_incl_own c
  /\ read_csv p c (S (length rows)) width rows = Panic UnwrapNone.
Proof.
  exists (ex_params 2), ex_nodes, 2, (ex_rows 11). split; [cbn; lia|]. split; [repeat constructor|].
  split; [cbn; lia|]. vm_compute. reflexivity.
Qed.
Print Assumptions C07_every_remainder_refuted.

(** Exactly when the reader aborts: the pattern fits into a share of the rows and into the remainder. *)
Theorem C07_aborts_exactly : forall addr cell p (c : cluster_nodes addr) width (rows : list (list cell)),
  1 <= pattern_length p -> Forall (fun r => length r = width) rows -> 2 <= len_incl_own c ->
  ((exists q, read_csv p c (S (length rows)) width rows = Panic q)
   <-> pattern_length p <= length rows / len_incl_own c /\ pattern_length p <= length rows mod len_incl_own c).
Proof. exact @read_csv_aborts_iff. Qed.
Print Assumptions C07_aborts_exactly.

Example C07_exact_case :
  (2 <= length (ex_rows 11) / len_incl_own ex_nodes /\ 2 <= length (ex_rows 11) mod len_incl_own ex_nodes)
  /\ ~ (4 <= length (ex_rows 11) / len_incl_own ex_nodes)
  /\ (exists sent, read_csv (ex_params 4) ex_nodes 12 2 (ex_rows 11) = Ok sent).
Proof. split; [cbn; lia|]. split; [cbn; lia|]. eexists. vm_compute. reflexivity. Qed.

(** C08 is false: 8 rows on 3 nodes with pattern length 4 - only two receivers are served, the second with wrong rows. *)
Theorem C08_long_pattern_refuted : exists p (c : cluster_nodes nat) width (rows : list (list nat)) sent,
  1 <= pattern_length p <= length rows /\ Forall (fun r => length r = width) rows /\ len_incl_own c = 3
  /\ read_csv p c (S (length rows)) width rows = Ok sent
  /\ length sent = 2
  /\ nth_error (map snd sent) 1 <> Some (partition_of 3 (pattern_length p - 1) 1 rows).
Proof.
  exists (ex_params 4), ex_nodes, 2, (ex_rows 8). eexists. split; [cbn; lia|]. split; [repeat constructor|].
  split; [reflexivity|]. split; [vm_compute; reflexivity|]. split; [reflexivity|]. vm_compute. discriminate.
Qed.
Print Assumptions C08_long_pattern_refuted.

(** What the reader sends, for every number of rows, of receivers and every pattern length: the first [served] receivers in
    index order, each the rows from the start of its part to [overlap] rows behind the start of the next part. *)
Theorem C08_what_is_sent : forall addr cell p (c : cluster_nodes addr) width (rows : list (list cell)) sent,
  1 <= pattern_length p -> Forall (fun r => length r = width) rows -> 2 <= len_incl_own c ->
  read_csv p c (S (length rows)) width rows = Ok sent ->
  let w := length rows / len_incl_own c in
  let o := pattern_length p - 1 in
  let k := served (len_incl_own c) w o (length rows) in
  k <= len_incl_own c
  /\ sent = combine (iter_take c 0 k) (map (fun j => slice (part_start w o j) (part_start w o (S j) + o) rows) (seq 0 k)).
Proof. exact @read_csv_sent. Qed.
Print Assumptions C08_what_is_sent.

(** Exactly when every receiver gets exactly its partition: the pattern fits into a share and the remainder is shorter than
    the pattern, or there are two receivers and one row less than two patterns. *)
Theorem C08_right_exactly : forall addr cell p (c : cluster_nodes addr) width (rows : list (list cell)),
  1 <= pattern_length p -> Forall (fun r => length r = width) rows -> 2 <= len_incl_own c ->
  (read_csv p c (S (length rows)) width rows
   = Ok (combine (iter_take c 0 (len_incl_own c))
                 (map (fun i => partition_of (len_incl_own c) (pattern_length p - 1) i rows) (seq 0 (len_incl_own c))))
   <-> (pattern_length p <= length rows / len_incl_own c /\ length rows mod len_incl_own c < pattern_length p)
       \/ (len_incl_own c = 2 /\ length rows = 2 * pattern_length p - 1)).
Proof. exact @read_csv_right_iff. Qed.
Print Assumptions C08_right_exactly.

Example C08_exact_case :
  read_csv (ex_params 4) ex_nodes 9 2 (ex_rows 8)
  = Ok [(Local, [[0;0];[1;10];[2;20];[3;30];[4;40]]);
        (Remote 901, [[2;20];[3;30];[4;40];[5;50];[6;60];[7;70]])]
  /\ served 3 2 3 8 = 2
  /\ read_csv (ex_params 4) [(1, 901)] 8 2 (ex_rows 7)
     = Ok [(Local, [[0;0];[1;10];[2;20];[3;30];[4;40];[5;50]]);
           (Remote 901, [[3;30];[4;40];[5;50];[6;60]])].
Proof. vm_compute. auto. Qed.

(** C09 *)
Theorem C09_column_selection : forall cell num (parse : cell -> option num) p data w (val : cell -> num),
  data <> [] -> Forall (fun r => length r = w) data -> (Z.of_nat w < 2 ^ 64)%Z ->
  (forall r b, In r data -> In b r -> parse b = Some (val b)) ->
  (Z.of_nat (column_start p) <= column_limit w (column_end p) <= Z.of_nat w)%Z ->
  load_partition parse p data
  = Ok (map (fun r => map val (slice (column_start p) (Z.to_nat (column_limit w (column_end p))) r)) data).
Proof. exact @load_ok. Qed.
Print Assumptions C09_column_selection.

Theorem C09_bad_range_fails : forall cell num (parse : cell -> option num) p data w,
  data <> [] -> Forall (fun r => length r = w) data ->
  (- 2 ^ 63 <= column_end p < 2 ^ 63)%Z -> (Z.of_nat (column_start p) < 2 ^ 63)%Z ->
  (Z.of_nat w < 2 ^ 63)%Z ->
  (column_limit w (column_end p) < Z.of_nat (column_start p)
   \/ (Z.of_nat w < column_limit w (column_end p) /\ Z.of_nat (column_start p) < column_limit w (column_end p)))%Z ->
  exists q, load_partition parse p data = Panic q.
Proof. exact @load_bad_range. Qed.
Print Assumptions C09_bad_range_fails.

Definition ex_cols (s : nat) (e : Z) : params :=
  {| rate := 100; n_threads := 1; n_cluster_nodes := 1; pattern_length := 3; latent := 1; query_length := 5;
     column_start := s; column_end := e; self_correction := false |}.
Example C09_example :
  load_partition Some (ex_cols 1 (-1)) [[1;2;3;4];[5;6;7;8]] = Ok [[2;3];[6;7]]
  /\ load_partition Some (ex_cols 1 0) [[1;2;3;4];[5;6;7;8]] = Ok [[2;3;4];[6;7;8]]
  /\ load_partition Some (ex_cols 0 5) [[1;2;3;4];[5;6;7;8]] = Panic BadShape.
Proof. vm_compute. auto. Qed.
