From Coq Require Import List Arith Lia Bool Reals ZArith.
From Verif.Base Require Import Res Params Assoc ListX.
From Verif.Topology Require Import Model Spec.
From Verif.Reader Require Import Spec.
From Verif.Stats Require Import Model.
From Verif.PhaseSpace Require Import Model Spec Proofs.
Import ListNotations.

(** C15: for any way [rowsum] of adding up a block of rows. *)
Theorem C15_embedding : forall V (rowsum : list V -> V) p data,
  latent p < pattern_length p -> pattern_length p - 1 <= length data ->
  phase_space rowsum p data = Ok (embedding rowsum (pattern_length p) (latent p) data).
Proof. exact @phase_space_ok. Qed.
Print Assumptions C15_embedding.

Definition ex_ps : params :=
  {| rate := 100; n_threads := 1; n_cluster_nodes := 2; pattern_length := 4; latent := 2; query_length := 5;
     column_start := 0; column_end := 0%Z; self_correction := false |}.
Example C15_example :
  phase_space (fold_right Nat.add 0) ex_ps [1; 3; 7; 20; 50; 100]
  = Ok [[4; 10]; [10; 27]; [27; 70]].
Proof. vm_compute. reflexivity. Qed.

(** C16: the nodes' embeddings, put one after the other, are the embedding of the whole series ... *)
Theorem C16_distributed_embedding : forall V (rowsum : list V -> V) p N (rows : list V),
  latent p < pattern_length p -> 1 <= N -> pattern_length p <= length rows / N ->
  exists parts,
    mapM (fun i => phase_space rowsum p (partition_of N (pattern_length p - 1) i rows)) (seq 0 N) = Ok parts
    /\ phase_space rowsum p rows = Ok (concat parts).
Proof. exact @distributed_embedding. Qed.
Print Assumptions C16_distributed_embedding.

(** ... and the id of a point is the number of its window in the whole series. *)
Theorem C16_point_ids : forall V (rowsum : list V -> V) addr (c : cluster_nodes addr) own N p (rows : list V) part ids,
  all_but own N (keys c) -> latent p < pattern_length p -> pattern_length p <= length rows / N ->
  phase_space rowsum p (partition_of N (pattern_length p - 1) own rows) = Ok part ->
  point_ids c (length rows) (length part) = Ok ids ->
  length ids = length part /\
  forall k id w, nth_error ids k = Some id -> nth_error part k = Some w ->
    nth_error (embedding rowsum (pattern_length p) (latent p) rows) id = Some w.
Proof. exact @point_ids_are_window_numbers. Qed.
Print Assumptions C16_point_ids.

Example C16_example :
  mapM (fun i => phase_space (fold_right Nat.add 0) ex_ps (partition_of 2 3 i (seq 1 9))) (seq 0 2)
    = Ok [[[3; 5]; [5; 7]; [7; 9]; [9; 11]]; [[11; 13]; [13; 15]]]
  /\ phase_space (fold_right Nat.add 0) ex_ps (seq 1 9)
     = Ok [[3; 5]; [5; 7]; [7; 9]; [9; 11]; [11; 13]; [13; 15]]
  /\ all_but 1 2 (keys [(0, 7)]) /\ point_ids [(0, 7)] 9 2 = Ok [4; 5].
Proof.
  repeat split; try (vm_compute; reflexivity); try lia.
  - constructor; [intros []|constructor].
  - cbn in H. lia.
  - cbn in H. lia.
  - intros (H1 & H2). cbn. lia.
Qed.

(** C57: the reference data set interpolates linearly between the column minima and maxima, each summed [latent] times. *)
Theorem C57_reference_dataset : forall p mn mx, (latent p <= pattern_length p)%nat -> length mn = length mx ->
  reference_dataset p mn mx
  = Ok (map (fun i => repeat (map2 (fun s e => INR (latent p) * (s + INR i * ((e - s) / 99)))%R mn mx)
                             (pattern_length p - latent p))
            (seq 0 100)).
Proof. exact @reference_dataset_ok. Qed.
Print Assumptions C57_reference_dataset.
Example C57_example : (latent ex_ps <= pattern_length ex_ps) /\ length [0%R; 1%R] = length [2%R; 1%R].
Proof. cbn. lia. Qed.
