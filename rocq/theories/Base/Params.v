(** Run parameters.  Models src/parameters.rs:20-77 (the numeric fields used by the modelled code; addresses, paths,
    explainability and clustering choice are modelled where they are used). *)
From Coq Require Import ZArith.

(** [Parameters], src/parameters.rs:20-77. *)
Record params : Type := mkParams {
  rate : nat;             (** src/parameters.rs:41-42 *)
  n_threads : nat;        (** 44-45 *)
  n_cluster_nodes : nat;  (** 47-48 *)
  pattern_length : nat;   (** 34-35 *)
  latent : nat;           (** 37-38 *)
  query_length : nat;     (** 50-51 *)
  column_start : nat;     (** 56-57 *)
  column_end : Z;         (** 59-60 *)
  self_correction : bool  (** 75-76 *)
}.

(** src/parameters.rs:108-128, [Default for Parameters]. *)
Definition default_params : params :=
  {| rate := 100; n_threads := 1; n_cluster_nodes := 1; pattern_length := 50; latent := 16;
     query_length := 75; column_start := 0; column_end := 0%Z; self_correction := false |}.

(** Struct update syntax [Parameters { rate, n_cluster_nodes, ..Default::default() }] used in examples. *)
(** The default parameters (src/parameters.rs:108-128) with another rate and number of hosts, as tests and examples use them. *)
Definition with_rate_nodes (r n : nat) : params :=
  {| rate := r; n_threads := 1; n_cluster_nodes := n; pattern_length := 50; latent := 16;
     query_length := 75; column_start := 0; column_end := 0%Z; self_correction := false |}.
