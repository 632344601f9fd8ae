(** The Python class Series2GraphPP (s2gpp/__init__.py) and the functions it calls (src/python_binding.rs). *)
From Coq Require Import List Arith ZArith Bool String.
From Verif.Base Require Import Res.
Import ListNotations.
Local Open Scope nat_scope.

(** Clustering, s2gpp/__init__.py:10-12, with [.value]. *)
Inductive method := KDE | MeanShift.
(** [Clustering.value], s2gpp/__init__.py:10-12. *)
Definition method_value (m : method) : string := match m with KDE => "kde" | MeanShift => "meanshift" end.
(** [Clustering::from_str], training/node_estimation/mod.rs:318-331 (the engine knows one method; the error message is not modelled). *)
Inductive engine_method := MultiKDE.
(** [from_str], training/node_estimation/mod.rs:318-331. *)
Definition from_str (s : string) : option engine_method := if String.eqb s "kde" then Some MultiKDE else None.

(** Arguments of [__init__], s2gpp/__init__.py:16-26; numbers are natural except [n_threads], whose default is -1. *)
Record arguments := { a_pattern_length : nat; a_latent : option nat; a_rate : nat; a_query_length : option nat; a_n_threads : Z; a_clustering : method; a_self_correction : bool }.
(** The attributes, 27-34.  [x or d] is [d] for None and for 0; [int(p / 3)] rounds down. *)
Record estimator := { pattern_length : nat; latent : nat; rate : nat; query_length : nat; n_threads : Z; clustering : method; self_correction : bool }.
(** [x or d], s2gpp/__init__.py:27-34. *)
Definition or_default (x : option nat) (d : nat) : nat := match x with Some (S n) => S n | _ => d end.
(** [__init__], s2gpp/__init__.py:16-34. *)
Definition init (cpu_count : nat) (a : arguments) : estimator :=
  {| pattern_length := a_pattern_length a;
     latent := or_default (a_latent a) (a_pattern_length a / 3);
     rate := a_rate a;
     query_length := or_default (a_query_length a) (a_pattern_length a);
     n_threads := if (0 <? a_n_threads a)%Z then a_n_threads a else Z.min (Z.of_nat cpu_count - 1) 1;
     clustering := a_clustering a;
     self_correction := a_self_correction a |}.

(** Positional arguments of a call into the engine. *)
(** [self.clustering.value], s2gpp/__init__.py:39-48. *)
Inductive value := N (n : nat) | I (z : Z) | S_ (s : string) | B (b : bool).
(** [fit_predict], 39-48, without the data. *)
Definition call (e : estimator) : list value :=
  [N (pattern_length e); N (latent e); N (query_length e); N (rate e); I (n_threads e); S_ (method_value (clustering e)); B (self_correction e)].
(** Parameters (src/parameters.rs:27-77), the fields an analysis of an array depends on. *)
Record parameters := { p_pattern_length : nat; p_latent : nat; p_rate : nat; p_n_threads : nat; p_query_length : nat; p_clustering : engine_method; p_self_correction : bool; p_cluster_nodes : nat }.
(** [s2gpp_local_array], python_binding.rs:10-29: the conversion of the arguments.  [usize] refuses negative numbers (an exception before the call). *)
Definition local_array (args : list value) : res parameters :=
  match args with
  | [N pattern_length; N latent; N query_length; N rate; I n_threads; S_ clustering; B self_correction] =>
      if (n_threads <? 0)%Z then Panic Explicit
      else let! c := unwrap (from_str clustering) in
           Ok {| p_pattern_length := pattern_length; p_latent := latent; p_rate := rate; p_n_threads := Z.to_nat n_threads; p_query_length := query_length; p_clustering := c;
                 p_self_correction := self_correction; p_cluster_nodes := 1 |}
  | _ => Panic Explicit
  end.
(** [fit_predict], s2gpp/__init__.py:39-48. *)
Definition fit_predict (cpu_count : nat) (a : arguments) : res parameters := local_array (call (init cpu_count a)).

(** DistributedSeries2GraphPP, s2gpp/__init__.py:56-64: the attributes added to those of the super class; [mainhost] is None for the main host.  [column_end] may be negative. *)
Record distributed := { base : estimator; d_local_host : string; d_output_path : string; d_column_start : nat; d_column_end : Z; d_n_cluster_nodes : nat; d_mainhost : option string }.
(** Its calls, 66-98; [X] is the path of the data. *)
Definition call_main (d : distributed) (X : string) : list value :=
  let e := base d in
  [S_ X; N (pattern_length e); N (latent e); N (query_length e); N (rate e); I (n_threads e); S_ (d_output_path d); N (d_column_start d); I (d_column_end d);
   S_ (method_value (clustering e)); B (self_correction e); S_ (d_local_host d); N (d_n_cluster_nodes d)].
(** [sub], s2gpp/__init__.py:83-98. *)
Definition call_sub (d : distributed) (mainhost : string) : list value :=
  let e := base d in
  [N (pattern_length e); N (latent e); N (query_length e); N (rate e); I (n_threads e); S_ (d_output_path d); N (d_column_start d); I (d_column_end d);
   S_ (method_value (clustering e)); B (self_correction e); S_ (d_local_host d); N (d_n_cluster_nodes d); S_ mainhost].
(** All fields of Parameters the distributed calls set (parameters.rs:27-77, role 7-19); the explainability options keep their defaults. *)
Inductive role (addr : Type) := Main (data_path : string) | Sub (mainhost : addr).
Arguments Main {addr}. Arguments Sub {addr}.
(** Parameters, src/parameters.rs:27-77. *)
Record full (addr : Type) := { f_role : role addr; f_common : parameters; f_output : string; f_column_start : nat; f_column_end : Z; f_local_host : addr }.
Arguments f_role {addr}. Arguments f_common {addr}. Arguments f_output {addr}. Arguments f_column_start {addr}. Arguments f_column_end {addr}. Arguments f_local_host {addr}.
Section Hosts.
  (** [str::parse::<SocketAddr>] of the standard library. *)
  Context {addr : Type} (parse : string -> option addr).
  (** The part python_binding.rs:105-116 and 144-155 have in common. *)
  Definition convert (r : role addr) (args : list value) : res (full addr) :=
    match args with
    | [N pattern_length; N latent; N query_length; N rate; I n_threads; S_ output; N column_start; I column_end; S_ clustering; B self_correction; S_ local_host; N n_cluster_nodes] =>
        if (n_threads <? 0)%Z then Panic Explicit
        else let! c := unwrap (from_str clustering) in
             let! h := unwrap (parse local_host) in
             Ok {| f_role := r; f_common := {| p_pattern_length := pattern_length; p_latent := latent; p_rate := rate; p_n_threads := Z.to_nat n_threads; p_query_length := query_length;
                                               p_clustering := c; p_self_correction := self_correction; p_cluster_nodes := n_cluster_nodes |};
                   f_output := output; f_column_start := column_start; f_column_end := column_end; f_local_host := h |}
    | _ => Panic Explicit
    end.
  (** [s2gpp_distributed_main], 83-117, and [s2gpp_distributed_sub], 122-156: the parameters of the engine.  An address that does not parse is an exception. *)
  Definition distributed_main (args : list value) : res (full addr) := match args with S_ X :: rest => convert (Main X) rest | _ => Panic Explicit end.
  (** [s2gpp_distributed_sub], python_binding.rs:122-156. *)
  Definition distributed_sub (args : list value) : res (full addr) :=
    match rev args with S_ mainhost :: rest => let! m := unwrap (parse mainhost) in convert (Sub m) (rev rest) | _ => Panic Explicit end.
End Hosts.
