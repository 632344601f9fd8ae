(** Cluster topology: segment ownership and the peer table. *)
From Coq Require Import List Arith ZArith Bool.
From Verif.Base Require Import Res Params Assoc.
Import ListNotations.

(** src/parameters.rs:87-89 *)
Definition segments_per_node (p : params) : res nat := udiv (rate p) (n_cluster_nodes p).

(** src/parameters.rs:91-99 *)
Definition segment_id_to_assignment (p : params) (segment_id : nat) : res nat :=
  let! spn := segments_per_node p in
  let! c := udiv segment_id spn in
  if n_cluster_nodes p <=? c then usub (n_cluster_nodes p) 1 else Ok c.

(** src/parameters.rs:101-105 *)
Definition first_segment_of_i_next_cluster_node (p : params) (segment_id i : nat) : res nat :=
  let! a := segment_id_to_assignment p segment_id in
  let! next := umod (a + i) (n_cluster_nodes p) in
  let! spn := segments_per_node p in
  Ok (next * spn).

(** src/training/mod.rs:95-99; [isize] arithmetic in [Z], [mod_floor] is [Z.modulo] (for a positive modulus). *)
Definition cluster_node_diff (p : params) (from_node to_node : nat) : res nat :=
  if n_cluster_nodes p =? 0 then Panic DivByZero
  else Ok (Z.to_nat ((Z.of_nat to_node - Z.of_nat from_node) mod Z.of_nat (n_cluster_nodes p))).

(** The peer table: [HashMap<usize, RemoteAddr>] in iteration order.  src/utils/mod.rs:28-31.
    Addresses are an arbitrary type; the remote actor id that [change_ids]/[get_as] set on an address is not modelled. *)
Section Nodes.
Context {addr : Type}.
(** [ClusterNodes], src/utils/mod.rs:28-31. *)
Definition cluster_nodes := list (nat * addr).

(** src/utils/mod.rs:86-88, 90-92 *)
Definition len (c : cluster_nodes) : nat := length c.
(** [len_incl_own], src/utils/mod.rs:90-92. *)
Definition len_incl_own (c : cluster_nodes) : nat := len c + 1.

(** [sum] of the keys, src/utils/mod.rs:59-68. *)
Definition sum_list (l : list nat) : nat := fold_right Nat.add 0 l.

(** src/utils/mod.rs:53-57 *)
Definition get_own_idx (c : cluster_nodes) : res nat :=
  usub (sum_list (seq 0 (len_incl_own c))) (sum_list (keys c)).

(** src/utils/mod.rs:59-68 *)
Definition get_shifted_idx (c : cluster_nodes) (shift_by : Z) : res (option nat) :=
  let! own := get_own_idx c in
  if 0 <? len c then
    Ok (Some (Z.to_nat ((Z.of_nat own + shift_by) mod Z.of_nat (len_incl_own c))))
  else Ok None.

(** src/utils/mod.rs:70-76 *)
Definition get_next_idx (c : cluster_nodes) : res (option nat) := get_shifted_idx c 1.
(** [get_previous_idx], src/utils/mod.rs:74-76. *)
Definition get_previous_idx (c : cluster_nodes) : res (option nat) := get_shifted_idx c (-1).

(** src/utils/mod.rs:49-51 *)
Definition get (c : cluster_nodes) (k : nat) : option addr := lookup Nat.eqb k c.

(** src/utils/mod.rs:132-134 *)
Definition all_connected (p : params) (c : cluster_nodes) : bool := len_incl_own c =? n_cluster_nodes p.

(** actix_telepathy::AnyAddr as used in src/utils/mod.rs:218-228: a remote address or the local actor. *)
Inductive any_addr := Remote (a : addr) | Local.

(** State of [AnyClusterNodesIterator]: the position.  src/utils/mod.rs:196-209 *)
Definition last_position (c : cluster_nodes) (position : nat) : bool := len_incl_own c <=? position.

(** src/utils/mod.rs:211-233: one call of [next], the item and the new position. *)
Definition iter_next (c : cluster_nodes) (position : nat) : option any_addr * nat :=
  if len_incl_own c <=? position then (None, position)
  else (Some (match get c position with Some a => Remote a | None => Local end), position + 1).

(** Collecting the iterator ([for x in nodes.into_iter()]); [fuel] bounds the number of calls and is the number of
    items asked for: a [None] item ends the iteration as in Rust. *)
(** Repeated calls of [next], src/utils/mod.rs:211-233. *)
Fixpoint iter_take (c : cluster_nodes) (position fuel : nat) : list any_addr :=
  match fuel with
  | 0 => []
  | S f => match iter_next c position with
           | (Some a, position') => a :: iter_take c position' f
           | (None, _) => []
           end
  end.
End Nodes.
Arguments cluster_nodes : clear implicits.
Arguments any_addr : clear implicits.
