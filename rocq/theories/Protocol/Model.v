(** The bookkeeping objects of the exchanges between hosts and with helper pools:
    src/utils/direct_protocol.rs, src/utils/rotation_protocol.rs (the same code twice) and src/utils/helper_protocol.rs. *)
From Coq Require Import List Arith Bool.
From Verif.Base Require Import Res.
Import ListNotations.

(** [DirectProtocol] / [RotationProtocol], direct_protocol.rs:4-10, rotation_protocol.rs:4-10. *)
Record protocol (T : Type) := { n_total : nat; n_received : nat; n_sent : nat; buffer : list T }.
Arguments n_total {T}. Arguments n_received {T}. Arguments n_sent {T}. Arguments buffer {T}. Arguments Build_protocol {T}.

(** [Default]. *)
(** [Default], direct_protocol.rs:4-10, rotation_protocol.rs:4-10. *)
Definition new_protocol {T} : protocol T := {| n_total := 0; n_received := 0; n_sent := 0; buffer := [] |}.
(** [start], 13-15. *)
Definition start {T} (total : nat) (p : protocol T) : protocol T :=
  {| n_total := total; n_received := n_received p; n_sent := n_sent p; buffer := buffer p |}.
(** [is_running], 31-33. *)
Definition is_running {T} (p : protocol T) : bool := (n_received p <? n_total p) || (n_sent p <? n_total p).
(** [received], 17-25. *)
Definition received {T} (m : T) (p : protocol T) : protocol T * bool :=
  if is_running p
  then ({| n_total := n_total p; n_received := S (n_received p); n_sent := n_sent p; buffer := buffer p |}, true)
  else ({| n_total := n_total p; n_received := n_received p; n_sent := n_sent p; buffer := buffer p ++ [m] |}, false).
(** [sent], 27-29. *)
Definition sent {T} (p : protocol T) : protocol T :=
  {| n_total := n_total p; n_received := n_received p; n_sent := S (n_sent p); buffer := buffer p |}.
(** [resolve_buffer], 35-42: the buffered messages, oldest first, are sent to the actor itself. *)
Definition resolve_buffer {T} (p : protocol T) : protocol T * list T :=
  ({| n_total := n_total p; n_received := n_received p; n_sent := n_sent p; buffer := [] |}, buffer p).

(** [HelperProtocol], helper_protocol.rs. *)
(** [HelperProtocol], helper_protocol.rs:1-6. *)
Record helper := { h_total : nat; h_sent : nat; h_received : nat }.
(** [Default], helper_protocol.rs:1-6. *)
Definition new_helper : helper := {| h_total := 0; h_sent := 0; h_received := 0 |}.
(** [sent], helper_protocol.rs:9-11. *)
Definition h_sent_one (h : helper) : helper := {| h_total := h_total h; h_sent := S (h_sent h); h_received := h_received h |}.
(** [received], 13-16: aborts if more answers than tasks arrive. *)
Definition h_received_one (h : helper) : res helper :=
  let! s := usub (h_sent h) 1 in Ok {| h_total := h_total h; h_sent := s; h_received := S (h_received h) |}.
(** [is_running], helper_protocol.rs:18-20. *)
Definition h_running (h : helper) : bool := h_received h <? h_total h.
