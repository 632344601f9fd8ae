(** Specification vocabulary for transitions. *)
From Coq Require Import List Arith.
Import ListNotations.

(** Number of borders between two of [rate] segments when travelling counter-clockwise. *)
Definition ccw (rate from to : nat) : nat := (to + (rate - from)) mod rate.
