(** What the exchanges are supposed to achieve, independent of the protocol objects. *)
From Coq Require Import List Arith Bool.
From Verif.Protocol Require Import Exchange.
Import ListNotations.

(** The buckets addressed to [p], one per sender. *)
Definition buckets_for {T} (n : nat) (self : bool) (bucket : nat -> nat -> T) (p : nat) : list (nat * T) :=
  map (fun q => (q, bucket q p)) (filter (fun q => self || negb (q =? p)) (seq 0 n)).
(** The contributions of all hosts but [p]. *)
Definition others {T} (n : nat) (contribution : nat -> T) (p : nat) : list (nat * T) :=
  map (fun q => (q, contribution q)) (filter (fun q => negb (q =? p)) (seq 0 n)).
