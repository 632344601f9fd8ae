(** Specification vocabulary for the topology properties: independent of the model's functions. *)
From Coq Require Import List Arith Permutation.
Import ListNotations.

(** [border] cuts [0..total) into [n] consecutive non-empty blocks, block [k] being [border k, border (k+1)). *)
Definition cuts (border : nat -> nat) (n total : nat) : Prop :=
  border 0 = 0 /\ border n = total /\ forall k, k < n -> border k < border (S k).

(** [ks] is, in some order, the set of all cluster indices below [n] except [own]. *)
Definition all_but (own n : nat) (ks : list nat) : Prop :=
  own < n /\ NoDup ks /\ forall j, In j ks <-> (j < n /\ j <> own).
