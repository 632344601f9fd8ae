(** Specification vocabulary for cluster membership. *)
From Coq Require Import List Arith.
From Verif.Base Require Import Assoc.
From Verif.Listener Require Import Model.
Import ListNotations.

(** [t] numbers the hosts other than [self] by their position in the agreed list [l]. *)
Definition numbered_by {addr} (self : addr) (l : list addr) (t : list (nat * addr)) : Prop :=
  NoDup (keys t)
  /\ forall i h, In (i, h) t <-> (nth_error l i = Some h /\ h <> self).

(** The hosts announced by the events [es], in order, with repetitions. *)
Definition joined {addr} (es : list (event addr)) : list addr :=
  flat_map (fun e => match e with NewMember a => [a] | _ => [] end) es.

(** The number of different elements of a list. *)
Fixpoint distinct {addr} (eqb : addr -> addr -> bool) (l : list addr) : nat :=
  match l with
  | [] => 0
  | a :: t => (if existsb (eqb a) t then 0 else 1) + distinct eqb t
  end.

(** Event [k] announces a host, and as many different hosts have been announced so far as the cluster has other hosts. *)
Definition all_announced {addr} (eqb : addr -> addr -> bool) (others : nat) (es : list (event addr)) (k : nat) : bool :=
  match nth_error es k with
  | Some (NewMember _) => distinct eqb (joined (firstn (S k) es)) =? others
  | _ => false
  end.

(** The events a main host gets: announcements and departures. *)
Definition member_event {addr} (e : event addr) : Prop :=
  match e with SortedMembers _ => False | _ => True end.

(** A host has left before event [k]. *)
Definition left_before {addr} (es : list (event addr)) (k : nat) : bool :=
  existsb (fun e => match e with MemberLeft _ => true | _ => false end) (firstn k es).
(** Event [k] brings the list of the main host although not all others, or too many, are known. *)
Definition list_too_early {addr} (eqb : addr -> addr -> bool) (others : nat) (es : list (event addr)) (k : nat) : bool :=
  match nth_error es k with
  | Some (SortedMembers _) => negb (distinct eqb (joined (firstn k es)) =? others)
  | _ => false
  end.
(** Event [k] makes a host that is not the main host start: all others are known, and the list of the main host comes now or came too early before. *)
Definition sub_starts {addr} (eqb : addr -> addr -> bool) (others : nat) (es : list (event addr)) (k : nat) : bool :=
  negb (left_before es k) &&
  match nth_error es k with
  | Some (SortedMembers _) => distinct eqb (joined (firstn k es)) =? others
  | Some (NewMember _) => (distinct eqb (joined (firstn (S k) es)) =? others) && existsb (list_too_early eqb others es) (seq 0 k)
  | _ => false
  end.
(** The list sent by a main host is not empty: it begins with the main host. *)
Definition list_not_empty {addr} (e : event addr) : Prop := match e with SortedMembers l => l <> [] | _ => True end.
