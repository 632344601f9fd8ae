(** Specification vocabulary for segmentation. *)
From Coq Require Import List Arith Bool.
From Verif.Base Require Import Params.
From Verif.Transition Require Import Spec.
From Verif.Segmentation Require Import Model.
Import ListNotations.

(** The consecutive pairs of a sequence. *)
Fixpoint pairs {A} (l : list A) : list (A * A) :=
  match l with a :: ((b :: _) as r) => (a, b) :: pairs r | _ => [] end.

(** A usable transition: counter-clockwise over at least one and at most half of the segments. *)
Definition usable (rate : nat) (t : pt * pt) : bool :=
  (1 <=? ccw rate (pseg (fst t)) (pseg (snd t))) && (ccw rate (pseg (fst t)) (pseg (snd t)) <=? rate / 2).

(** The usable transitions of a point sequence, in order. *)
Definition usable_pairs (rate : nat) (points : list pt) : list transition := filter (usable rate) (pairs points).

(** The owner of a segment: equal shares, the last host takes the rest. *)
Definition owner (p : params) (s : nat) : nat := Nat.min (s / (rate p / n_cluster_nodes p)) (n_cluster_nodes p - 1).

(** The nodes visited by a transition: its crossed segments in travel order, each with the id of the transition's first point. *)
Definition visits (rate : nat) (t : pt * pt) : list (nat * nat) :=
  map (fun lag => (pid (fst t), (pseg (fst t) + lag) mod rate)) (seq 1 (ccw rate (pseg (fst t)) (pseg (snd t)))).
(** The path through the graph. *)
Definition path (rate : nat) (ts : list (pt * pt)) : list (nat * nat) := concat (map (visits rate) ts).

(** A step of the path as a question. *)
Definition as_question (s : (nat * nat) * (nat * nat)) : question :=
  {| q_prev_id := fst (fst s); q_prev_segment := snd (fst s); q_id := fst (snd s); q_segment := snd (snd s) |}.
(** The question is asked by host [a] to host [b]. *)
Definition between_hosts (p : params) (a b : nat) (q : question) : bool :=
  (owner p (q_prev_segment q) =? a) && (owner p (q_segment q) =? b) && negb (a =? b).

(** The questions host [a] has collected for host [b]. *)
Definition questions_of (qs : questions) (b a : nat) : list question :=
  match Assoc.lookup Nat.eqb b qs with
  | Some m => match Assoc.lookup Nat.eqb a m with Some l => l | None => [] end
  | None => []
  end.
