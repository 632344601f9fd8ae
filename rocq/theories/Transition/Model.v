(** Transitions between segments: src/data_store/transition/mod.rs and the list of crossed borders in
    src/training/intersection_calculation/mod.rs:120-147.  A transition is given by its two segment numbers. *)
From Coq Require Import List Arith ZArith.
Import ListNotations.

(** [crosses_segments], transition/mod.rs:32-36. *)
Definition crosses_segments (from to : nat) : bool := negb (Nat.eqb from to).

(** [raw_diff], transition/mod.rs:55-57. *)
Definition raw_diff (from to : nat) : Z := (Z.of_nat to - Z.of_nat from)%Z.

(** [has_valid_direction], transition/mod.rs:38-49. *)
Definition has_valid_direction (rate from to : nat) : bool :=
  (let raw_diff_counter := (Z.of_nat rate + Z.of_nat to) - Z.of_nat from in
   let half_rate := Z.of_nat rate / 2 in
   let rd := raw_diff from to in
   ((0 <=? rd) && (rd <=? half_rate)) || ((rd <? 0) && ((0 <=? raw_diff_counter) && (raw_diff_counter <=? half_rate))))%Z%bool.

(** [segment_diff], transition/mod.rs:51-53. *)
Definition segment_diff (from to : nat) : nat := Z.to_nat (Z.abs (raw_diff from to)).

(** [get_first_intersection_segment], transition/mod.rs:70-72. *)
Definition first_intersection_segment (rate from : nat) : nat := (from + 1) mod rate.

(** intersection_calculation/mod.rs:122-138: the number of borders to cross. *)
Definition border_count (rate from to : nat) : nat :=
  let sd := segment_diff from to in
  let half_rate := rate / 2 in
  let sd :=
    if half_rate <? sd then
      if half_rate <? to then Z.to_nat (Z.abs (Z.of_nat from - (- Z.of_nat rate + Z.of_nat to)))
      else if half_rate <? from then Z.to_nat (Z.abs (Z.of_nat to - (- Z.of_nat rate + Z.of_nat from)))
      else sd
    else sd in
  Nat.min sd half_rate.

(** intersection_calculation/mod.rs:140-143: the borders, [1..segment_diff + 1] steps ahead. *)
Definition crossed_segments (rate from to : nat) : list nat :=
  map (fun lag => (from + lag) mod rate) (seq 1 (border_count rate from to)).
