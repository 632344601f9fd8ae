(** Normalization of the scores, src/training/scoring/mod.rs:190-197. *)
From Coq Require Import List ZArith.
From Verif.Base Require Import Res Float32.
Import ListNotations.

(** [normalize_score]. *)
(** [normalize_score], scoring/mod.rs:190-197. *)
Definition normalize_score (scores : list f32) : res (list f32) :=
  let! all_max := f_max scores in
  let! all_min := f_min scores in
  Ok (map (fun x => f_div (f_sub x all_min) (f_sub all_max all_min)) scores).

(** [score_p_degree] and the negation of its result, scoring/helper.rs:20-35, 55-66, for the summands [weight * (degree - 1)] of a window (as natural numbers: the products of [usize]
    are assumed not to overflow).  0.00000001 is 11258999 * 2^-50 in single precision.  [sum] starts at 0. *)
Definition score_alpha (len : nat) : f32 := f_add (f_of 11258999 (-50)) (f_of_nat len).
(** The sum of the summands, scoring/helper.rs:24-33. *)
Definition score_sum (xs : list nat) : f32 := fold_left (fun s x => f_add s (f_of_nat x)) xs f_zero.
(** [score_p_degree], scoring/helper.rs:20-35, negated (65). *)
Definition score_value (xs : list nat) : f32 := f_neg (f_div (score_sum xs) (score_alpha (length xs))).
