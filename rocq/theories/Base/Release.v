(** Subtraction of unsigned numbers in release builds: Cargo.toml:17-18 sets [panic] only, so overflow checks are off there (the default of Rust's release profile) and
    subtractions wrap around.  [word] is the number of values of a [usize] (2^64). *)
From Coq Require Import List Arith Bool.
From Verif.Base Require Import Res.
Import ListNotations.

(** [a - b] on [usize], for instance training/scoring/mod.rs:82, 86. *)
Definition rsub (word a b : nat) : nat := if a <? b then a + word - b else a - b.
(** [ArrayBase::zeros] of ndarray, data_manager/phase_spacer/mod.rs:18-22: aborts if the product of the non-zero lengths exceeds [isize::MAX]. *)
Definition too_large (word : nat) (lengths : list nat) : bool := word / 2 <=? fold_right Nat.mul 1 (map (fun d => Nat.max d 1) lengths).
(** [Vec::push] of [usize], training/scoring/weights.rs:45-47, 66-68: aborts when the vector has more than [isize::MAX] bytes. *)
Definition vec_limit (word : nat) : nat := word / 16.
