(** What the theorems about a channel that never changes, and about one that changes too much, say. *)
From Coq Require Import List Arith Permutation Reals ZArith.
From Flocq Require Import IEEE754.BinarySingleNaN.
From Verif.Base Require Import Res Params Float32.
From Verif.Stats Require Import Model Single.
From Verif.Reader Require Import Spec.
From Verif.Front Require Import Single SingleAlign.
Import ListNotations.

(** The channel [c] shows the whole number [k] in every row. *)
Definition silent (rows : list (list f32)) (c : nat) (k : Z) : Prop :=
  Forall (fun row => exists x, nth_error row c = Some x /\ f_finite x = true /\ f_real x = IZR k) rows.
(** The matrices of all channels are those that the main host makes of the smallest and largest values of the series ([mins] and [maxs]), which it collects from the messages of the hosts in the order [arrival]. *)
Definition aligned_by (p : params) (dim N : nat) (rows : list (list f32)) (arrival : list nat) (means : nat -> list f32) (comps ms : list (list (list f32))) : Prop :=
  Permutation arrival (seq 0 N) /\ length ms = dim /\
  exists mins maxs, In (0, (mins, maxs)) (f_collect N f_minmax_init (map (fun h => f_calculate_minmax dim (partition_of N (pattern_length p - 1) h rows) h) arrival)) /\
    forall c comp m, nth_error comps c = Some comp -> nth_error ms c = Some m ->
      exists mn mx, nth_error mins c = Some mn /\ nth_error maxs c = Some mx /\ channel_alignment p (mn, mx) (means c) comp m.
(** Channel [c] contains two finite values whose difference is at least 2^128: more than single precision holds. *)
Definition wide (rows : list (list f32)) (c : nat) : Prop :=
  exists row row' x y, In row rows /\ In row' rows /\ nth_error row c = Some x /\ nth_error row' c = Some y /\ f_finite x = true /\ f_finite y = true /\ (f_real y - f_real x >= IZR (2 ^ 128))%R.
(** Channel [c] contains an infinite value (the text "inf" or "-inf" of a file is one). *)
Definition infinite (rows : list (list f32)) (c : nat) : Prop := exists row b, In row rows /\ nth_error row c = Some (B754_infinity b).
