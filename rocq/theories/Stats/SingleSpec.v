(** Specification vocabulary for the extremes in single precision. *)
From Coq Require Import List Reals.
From Flocq Require Import IEEE754.BinarySingleNaN Core.
From Verif.Base Require Import Float32.
Import ListNotations.

(** The place of a value on the number line; the infinities lie beyond all finite values of single precision, which are smaller than 2^128. *)
Definition place (x : f32) : R :=
  match x with B754_infinity s => if s then (- bpow radix2 128)%R else bpow radix2 128 | _ => f_real x end.
(** [x] occurs in column [j] of the rows. *)
Definition f_entry (rows : list (list f32)) (j : nat) (x : f32) : Prop := exists r, In r rows /\ nth_error r j = Some x.
(** [v] is a number, no number in column [j] is smaller, and [v] occurs in the column or is [bound], the value to start from. *)
Definition f_column_minimum (bound : f32) (rows : list (list f32)) (j : nat) (v : f32) : Prop :=
  f_nan v = false /\ (v = bound \/ f_entry rows j v) /\ (place v <= place bound)%R
  /\ forall x, f_entry rows j x -> f_nan x = false -> (place v <= place x)%R.
Definition f_column_maximum (bound : f32) (rows : list (list f32)) (j : nat) (v : f32) : Prop :=
  f_nan v = false /\ (v = bound \/ f_entry rows j v) /\ (place bound <= place v)%R
  /\ forall x, f_entry rows j x -> f_nan x = false -> (place x <= place v)%R.
