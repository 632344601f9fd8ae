From Coq Require Import List Arith Bool ZArith Reals Lia Lra.
From Flocq Require Import IEEE754.BinarySingleNaN Core.
From Verif.Base Require Import Res Float32 Float32Proofs.
From Verif.Stats Require Import Model Proofs Single SingleSpec SingleProofs.
Import ListNotations.
Local Open Scope R_scope.

(** C10 in single precision: [parts] lists the rows of the hosts in order of arrival; values may be infinite or no numbers.  Nothing is
    published before the last message; then every host gets the same values once.  They are numbers, in the order of the data the
    minimum and the maximum over all numbers of the column, and occur in it unless the column has no finite value at all. *)
Theorem C10_single_precision : forall source w (parts : list (source * list (list f32))), parts <> [] ->
  let msgs := map (fun sp => f_calculate_minmax w (snd sp) (fst sp)) parts in
  let rows := concat (map snd parts) in
  (exists mn mx, f_collect (length parts) f_minmax_init msgs = map (fun s => (s, (mn, mx))) (map fst parts)
     /\ length mn = w /\ length mx = w
     /\ forall j, (j < w)%nat -> exists v u, nth_error mn j = Some v /\ nth_error mx j = Some u
          /\ f_column_minimum f_largest rows j v /\ f_column_maximum f_lowest rows j u
          /\ forall x, f_entry rows j x -> f_finite x = true ->
               (exists y, f_entry rows j y /\ place y = place v) /\ (exists y, f_entry rows j y /\ place y = place u))
  /\ (forall k, (k < length parts)%nat -> f_collect (length parts) f_minmax_init (firstn k msgs) = []).
Proof.
  intros source w parts Hne msgs rows. destruct (collect_good (length parts) w parts [] f_minmax_init) as ([mn mx] & (L1 & L2 & H) & E & K); [reflexivity|exact Hne|reflexivity|].
  cbn [app fst snd] in *. split; [|exact K]. exists mn, mx. split; [exact E|]. split; [exact L1|]. split; [exact L2|].
  intros j Hj. destruct (H j Hj) as (v & u & Ev & Eu & (A & B & C & D) & (A' & B' & C' & D')). exists v, u. split; [exact Ev|]. split; [exact Eu|].
  rewrite f_column_entry in B, B'. split; [|split].
  - repeat split; auto. intros x Hx. apply D. now apply f_column_entry.
  - repeat split; auto. intros x Hx. apply D'. now apply f_column_entry.
  - intros x Hx Fx. destruct (largest_bound x Fx) as (Nx & Lx & Ux). pose proof (proj2 (f_column_entry j rows x) Hx) as Hc. fold rows in D, D'. specialize (D x Hc Nx). specialize (D' x Hc Nx). split.
    + destruct B as [->|B]; [exists x; split; [exact Hx|lra]|exists v; now split].
    + destruct B' as [->|B']; [exists x; split; [exact Hx|lra]|exists u; now split].
Qed.
Print Assumptions C10_single_precision.
(** A column without any number: the published minimum is the largest value of single precision, the published maximum the lowest. *)
Theorem C10_no_numbers : forall source w (parts : list (source * list (list f32))) j, parts <> [] -> (j < w)%nat ->
  (forall x, f_entry (concat (map snd parts)) j x -> f_nan x = true) ->
  exists mn mx, f_collect (length parts) f_minmax_init (map (fun sp => f_calculate_minmax w (snd sp) (fst sp)) parts) = map (fun s => (s, (mn, mx))) (map fst parts)
    /\ nth_error mn j = Some f_largest /\ nth_error mx j = Some f_lowest.
Proof.
  intros source w parts j Hne Hj Hnan. destruct (C10_single_precision source w parts Hne) as ((mn & mx & E & _ & _ & H) & _).
  exists mn, mx. split; [exact E|]. destruct (H j Hj) as (v & u & Ev & Eu & (A & B & _) & (A' & B' & _) & _). rewrite Ev, Eu. split; f_equal.
  - destruct B as [B|B]; [exact B|]. rewrite (Hnan v B) in A. discriminate.
  - destruct B' as [B'|B']; [exact B'|]. rewrite (Hnan u B') in A'. discriminate.
Qed.
Print Assumptions C10_no_numbers.

(** Two hosts; the first column has a value that is no number on one and minus infinity on the other, the second no numbers at all. *)
Definition single_parts : list (nat * list (list f32)) :=
  [(1, [[B754_nan; B754_nan]; [f_of 3 0; B754_nan]]); (0, [[B754_infinity true; B754_nan]; [f_of 1 (-1); B754_nan]])]%nat.
Example C10_single_case : single_parts <> []
  /\ (forall x, f_entry (concat (map snd single_parts)) 1 x -> f_nan x = true)
  /\ map (fun o => (fst o, map B2SF (fst (snd o)), map B2SF (snd (snd o)))) (f_collect 2 f_minmax_init (map (fun sp => f_calculate_minmax 2 (snd sp) (fst sp)) single_parts))
     = [(1%nat, [SpecFloat.S754_infinity true; B2SF f_largest], [B2SF (f_of 3 0); B2SF f_lowest]); (0%nat, [SpecFloat.S754_infinity true; B2SF f_largest], [B2SF (f_of 3 0); B2SF f_lowest])].
Proof.
  split; [discriminate|]. split.
  - intros x (r & Hr & Hx). cbn in Hr. repeat (destruct Hr as [<-|Hr]; [injection Hx as <-; reflexivity|]). destruct Hr.
  - vm_compute. reflexivity.
Qed.
