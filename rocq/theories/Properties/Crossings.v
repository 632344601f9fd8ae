(** C87: where the series crosses a border. *)
From Coq Require Import List Arith Bool Lia Reals Lra.
From Verif.Base Require Import Res ListX.
From Verif.Transition Require Import Spec.
From Verif.Segmentation Require Import Model Spec.
From Verif.Geometry Require Import Model Spec Proofs Crossing.
From Verif.Intersections Require Import Real RealSpec RealProofs.
Import ListNotations.
Local Open Scope R_scope.

(** The points of a transition have the coordinates [a] and [b]. *)
Definition ends_at (coords : list (list R)) (t : transition) (a b : list R) : Prop := nth_error coords (pid (fst t)) = Some a /\ nth_error coords (pid (snd t)) = Some b.
(** All points have two coordinates for each of the [dim] channels; the transitions are between them. *)
Definition held_points (dim : nat) (coords : list (list R)) (held : list transition) : Prop :=
  Forall (fun c => length c = (2 * dim)%nat) coords /\ forall t, In t held -> exists a b, ends_at coords t a b.
(** A matrix inverse that is correct and fails only for singular matrices. *)
Definition inverse_correct (d : nat) (inv : (nat -> nat -> R) -> option (nat -> nat -> R)) : Prop := (forall m m', inv m = Some m' -> left_inverse d m' m) /\ complete_inverse d inv.

Lemma held_rows : forall dim coords held, held_points dim coords held -> rows_ok (2 * dim) coords held.
Proof.
  intros dim coords held (F & H) t Ht. destruct (H t Ht) as (a & b & Ea & Eb). exists a, b. rewrite Forall_forall in F. ssplit; auto; apply F; eapply nth_error_In; eassumption.
Qed.

(** What is stored of a crossing are the distances, in each channel, of the point in which the line from one point to the next meets the border - whatever other transitions the computing host holds and
    whatever the library; the computation aborts exactly if the line is parallel to the border. *)
Theorem C87_crossing : forall dim inv rate coords held t s a b, (1 <= dim)%nat -> inverse_correct (2 * dim) inv -> held_points dim coords held -> In t held -> ends_at coords t a b ->
  let from := coords_fun a in let to := coords_fun b in
  (offset rate s from <> offset rate s to -> real_cross inv rate coords held t s = Ok (crossing_distances dim rate s from to)) /\
  (offset rate s from = offset rate s to -> real_cross inv rate coords held t s = Panic Explicit).
Proof. intros dim inv rate coords held t s a b Hd (Hi & Hc) Hh Ht (Ea & Eb). apply real_cross_ok; auto. now apply held_rows. Qed.
(** That point is on the border's plane, and it is the only one of the line. *)
Theorem C87_meets_the_border : forall rate s from to, offset rate s from <> offset rate s to ->
  offset rate s (crossing_point rate s from to) = 0 /\
  forall u, offset rate s (fun j => from j + u * (to j - from j)) = 0 -> forall j, from j + u * (to j - from j) = crossing_point rate s from to j.
Proof.
  intros rate s from to H. split; [now apply crossing_on_border|]. intros u Hu j. unfold crossing_point. f_equal. f_equal. rewrite offset_line in Hu. apply Rmult_eq_reg_r with (offset rate s from - offset rate s to); [|lra]. field_simplify; lra.
Qed.
(** Two hosts with any transitions, using any two libraries. *)
Theorem C87_any_host : forall dim inv inv' rate coords held held' t s, (1 <= dim)%nat -> inverse_correct (2 * dim) inv -> inverse_correct (2 * dim) inv' ->
  held_points dim coords held -> held_points dim coords held' -> In t held -> In t held' -> real_cross inv rate coords held t s = real_cross inv' rate coords held' t s.
Proof.
  intros dim inv inv' rate coords held held' t s Hd Hi Hi' Hh Hh' Ht Ht'. destruct (proj2 Hh t Ht) as (a & b & E).
  destruct (C87_crossing dim inv rate coords held t s a b Hd Hi Hh Ht E) as (A & B). destruct (C87_crossing dim inv' rate coords held' t s a b Hd Hi' Hh' Ht' E) as (A' & B').
  destruct (Req_dec (offset rate s (coords_fun a)) (offset rate s (coords_fun b))) as [O|O]; [now rewrite B, B'|now rewrite A, A'].
Qed.
(** In other units the distances are in these units. *)
Theorem C87_units : forall dim inv rate coords held t s k, (1 <= dim)%nat -> inverse_correct (2 * dim) inv -> held_points dim coords held -> In t held -> 0 < k ->
  real_cross inv rate (map (map (Rmult k)) coords) held t s = (let! r := real_cross inv rate coords held t s in Ok (map (Rmult k) r)).
Proof.
  intros dim inv rate coords held t s k Hd Hi Hh Ht Hk. destruct (proj2 Hh t Ht) as (a & b & E).
  assert (E' : forall u a b, ends_at coords u a b -> ends_at (map (map (Rmult k)) coords) u (map (Rmult k) a) (map (Rmult k) b)) by (intros u x y (X & Y); split; rewrite nth_error_map; [now rewrite X|now rewrite Y]).
  assert (Hh' : held_points dim (map (map (Rmult k)) coords) held).
  { destruct Hh as (F & G). split; [apply Forall_map; revert F; apply Forall_impl; intros c Lc; now rewrite map_length|]. intros u Hu. destruct (G u Hu) as (x & y & Exy). do 2 eexists. apply E'. exact Exy. }
  destruct (C87_crossing dim inv rate coords held t s a b Hd Hi Hh Ht E) as (A & B). destruct (C87_crossing dim inv rate _ held t s _ _ Hd Hi Hh' Ht (E' _ _ _ E)) as (A' & B').
  assert (F : forall c j, coords_fun (map (Rmult k) c) j = k * coords_fun c j) by (intros c j; unfold coords_fun; rewrite <- (map_nth (Rmult k)), Rmult_0_r; reflexivity).
  assert (O : forall c, offset rate s (coords_fun (map (Rmult k) c)) = k * offset rate s (coords_fun c)) by (intros c; rewrite <- offset_scale; apply offset_ext; apply F).
  rewrite !O in A', B'. destruct (Req_dec (offset rate s (coords_fun a)) (offset rate s (coords_fun b))) as [Z|Z]; [rewrite (B Z), B' by (now rewrite Z); reflexivity|].
  rewrite (A Z), A' by (intros X; apply Z; apply Rmult_eq_reg_l with k; lra). cbn [bind]. f_equal. rewrite <- distances_scale by assumption. unfold crossing_distances. cbv zeta. apply map_ext. intros c.
  assert (P : forall j, crossing_point rate s (coords_fun (map (Rmult k) a)) (coords_fun (map (Rmult k) b)) j = crossing_point rate s (fun j => k * coords_fun a j) (fun j => k * coords_fun b j) j) by (intros j; unfold crossing_point; rewrite !O, !offset_scale, !F; reflexivity).
  now rewrite !P.
Qed.
(** The line of a transition that turns by less than half a turn is not parallel to a border it crosses. *)
Theorem C87_below_half_turn : forall rate t x y x' y' c, (0 < rate)%nat -> (pseg (fst t) < rate)%nat -> pseg (fst t) = get_segment_id (atan2 y x) rate -> pseg (snd t) = get_segment_id (atan2 y' x') rate ->
  x <> 0 \/ y <> 0 -> x' <> 0 \/ y' <> 0 -> (2 * (ccw rate (pseg (fst t)) (pseg (snd t)) + 1) <= rate)%nat -> In c (visits rate t) ->
  offset rate (snd c) (fun j => match j with O => x | _ => y end) <> offset rate (snd c) (fun j => match j with O => x' | _ => y' end).
Proof.
  intros rate t x y x' y' c Hr Hf E1 E2 N1 N2 Hd Hc. unfold visits in Hc. apply in_map_iff in Hc. destruct Hc as (lag & <- & Hl). apply in_seq in Hl. cbn [snd].
  set (f := pseg (fst t)) in *. set (dist := ccw rate f (pseg (snd t))) in *.
  assert (A : in_sector rate (f mod rate) x y) by (rewrite Nat.mod_small by exact Hf; rewrite E1; now apply segment_sector).
  assert (B : in_sector rate ((f + dist) mod rate) x' y').
  { assert (Ht : (pseg (snd t) < rate)%nat) by (rewrite E2; now apply segment_range). replace ((f + dist) mod rate)%nat with (pseg (snd t)); [rewrite E2; now apply segment_sector|]. unfold dist, ccw. clear -Hf Ht Hr.
    rewrite Nat.add_mod_idemp_r by lia. replace (f + (pseg (snd t) + (rate - f)))%nat with (pseg (snd t) + 1 * rate)%nat by lia. rewrite Nat.mod_add by lia. now rewrite Nat.mod_small. }
  pose proof (not_parallel rate f dist lag (fun j => match j with O => x | _ => y end) (fun j => match j with O => x' | _ => y' end) ltac:(lia) Hd A B) as P. cbv beta iota in P. unfold offset, border_angle in *. lra.
Qed.

(** From (1, 0) to (0, 1), rate 8: border 1 is crossed at (1/2, 1/2). *)
Example C87_case : let coords := [[1; 0]; [0; 1]; [-3; 1]] in let t := ({| pid := 0; pseg := 0 |}, {| pid := 1; pseg := 2 |}) in let t' := ({| pid := 1; pseg := 2 |}, {| pid := 2; pseg := 3 |}) in
  inverse_correct 2 inverse2 /\ held_points 1 coords [t; t'] /\ ends_at coords t [1; 0] [0; 1] /\ offset 8 1 (coords_fun [1; 0]) <> offset 8 1 (coords_fun [0; 1]) /\ In (0%nat, 1%nat) (visits 8 t) /\
  real_cross inverse2 8 coords [t; t'] t 1 = Ok [sqrt (1 / 2 * (1 / 2) + 1 / 2 * (1 / 2))] /\ real_cross inverse2 8 coords [t] t 1 = Ok [sqrt (1 / 2 * (1 / 2) + 1 / 2 * (1 / 2))].
Proof.
  cbv zeta. set (t := ({| pid := 0; pseg := 0 |}, {| pid := 1; pseg := 2 |})). set (t' := ({| pid := 1; pseg := 2 |}, {| pid := 2; pseg := 3 |})).
  assert (I : inverse_correct (2 * 1) inverse2) by (split; [exact inverse2_ok|exact inverse2_complete]).
  assert (E : ends_at [[1; 0]; [0; 1]; [-3; 1]] t [1; 0] [0; 1]) by (split; reflexivity).
  assert (H : held_points 1 [[1; 0]; [0; 1]; [-3; 1]] [t; t']) by (split; [repeat constructor|intros u [<-|[<-|[]]]; do 2 eexists; split; reflexivity]).
  assert (H' : held_points 1 [[1; 0]; [0; 1]; [-3; 1]] [t]) by (split; [repeat constructor|intros u [<-|[]]; do 2 eexists; split; reflexivity]).
  assert (P : 0 < 1 / sqrt 2) by (apply Rdiv_lt_0_compat; [lra|apply sqrt_lt_R0; lra]).
  assert (OA : offset 8 1 (coords_fun [1; 0]) = 1 / sqrt 2 * 1) by (unfold offset, coords_fun; cbn [nth]; replace (2 * PI * INR 1 / INR 8) with (PI / 4) by (cbn; field); rewrite cos_PI4, sin_PI4; ring).
  assert (OB : offset 8 1 (coords_fun [0; 1]) = - (1 / sqrt 2)) by (unfold offset, coords_fun; cbn [nth]; replace (2 * PI * INR 1 / INR 8) with (PI / 4) by (cbn; field); rewrite cos_PI4, sin_PI4; ring).
  assert (O : offset 8 1 (coords_fun [1; 0]) <> offset 8 1 (coords_fun [0; 1])) by lra.
  assert (D : crossing_distances 1 8 1 (coords_fun [1; 0]) (coords_fun [0; 1]) = [sqrt (1 / 2 * (1 / 2) + 1 / 2 * (1 / 2))]).
  { unfold crossing_distances. cbv zeta. cbn [seq map]. unfold crossing_point. rewrite OA, OB. unfold coords_fun. cbn [nth Nat.add]. assert (S : sqrt 2 <> 0) by (apply Rgt_not_eq, sqrt_lt_R0; lra).
    replace (1 / sqrt 2 * 1 / (1 / sqrt 2 * 1 - - (1 / sqrt 2))) with (1 / 2) by (field; lra). do 2 f_equal. lra. }
  ssplit; auto.
  - vm_compute. tauto.
  - rewrite <- D. apply (C87_crossing 1 inverse2 8 _ [t; t'] t 1 [1; 0] [0; 1]); auto. now left.
  - rewrite <- D. apply (C87_crossing 1 inverse2 8 _ [t] t 1 [1; 0] [0; 1]); auto. now left.
Qed.
Print Assumptions C87_crossing.
Print Assumptions C87_meets_the_border.
Print Assumptions C87_any_host.
Print Assumptions C87_units.
Print Assumptions C87_below_half_turn.
