(** C99 for the points as they are stored. *)
From Coq Require Import ZArith Arith Bool List Reals Lia Lra.
From Flocq Require Import IEEE754.BinarySingleNaN Core.
From Verif.Base Require Import Res ListX Float32 Float32Proofs.
From Verif.Geometry Require Import Spec Proofs Single SingleProofs.
From Verif.Segmentation Require Import Model.
From Verif.Front Require Import Single.
From Verif.Properties Require Import Single.
Import ListNotations.
Local Open Scope R_scope.

(** The function of the platform gives the angle of the point (x, y), as a number of single precision, with an error of at most [eps]. *)
Definition angle_within (atan2 : f32 -> f32 -> f32) (eps : R) (x y : f32) : Prop :=
  is_angle (atan2 y x) /\ exists theta, direction (f_real x) (f_real y) theta /\ Rabs (f_real (atan2 y x) - theta) <= eps.

(** The [i]-th point of a host has the number [i] after the first one, and its segment is the sector of a direction that differs from the direction of its first two coordinates - the first of the
    first channel, then the one that follows it - by at most the error of the platform and 2^-18. *)
Theorem C99_stored_points : forall atan2 eps rate first coords points i x y rest, (1 <= rate)%nat -> (Z.of_nat rate <= 2 ^ 24)%Z ->
  stored_points atan2 rate first coords points -> nth_error coords i = Some (x :: y :: rest) -> angle_within atan2 eps x y ->
  exists p, nth_error points i = Some p /\ pid p = (first + i)%nat /\ (pseg p < rate)%nat
    /\ exists theta phi, direction (f_real x) (f_real y) theta /\ Rabs (phi - theta) <= eps + / 262144 /\ in_sector rate (pseg p) (cos phi) (sin phi).
Proof.
  intros atan2 eps rate first coords points i x y rest H1 H2 (Hid & Hs) Hi (Ha & theta & Hd & He).
  assert (L : length points = length coords) by (clear -Hs; induction Hs; cbn; lia).
  assert (Hlt : (i < length coords)%nat) by (apply nth_error_Some; congruence).
  destruct (nth_error points i) as [p|] eqn:Ep; [|apply nth_error_None in Ep; lia]. exists p. split; [reflexivity|].
  assert (Hp : f_segment_of atan2 (x :: y :: rest) rate = Ok (pseg p)).
  { clear -Hs Hi Ep. revert i Hi Ep. induction Hs as [|q z qs zs Hq Hs IH]; intros [|i] Hi Ep; cbn in Hi, Ep; try discriminate; [|eauto]. now injection Hi as ->; injection Ep as ->. }
  cbn [f_segment_of] in Hp. destruct (C99_close_to_the_sector rate (atan2 y x) H1 H2 Ha) as (s & phi & E & Hsr & Hphi & Hsec).
  rewrite E in Hp. injection Hp as Hp. split; [|split; [lia|]].
  - assert (Em : nth_error (map pid points) i = Some (pid p)) by (rewrite nth_error_map, Ep; reflexivity).
    rewrite Hid in Em. rewrite nth_error_nth' with (d := O) in Em by (rewrite seq_length; exact Hlt). rewrite seq_nth in Em by exact Hlt. now injection Em.
  - exists theta, phi. split; [exact Hd|]. split; [|now rewrite <- Hp].
    replace (phi - theta) with ((phi - f_real (atan2 y x)) + (f_real (atan2 y x) - theta)) by ring. apply Rle_trans with (1 := Rabs_triang _ _). lra.
Qed.
Print Assumptions C99_stored_points.

(** Two points on the positive x-axis, the first of a host whose numbers start at 7. *)
Example C99_stored_case : stored_points (fun _ _ => f_zero) 8 7 [[f_of_nat 1; f_zero]; [f_of_nat 2; f_zero]] [{| pid := 7; pseg := 0 |}; {| pid := 8; pseg := 0 |}]
  /\ angle_within (fun _ _ => f_zero) 0 (f_of_nat 1) f_zero.
Proof.
  split.
  - split; [reflexivity|]. repeat constructor; vm_compute; reflexivity.
  - assert (Z : f_real f_zero = 0) by reflexivity. split.
    + split; [reflexivity|]. rewrite Z, Rabs_R0. unfold f_real. rewrite <- SF2R_B2SF.
      replace (B2SF f_pi) with (SpecFloat.S754_finite false 13176795 (-22)) by (vm_compute; reflexivity). unfold SF2R, F2R. cbn. lra.
    + exists 0. rewrite Z. split; [|rewrite Rminus_0_r, Rabs_R0; lra]. exists 1. rewrite cos_0, sin_0. split; [lra|]. split; [|lra].
      unfold f_real. rewrite <- SF2R_B2SF. replace (B2SF (f_of_nat 1)) with (SpecFloat.S754_finite false 8388608 (-23)) by (vm_compute; reflexivity). unfold SF2R, F2R. cbn. lra.
Qed.
