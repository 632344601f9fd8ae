From Coq Require Import ZArith Arith Bool List Reals Lia Lra.
From Flocq Require Import IEEE754.BinarySingleNaN Core.
From Verif.Base Require Import Res Float32 Float32Proofs.
From Verif.Geometry Require Import Spec Proofs Single SingleProofs.
Local Open Scope R_scope.

(** An angle as [atan2] gives it: a number between - PI and PI of single precision. *)
Definition is_angle (a : f32) : Prop := f_finite a = true /\ Rabs (f_real a) <= f_real f_pi.
Lemma angle_range : forall a, is_angle a -> in_range a.
Proof.
  intros a (F & H). split; [exact F|]. replace (two_pi32 / 2) with (f_real f_pi); [exact H|]. unfold f_real, two_pi32. rewrite <- SF2R_B2SF.
  replace (B2SF f_pi) with (SpecFloat.S754_finite false 13176795 (-22)) by (vm_compute; reflexivity). unfold SF2R, F2R. cbn. lra.
Qed.

(** Whatever the angle is, even no number, the point gets a segment that exists. *)
Theorem C99_always_a_segment : forall rate a, (1 <= rate)%nat -> exists s, f_segment_id a rate = Ok s /\ (s < rate)%nat.
Proof.
  intros rate a H. unfold f_segment_id. destruct (Nat.eqb_spec rate 0); [lia|]. eexists. split; [reflexivity|].
  pose proof (Z.mod_pos_bound (floor_usize (f_div (f_add f_two_pi a) (f_div f_two_pi (f_of_nat rate)))) (Z.of_nat rate) ltac:(lia)). lia.
Qed.
Print Assumptions C99_always_a_segment.

(** A direction that is no number - the point of a window with a value that is no number - gets segment 0; without segments the analysis aborts. *)
Theorem C99_not_a_number : forall rate a, (f_nan a = true -> (1 <= rate)%nat -> f_segment_id a rate = Ok 0%nat) /\ f_segment_id a 0 = Panic DivByZero.
Proof.
  intros rate a. split; [|reflexivity]. intros N H. unfold f_segment_id. destruct (Nat.eqb_spec rate 0); [lia|]. destruct a; try discriminate.
  replace (f_add f_two_pi B754_nan) with (B754_nan : f32) by (unfold f_add, Bplus; now destruct f_two_pi).
  replace (f_div B754_nan (f_div f_two_pi (f_of_nat rate))) with (B754_nan : f32) by (unfold f_div, Bdiv; now destruct (Bdiv mode_NE f_two_pi (f_of_nat rate))).
  cbn [floor_usize]. now rewrite Zmod_0_l.
Qed.
Print Assumptions C99_not_a_number.

(** The segment is the sector of a direction that differs from the given angle by at most 2^-18. *)
Theorem C99_close_to_the_sector : forall rate a, (1 <= rate)%nat -> (Z.of_nat rate <= 2 ^ 24)%Z -> is_angle a ->
  exists s phi, f_segment_id a rate = Ok s /\ (s < rate)%nat /\ Rabs (phi - f_real a) <= / 262144 /\ in_sector rate s (cos phi) (sin phi).
Proof.
  intros rate a H1 H2 Ha. apply angle_range in Ha. destruct (quotient_ok rate a H1 H2 Ha) as (_ & _ & B & C).
  destruct (sector_of_floor rate (value rate (f_real a)) H1 ltac:(lra)) as (S1 & S2).
  exists (Z.to_nat (Zfloor (value rate (f_real a)) mod Z.of_nat rate)), (value rate (f_real a) * (2 * PI / INR rate) - 2 * PI).
  rewrite (segment_value rate a H1 H2 Ha). auto.
Qed.
Print Assumptions C99_close_to_the_sector.

(** A point in direction [theta], whose angle is computed with an error of at most [eps], gets its own sector if it is further than [eps] + 2^-18 from
    the borders of the sector. *)
Theorem C99_right_away_from_borders : forall rate a k x y theta eps, (1 <= rate)%nat -> (Z.of_nat rate <= 2 ^ 24)%Z -> is_angle a ->
  direction x y theta -> Rabs (f_real a - theta) <= eps -> (k < rate)%nat ->
  (forall phi, Rabs (phi - theta) <= eps + / 262144 -> in_sector rate k (cos phi) (sin phi)) ->
  f_segment_id a rate = Ok k /\ in_sector rate k x y.
Proof.
  intros rate a k x y theta eps H1 H2 Ha Hd He Hk Hall. destruct (C99_close_to_the_sector rate a H1 H2 Ha) as (s & phi & E & Hs & Hp & Hsec). split.
  - rewrite E. f_equal. apply (in_sector_unique rate s k (cos phi) (sin phi)); auto. apply Hall.
    replace (phi - theta) with ((phi - f_real a) + (f_real a - theta)) by ring. apply Rle_trans with (1 := Rabs_triang _ _). lra.
  - assert (E0 : Rabs (theta - theta) <= eps + / 262144).
    { rewrite Rminus_diag_eq by reflexivity. rewrite Rabs_R0. pose proof (Rabs_pos (f_real a - theta)). lra. }
    destruct (Hall theta E0) as (phi' & Hphi & r & Hr & Ec & Es). exists phi'. split; [exact Hphi|]. destruct Hd as (r' & Hr' & -> & ->).
    exists (r' * r). split; [now apply Rmult_lt_0_compat|]. rewrite Ec, Es. split; ring.
Qed.
Print Assumptions C99_right_away_from_borders.

(** The segments lie in order around the origin: they are the whole numbers of a turning count modulo [rate]; the count never decreases with the angle,
    and it is right up to 2^-18. *)
Theorem C99_in_order : forall rate, (1 <= rate)%nat -> (Z.of_nat rate <= 2 ^ 24)%Z -> exists count : f32 -> Z,
  (forall a, is_angle a -> f_segment_id a rate = Ok (Z.to_nat (count a mod Z.of_nat rate)) /\ (0 <= count a)%Z
     /\ 2 * PI * IZR (count a) / INR rate - / 262144 <= 2 * PI + f_real a < 2 * PI * (IZR (count a) + 1) / INR rate + / 262144)
  /\ (forall a b, is_angle a -> is_angle b -> f_real a <= f_real b -> (count a <= count b)%Z).
Proof.
  intros rate H1 H2. exists (fun a => Zfloor (value rate (f_real a))). split.
  - intros a Ha. apply angle_range in Ha. split; [apply segment_value; auto|]. destruct (quotient_ok rate a H1 H2 Ha) as (_ & _ & B & C).
    split; [apply Zfloor_lub; lra|]. set (v := value rate (f_real a)) in *. apply Rabs_bounds in C.
    assert (Nn : 1 <= INR rate) by (apply (le_INR 1); exact H1). pose proof PI_RGT_0.
    assert (U : 0 < 2 * PI / INR rate) by (apply Rdiv_lt_0_compat; lra).
    replace (2 * PI * IZR (Zfloor v) / INR rate) with (IZR (Zfloor v) * (2 * PI / INR rate)) by (field; lra).
    replace (2 * PI * (IZR (Zfloor v) + 1) / INR rate) with ((IZR (Zfloor v) + 1) * (2 * PI / INR rate)) by (field; lra).
    set (u := 2 * PI / INR rate) in *.
    assert (L1 : IZR (Zfloor v) * u <= v * u) by (apply Rmult_le_compat_r; [lra|apply Zfloor_lb]).
    assert (L2 : v * u < (IZR (Zfloor v) + 1) * u) by (apply Rmult_lt_compat_r; [lra|apply Zfloor_ub]). lra.
  - intros a b _ _ H. apply Zfloor_le. now apply value_mono.
Qed.
Print Assumptions C99_in_order.

(** C99 is false as stated: of 85 segments the positive x-axis belongs to the first, but the point (1, 0), with the angle 0, gets the last one; and with the default of
    100 segments the point in direction - 2^-23, in the last sector, gets the first one. *)
Theorem C99_own_sector_refuted :
  (exists s, is_angle f_zero /\ f_real f_zero = 0 /\ direction 1 0 0 /\ in_sector 85 0 1 0 /\ f_segment_id f_zero 85 = Ok s /\ s = 84%nat)
  /\ (exists a s, is_angle a /\ f_real a = - / 8388608 /\ in_sector 100 99 (cos (f_real a)) (sin (f_real a)) /\ f_segment_id a 100 = Ok s /\ s = 0%nat).
Proof.
  pose proof pi_bounds as PB. assert (Ep : f_real f_pi = 13176795 / 4194304).
  { unfold f_real. rewrite <- SF2R_B2SF. replace (B2SF f_pi) with (SpecFloat.S754_finite false 13176795 (-22)) by (vm_compute; reflexivity). unfold SF2R, F2R. cbn. lra. }
  split.
  - exists 84%nat. assert (D : direction 1 0 0) by (exists 1; rewrite cos_0, sin_0; lra).
    repeat split; auto; [rewrite Ep; cbn; rewrite Rabs_R0; lra|]. exists 0. split; [|exact D]. rewrite !INR_IZR_INZ. cbn. lra.
  - set (a := f_of (-1) (-23)). assert (Ea : f_real a = - / 8388608).
    { unfold f_real. rewrite <- SF2R_B2SF. replace (B2SF a) with (SpecFloat.S754_finite true 8388608 (-46)) by (vm_compute; reflexivity). unfold SF2R, F2R. cbn. lra. }
    exists a, 0%nat. repeat split; auto.
    + rewrite Ea, Ep, Rabs_Ropp, Rabs_pos_eq; lra.
    + exists (f_real a + 2 * INR 1 * PI). split.
      * rewrite Ea. rewrite !INR_IZR_INZ. cbn. lra.
      * exists 1. rewrite cos_period, sin_period. lra.
Qed.
Print Assumptions C99_own_sector_refuted.

(** The angle 1 (a little more than 57 degrees) with 100 segments: far enough from the borders of sector 15, which is what the point gets. *)
Example C99_case : is_angle (f_of 1 0) /\ f_segment_id (f_of 1 0) 100 = Ok 15%nat
  /\ (forall phi, Rabs (phi - 1) <= 0 + / 262144 -> in_sector 100 15 (cos phi) (sin phi)) /\ direction (cos 1) (sin 1) 1 /\ f_real (f_of 1 0) = 1.
Proof.
  pose proof pi_bounds as PB. assert (E1 : f_real (f_of 1 0) = 1).
  { unfold f_real. rewrite <- SF2R_B2SF. replace (B2SF (f_of 1 0)) with (SpecFloat.S754_finite false 8388608 (-23)) by (vm_compute; reflexivity). unfold SF2R, F2R. cbn. lra. }
  assert (Ep : f_real f_pi = 13176795 / 4194304).
  { unfold f_real. rewrite <- SF2R_B2SF. replace (B2SF f_pi) with (SpecFloat.S754_finite false 13176795 (-22)) by (vm_compute; reflexivity). unfold SF2R, F2R. cbn. lra. }
  split; [split; [reflexivity|rewrite E1, Ep, Rabs_pos_eq; lra]|]. split; [vm_compute; reflexivity|]. split; [|split; [exists 1; lra|exact E1]].
  intros phi H. apply Rabs_bounds in H. exists phi. split; [|exists 1; lra]. rewrite !INR_IZR_INZ. cbn. lra.
Qed.
