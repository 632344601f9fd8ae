From Coq Require Import List Arith Reals Lia Lra.
From Verif.Base Require Import ListX.
From Verif.Stats Require Import Spec.
From Verif.Rotation Require Model Proofs.
From Verif.Geometry Require Import Model Spec Proofs Crossing.
Import ListNotations.
Local Open Scope R_scope.

(** C22.  For every number of channels and every channel whose reference point is not on the third axis. *)
Theorem C22_alignment_matrix : forall refs k x y z, nth_error refs k = Some (x, y, z) -> (x <> 0 \/ y <> 0) ->
  exists m, (forall r c, (r < 3)%nat -> (c < 3)%nat -> rotation_entry refs r c k = Some (m r c))
    /\ orthogonal m /\ determinant m = 1 /\ image m (x, y, z) = (0, 0, sqrt (x * x + y * y + z * z)).
Proof.
  intros refs k x y z Hk H. exists (rmat (x, y, z)). split; [intros r c Hr Hc; now apply rotation_entry_eq|]. exact (rmat_spec x y z H).
Qed.
Print Assumptions C22_alignment_matrix.

Example C22_example : nth_error [(1, 2, 3); (3, 0, 4)] 1 = Some (3, 0, 4) /\ image (rmat (3, 0, 4)) (3, 0, 4) = (0, 0, 5).
Proof.
  split; [reflexivity|]. destruct (rmat_spec 3 0 4 ltac:(left; lra)) as (_ & _ & ->). unfold norm3. f_equal.
  replace (3 * 3 + 0 * 0 + 4 * 4) with (5 * 5) by lra. apply sqrt_square. lra.
Qed.

(** C23. *)
Theorem C23_segment_is_sector : forall x y rest rate, (0 < rate)%nat -> x <> 0 \/ y <> 0 ->
  exists s, segment_of (x :: y :: rest) rate = Some s /\ (s < rate)%nat /\ forall k, (k < rate)%nat -> (s = k <-> in_sector rate k x y).
Proof.
  intros x y rest rate Hr H. eexists. split; [reflexivity|]. split; [now apply segment_range|]. intros k Hk. now apply segment_iff.
Qed.
Print Assumptions C23_segment_is_sector.

Theorem C23_origin_in_first_segment : forall rest rate, (0 < rate)%nat -> segment_of (0 :: 0 :: rest) rate = Some 0%nat.
Proof. intros. cbn [segment_of]. now rewrite segment_origin. Qed.
Print Assumptions C23_origin_in_first_segment.

Lemma sector_low : forall n k x y phi, 2 * PI * INR k / INR n <= phi < 2 * PI * INR (k + 1) / INR n -> direction x y phi -> in_sector n k x y.
Proof. intros. eexists. eauto. Qed.
Example C23_example : segment_of [0; 1] 8 = Some 2%nat /\ segment_of [1; 0; 7] 8 = Some 0%nat.
Proof.
  pose proof PI_RGT_0. cbn [segment_of]. split; f_equal; apply segment_iff; try lia; try lra.
  - apply (sector_low 8 2 0 1 (PI / 2)); [cbn; lra|]. exists 1. rewrite cos_PI2, sin_PI2. lra.
  - apply (sector_low 8 0 1 0 0); [cbn; lra|]. exists 1. rewrite cos_0, sin_0. lra.
Qed.

(** C54. *)
Theorem C54_mirror_reverses : forall p h x y rest s, p_coordinates p = x :: y :: rest -> (0 < h)%nat -> (s < 2 * h)%nat ->
  inside_sector (2 * h) s x y -> p_segment p = s ->
  exists p', mirror p (2 * h) = Some p' /\ p_id p' = p_id p /\ p_coordinates p' = x * -1 :: y :: rest
    /\ p_segment p' = ((3 * h - 1 - s) mod (2 * h))%nat /\ inside_sector (2 * h) (p_segment p') (x * -1) y.
Proof.
  intros p h x y rest s Ec Hh Hs Hin Es. unfold mirror. rewrite Ec. cbn [segment_of obind].
  pose proof (mirror_sector h s x y Hh Hs Hin) as Hm.
  assert (E : get_segment_id (atan2 y (x * -1)) (2 * h) = ((3 * h - 1 - s) mod (2 * h))%nat).
  { apply segment_iff; [lia|apply Nat.mod_upper_bound; lia|exact (inside_nonzero _ _ _ _ Hm)|now apply inside_in]. }
  eexists. split; [reflexivity|]. cbn [p_id p_coordinates p_segment]. rewrite E. auto.
Qed.
Print Assumptions C54_mirror_reverses.

(** Forward distances become backward distances. *)
Theorem C54_distance_reversed : forall h s s', (0 < h)%nat -> (s < 2 * h)%nat -> (s' < 2 * h)%nat ->
  let m a := ((3 * h - 1 - a) mod (2 * h))%nat in
  ((m s' + (2 * h - m s)) mod (2 * h) = (s + (2 * h - s')) mod (2 * h))%nat.
Proof.
  intros h s s' Hh Hs Hs' m.
  assert (M : forall a, (a < 2 * h)%nat -> (a < h /\ m a = h - 1 - a)%nat \/ (h <= a /\ m a = 3 * h - 1 - a)%nat).
  { intros a Ha. unfold m. destruct (le_lt_dec h a).
    - right. split; [assumption|]. apply Nat.mod_small. lia.
    - left. split; [assumption|]. replace (3 * h - 1 - a)%nat with (h - 1 - a + 1 * (2 * h))%nat by lia. rewrite Nat.mod_add by lia. apply Nat.mod_small. lia. }
  destruct (M s Hs) as [(A1 & ->)|(A1 & ->)]; destruct (M s' Hs') as [(B1 & ->)|(B1 & ->)].
  - f_equal. lia.
  - replace (3 * h - 1 - s' + (2 * h - (h - 1 - s)))%nat with (s + (2 * h - s') + 1 * (2 * h))%nat by lia. now rewrite Nat.mod_add by lia.
  - replace (s + (2 * h - s'))%nat with (h - 1 - s' + (2 * h - (3 * h - 1 - s)) + 1 * (2 * h))%nat by lia. now rewrite Nat.mod_add by lia.
  - f_equal. lia.
Qed.
Print Assumptions C54_distance_reversed.

Theorem C54_mirror_twice : forall p n p' p'', mirror p n = Some p' -> mirror p' n = Some p'' ->
  segment_of (p_coordinates p) n = Some (p_segment p) -> p'' = p.
Proof.
  intros [id c s] n p' p'' H1 H2 H3. unfold mirror in *. cbn [p_id p_coordinates p_segment] in *. destruct c as [|x [|y t]]; cbn [segment_of obind] in *; try discriminate.
  injection H1 as <-. cbn [p_id p_coordinates p_segment segment_of obind] in H2. injection H2 as <-. injection H3 as <-.
  replace (x * -1 * -1) with x by ring. reflexivity.
Qed.
Print Assumptions C54_mirror_twice.

Example C54_example : inside_sector 8 0 2 1 /\ ((3 * 4 - 1 - 0) mod 8 = 3)%nat.
Proof.
  split; [|reflexivity]. pose proof PI_RGT_0. exists (atan (1 / 2)). split; [|now apply direction_atan; lra].
  assert (A : atan 0 < atan (1 / 2)) by (apply atan_increasing; lra). rewrite atan_0 in A.
  assert (B : atan (1 / 2) < atan 1) by (apply atan_increasing; lra). rewrite atan_1 in B. cbn. lra.
Qed.

(** C51.  [d]: number of coordinates (two per channel); [inv]: any matrix inversion that is correct when it succeeds. *)
Theorem C51_intersection_on_line_and_border : forall d rate s inv radius mv from to p, (2 <= d)%nat ->
  (forall m m', inv m = Some m' -> left_inverse d m' m) ->
  border_intersection d rate s inv radius mv from to = Some p ->
  exists t, (forall i, (i < d)%nat -> p i = from i + t * (to i - from i))
    /\ p 0%nat * sin (2 * PI * INR s / INR rate) = p 1%nat * cos (2 * PI * INR s / INR rate).
Proof.
  intros d rate s inv radius mv from to p Hd Hinv Hp. destruct (on_border _ _ _ _ _ _ _ _ _ Hd Hinv Hp) as (t & c & H1 & H2 & H3).
  exists t. split; [exact H1|]. rewrite H2, H3. unfold border_angle. ring.
Qed.
Print Assumptions C51_intersection_on_line_and_border.

Definition vec2 (x y : R) (i : nat) : R := match i with O => x | _ => y end.

(** C63.  A transition that advances by less than half a turn meets every border it crosses between its two points and on the right side of the origin. *)
Theorem C63_crossing_between_points_partial : forall d rate f dist lag inv radius mv from to p,
  (2 <= d)%nat -> (f < rate)%nat -> (1 <= lag <= dist)%nat -> (2 * (dist + 1) <= rate)%nat ->
  in_sector rate f (from 0%nat) (from 1%nat) -> in_sector rate ((f + dist) mod rate) (to 0%nat) (to 1%nat) ->
  (forall m m', inv m = Some m' -> left_inverse d m' m) ->
  border_intersection d rate ((f + lag) mod rate) inv radius mv from to = Some p ->
  exists t, 0 < t <= 1 /\ (forall i, (i < d)%nat -> p i = from i + t * (to i - from i)) /\
    direction (p 0%nat) (p 1%nat) (2 * PI * INR ((f + lag) mod rate) / INR rate).
Proof.
  intros d rate f dist lag inv radius mv from to p Hd Hf Hl Hdist H1 H2 Hinv Hp.
  eapply crossing; eauto. now rewrite Nat.mod_small.
Qed.
Print Assumptions C63_crossing_between_points_partial.

(** The position stored for the crossing is then the distance from the origin along the border (one channel). *)
Theorem C63_stored_distance_partial : forall rate f dist lag inv radius mv from to p,
  (f < rate)%nat -> (1 <= lag <= dist)%nat -> (2 * (dist + 1) <= rate)%nat ->
  in_sector rate f (from 0%nat) (from 1%nat) -> in_sector rate ((f + dist) mod rate) (to 0%nat) (to 1%nat) ->
  (forall m m', inv m = Some m' -> left_inverse 2 m' m) ->
  border_intersection 2 rate ((f + lag) mod rate) inv radius mv from to = Some p ->
  exists r, channel_distances 2 p = [r] /\ 0 < r /\
    p 0%nat = r * cos (2 * PI * INR ((f + lag) mod rate) / INR rate) /\ p 1%nat = r * sin (2 * PI * INR ((f + lag) mod rate) / INR rate).
Proof.
  intros rate f dist lag inv radius mv from to p Hf Hl Hdist H1 H2 Hinv Hp.
  destruct (C63_crossing_between_points_partial 2 rate f dist lag inv radius mv from to p (le_n _) Hf Hl Hdist H1 H2 Hinv Hp) as (t & _ & _ & (r & Hr & Ex & Ey)).
  exists r. split; [|auto]. unfold channel_distances. change (2 / 2)%nat with 1%nat. cbn [seq map Nat.add]. f_equal.
  rewrite Ex, Ey. match goal with |- sqrt (?a * ?c * (?a * ?c) + ?a * ?s * (?a * ?s)) = _ => replace (a * c * (a * c) + a * s * (a * s)) with (a * a * (s * s + c * c)) by ring end.
  match goal with |- sqrt (_ * (sin ?x * sin ?x + _)) = _ => pose proof (sin2_cos2 x) as T end. unfold Rsqr in T. rewrite T, Rmult_1_r. apply sqrt_square. lra.
Qed.
Print Assumptions C63_stored_distance_partial.

(** A transition by exactly half the segments may pass the origin on the other side: here from (1,0) to (-2,-1) with eight segments;
    the crossing computed for border 1 (45 degrees) is (-1/2,-1/2), on the opposite side of the origin. *)
Theorem C63_half_turn_refuted : exists from to : nat -> R,
  in_sector 8 0 (from 0%nat) (from 1%nat) /\ in_sector 8 4 (to 0%nat) (to 1%nat)
  /\ forall inv radius mv p, (forall m m', inv m = Some m' -> left_inverse 2 m' m) ->
       border_intersection 2 8 1 inv radius mv from to = Some p ->
       ~ direction (p 0%nat) (p 1%nat) (2 * PI * INR 1 / INR 8).
Proof.
  pose proof PI_RGT_0 as Hpi. exists (vec2 1 0), (vec2 (-2) (-1)). cbn [vec2]. split; [|split].
  - apply (sector_low 8 0 1 0 0); [cbn; lra|]. exists 1. rewrite cos_0, sin_0. lra.
  - assert (D : direction (-2) (-1) (atan (1 / 2) + PI)).
    { replace (-2) with (- (2)) by lra. replace (-1) with (- (1)) by lra. apply direction_opp, direction_atan. lra. }
    apply (sector_low 8 4 _ _ (atan (1 / 2) + PI)); [|exact D].
    assert (A : atan 0 < atan (1 / 2)) by (apply atan_increasing; lra). rewrite atan_0 in A.
    assert (B : atan (1 / 2) < atan 1) by (apply atan_increasing; lra). rewrite atan_1 in B. cbn. lra.
  - intros inv radius mv p Hinv Hp (r & Hr & Ex & Ey).
    destruct (on_border _ _ _ _ _ _ _ _ _ (le_n _) Hinv Hp) as (t & c & H1 & _).
    pose proof (H1 0%nat ltac:(lia)) as P0. pose proof (H1 1%nat ltac:(lia)) as P1. cbn [vec2] in P0, P1.
    replace (2 * PI * INR 1 / INR 8) with (PI / 4) in Ex, Ey by (cbn; field).
    rewrite cos_PI4 in Ex. rewrite sin_PI4 in Ey.
    assert (E : p 0%nat = p 1%nat) by congruence.
    assert (Hp1 : 0 < p 1%nat). { rewrite Ey. apply Rmult_lt_0_compat; [exact Hr|]. apply Rdiv_lt_0_compat; [lra|]. apply sqrt_lt_R0. lra. }
    lra.
Qed.
Print Assumptions C63_half_turn_refuted.

Example C63_half_turn_intersection : exists p, border_intersection 2 8 1 inverse2 1 1 (vec2 1 0) (vec2 (-2) (-1)) = Some p /\ p 0%nat = - (1 / 2) /\ p 1%nat = - (1 / 2).
Proof.
  assert (E : exists p, border_intersection 2 8 1 inverse2 1 1 (vec2 1 0) (vec2 (-2) (-1)) = Some p).
  { unfold border_intersection, line_plane_intersection. destruct (inverse2 _) as [m|] eqn:E; [cbn; eauto|]. exfalso.
    apply inverse2_complete in E. destruct E as (x & (k & Hk & Hx) & Hz). apply Hx.
    refine (regular 2 8 1 1 1 (vec2 1 0) (vec2 (-2) (-1)) x (le_n _) ltac:(lra) ltac:(lra) _ Hz k Hk).
    cbn [vec2]. unfold border_angle. replace (2 * PI * INR 1 / INR 8) with (PI / 4) by (cbn; field). rewrite cos_PI4, sin_PI4.
    assert (0 < 1 / sqrt 2) by (apply Rdiv_lt_0_compat; [lra|apply sqrt_lt_R0; lra]). lra. }
  destruct E as (p & Hp). exists p. split; [exact Hp|].
  destruct (on_border _ _ _ _ _ _ _ _ _ (le_n _) inverse2_ok Hp) as (t & c & H1 & H2 & H3).
  pose proof (H1 0%nat ltac:(lia)) as P0. pose proof (H1 1%nat ltac:(lia)) as P1. cbn [vec2] in P0, P1.
  unfold border_angle in *. replace (2 * PI * INR 1 / INR 8) with (PI / 4) in * by (cbn; field). rewrite cos_PI4 in H2. rewrite sin_PI4 in H3.
  assert (p 0%nat = p 1%nat) by congruence. lra.
Qed.

(** Every transition the program uses advances by at most half of the segments.  Its computed crossing is a proper one exactly when the turn from the first
    point to the second is less than half a turn, seen from the origin. *)
Theorem C63_proper_crossing_exactly : forall d rate f dist lag inv radius mv from to p,
  (2 <= d)%nat -> (f < rate)%nat -> (1 <= lag <= dist)%nat -> (2 * dist <= rate)%nat ->
  in_sector rate f (from 0%nat) (from 1%nat) -> in_sector rate ((f + dist) mod rate) (to 0%nat) (to 1%nat) ->
  (forall m m', inv m = Some m' -> left_inverse d m' m) ->
  border_intersection d rate ((f + lag) mod rate) inv radius mv from to = Some p ->
  ((exists t, 0 < t <= 1 /\ (forall i, (i < d)%nat -> p i = from i + t * (to i - from i)) /\
      direction (p 0%nat) (p 1%nat) (2 * PI * INR ((f + lag) mod rate) / INR rate))
   <-> 0 < from 0%nat * to 1%nat - from 1%nat * to 0%nat).
Proof.
  intros d rate f dist lag inv radius mv from to p Hd Hf Hl Hdist H1 H2 Hinv Hp.
  eapply crossing_exactly; eauto. now rewrite Nat.mod_small.
Qed.
Print Assumptions C63_proper_crossing_exactly.
(** Both cases occur, with a transition by half of eight segments: from (1,0) to (-2,-1) the turn is more than half, from (1,1) to (-2,-1) it is less. *)
Example C63_exactly_case :
  (in_sector 8 0 1 0 /\ in_sector 8 4 (-2) (-1) /\ 1 * -1 - 0 * -2 < 0) /\ (in_sector 8 1 1 1 /\ in_sector 8 4 (-2) (-1) /\ 0 < 1 * -1 - 1 * -2).
Proof.
  pose proof PI_RGT_0 as Hpi.
  assert (B : in_sector 8 4 (-2) (-1)).
  { assert (D : direction (-2) (-1) (atan (1 / 2) + PI)).
    { replace (-2) with (- (2)) by lra. replace (-1) with (- (1)) by lra. apply direction_opp, direction_atan. lra. }
    apply (sector_low 8 4 _ _ (atan (1 / 2) + PI)); [|exact D].
    assert (A : atan 0 < atan (1 / 2)) by (apply atan_increasing; lra). rewrite atan_0 in A.
    assert (B : atan (1 / 2) < atan 1) by (apply atan_increasing; lra). rewrite atan_1 in B. cbn. lra. }
  ssplit; auto; try lra.
  - apply (sector_low 8 0 1 0 0); [cbn; lra|]. exists 1. rewrite cos_0, sin_0. lra.
  - apply (sector_low 8 1 1 1 (PI / 4)); [cbn; lra|]. exists (sqrt 2). assert (0 < sqrt 2) by (apply sqrt_lt_R0; lra).
    rewrite cos_PI4, sin_PI4. ssplit; [assumption| |]; field; lra.
Qed.

(** C64.  Below half a turn the linear system always has a solution, in every dimension. *)
Theorem C64_intersection_exists_partial : forall d rate f dist lag inv radius mv from to,
  (2 <= d)%nat -> (f < rate)%nat -> (1 <= lag <= dist)%nat -> (2 * (dist + 1) <= rate)%nat -> 0 < radius -> 0 < mv ->
  in_sector rate f (from 0%nat) (from 1%nat) -> in_sector rate ((f + dist) mod rate) (to 0%nat) (to 1%nat) ->
  complete_inverse d inv ->
  exists p, border_intersection d rate ((f + lag) mod rate) inv radius mv from to = Some p.
Proof.
  intros d rate f dist lag inv radius mv from to Hd Hf Hl Hdist Hr Hm H1 H2 Hinv. eapply intersection_exists; eauto. now rewrite Nat.mod_small.
Qed.
Print Assumptions C64_intersection_exists_partial.

(** From (-1,0) to (1,0), a half turn: border 0 is parallel to the transition, so there is no inverse and the helper aborts. *)
Theorem C64_opposite_points_refuted : exists from to : nat -> R,
  in_sector 8 4 (from 0%nat) (from 1%nat) /\ in_sector 8 0 (to 0%nat) (to 1%nat)
  /\ forall inv radius mv, (forall m m', inv m = Some m' -> left_inverse 2 m' m) ->
       border_intersection 2 8 0 inv radius mv from to = None.
Proof.
  pose proof PI_RGT_0 as Hpi. exists (vec2 (-1) 0), (vec2 1 0). cbn [vec2]. split; [|split].
  - apply (sector_low 8 4 _ _ PI); [cbn; lra|]. exists 1. rewrite cos_PI, sin_PI. lra.
  - apply (sector_low 8 0 1 0 0); [cbn; lra|]. exists 1. rewrite cos_0, sin_0. lra.
  - intros inv radius mv Hinv. apply parallel_none; [exact Hinv|]. unfold border_angle. cbn [vec2].
    replace (2 * PI * INR 0 / INR 8) with 0 by (cbn; field). rewrite cos_0, sin_0. ring.
Qed.
Print Assumptions C64_opposite_points_refuted.

(** Exactly when it aborts, in every dimension: the second point on the border, the first one on the opposite ray. *)
Theorem C64_aborts_exactly : forall d rate f dist lag inv radius mv from to,
  (2 <= d)%nat -> (f < rate)%nat -> (1 <= lag <= dist)%nat -> (2 * dist <= rate)%nat -> 0 < radius -> 0 < mv ->
  in_sector rate f (from 0%nat) (from 1%nat) -> in_sector rate ((f + dist) mod rate) (to 0%nat) (to 1%nat) ->
  (forall m m', inv m = Some m' -> left_inverse d m' m) -> complete_inverse d inv ->
  (border_intersection d rate ((f + lag) mod rate) inv radius mv from to = None
   <-> direction (to 0%nat) (to 1%nat) (2 * PI * INR ((f + lag) mod rate) / INR rate)
       /\ direction (from 0%nat) (from 1%nat) (2 * PI * INR ((f + lag) mod rate) / INR rate + PI)).
Proof.
  intros d rate f dist lag inv radius mv from to Hd Hf Hl Hdist Hr Hm H1 H2 Hinv Hcomp.
  apply (no_crossing_exactly d rate f dist lag inv radius mv from to); auto. now rewrite Nat.mod_small.
Qed.
Print Assumptions C64_aborts_exactly.

(** The hypotheses of C63 and C64 are met: from (1,0) to (0,1), two of eight segments, with an exact 2x2 inverse. *)
Example C63_C64_example : in_sector 8 0 (vec2 1 0 0) (vec2 1 0 1) /\ in_sector 8 ((0 + 2) mod 8) (vec2 0 1 0) (vec2 0 1 1)
  /\ (forall m m', inverse2 m = Some m' -> left_inverse 2 m' m) /\ complete_inverse 2 inverse2
  /\ exists p, border_intersection 2 8 ((0 + 1) mod 8) inverse2 1 1 (vec2 1 0) (vec2 0 1) = Some p.
Proof.
  pose proof PI_RGT_0 as Hpi.
  assert (A : in_sector 8 0 (vec2 1 0 0) (vec2 1 0 1)) by (apply (sector_low 8 0 1 0 0); [cbn; lra|exists 1; rewrite cos_0, sin_0; lra]).
  assert (B : in_sector 8 ((0 + 2) mod 8) (vec2 0 1 0) (vec2 0 1 1)) by (apply (sector_low 8 2 0 1 (PI / 2)); [cbn; lra|exists 1; rewrite cos_PI2, sin_PI2; lra]).
  ssplit; [exact A|exact B|exact inverse2_ok|exact inverse2_complete|].
  apply (C64_intersection_exists_partial 2 8 0 2 1 inverse2 1 1 (vec2 1 0) (vec2 0 1)); try lia; try lra; [exact A|exact B|exact inverse2_complete].
Qed.

(** C61.  One channel: the segment is the sector of the first two coordinates of the rotated point. *)
Theorem C61_one_channel : forall m v rate a b c, (0 < rate)%nat -> image m v = (a, b, c) -> a <> 0 \/ b <> 0 ->
  exists s, segment_of (point_coordinates [m] [v]) rate = Some s /\ forall k, (k < rate)%nat -> (s = k <-> in_sector rate k a b).
Proof.
  intros m [[x y] z] rate a b c Hr E H. cbn in E. injection E as <- <- _. cbn [point_coordinates combine map app fst snd mat_row].
  destruct (C23_segment_is_sector _ _ [] rate Hr H) as (s & E1 & _ & E2). exists s. auto.
Qed.
Print Assumptions C61_one_channel.

(** Several channels: only the first coordinates of the first two channels decide. *)
Theorem C61_several_channels : forall m0 m1 ms v0 v1 vs rate a0 b0 c0 a1 b1 c1, (0 < rate)%nat ->
  image m0 v0 = (a0, b0, c0) -> image m1 v1 = (a1, b1, c1) -> a0 <> 0 \/ a1 <> 0 ->
  exists s, segment_of (point_coordinates (m0 :: m1 :: ms) (v0 :: v1 :: vs)) rate = Some s /\ forall k, (k < rate)%nat -> (s = k <-> in_sector rate k a0 a1).
Proof.
  intros m0 m1 ms [[x y] z] [[x' y'] z'] vs rate a0 b0 c0 a1 b1 c1 Hr E E' H. cbn in E, E'. injection E as <- <- _. injection E' as <- <- _.
  unfold point_coordinates. cbn [combine map app fst snd mat_row].
  match goal with |- context [segment_of (?a :: ?b :: ?r)] => destruct (C23_segment_is_sector a b r rate Hr H) as (s & E1 & _ & E2) end.
  exists s. auto.
Qed.
Print Assumptions C61_several_channels.

(** Points are numbered from the offset on; coordinates are kept. *)
Theorem C61_points_numbered : forall coords next rate points, add_points next coords rate = Some points ->
  map p_id points = seq next (length coords) /\ map p_coordinates points = coords
  /\ Forall (fun p => segment_of (p_coordinates p) rate = Some (p_segment p)) points.
Proof.
  induction coords as [|c t IH]; intros next rate points H; cbn [add_points] in H.
  - injection H as <-. repeat split. constructor.
  - unfold new_point in H. destruct (segment_of c rate) as [s|] eqn:Es; [|discriminate]. cbn [obind] in H.
    destruct (add_points (S next) t rate) as [l|] eqn:El; [|discriminate]. cbn [obind] in H. injection H as <-.
    destruct (IH _ _ _ El) as (A & B & C). cbn. rewrite A, B. repeat split. constructor; [exact Es|exact C].
Qed.
Print Assumptions C61_points_numbered.

Example C61_example : let id := (fun i j => if Nat.eqb i j then 1 else 0) in
  point_coordinates [id; id] [(1, 2, 3); (4, 5, 6)] = [1; 4; 2; 5]
  /\ exists l, add_points 7 [[1; 0]; [0; 1]] 8 = Some l /\ map p_id l = [7; 8]%nat /\ map p_segment l = [0; 2]%nat.
Proof.
  cbn zeta. split; [cbn; repeat (f_equal; try ring)|].
  destruct C23_example as (E1 & _). eexists. split; [reflexivity|]. split; [reflexivity|].
  cbn [map p_segment]. f_equal.
  - apply segment_iff; try lia; try lra. apply (sector_low 8 0 1 0 0); [pose proof PI_RGT_0; cbn; lra|]. exists 1. rewrite cos_0, sin_0. lra.
  - f_equal. cbn [segment_of] in E1. now injection E1.
Qed.

(** C62.  The alignment matrix. *)
Theorem C62_matrix_applied_once : forall n channels w, (1 <= n)%nat -> (1 <= channels)%nat -> Rotation.Model.reachable n channels w ->
  forall p, (p < n)%nat ->
    (Rotation.Model.applied (Rotation.Model.hosts_ w p) <= 1)%nat
    /\ Rotation.Model.done_ (Rotation.Model.hosts_ w p) = Rotation.Model.applied (Rotation.Model.hosts_ w p)
    /\ (Rotation.Model.applied (Rotation.Model.hosts_ w p) = 1%nat -> Rotation.Model.pca_left w p = 0%nat)
    /\ ((forall w', ~ Rotation.Model.step n channels w w') -> Rotation.Model.applied (Rotation.Model.hosts_ w p) = 1%nat).
Proof.
  intros n channels w Hn Hc Hw p Hp. destruct (Rotation.Proofs.inv_reachable n channels w Hn Hc Hw) as (_ & HI). 
  assert (Hfl : forall b, (Rotation.Proofs.flag b <= 1)%nat) by (intros []; cbn; lia).
  destruct (HI p Hp) as (A & B & C & D). pose proof (Hfl (Rotation.Model.broadcasted (Rotation.Model.hosts_ w 0))). ssplit; [lia|exact C| |].
  - intros E. destruct (Rotation.Model.broadcasted (Rotation.Model.hosts_ w p)) eqn:Eb; [apply B; reflexivity|]. specialize (A eq_refl). lia.
  - intros Q. destruct (Rotation.Proofs.quiet _ _ _ Q) as (Q1 & Q2).
    assert (Hb : forall q, (q < n)%nat -> Rotation.Model.broadcasted (Rotation.Model.hosts_ w q) = true).
    { intros q Hq. destruct (Rotation.Model.broadcasted (Rotation.Model.hosts_ w q)) eqn:Eb; [reflexivity|]. destruct (HI q Hq) as (A' & _). specialize (A' Eb). specialize (Q2 q Hq). lia. }
    rewrite (Hb 0%nat) in D by lia. rewrite (proj2 (B (Hb p Hp))), Q1 in D. cbn in D. lia.
Qed.
Print Assumptions C62_matrix_applied_once.

Theorem C62_matrix_terminates : forall n channels (r : nat -> Rotation.Model.world), ~ (forall i, Rotation.Model.step n channels (r i) (r (S i))).
Proof. exact Rotation.Proofs.no_infinite. Qed.
Print Assumptions C62_matrix_terminates.

(** Two hosts, two channels; the matrix reaches host 1 before its second analysis is finished. *)
Example C62_example : exists w, Rotation.Model.reachable 2 2 w /\ Rotation.Model.matrix_buffer (Rotation.Model.hosts_ w 1) = true /\ Rotation.Model.pca_left w 1 = 1%nat.
Proof.
  eexists. split.
  - eapply Rotation.Model.after; [eapply Rotation.Model.after; [eapply Rotation.Model.after; [eapply Rotation.Model.after; [apply Rotation.Model.at_start|]|]|]|].
    + apply (Rotation.Model.finish 2 2 _ 0); [lia|cbn; lia].
    + apply (Rotation.Model.finish 2 2 _ 1); [lia|cbn; lia].
    + apply (Rotation.Model.finish 2 2 _ 0); [lia|cbn; lia].
    + apply (Rotation.Model.deliver 2 2 _ 1%nat [0%nat] []). reflexivity.
  - split; reflexivity.
Qed.
