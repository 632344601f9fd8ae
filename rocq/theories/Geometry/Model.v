(** Geometry: the alignment matrix (src/training/rotation/mod.rs:131-189), the points it yields (205-245), their segments
    (src/data_store/utils.rs, src/utils/ndarray_extensions/mod.rs:148-154), mirroring (src/data_store/point.rs:53-58) and the
    intersection of a line with a plane (src/utils/geometry.rs:20-47).
    Simplification throughout: f32 is the real numbers. *)
From Coq Require Import List Arith Reals ZArith.
From Verif.Stats Require Import Spec.
Import ListNotations.
Local Open Scope R_scope.

(** A column of a (3, n) array, rotation/mod.rs:131-189; over the reals. *)
Definition vec3 := (R * R * R)%type.

(** [norm] of one column, ndarray_extensions/mod.rs:12-14. *)
Definition norm3 (v : vec3) : R := let '(x, y, z) := v in sqrt (x * x + y * y + z * z).
(** Division of a column by its norm, rotation/mod.rs:141-144. *)
Definition unit3 (v : vec3) : vec3 := let '(x, y, z) := v in (x / norm3 v, y / norm3 v, z / norm3 v).
(** [cross1d], ndarray_extensions/mod.rs:43-49. *)
Definition cross3 (a b : vec3) : vec3 :=
  let '(a0, a1, a2) := a in let '(b0, b1, b2) := b in (a1 * b2 - a2 * b1, a2 * b0 - a0 * b2, a0 * b1 - a1 * b0).
(** The unit vector of the third axis, rotation/mod.rs:137-139. *)
Definition e3 : vec3 := (0, 0, 1).
(** [a.dot(b)] of two columns, rotation/mod.rs:148-149. *)
Definition dot3 (a b : vec3) : R :=
  let '(a0, a1, a2) := a in let '(b0, b1, b2) := b in a0 * b0 + a1 * b1 + a2 * b2.

(** [repeat(identity, n)], ndarray_extensions/mod.rs:51-58: every element of the flattened matrix n times in a row. *)
Definition repeat_each (flat : list R) (n : nat) : list R := flat_map (fun x => repeat x n) flat.
(** [repeat(identity, n)] seen from one channel, rotation/mod.rs:151-154. *)
Definition identity_flat : list R := [1; 0; 0; 0; 1; 0; 0; 0; 1].
(** The concatenation of nine rows, rotation/mod.rs:156-176; [vs]: the cross products, one per channel. *)
Definition fst3 (v : vec3) : R := let '(x, _, _) := v in x.
(** Second entry of a column, rotation/mod.rs:160-176. *)
Definition snd3 (v : vec3) : R := let '(_, y, _) := v in y.
(** Third entry of a column, rotation/mod.rs:160-176. *)
Definition thd3 (v : vec3) : R := let '(_, _, z) := v in z.
(** The array of shape (9, n), rotation/mod.rs:156-176. *)
Definition k_flat (vs : list vec3) : list R :=
  let zeros := map (fun _ => 0) vs in
  concat [zeros; map (fun v => thd3 v * -1) vs; map snd3 vs;
          map thd3 vs; zeros; map (fun v => fst3 v * -1) vs;
          map (fun v => snd3 v * -1) vs; map fst3 vs; zeros].
(** Element (r, c, k) of a flat array reshaped to (3, 3, n). *)
(** [into_shape((3, 3, n))], rotation/mod.rs:160-176: element of a flat row-major array. *)
Definition elem (n : nat) (flat : list R) (r c k : nat) : option R := nth_error flat ((r * 3 + c) * n + k).

(** Absence propagates (an abort of the code); no code of its own, used for point.rs:33-35. *)
Definition obind {A B} (o : option A) (f : A -> option B) : option B := match o with Some a => f a | None => None end.

(** [get_rotation_matrix], rotation/mod.rs:131-189: element (r, c) for channel k; [refs]: the first reference point of each channel, reduced to three dimensions. *)
Definition rotation_entry (refs : list vec3) (r c k : nat) : option R :=
  let n := length refs in
  let as_ := map unit3 refs in
  let vs := map (fun a => cross3 a e3) as_ in
  let kk := k_flat vs in
  obind (elem n (repeat_each identity_flat n) r c k) (fun i =>
  obind (elem n kk r c k) (fun k1 =>
  obind (elem n kk r 0 k) (fun r0 => obind (elem n kk r 1 k) (fun r1 => obind (elem n kk r 2 k) (fun r2 =>
  obind (elem n kk 0 c k) (fun c0 => obind (elem n kk 1 c k) (fun c1 => obind (elem n kk 2 c k) (fun c2 =>
  obind (nth_error (map (dot3 e3) as_) k) (fun cosine =>
  obind (nth_error (map norm3 vs) k) (fun sine =>
  Some (i + k1 + (r0 * c0 + r1 * c1 + r2 * c2) * ((1 - cosine) / (sine * sine))))))))))))).

(** [apply_rotation_matrix], rotation/mod.rs:205-229, for one row: [ms]: the matrix of each channel, [xs]: the reduced row of each channel.
    First the first coordinates of all channels, then the second ones (shape (2, channels) read row by row). *)
Definition mat_row (m : nat -> nat -> R) (r : nat) (x : vec3) : R :=
  let '(x0, x1, x2) := x in m r 0%nat * x0 + m r 1%nat * x1 + m r 2%nat * x2.
(** [apply_rotation_matrix], rotation/mod.rs:205-229. *)
Definition point_coordinates (ms : list (nat -> nat -> R)) (xs : list vec3) : list R :=
  let rotated := combine ms xs in
  map (fun mx => mat_row (fst mx) 0 (snd mx)) rotated ++ map (fun mx => mat_row (fst mx) 1 (snd mx)) rotated.

(** [atan2] of the standard library. *)
(** [f32::atan2] over the reals, ndarray_extensions/mod.rs:148-154. *)
Definition atan2 (y x : R) : R :=
  if Rlt_dec 0 x then atan (y / x)
  else if Rlt_dec x 0 then (if Rle_dec 0 y then atan (y / x) + PI else atan (y / x) - PI)
  else if Rlt_dec 0 y then PI / 2 else if Rlt_dec y 0 then - (PI / 2) else 0.

(** [get_segment_id], data_store/utils.rs:3-7.  [floor ... as usize]: the argument is positive. *)
Definition get_segment_id (angle : R) (n_segments : nat) : nat :=
  let positive_angle := 2 * PI + angle in
  let segment_size := (2 * PI) / INR n_segments in
  (Z.to_nat (Int_part (positive_angle / segment_size)) mod n_segments)%nat.

(** A stored point, data_store/point.rs:10-16. *)
Record point := { p_id : nat; p_coordinates : list R; p_segment : nat }.

(** [calculate_segment_id], point.rs:33-35, with [to_polar]; fewer than two coordinates abort (None). *)
Definition segment_of (coordinates : list R) (n_segments : nat) : option nat :=
  match coordinates with
  | x :: y :: _ => Some (get_segment_id (atan2 y x) n_segments)
  | _ => None
  end.
(** [new_calculate_segment], point.rs:28-31. *)
Definition new_point (id : nat) (coordinates : list R) (n_segments : nat) : option point :=
  obind (segment_of coordinates n_segments) (fun s => Some {| p_id := id; p_coordinates := coordinates; p_segment := s |}).
(** [add_points_with_offset], data_store/mod.rs:55-67. *)
Fixpoint add_points (next_id : nat) (points : list (list R)) (n_segments : nat) : option (list point) :=
  match points with
  | [] => Some []
  | c :: t => obind (new_point next_id c n_segments) (fun p => obind (add_points (S next_id) t n_segments) (fun l => Some (p :: l)))
  end.
(** [mirror], point.rs:53-58. *)
Definition mirror (p : point) (n_segments : nat) : option point :=
  let c := match p_coordinates p with [] => [] | x :: t => x * -1 :: t end in
  obind (segment_of c n_segments) (fun s => Some {| p_id := p_id p; p_coordinates := c; p_segment := s |}).

(** [line_plane_intersection], geometry.rs:20-47, in dimension [d]: [line0], [line1] two points of the line; [plane i], i < d, the points of the plane; [inv] the
    LAPACK call.  Vectors are functions from coordinate numbers.  Row 0 of the system is the negated line vector, row i the i-th plane vector. *)
Definition system (line0 line1 : nat -> R) (plane : nat -> nat -> R) : nat -> nat -> R :=
  fun i j => match i with O => (line1 j - line0 j) * -1 | _ => plane i j - plane 0%nat j end.
(** [line_plane_intersection], utils/geometry.rs:20-47. *)
Definition line_plane_intersection (d : nat) (inv : (nat -> nat -> R) -> option (nat -> nat -> R))
    (line0 line1 : nat -> R) (plane : nat -> nat -> R) : option (nat -> R) :=
  obind (inv (system line0 line1 plane)) (fun m =>
    let vec_start j := line0 j - plane 0%nat j in
    let t := Rsum (map (fun j => m j 0%nat * vec_start j) (seq 0 d)) in
    Some (fun j => line0 j + (line1 j - line0 j) * t)).

(** [to_cartesian], ndarray_extensions/mod.rs:156-162. *)
Definition to_cartesian (radius theta : R) : R * R := (radius * cos theta, radius * sin theta).
(** The far corner of a border, intersection_calculation/mod.rs:92-108; coordinate [j] of at least two. *)
Definition plane_end (rate segment : nat) (radius max_value : R) (j : nat) : R :=
  let '(x, y) := to_cartesian radius ((2 * PI * INR segment) / INR rate) in
  match j with O => x | S O => y | _ => max_value end.
(** The points that span a border in [d >= 2] dimensions, intersection_calculation/mod.rs:144-157: the origin, the far corner with coordinate i+1 set to zero
    for i = 1 .. d-2, the far corner. *)
Definition plane_points (d rate segment : nat) (radius max_value : R) (i j : nat) : R :=
  if Nat.eqb i 0 then 0
  else if Nat.eqb i (d - 1) then plane_end rate segment radius max_value j
  else if Nat.eqb j (S i) then 0 else plane_end rate segment radius max_value j.
(** The intersection computed for a transition and a border, intersection_calculation/mod.rs:110-164, helper.rs:
    the helper unwraps the result (None: abort). *)
Definition border_intersection (d rate segment : nat) (inv : (nat -> nat -> R) -> option (nat -> nat -> R))
    (radius max_value : R) (from to : nat -> R) : option (nat -> R) :=
  line_plane_intersection d inv from to (plane_points d rate segment radius max_value).
(** [IntersectionCalculationHelper::work], intersection_calculation/helper.rs:16-35: the point is read as a (2, d/2) array and the norm of every column is stored. *)
Definition channel_distances (d : nat) (p : nat -> R) : list R :=
  map (fun c => sqrt (p c * p c + p (c + d / 2)%nat * p (c + d / 2)%nat)) (seq 0 (d / 2)).
