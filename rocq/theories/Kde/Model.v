(** Clustering of the crossings of a segment: src/training/node_estimation/multi_kde.
    Numbers are abstract: [A] with the comparisons and operations used; Kde/Float.v instantiates them with single precision. *)
From Coq Require Import List Arith Bool.
From Verif.Base Require Import Res Assoc ListX.
From Verif.Protocol Require Import Model Pool.
Import ListNotations.

(** [l[i]]. *)
(** [a[i]], multi_kde/mod.rs:68, 119: an index out of range aborts. *)
Definition at_index {A} (l : list A) (i : nat) : res A := match nth_error l i with Some x => Ok x | None => Panic OutOfBounds end.

Section Peaks.
Context {A : Type} (gt : A -> A -> bool).
(** The comparison with the neighbours at distance [shift], mod.rs:77-92; [fromto(a, b)] (utils/itertools.rs:18-51) yields the elements a..b. *)
Definition exceeds_neighbours (shift : nat) (e : list A) : res (list bool) :=
  let n := length e in
  let! li := usub n 1 in
  let! last := at_index e li in
  let! first := at_index e 0 in
  let! m := usub n shift in
  let plus := slice shift n e ++ repeat last shift in
  let minus := repeat first shift ++ slice 0 m e in
  Ok (map (fun '(main, p, q) => gt main p && gt main q) (combine (combine e plus) minus)).
(** The loop with its early exit, mod.rs:76-99. *)
Fixpoint peak_loop (shifts : list nat) (e : list A) (results : list bool) : res (list bool) :=
  match shifts with
  | [] => Ok results
  | s :: r =>
      let! c := exceeds_neighbours s e in
      let results := map (fun '(a, b) => a && b) (combine results c) in
      if existsb (fun b => b) results then peak_loop r e results else Ok results
  end.
(** [find_peak_index], mod.rs:73-105. *)
Definition find_peak_index (order : nat) (e : list A) : res (list nat) :=
  let! results := peak_loop (seq 1 order) e (repeat true (length e)) in
  Ok (map fst (filter snd (combine (seq 0 (length e)) results))).
(** [find_peak_values], mod.rs:57-71; [grid]: the positions of the estimates. *)
Definition find_peak_values (order : nat) (e grid : list A) : res (list A) :=
  let! is := find_peak_index order e in mapM (at_index grid) is.
End Peaks.

Section Closest.
Context {A D : Type} (cmp : D -> D -> option comparison) (dist : A -> A -> D).
(** [argmin] of ndarray-stats: the first smallest element; an error (unwrapped by the caller) for an empty array or if two values cannot be compared. *)
(** One comparison of [argmin] (ndarray-stats), multi_kde/mod.rs:119. *)
Definition argmin_step (s : nat * D) (x : nat * D) : res (nat * D) :=
  match cmp (snd x) (snd s) with
  | None => Panic UnwrapNone
  | Some Lt => Ok x
  | Some _ => Ok s
  end.
(** [d.argmin().unwrap()], multi_kde/mod.rs:119. *)
Definition argmin (l : list D) : res nat :=
  match l with
  | [] => Panic UnwrapNone
  | d :: _ => let! (i, _) := foldM argmin_step (combine (seq 0 (length l)) l) (0, d) in Ok i
  end.
(** [assign_closest_peak_values], mod.rs:107-120; [dist p x] is [|p - x|]. *)
Definition closest_peak (peaks : list A) (x : A) : res A :=
  let! i := argmin (map (fun p => dist p x) peaks) in at_index peaks i.
(** [assign_closest_peak_values], multi_kde/mod.rs:107-120. *)
Definition assign_closest (points peaks : list A) : res (list A) := mapM (closest_peak peaks) points.
End Closest.

Section Labels.
Context {A : Type} (eqb : A -> A -> bool) (hashable : A -> bool).
(** Equality of centres: entry by entry ([FloatApprox]: equality of the numbers, utils/float_approx.rs:47-51). *)
Fixpoint center_eqb (a b : list A) : bool :=
  match a, b with
  | [], [] => true
  | x :: a, y :: b => eqb x y && center_eqb a b
  | _, _ => false
  end.
(** The loop body of [extract_labels_from_centers], mod.rs:129-139; state: map, labels, next key.  Hashing converts every entry to an integer, which fails for
    entries that are not finite or too large (utils/float_approx.rs:15-20, 56-63). *)
Definition label_step (s : list (list A * nat) * list nat * nat) (center : list A) : res (list (list A * nat) * list nat * nat) :=
  let '(known, labels, key) := s in
  if negb (forallb hashable center) then Panic UnwrapNone
  else match lookup center_eqb center known with
       | Some k => Ok (known, labels ++ [k], key)
       | None => Ok (known ++ [(center, key)], labels ++ [key], S key)
       end.
(** mod.rs:122-158: labels, and the centres sorted by label.  The map is kept in insertion order, so it is sorted by key already; stacking no rows fails. *)
Definition extract_labels (centers : list (list A)) : res (list nat * list (list A)) :=
  let! (known, labels, _) := foldM label_step centers ([], [], 0) in
  match known with [] => Panic UnwrapNone | _ => Ok (labels, map fst known) end.
End Labels.

Section Cluster.
Context {A D : Type} (gt : A -> A -> bool) (cmp : D -> D -> option comparison) (dist : A -> A -> D) (eqb : A -> A -> bool) (hashable : A -> bool) (zero : A).
(** [grid]: the positions at which the density of a column is evaluated, mod.rs:63-64 with actors/mod.rs:78-79. *)
Context (grid : list A -> res (list A)).
(** [find_cluster_centers], actors/mod.rs:73-90, for one column and its density. *)
Definition column_centers (order : nat) (column e : list A) : res (list A) :=
  let! g := grid column in
  let! peaks := find_peak_values gt order e g in
  match peaks with
  | [] => Ok (repeat zero (length column))
  | _ => assign_closest cmp dist column peaks
  end.
(** The rows of the matrix whose columns are [columns], each of length [n] ([stack(Axis(1))], utils/ndarray_extensions/stack.rs). *)
(** [stack(Axis(1))] of the columns, actors/mod.rs:58-59: the rows. *)
Definition rows_of (n : nat) (columns : list (list A)) : list (list A) :=
  map (fun i => flat_map (fun c => match nth_error c i with Some x => [x] | None => [] end) columns) (seq 0 n).
(** The end of [cluster_next_dim], actors/mod.rs:58-67; no columns or columns of different lengths cannot be stacked. *)
Definition finish (centers : list (list A)) : res (list nat * list (list A)) :=
  match centers with
  | [] => Panic UnwrapNone
  | c :: _ => if forallb (fun d => length d =? length c) centers then extract_labels eqb hashable (rows_of (length c) centers) else Panic UnwrapNone
  end.
End Cluster.

(** ** Density on several threads, actors/gaussian_kde.rs *)
(** [send_tasks], gaussian_kde.rs:81-96: the ranges of the threads. *)
Definition kde_ranges (threads n : nat) : res (list (nat * nat)) := mapM (kde_range n threads) (seq 0 threads).
Section Density.
Context {A : Type} (zero : A) (add : A -> A -> A).
(** [estimate] plus [d], entry by entry. *)
(** [add_assign], gaussian_kde.rs:154: entry by entry. *)
Definition add_all (e d : list A) : list A := map (fun '(x, y) => add x y) (combine e d).
(** [evaluate] of a helper, actors/helper.rs:60-86: [kernel i] lists the contributions [weight * exp(..) * norm] of point [i] at the grid positions. *)
Definition part_estimate (kernel : nat -> list A) (grid_len : nat) (range : nat * nat) : list A :=
  fold_left (fun est i => add_all est (kernel i)) (seq (fst range) (snd range - fst range)) (repeat zero grid_len).
(** [Handler<EstimatorResponse>], gaussian_kde.rs:153-158: the responses are added up in the order of arrival; adding arrays of different lengths aborts. *)
Definition add_response (s : option (list A)) (r : list A) : res (option (list A)) :=
  match s with
  | None => Ok (Some r)
  | Some e => if length e =? length r then Ok (Some (add_all e r)) else Panic BadShape
  end.
End Density.
