(** Time index and windows of the scoring in a release build: src/training/scoring/{weights,mod,helper}.rs. *)
From Coq Require Import List Arith Bool.
From Verif.Base Require Import Res Assoc ListX Release.
From Verif.Nodes Require Import Model.
From Verif.Edges Require Import Model.
From Verif.Scoring Require Import Model.
Import ListNotations.

Section Release.
Variable word : nat.
(** [while len < n { push(v) }], weights.rs:45-47, 66-68, for a vector below the limit. *)
Definition pad_release (n v : nat) (l : list nat) : res (list nat) := if vec_limit word <? n then Panic OutOfBounds else Ok (pad n v l).
(** The loop body, weights.rs:38-54. *)
Definition index_step_release (start : nat) (s : list nat * option nat * nat) (x : nat * nat) : res (list nat * option nat * nat) :=
  let '(index, last_id, last_len) := s in
  let '(i, id) := x in
  match last_id with
  | None => Ok (index, Some id, last_len)
  | Some l =>
      if id =? l then Ok s
      else let! padded := pad_release (rsub word l start) last_len index in Ok (padded ++ [i], Some id, i)
  end.
(** [count_edges_in_time], weights.rs:22-71. *)
Definition count_edges_in_time_release (start : nat) (edges : list edge) (num_rotated : nat) (last : bool) : res (list nat) :=
  let ids := map to_id edges ++ [0] in
  let! (index, _, last_len) := foldM (index_step_release start) (combine (seq 0 (length ids)) ids) ([], None, 0) in
  pad_release (rsub word num_rotated (if last then 1 else 0)) last_len index.
(** [score], mod.rs:81-86. *)
Definition score_length_release (g : graph) : res nat :=
  let q := rsub word (g_query g) 1 in
  if length (g_index g) <? q then Panic Explicit else Ok (rsub word (length (g_index g)) q).
(** The edges of window [i], helper.rs:50-54. *)
Definition window_release (g : graph) (i : nat) : res (list edge) :=
  let! from := get (g_index g) i in
  let! to := get (g_index g) (rsub word (i + g_query g) 1) in
  get_slice (g_edges g) from (Nat.min (to + 1) (length (g_edges g))).
(** [weight * (degree - 1)], helper.rs:24-33; the product wraps around as well. *)
Definition summand_release (g : graph) (e : edge) : res nat :=
  let! w := unwrap (lookup edge_key_eqb (edge_key e) (g_weight g)) in
  let! d := unwrap (lookup key_eqb (node_key (fst e)) (g_degree g)) in
  Ok (w * rsub word d 1 mod word).
(** [send_overlap_to_neighbor], overlap.rs:13-34. *)
Definition overlap_of_release (q : nat) (h : list edge * list nat) : res (list edge * list nat) :=
  let '(edges, index) := h in
  let q1 := rsub word q 1 in
  let! to := get index q1 in
  let! es := get_slice edges 0 to in
  let! is := get_slice index 0 q1 in
  Ok (es, is).
(** [finalize_scoring], scoring/mod.rs:199-228. *)
Definition assemble_step_release {F : Type} (is_zero : F -> bool) (scores : list (list F)) (part : list F * bool) : res (list (list F)) :=
  let '(sub, first_empty) := part in
  if first_empty then
    let! previous := unwrap (nth_error scores (length scores - 1)) in
    let! l := get previous (rsub word (length previous) 1) in
    Ok (scores ++ [fill_up is_zero l sub])
  else Ok (scores ++ [sub]).
(** [finalize_scoring], scoring/mod.rs:199-228, before normalization. *)
Definition assemble_release {F : Type} (is_zero : F -> bool) (parts : list (list F * bool)) : res (list F) :=
  let! scores := foldM (assemble_step_release is_zero) parts [] in Ok (concat scores).
End Release.
