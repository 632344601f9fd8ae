(** [PhaseSpacer::build] in a release build, src/data_manager/phase_spacer/mod.rs. *)
From Coq Require Import List Arith Bool Reals.
From Verif.Base Require Import Res Params ListX Release.
From Verif.Stats Require Import Model.
From Verif.PhaseSpace Require Import Model.
Import ListNotations.

Section Release.
Context {V : Type} (rowsum : list V -> V).
(** Later windows, phase_spacer/mod.rs:47-61. *)
Definition next_window_release (word : nat) (p : params) (width i : nat) (current : list V) (data : list V) : res (list V) :=
  if width =? 0 then Panic OutOfBounds
  else
    let a := rsub word (rsub word (i + pattern_length p) (latent p)) 1 in
    let b := rsub word (i + pattern_length p) 1 in
    let! s := slice_rows a b data in
    Ok (skipn 1 current ++ [rowsum s]).
(** The loop, phase_spacer/mod.rs:33-62. *)
Fixpoint windows_release (word : nat) (p : params) (width i count : nat) (current : option (list V)) (data : list V) : res (list (list V)) :=
  match count with
  | 0 => Ok []
  | S count' =>
      let! w := match current with
                | None => first_window rowsum p width i data
                | Some c => next_window_release word p width i c data
                end in
      let! rest := windows_release word p width (S i) count' (Some w) data in
      Ok (w :: rest)
  end.
(** [PhaseSpacer::build], phase_spacer/mod.rs:17-65; [cols]: columns of the data. *)
Definition phase_space_release (word cols : nat) (p : params) (data : list V) : res (list (list V)) :=
  let count := rsub word (length data) (rsub word (pattern_length p) 1) in
  let width := rsub word (pattern_length p) (latent p) in
  if too_large word [count; width; cols] then Panic BadShape
  else windows_release word p width 0 count None data.
End Release.

(** [ReferenceDatasetBuilder::build] in a release build, data_manager/reference_dataset_builder/mod.rs:23-54. *)
Definition reference_dataset_release (word : nat) (p : params) (min_cols max_cols : list R) : res (list (list (list R))) :=
  let length_ := 100 in
  let width := rsub word (pattern_length p) (latent p) in
  let dim := length min_cols in
  if too_large word [length_; width; dim] then Panic BadShape
  else if negb (dim =? length max_cols) then Panic Explicit
  else
    mapM (fun i =>
            let v := map2 (fun s e => linspace s e length_ i) min_cols max_cols in
            let t := repeat v (pattern_length p) in
            mapM (fun j =>
                    let! s := slice_rows j (j + latent p) t in
                    Ok (map (fun d => fold_left Rplus (column d s) 0%R) (seq 0 dim)))
                 (seq 0 width))
         (seq 0 length_).
