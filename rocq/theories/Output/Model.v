(** The end of an analysis on one host: the score file, the table of contributions, the answer to the caller.
    src/training/scoring/mod.rs:202-256 ([finalize_scoring], [output_score]), 337-387 (the table), src/training/mod.rs:259-279 ([ScoringDone]).
    The csv writer is the library's (csv 1.1, [Writer] over [BufWriter]-less [File]): it collects bytes in a buffer of fixed capacity, writes the buffer when
    the next byte does not fit, and writes the rest when it is dropped, where errors are ignored.
    Simplifications: a file accepts a fixed number of bytes and refuses the rest (full disk, quota); numbers never need quotes in csv. *)
From Coq Require Import List Arith Bool Ascii.
From Verif.Base Require Import Res.
From Verif.Interface Require Import Model.
Import ListNotations.

(** An open file (std [File], no code): what it holds and how many bytes it still accepts. *)
Record file := { content : list ascii; room : nat }.
(** [write_all] of std: as much as fits, then an error. *)
Definition write_all (f : file) (bs : list ascii) : file * bool :=
  if length bs <=? room f then ({| content := content f ++ bs; room := room f - length bs |}, true)
  else ({| content := content f ++ firstn (room f) bs; room := 0 |}, false).

(** The csv writer, scoring/mod.rs:250, 346: bytes not yet written, and the file. *)
Record writer := { pending : list ascii; out : file }.
(** [flush_buf] of the csv writer: the buffer is emptied only after a successful write. *)
Definition flush (w : writer) : writer * bool :=
  let (f, ok) := write_all (out w) (pending w) in ({| pending := if ok then [] else pending w; out := f |}, ok).

Section Finish.
Variable capacity : nat.  (* of the buffer of the csv writer *)

(** One byte of a record ([write_field], [write_terminator] of the csv writer). *)
Definition put_byte (w : writer) (b : ascii) : writer * bool :=
  if length (pending w) <? capacity then ({| pending := pending w ++ [b]; out := out w |}, true)
  else let (w', ok) := flush w in
       if ok then ({| pending := [b]; out := out w' |}, true) else (w', false).
(** [serialize], scoring/mod.rs:252, 383: an error ends it. *)
Fixpoint serialize (w : writer) (bs : list ascii) : writer * bool :=
  match bs with
  | [] => (w, true)
  | b :: r => let (w', ok) := put_byte w b in if ok then serialize w' r else (w', false)
  end.
(** The loops over the records, scoring/mod.rs:251-253 ([?] leaves the function), 373-384 ([unwrap]). *)
Fixpoint write_records (w : writer) (ls : list (list ascii)) : writer * bool :=
  match ls with
  | [] => (w, true)
  | l :: r => let (w', ok) := serialize w l in if ok then write_records w' r else (w', false)
  end.

(** The disk: what is stored under a name, and how many bytes a file of this name accepts ([None]: it cannot be created). *)
Section Names.
Context {path : Type} (path_eqb : path -> path -> bool).
(** The file system (no code). *)
Record disk := { stored : path -> option (list ascii); space : path -> option nat }.
(** Replaces the content stored under a name (no code). *)
Definition store (d : disk) (p : path) (c : list ascii) : disk :=
  {| stored := fun q => if path_eqb q p then Some c else stored d q; space := space d |}.

(** [File::create], the loop over the records and the end of the writer's life, scoring/mod.rs:249-254 and 345-346, 373-385: [true] if no error was reported. *)
Definition write_file (d : disk) (p : path) (ls : list (list ascii)) : disk * bool :=
  match space d p with
  | None => (d, false)
  | Some r =>
      let (w, ok) := write_records {| pending := []; out := {| content := []; room := r |} |} ls in
      let (w', _) := flush w in (store d p (content (out w')), ok)
  end.

Section Records.
Context {T : Type} (show : T -> list ascii) (newline comma : ascii).
(** One record per score, scoring/mod.rs:252. *)
Definition score_line (x : T) : list ascii := show x ++ [newline].
(** A record of several fields, scoring/mod.rs:383. *)
Fixpoint fields (xs : list T) : list ascii :=
  match xs with [] => [] | [x] => show x | x :: r => show x ++ comma :: fields r end.
(** One row of the table, scoring/mod.rs:383. *)
Definition table_line (xs : list T) : list ascii := fields xs ++ [newline].

(** parameters.rs: [score_output_path], [explainability], [anomaly_contribution_output_path]; whether the array interface waits for the result (training/mod.rs:160-166). *)
Record options := { score_path : option path; explain : bool; table_path : path; has_sink : bool }.
(** How it ends: the disk, what the sink was given, whether the process was told to stop (training/mod.rs:276-277); if not, a handler has aborted. *)
Record ending := { on_disk : disk; answer : option (list T); stopped : bool }.

(** [Handler<ScoringDone>], training/mod.rs:259-279. *)
Definition done (o : options) (d : disk) (score : list T) : ending :=
  match scoring_done (has_sink o) (Some score) with
  | Ok (_, a) => {| on_disk := d; answer := a; stopped := true |}
  | Panic _ => {| on_disk := d; answer := None; stopped := false |}
  end.
(** Nothing happens after a panic, scoring/mod.rs:231, 345, 383. *)
Definition aborted (d : disk) : ending := {| on_disk := d; answer := None; stopped := false |}.
(** The table of contributions, scoring/mod.rs:337-387; [queries] is what the contribution actor answers (it aborts for a [Panic]), [rows] what is to be written
    (Contribution/Model.v); the file is created first, 345. *)
Definition write_table (o : options) (d : disk) (score : list T) (queries : res (list (list T))) (rows : list (list T) -> res (list (list T))) : ending :=
  match queries with
  | Panic _ => aborted d
  | Ok q =>
      match space d (table_path o) with
      | None => aborted d
      | Some _ =>
          match rows q with
          | Panic _ => aborted (store d (table_path o) [])
          | Ok rs => let (d', ok) := write_file d (table_path o) (map table_line rs) in if ok then done o d' score else aborted d'
          end
      end
  end.
(** [finalize_scoring] once the score is there, scoring/mod.rs:230-241. *)
Definition finish (o : options) (d : disk) (score : list T) (queries : res (list (list T))) (rows : list (list T) -> res (list (list T))) : ending :=
  let (d1, ok) := match score_path o with None => (d, true) | Some p => write_file d p (map score_line score) end in
  if negb ok then aborted d1
  else if explain o then write_table o d1 score queries rows else done o d1 score.
End Records.
End Names.
End Finish.
Arguments disk : clear implicits.
Arguments options : clear implicits.
Arguments ending : clear implicits.
