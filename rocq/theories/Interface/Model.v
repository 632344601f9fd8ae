(** The synchronous interface: how the scores get from the training actor to the caller.
    src/interface/{mod,sink}.rs, src/training/mod.rs:123-126, 260-279.
    Not modelled: [SinkWrite] of actix, which decides when the sink is polled (any sequence of calls is considered). *)
From Coq Require Import List.
From Verif.Base Require Import Res.
Import ListNotations.

Section Sink.
Context {T : Type}.

(** [MySink], sink.rs:8-26: the content, and what has been put into the channel so far ([mpsc::UnboundedSender]). *)
Record sink := { content : option T; channel : list T }.
(** [new], sink.rs:20-25. *)
Definition new_sink : sink := {| content := None; channel := [] |}.

(** [poll_ready], sink.rs:34-43; [poll_flush] (50-52) and [poll_close] (54-56) call it. *)
Definition poll_ready (s : sink) : sink :=
  match content s with
  | Some c => {| content := content s; channel := channel s ++ [c] |}
  | None => s
  end.
(** [start_send], sink.rs:45-48. *)
Definition start_send (s : sink) (x : T) : sink := {| content := Some x; channel := channel s |}.

(** A call of a method of the [Sink] trait, sink.rs:28-57. *)
Inductive call := Ready | Flush | Close | Send (x : T).
(** The methods, sink.rs:34-56. *)
Definition on_call (s : sink) (c : call) : sink :=
  match c with Ready | Flush | Close => poll_ready s | Send x => start_send s x end.
(** A sequence of calls, sink.rs:28-57. *)
Definition calls (l : list call) (s : sink) : sink := fold_left on_call l s.

(** [receiver.recv().await], interface/mod.rs:46-50: the first value in the channel; [None]: the caller still waits. *)
Definition received (s : sink) : option T := match channel s with x :: _ => Some x | [] => None end.

(** [Handler<ScoringDone>], training/mod.rs:260-279: the stored score and the message for the sink, if there is one. *)
Definition scoring_done (has_sink : bool) (score : option T) : res (option T * option T) :=
  if has_sink then match score with Some x => Ok (None, Some x) | None => Panic Explicit end else Ok (score, None).
End Sink.
Arguments sink : clear implicits.
Arguments call : clear implicits.
