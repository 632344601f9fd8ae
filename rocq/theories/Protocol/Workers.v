(** A pool of helper threads and its requester: [SyncArbiter::start] and the messages sent to it in training/intersection_calculation/mod.rs:166-218, helper.rs:41-50,
    training/node_estimation/multi_kde/actors/gaussian_kde.rs:58-96, helper.rs:22-57, training/scoring/mod.rs:92-115.
    Cargo.toml:17-18 has release builds end the whole process on a panic.  All other builds (tests, [cargo run], the crate as a library of another one) use the default of Rust:
    assumption about actix there: a panic in a helper ends the thread it happens in and loses the message it was handling; the other threads and the requester go on. *)
From Coq Require Import List Arith.
From Verif.Base Require Import Res.
From Verif.Protocol Require Import Model Pool.
Import ListNotations.

Section Workers.
Context {T A : Type}.
(** What a helper does with a task, intersection_calculation/helper.rs:17-35, 44-46, multi_kde/actors/helper.rs:59-94. *)
Variable work : T -> res A.
(** [panic = "abort"], Cargo.toml:17-18: true for release builds. *)
Variable panic_aborts : bool.

(** Tasks no thread has finished, threads that still run, answers sent but not yet handled, the requester (Protocol/Pool.v), gaussian_kde.rs:13-21, and whether the process has ended. *)
Record world := { queue : list T; threads : nat; under_way : list A; asker : requester A; ended : bool }.

(** After the tasks were sent, gaussian_kde.rs:81-96, intersection_calculation/mod.rs:186-218, with [running] threads that could be started
    (the helper is built in its thread, gaussian_kde.rs:67-75, multi_kde/actors/helper.rs:22-57). *)
Definition sent_off (running : nat) (tasks : list T) : world :=
  {| queue := tasks; threads := running; under_way := []; asker := dispatch (length tasks); ended := false |}.

(** One event.  Simplification: a thread takes a task and finishes it at once; tasks may be taken in any order, so every order in which the threads finish is covered. *)
Inductive happens : world -> world -> Prop :=
(** The handler of the helper returns, intersection_calculation/helper.rs:44-48. *)
| finishes l t r k fly a0 a : work t = Ok a ->
    happens {| queue := l ++ t :: r; threads := S k; under_way := fly; asker := a0; ended := false |} {| queue := l ++ r; threads := S k; under_way := fly ++ [a]; asker := a0; ended := false |}
(** The handler of the helper panics, intersection_calculation/helper.rs:33. *)
| breaks l t r k fly a0 q : work t = Panic q ->
    happens {| queue := l ++ t :: r; threads := S k; under_way := fly; asker := a0; ended := false |} {| queue := l ++ r; threads := k; under_way := fly; asker := a0; ended := panic_aborts |}
(** The requester handles an answer, gaussian_kde.rs:148-173, intersection_calculation/mod.rs:278-306. *)
| handles q k l a r a0 a1 : answered a0 a = Ok a1 ->
    happens {| queue := q; threads := k; under_way := l ++ a :: r; asker := a0; ended := false |} {| queue := q; threads := k; under_way := l ++ r; asker := a1; ended := false |}.

(** Any number of events, gaussian_kde.rs:58-173. *)
Inductive history : world -> world -> Prop :=
| nothing w : history w w
| later w1 w2 w3 : happens w1 w2 -> history w2 w3 -> history w1 w3.

(** The handler of the requester panics on an answer that is there, utils/helper_protocol.rs:13-16. *)
Definition requester_fails (w : world) : Prop := ended w = false /\ exists l a r q, under_way w = l ++ a :: r /\ answered (asker w) a = Panic q.
(** Nothing is left to happen; no code corresponds to it. *)
Definition at_rest (w : world) : Prop := forall w', ~ happens w w'.
End Workers.
