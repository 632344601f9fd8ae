From Coq Require Import List Arith Lia Bool Permutation.
From Verif.Base Require Import Res ListX.
From Verif.Preprocess Require Import Model Proofs.
Import ListNotations.

(** C13: [T] worker threads, [n] columns.  In every reachable state - whatever the order of the answers - the columns
    handed out are distinct existing columns, each either answered (once) or in flight; at most [T] are in flight; the end has been
    reported exactly if all columns are answered, and at most once; and if it has not been reported a column is in flight. *)
Theorem C13_every_column_once : forall T n, 1 <= T -> forall d, reachable T n d ->
  NoDup (sent d) /\ (forall col, In col (sent d) -> col < n)
  /\ Permutation (answered d ++ inflight d) (sent d)
  /\ length (inflight d) <= T
  /\ (done d = 1 <-> (1 <= n /\ Permutation (answered d) (seq 0 n)))
  /\ done d <= 1
  /\ (1 <= n -> done d = 0 -> inflight d <> []).
Proof. exact dispatch_ok. Qed.
Print Assumptions C13_every_column_once.

(** Every answer can be handled without abort and makes progress, so after exactly [n] answers the end is reported. *)
Theorem C13_progress : forall T n, 1 <= T -> forall d before col after,
  reachable T n d -> inflight d = before ++ col :: after ->
  exists d', answer_step T d col d' /\ length (answered d') = S (length (answered d)).
Proof. exact answer_enabled. Qed.
Print Assumptions C13_progress.

(** Boundary cases (findings): no thread, or no selected column - preprocessing never ends. *)
Theorem C13_no_threads_hang : forall n d, reachable 0 n d -> inflight d = [] /\ sent d = [] /\ done d = 0.
Proof. exact no_threads_hang. Qed.
Print Assumptions C13_no_threads_hang.
Theorem C13_no_columns_hang : forall T d, reachable T 0 d -> inflight d = [] /\ done d = 0.
Proof. exact no_columns_hang. Qed.
Print Assumptions C13_no_columns_hang.

(** 2 threads, 3 columns, column 1 answered first. *)
Example C13_example : exists d, reachable 2 3 d /\ answered d = [1] /\ inflight d = [0; 2].
Proof.
  eexists. split.
  - eapply r_step; [apply r_start; reflexivity|]. apply (answer 2 _ [0] 1 []); reflexivity.
  - split; reflexivity.
Qed.

(** C14 *)
Theorem C14_preprocessing_is_identity : forall num (eqb : num -> num -> bool) add mul of_nat tenth window_size data std,
  data <> [] -> preprocess eqb add mul of_nat tenth window_size data std = Ok data.
Proof. exact @preprocess_identity. Qed.
Print Assumptions C14_preprocessing_is_identity.

(** A flat region longer than the window (positions 2..4) is detected, yet the column is returned unchanged. *)
Example C14_example :
  flat_loop Nat.eqb 2 0 5 [] [] [5; 7; 7; 7; 7; 8] = [[2; 3; 4]]
  /\ preprocess Nat.eqb Nat.add Nat.mul (fun x => x) 1 2 [5; 7; 7; 7; 7; 8] 3 = Ok [5; 7; 7; 7; 7; 8].
Proof. split; reflexivity. Qed.
