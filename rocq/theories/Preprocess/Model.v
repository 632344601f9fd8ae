(** Preprocessing of the columns by a pool of workers: src/data_manager/preprocessor/{mod,helper}.rs. *)
From Coq Require Import List Arith Bool.
From Verif.Base Require Import Res.
From Verif.Stats Require Import Model.
Import ListNotations.

(** ** The worker, helper.rs *)
Section Helper.
Context {num : Type} (eqb : num -> num -> bool) (add mul : num -> num -> num) (of_nat : nat -> num) (tenth : num).

(** The loop 39-50 and 51-53: runs of positions whose value equals the value before, if longer than the window. *)
Fixpoint flat_loop (window_size r : nat) (last_v : num) (current : list nat) (regions : list (list nat)) (data : list num)
  : list (list nat) :=
  match data with
  | [] => if window_size <? length current then regions ++ [current] else regions
  | v :: t =>
      if (0 <? r) && eqb last_v v then flat_loop window_size (S r) v (current ++ [r]) regions t
      else flat_loop window_size (S r) v [] (if window_size <? length current then regions ++ [current] else regions) t
  end.

(** [data.select(Axis(0), indices)]: a new array with copies of the selected values. *)
(** [select] of the positions of a region, data_manager/preprocessor/helper.rs:55-58. *)
Definition select (data : list num) (indices : list nat) : res (list num) :=
  mapM (fun i => match nth_error data i with Some x => Ok x | None => Panic OutOfBounds end) indices.

(** [background_oscillation], 19-31. *)
Definition background_oscillation (indices : list nat) (data : list num) (std : num) : res (list num) :=
  let! slice := select data indices in
  Ok (map2 add (map (fun x => mul (of_nat (x mod 2)) std) indices) slice).

(** [copy.assign(&values)]: the copy takes the values (lengths agree). *)
(** [assign] to the selected copy, data_manager/preprocessor/helper.rs:55-58. *)
Definition assign (copy values : list num) : list num := values.

(** [preprocess], 33-60.  The loop of 55-58 selects a copy of the region, assigns the oscillation to the copy and drops it; the column
    itself is not written. *)
Definition preprocess (window_size : nat) (data : list num) (std : num) : res (list num) :=
  match data with
  | [] => Panic OutOfBounds
  | last_v :: _ =>
      let regions := flat_loop window_size 0 last_v [] [] data in
      foldM (fun d region =>
               let! copy := select d region in
               let! osc := background_oscillation region d (mul std tenth) in
               let _dropped := assign copy osc in
               Ok d) regions data
  end.
End Helper.

(** ** The dispatcher, mod.rs *)
(** State of [Preprocessing] (17-22) together with the messages under way.  [sent] is the list of all columns handed to the
    worker pool so far, [inflight] those not answered yet, [done] the number of [PreprocessingDoneMessage]s sent. *)
Record dispatch := {
  n_cols_total : nat;
  n_cols_processed : nat;
  n_cols_distributed : nat;
  sent : list nat;
  inflight : list nat;
  answered : list nat;
  done : nat
}.

(** [Preprocessing::new], 25-38. *)
Definition dispatch_new (ncols : nat) : dispatch :=
  {| n_cols_total := ncols; n_cols_processed := 0; n_cols_distributed := 0; sent := []; inflight := []; answered := [];
     done := 0 |}.

(** [distribute_work], 46-64. *)
Definition distribute_work (n_threads : nat) (d : dispatch) : res dispatch :=
  let! outstanding := usub (n_cols_distributed d) (n_cols_processed d) in
  let! max_distribution := usub n_threads outstanding in
  let cols := firstn max_distribution (seq (n_cols_distributed d) (n_cols_total d - n_cols_distributed d)) in
  Ok {| n_cols_total := n_cols_total d; n_cols_processed := n_cols_processed d;
        n_cols_distributed := n_cols_distributed d + length cols;
        sent := sent d ++ cols; inflight := inflight d ++ cols; answered := answered d; done := done d |}.

(** [Handler<ProcessedColumnMessage>], 67-81. *)
Definition handle_processed (n_threads : nat) (d : dispatch) : res dispatch :=
  let d' := {| n_cols_total := n_cols_total d; n_cols_processed := n_cols_processed d + 1;
               n_cols_distributed := n_cols_distributed d; sent := sent d; inflight := inflight d; answered := answered d;
               done := done d |} in
  if n_cols_processed d' =? n_cols_total d' then
    Ok {| n_cols_total := n_cols_total d'; n_cols_processed := n_cols_processed d';
          n_cols_distributed := n_cols_distributed d'; sent := sent d'; inflight := inflight d'; answered := answered d';
          done := done d' + 1 |}
  else distribute_work n_threads d'.

(** A worker answers the [k]-th of the columns in flight and the dispatcher handles the answer.  (Any order of answers.) *)
(** Delivery (actix, no code): the pool answers a task it holds, data_manager/preprocessor/mod.rs:67-81. *)
Inductive answer_step (n_threads : nat) : dispatch -> nat -> dispatch -> Prop :=
| answer : forall d before col after d',
    inflight d = before ++ col :: after ->
    handle_processed n_threads
      {| n_cols_total := n_cols_total d; n_cols_processed := n_cols_processed d; n_cols_distributed := n_cols_distributed d;
         sent := sent d; inflight := before ++ after; answered := answered d ++ [col]; done := done d |} = Ok d' ->
    answer_step n_threads d col d'.

(** All states reachable after [preprocess] of src/data_manager/mod.rs:112-126 called [distribute_work]. *)
Inductive reachable (n_threads ncols : nat) : dispatch -> Prop :=
| r_start : forall d, distribute_work n_threads (dispatch_new ncols) = Ok d -> reachable n_threads ncols d
| r_step : forall d col d', reachable n_threads ncols d -> answer_step n_threads d col d' -> reachable n_threads ncols d'.
