(** The contribution of each dimension to the anomaly scores (option explainability, single machine only): training/anomaly_contribution/mod.rs,
    training/node_estimation/mod.rs:240-256, training/scoring/mod.rs:110-132 and 337-387.  Numbers are single precision. *)
From Coq Require Import List Arith Bool ZArith.
From Flocq Require Import IEEE754.BinarySingleNaN.
From Verif.Base Require Import Res Assoc ListX Float32.
From Verif.Stats Require Import Model.
From Verif.Edges Require Import Model.
From Verif.Scoring Require Import Model.
From Verif.Kde Require Import Model Float.
Import ListNotations.
Local Open Scope nat_scope.

(** The counts sent with the centres, node_estimation/mod.rs:241-246; [labels] is not empty there (231). *)
Definition label_counts (labels : list nat) : list nat :=
  map (fun k => length (filter (Nat.eqb k) labels)) (seq 0 (fold_left Nat.max labels 0 + 1)).

(** One [counter.entry] of anomaly_contribution/mod.rs:59-65; the hash of a value that is not finite or too large aborts (utils/float_approx.rs:15-20). *)
Definition count_value (m : list (f32 * nat)) (v : f32) (count : nat) : res (list (f32 * nat)) :=
  if negb (f_hashable v) then Panic UnwrapNone
  else Ok (match lookup f_eq v m with None => m ++ [(v, count)] | Some x => insert f_eq v (x + count) m end).
(** One column of [calculate_dimension_uniqueness], 55-77; [n]: the number of crossings as a float, 52. *)
Definition column_uniqueness (n : f32) (dim : list f32) (counts : list nat) : res (list f32) :=
  let! counter := foldM (fun m '(i, c) => let! v := unwrap (nth_error dim i) in count_value m v c) (combine (seq 0 (length counts)) counts) [] in
  mapM (fun v => if negb (f_hashable v) then Panic UnwrapNone
                 else let! c := unwrap (lookup f_eq v counter) in Ok (f_sub (f_of 1 0) (f_div (f_of_nat c) n))) dim.
(** [calculate_dimension_uniqueness], 47-79, for centres with [w] entries each. *)
Definition uniqueness (w : nat) (centers : list (list f32)) (counts : list nat) : res (list (list f32)) :=
  let n := fold_left f_add (map f_of_nat counts) f_zero in
  let! columns := mapM (fun d => column_uniqueness n (column d centers) counts) (seq 0 w) in
  Ok (rows_of (length centers) columns).

(** [AnomalyContribution], 20-25. *)
Record contribution := { node_contribution : list ((nat * nat) * list f32); query_response : option (list (list f32)); n_dims : option nat }.
(** [Default], anomaly_contribution/mod.rs:19-25. *)
Definition new_contribution : contribution := {| node_contribution := []; query_response := None; n_dims := None |}.
(** [record_contributions], 28-45. *)
Definition record_contributions (w : nat) (nodes : list node) (centers : list (list f32)) (counts : list nat) (s : contribution) : res contribution :=
  let! scores := uniqueness w centers counts in
  let! table := foldM (fun t x => match nth_error scores (n_cluster x) with
                                  | Some row => Ok (insert key_eqb (node_key x) row t)
                                  | None => Panic OutOfBounds end) nodes (node_contribution s) in
  Ok {| node_contribution := table; query_response := query_response s; n_dims := match n_dims s with None => Some w | Some d => Some d end |}.

(** One message per segment with crossings, in the order of the segments, [Handler<ClusterCenterMessage>], 162-168; (nodes, centres, counts). *)
Definition record_all (w : nat) (ms : list (list node * list (list f32) * list nat)) : res contribution :=
  foldM (fun s '(nodes, centers, counts) => record_contributions w nodes centers counts s) ms new_contribution.

Section Sums.
(** [sum] of an array.  ndarray adds in an order that depends on the memory layout; here any function. *)
Variable fsum : list f32 -> f32.

(** [stack] and [mean_axis], 143-146; rows of different lengths or no rows abort. *)
Definition mean_rows (rows : list (list f32)) : res (list f32) :=
  match rows with
  | [] => Panic UnwrapNone
  | r :: _ => if forallb (fun x => length x =? length r) rows
              then Ok (map (fun d => f_div (fsum (column d rows)) (f_of_nat (length rows))) (seq 0 (length r)))
              else Panic UnwrapNone
  end.
(** [query_node_score], 124-155: the contribution appended to the response. *)
Definition window_contribution (s : contribution) (nodes : list node) : res (list f32) :=
  let! rows := mapM (fun x => unwrap (lookup key_eqb (node_key x) (node_contribution s))) nodes in
  match rows with
  | [] => let! d := unwrap (n_dims s) in Ok (repeat f_zero d)
  | _ => mean_rows (filter (fun r => negb (f_nan (fsum r))) rows)
  end.
(** [build_anomaly_contribution_score], scoring/mod.rs:110-132, and the answer, anomaly_contribution/mod.rs:178-190: one query per window, in order (one actor sends to one actor).
    The windows are those of the scores. *)
Definition contributions (s : contribution) (g : graph) : res (list (list f32)) :=
  let! n := score_length g in
  let! rows := mapM (fun i => let! es := window g i in window_contribution s (map fst es)) (seq 0 n) in
  match rows with [] => Panic UnwrapNone | _ => Ok rows end.

(** ** The table that is written, [Handler<QueryClusterContributionResponse>], scoring/mod.rs:337-387 *)
(** The loop 350-357: rows that sum up to zero are replaced by the last one before. *)
Fixpoint fill_rows (last : option (list f32)) (rows : list (list f32)) : res (list (list f32)) :=
  match rows with
  | [] => Ok []
  | r :: t =>
      if f_eq (fsum r) f_zero then
        match last with
        | None => Panic Explicit
        | Some l => let! t := fill_rows last t in Ok (l :: t)
        end
      else let! t := fill_rows (Some r) t in Ok (r :: t)
  end.
(** [approximate(8)], utils/float_approx.rs:15-20: 80 times the value without fraction. *)
Definition approximate (x : f32) : Z := Btrunc (f_mul x (f_of 80 0)).
(** [sort] with [Ord for FloatApprox], float_approx.rs:72-76; stable. *)
Fixpoint insert_approx (x : f32) (l : list f32) : list f32 :=
  match l with [] => [x] | y :: r => if (approximate x <? approximate y)%Z then x :: y :: r else y :: insert_approx x r end.
(** [sort], scoring/mod.rs:361-369: stable insertion. *)
Definition sort_approx (l : list f32) : list f32 := fold_left (fun acc x => insert_approx x acc) l [].
(** 361-369: the value in the middle of the sorted column; a value that cannot be approximated aborts, as soon as there is something to compare.
    Simplification: the position [len / 2] is computed in single precision in the code, which is exact up to 2^24 rows. *)
Definition middle (l : list f32) : res f32 :=
  if (1 <? length l) && negb (forallb f_hashable l) then Panic UnwrapNone
  else unwrap (nth_error (sort_approx l) (length l / 2)).
(** 359-371. *)
Definition subtract_middle (rows : list (list f32)) : res (list (list f32)) :=
  match rows with
  | [] => Panic UnwrapNone
  | r :: _ =>
      if forallb (fun x => length x =? length r) rows then
        let! columns := mapM (fun d => let! m := middle (column d rows) in Ok (map (fun x => f_sub x m) (column d rows))) (seq 0 (length r)) in
        Ok (rows_of (length rows) columns)
      else Panic UnwrapNone
  end.
(** 373-384: rows that sum up to zero are written as the row written before. *)
Fixpoint write_rows (last : option (list f32)) (rows : list (list f32)) : list (list f32) :=
  match rows with
  | [] => []
  | r :: t =>
      let ser := if f_eq (fsum r) f_zero then match last with Some l => l | None => r end else r in
      ser :: write_rows (Some ser) t
  end.
(** The rows of the file. *)
(** The rows of the file, scoring/mod.rs:337-387. *)
Definition contribution_file (rows : list (list f32)) : res (list (list f32)) :=
  let! filled := fill_rows None rows in
  let! centred := subtract_middle filled in
  Ok (write_rows None centred).
End Sums.
