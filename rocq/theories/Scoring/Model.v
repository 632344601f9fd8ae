(** Scoring: src/training/scoring/{weights,helper,overlap,mod}.rs.
    Maps are keyed by what equality and hash of nodes and edges look at: segment and cluster (node/independent.rs:38-49, edge/mod.rs:37-49, edge/materialized.rs:7). *)
From Coq Require Import List Arith Bool.
From Verif.Base Require Import Res Assoc ListX.
From Verif.Edges Require Import Model.
From Verif.Protocol Require Import Model.
Import ListNotations.

(** What [Hash]/[Eq] of a node look at, node/independent.rs:38-49. *)
Definition node_key (x : node) : nat * nat := (n_segment x, n_cluster x).
(** What [Hash]/[Eq] of an edge look at, edge/mod.rs:37-49. *)
Definition edge_key (e : edge) : (nat * nat) * (nat * nat) := (node_key (fst e), node_key (snd e)).
(** [eq] of edges, edge/mod.rs:37-42. *)
Definition edge_key_eqb (a b : (nat * nat) * (nat * nat)) : bool := key_eqb (fst a) (fst b) && key_eqb (snd a) (snd b).
(** [HashMap<NodeRef, usize>], weights.rs:89. *)
Definition degree_map := list ((nat * nat) * nat).
(** [HashMap<MaterializedEdge, usize>], weights.rs:73. *)
Definition weight_map := list (((nat * nat) * (nat * nat)) * nat).

(** [match m.get_mut(k) { Some(x) => *x += d, None => m.insert(k, d) }], weights.rs:77-84, 95-111, 169-179, 201-210. *)
Definition bump {K} (eqb : K -> K -> bool) (k : K) (d : nat) (m : list (K * nat)) : list (K * nat) :=
  match lookup eqb k m with Some x => insert eqb k (x + d) m | None => insert eqb k d m end.
(** [calculate_edge_weight], weights.rs:73-87. *)
Definition edge_weight (edges : list edge) : weight_map :=
  fold_left (fun m e => bump edge_key_eqb (edge_key e) 1 m) edges [].
(** [calculate_node_degrees], weights.rs:89-116. *)
Definition degree_step (s : list ((nat * nat) * (nat * nat)) * degree_map) (e : edge) : list ((nat * nat) * (nat * nat)) * degree_map :=
  let '(seen, m) := s in
  if existsb (edge_key_eqb (edge_key e)) seen then (seen, m)
  else (edge_key e :: seen, bump key_eqb (node_key (snd e)) 1 (bump key_eqb (node_key (fst e)) 1 m)).
(** [calculate_node_degrees], weights.rs:89-116. *)
Definition node_degrees (edges : list edge) : degree_map := snd (fold_left degree_step edges ([], [])).
(** The merging loop of [Handler<NodeDegrees>] and [Handler<EdgeWeights>], weights.rs:169-179, 201-210. *)
Definition merge {K} (eqb : K -> K -> bool) (m received : list (K * nat)) : list (K * nat) :=
  fold_left (fun m '(k, d) => bump eqb k d m) received m.

(** The map of a host after both rings: the own map, then the received ones in the order in which they were taken in ([taken] of Protocol/Ring.v). *)
(** The maps of the other hosts merged in the order of arrival, weights.rs:161-222. *)
Definition ring_map {K} (eqb : K -> K -> bool) (own : list (K * nat)) (taken : list (nat * list (K * nat))) : list (K * nat) :=
  fold_left (merge eqb) (map snd taken) own.

(** ** Time index *)
(** [while edges_in_time.len() < n { push(v) }] *)
(** [while len < n { push(v) }], weights.rs:45-47, 66-68. *)
Definition pad (n v : nat) (l : list nat) : list nat := l ++ repeat v (n - length l).
(** The loop body, weights.rs:38-54; state: index, last id, last length; [i]: position of an edge with time stamp [id]. *)
Definition index_step (start : nat) (s : list nat * option nat * nat) (x : nat * nat) : res (list nat * option nat * nat) :=
  let '(index, last_id, last_len) := s in
  let '(i, id) := x in
  match last_id with
  | None => Ok (index, Some id, last_len)
  | Some l =>
      if id =? l then Ok s
      else let! gap := usub l start in Ok (pad gap last_len index ++ [i], Some id, i)
  end.
(** [count_edges_in_time], weights.rs:22-71; [last]: own index = number of other hosts, that is the last host or a single machine; 0 is the pseudo edge. *)
Definition count_edges_in_time (start : nat) (edges : list edge) (num_rotated : nat) (last : bool) : res (list nat) :=
  let ids := map to_id edges ++ [0] in
  let! (index, _, last_len) := foldM (index_step start) (combine (seq 0 (length ids)) ids) ([], None, 0) in
  let! n := usub num_rotated (if last then 1 else 0) in
  Ok (pad n last_len index).

(** ** One window *)
(** [v[i]], scoring/helper.rs:50-54: out of range aborts. *)
Definition get {A} (l : list A) (i : nat) : res A := match nth_error l i with Some x => Ok x | None => Panic OutOfBounds end.
(** [l[a..b]]. *)
(** [v[a..b]], scoring/helper.rs:55-58: out of range or reversed aborts. *)
Definition get_slice {A} (l : list A) (a b : nat) : res (list A) := if (a <=? b) && (b <=? length l) then Ok (slice a b l) else Panic OutOfBounds.

(** What a scoring helper knows, helper.rs:10-17. *)
Record graph := { g_edges : list edge; g_index : list nat; g_weight : weight_map; g_degree : degree_map; g_query : nat }.
(** The edges of window [i], helper.rs:50-54. *)
Definition window (g : graph) (i : nat) : res (list edge) :=
  let! from := get (g_index g) i in
  let! j := usub (i + g_query g) 1 in
  let! to := get (g_index g) j in
  get_slice (g_edges g) from (Nat.min (to + 1) (length (g_edges g))).
(** [weight * (degree - 1)], helper.rs:24-33. *)
Definition summand (g : graph) (e : edge) : res nat :=
  let! w := unwrap (lookup edge_key_eqb (edge_key e) (g_weight g)) in
  let! d := unwrap (lookup key_eqb (node_key (fst e)) (g_degree g)) in
  let! d := usub d 1 in
  Ok (w * d).
(** The summands of a window, scoring/helper.rs:20-35. *)
Definition summands (g : graph) (i : nat) : res (list nat) := let! es := window g i in mapM (summand g) es.

(** What the helpers of a single machine know: init_scoring, mod.rs:68-79; the degrees are computed before (training/mod.rs: EdgeEstimationDone). *)
Definition single_graph (edges : list edge) (num_rotated q : nat) : res graph :=
  let! index := count_edges_in_time 0 edges num_rotated true in
  Ok {| g_edges := edges; g_index := index; g_weight := edge_weight edges; g_degree := node_degrees edges; g_query := q |}.

(** ** Scores *)
(** [F]: single precision numbers; [zero]: [0.0]; [is_zero x]: [x == 0.0]; [value]: the negated average [-(sum / (0.00000001 + len))] of a
    non-empty list of summands, helper.rs:20-35, 55-66.  The floating point operations stay abstract here. *)
Section Scores.
Context {F : Type} (zero : F) (is_zero : F -> bool) (value : list nat -> F).

(** [ScoringHelperResponse], scoring/helper.rs:68-73. *)
Record response := { r_start : nat; r_scores : list F; r_first_empty : bool }.
(** The loop body of [Handler<ScoringHelperInstruction>], helper.rs:49-67. *)
Definition score_step (g : graph) (s : list F * bool) (i : nat) : res (list F * bool) :=
  let '(scores, first_empty) := s in
  let! xs := summands g i in
  match xs with
  | [] => match nth_error scores (length scores - 1) with
          | Some last => Ok (scores ++ [last], first_empty)
          | None => Ok (scores ++ [zero], true)
          end
  | _ => Ok (scores ++ [value xs], first_empty)
  end.
(** [Handler<ScoringHelperInstruction>], helper.rs:42-75. *)
Definition respond (g : graph) (instruction : nat * nat) : res response :=
  let '(start, len) := instruction in
  let! (scores, first_empty) := foldM (score_step g) (seq start len) ([], false) in
  Ok {| r_start := start; r_scores := scores; r_first_empty := first_empty |}.

(** [score], mod.rs:81-86: the number of windows. *)
Definition score_length (g : graph) : res nat :=
  let! q := usub (g_query g) 1 in
  if length (g_index g) <? q then Panic Explicit else Ok (length (g_index g) - q).
(** [parallel_score], mod.rs:134-156: the instructions (start, length). *)
Definition instructions (threads len : nat) : res (list (nat * nat)) :=
  let! per_thread := udiv len threads in
  let! rest := umod len threads in
  Ok (map (fun i => (i * per_thread, per_thread + if i =? threads - 1 then rest else 0)) (seq 0 threads)).

(** [fill_up_first_missing_points], mod.rs:296-311; [initial] is carried along. *)
Fixpoint fill_up (initial : F) (scores : list F) : list F :=
  match scores with
  | [] => []
  | x :: r => let y := if is_zero x then initial else x in y :: fill_up y r
  end.

(** The part of the training actor that collects the responses, mod.rs:36-54; [delivered]: the vectors passed on by [finalize_parallel_score] so far. *)
Record collector := { c_pool : helper; c_scores : list F; c_first_empty : bool; c_buffer : list (nat * response); c_delivered : list (list F * bool) }.
(** [helper_protocol.n_total = n_threads], then one [sent()] per instruction. *)
(** [Scoring::default()], scoring/mod.rs:36-54. *)
Definition new_collector (threads : nat) : collector :=
  {| c_pool := Nat.iter threads h_sent_one {| h_total := threads; h_sent := 0; h_received := 0 |};
     c_scores := []; c_first_empty := false; c_buffer := []; c_delivered := [] |}.
(** [last()] of the previous response, scoring/mod.rs:258-294. *)
Definition last_of (l : list F) : option F := nth_error l (length l - 1).
(** [Handler<ScoringHelperResponse>], mod.rs:258-294: new state and the response sent to itself, if any. *)
Definition collect (r : response) (c : collector) : res (collector * list response) :=
  if negb (r_start r =? length (c_scores c)) then
    Ok ({| c_pool := c_pool c; c_scores := c_scores c; c_first_empty := c_first_empty c;
           c_buffer := insert Nat.eqb (r_start r) r (c_buffer c); c_delivered := c_delivered c |}, [])
  else
    let! pool := h_received_one (c_pool c) in
    let '(scores, first_empty) :=
      if r_first_empty r then
        match last_of (c_scores c) with
        | Some l => (fill_up l (r_scores r), c_first_empty c)
        | None => (r_scores r, true)
        end
      else (r_scores r, c_first_empty c) in
    let all := c_scores c ++ scores in
    if negb (h_running pool) then
      Ok ({| c_pool := pool; c_scores := []; c_first_empty := first_empty; c_buffer := c_buffer c; c_delivered := c_delivered c ++ [(all, first_empty)] |}, [])
    else
      match lookup Nat.eqb (length all) (c_buffer c) with
      | None => Ok ({| c_pool := pool; c_scores := all; c_first_empty := first_empty; c_buffer := c_buffer c; c_delivered := c_delivered c |}, [])
      | Some b => Ok ({| c_pool := pool; c_scores := all; c_first_empty := first_empty;
                         c_buffer := remove_key Nat.eqb (length all) (c_buffer c); c_delivered := c_delivered c |}, [b])
      end.

(** The responses of the helpers arrive in any order; a re-sent response joins those under way. *)
(** The collector and the responses under way (actix; no code), scoring/mod.rs:258-294. *)
Record scoring_world := { collecting : collector; flying : list response }.
(** Delivery (no code): any response under way is handled, scoring/mod.rs:258-294. *)
Inductive scoring_step : scoring_world -> scoring_world -> Prop :=
| handles : forall w l r rest c again, flying w = l ++ r :: rest -> collect r (collecting w) = Ok (c, again) ->
    scoring_step w {| collecting := c; flying := l ++ rest ++ again |}.
(** A schedule of deliveries, scoring/mod.rs:258-294. *)
Inductive scoring_run (w0 : scoring_world) : scoring_world -> Prop :=
| run_start : scoring_run w0 w0
| run_step : forall w w', scoring_run w0 w -> scoring_step w w' -> scoring_run w0 w'.
(** [score], mod.rs:81-108: all instructions are handed to the helpers, all of them answer. *)
Definition start_scoring (g : graph) (threads : nat) : res scoring_world :=
  let! len := score_length g in
  let! is := instructions threads len in
  let! rs := mapM (respond g) is in
  Ok {| collecting := new_collector threads; flying := rs |}.

(** [subscores] of host [p] when the ring of partial scores is over, mod.rs:163-182, 313-335: its own part, then what it took in. *)
Definition subscores (p : nat) (own : list F * bool) (taken : list (nat * (list F * bool))) : list (nat * (list F * bool)) :=
  fold_left (fun m '(k, v) => insert Nat.eqb k v m) taken [(p, own)].
(** [subscores.remove(&id).expect(…)] for all hosts in order, mod.rs:202-207. *)
Definition in_order (N : nat) (m : list (nat * (list F * bool))) : res (list (list F * bool)) :=
  mapM (fun k => unwrap (lookup Nat.eqb k m)) (seq 0 N).

(** [finalize_scoring], mod.rs:199-228, before normalization: [parts], the vectors of all hosts in the order of the hosts. *)
Definition assemble_step (scores : list (list F)) (part : list F * bool) : res (list (list F)) :=
  let '(sub, first_empty) := part in
  if first_empty then
    let! previous := unwrap (nth_error scores (length scores - 1)) in
    let! i := usub (length previous) 1 in
    let! l := get previous i in
    Ok (scores ++ [fill_up l sub])
  else Ok (scores ++ [sub]).
(** [finalize_scoring], scoring/mod.rs:199-228. *)
Definition assemble (parts : list (list F * bool)) : res (list F) :=
  let! scores := foldM assemble_step parts [] in Ok (concat scores).
End Scores.
Arguments response F : clear implicits.
Arguments collector F : clear implicits.
Arguments scoring_world F : clear implicits.

(** ** Overlap between hosts, overlap.rs *)
(** [send_overlap_to_neighbor], overlap.rs:13-34: edges and index entries sent to the previous host. *)
Definition overlap_of (q : nat) (h : list edge * list nat) : res (list edge * list nat) :=
  let '(edges, index) := h in
  let! q1 := usub q 1 in
  let! to := get index q1 in
  let! es := get_slice edges 0 to in
  let! is := get_slice index 0 q1 in
  Ok (es, is).
(** [Handler<OverlapRotation>], overlap.rs:45-52. *)
Definition add_overlap (h received : list edge * list nat) : res (list edge * list nat) :=
  let '(edges, index) := h in
  let! last := unwrap (nth_error index (length index - 1)) in
  Ok (edges ++ fst received, index ++ map (fun x => x + last) (snd received)).
