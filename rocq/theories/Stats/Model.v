(** Distributed column statistics: src/data_manager/stats_collector/{minmax,std}.rs.
    Numbers are reals.  For minimum and maximum this is exact on finite floats (no arithmetic takes place); for the standard
    deviation it idealises away rounding.  A matrix is its list of rows (C09 gives rows of equal width). *)
From Coq Require Import List Arith Reals Bool.
From Verif.Base Require Import Res Params.
From Verif.Topology Require Import Model.
Import ListNotations.
Local Open Scope R_scope.

(** Elementwise combination of two vectors; used for [zip] (minmax.rs:57-68) and for ndarray arithmetic on vectors of equal
    length (std.rs:76-84). *)
Fixpoint map2 {A B C} (f : A -> B -> C) (l : list A) (m : list B) : list C :=
  match l, m with
  | a :: l', b :: m' => f a b :: map2 f l' m'
  | _, _ => []
  end.

(** Column [j] of a matrix ([index_axis(Axis(1), j)], ndarray_extensions/mod.rs:100). *)
Definition column {A} (j : nat) (m : list (list A)) : list A :=
  flat_map (fun r => match nth_error r j with Some x => [x] | None => [] end) m.

(** [min_axis] / [max_axis] for [Axis(0)], src/utils/ndarray_extensions/mod.rs:92-131.  [fmax] is the largest finite float,
    [A::max_value()], and [- fmax] is [A::min_value()]; [w] is the number of columns. *)
Definition min_axis (fmax : R) (w : nat) (m : list (list R)) : list R :=
  map (fun j => fold_left (fun smallest v => if Rgt_dec smallest v then v else smallest) (column j m) fmax) (seq 0 w).
(** [max_axis], ndarray_extensions/mod.rs:113-131. *)
Definition max_axis (fmax : R) (w : nat) (m : list (list R)) : list R :=
  map (fun j => fold_left (fun largest v => if Rlt_dec largest v then v else largest) (column j m) (- fmax)) (seq 0 w).

Section Collect.
Context {source : Type}.

(** [MinMaxNodeMessage], stats_collector/messages.rs:29-35. *)
Record minmax_msg := { mm_min : list R; mm_max : list R; mm_source : source }.

(** [calculate_minmax], minmax.rs:28-45: the message sent to the main node. *)
Definition calculate_minmax (fmax : R) (w : nat) (data : list (list R)) (src : source) : minmax_msg :=
  {| mm_min := min_axis fmax w data; mm_max := max_axis fmax w data; mm_source := src |}.

(** [MinMaxCalculation], minmax.rs:9-13. *)
Record minmax_calc := { mc_nodes : list source; mc_min : option (list R); mc_max : option (list R) }.

(** Initial value, src/data_manager/mod.rs:90-94. *)
Definition minmax_init : minmax_calc := {| mc_nodes := []; mc_min := None; mc_max := None |}.

(** [Handler<MinMaxNodeMessage>], minmax.rs:48-104.  Outputs: the [MinMaxDoneMessage]s with their receivers.  The choice
    between remote and local address (84-87) is not modelled: a receiver is identified by the source it registered. *)
Definition handle_minmax (n_nodes : nat) (st : option minmax_calc) (msg : minmax_msg)
  : res (option minmax_calc * list (source * (list R * list R))) :=
  match st with
  | None => Panic UnwrapNone
  | Some c =>
      let nodes := mc_nodes c ++ [mm_source msg] in
      let c' := match mc_min c, mc_max c with
                | Some mn, Some mx => {| mc_nodes := nodes; mc_min := Some (map2 Rmin (mm_min msg) mn);
                                         mc_max := Some (map2 Rmax (mm_max msg) mx) |}
                | _, _ => {| mc_nodes := nodes; mc_min := Some (mm_min msg); mc_max := Some (mm_max msg) |}
                end in
      if (length nodes =? n_nodes)%nat then
        let! mn := unwrap (mc_min c') in
        let! mx := unwrap (mc_max c') in
        Ok (Some c', map (fun s => (s, (mn, mx))) nodes)
      else Ok (Some c', [])
  end.

(** [StdNodeMessage], messages.rs:14-21. *)
Record std_msg := { sm_n : nat; sm_mean : list R; sm_m2 : list R; sm_source : source }.

(** [mean_axis(Axis(0)).unwrap()] on a matrix with [w] columns. *)
(** [mean_axis(Axis(0))], std.rs:29-64. *)
Definition mean_axis (w : nat) (m : list (list R)) : res (list R) :=
  if (length m =? 0)%nat then Panic UnwrapNone
  else Ok (map (fun j => fold_left Rplus (column j m) 0 / INR (length m)) (seq 0 w)).

(** [calculate_std], std.rs:29-64. *)
Definition calculate_std {addr} (p : params) (c : cluster_nodes addr) (w : nat) (data : list (list R)) (src : source)
  : res std_msg :=
  let! own := get_own_idx c in
  let is_last_node := (own =? length c)%nat in
  let! cutoff := (if is_last_node then Ok 0%nat else usub (pattern_length p) 1) in
  let! end_slice := usub (length data) cutoff in
  let data := firstn end_slice data in
  let n := length data in
  let! mean := mean_axis w data in
  let delta := map (fun r => map2 Rminus r mean) data in
  let m2 := map (fun j => fold_left Rplus (map (fun d => d * (d / INR n) * INR n) (column j delta)) 0) (seq 0 w) in
  Ok {| sm_n := n; sm_mean := mean; sm_m2 := m2; sm_source := src |}.

(** [StdCalculation], std.rs:8-13; initial value src/data_manager/mod.rs:95-100. *)
Record std_calc := { sc_nodes : list source; sc_n : option nat; sc_mean : option (list R); sc_m2 : option (list R) }.
(** Initial value, data_manager/mod.rs:95-100. *)
Definition std_init : std_calc := {| sc_nodes := []; sc_n := None; sc_mean := None; sc_m2 := None |}.

(** 77-82 and 99-101: [msg.m2 + m2 + delta * delta * ((n + msg.n) as f32 / global_n as f32)]. *)
Definition merge_m2 (n : nat) (mean m2 : list R) (msg : std_msg) : list R :=
  let global_n := (n + sm_n msg)%nat in
  let delta := map2 Rminus (sm_mean msg) mean in
  map2 Rplus (map2 Rplus (sm_m2 msg) m2) (map (fun d => d * d * (INR (n + sm_n msg) / INR global_n)) delta).

(** 84-85: [(mean * n + msg.mean * msg.n) / global_n]. *)
Definition merge_mean (n : nat) (mean : list R) (msg : std_msg) : list R :=
  map (fun x => x / INR (n + sm_n msg)) (map2 (fun a b => a * INR n + b * INR (sm_n msg)) mean (sm_mean msg)).

(** 103-106 and 110-113. *)
Definition std_of (n : nat) (m2 : list R) : res (list R) :=
  let! d := usub n 1 in
  if (d =? 0)%nat then Panic DivByZero   (* simplification: 0/0 would be NaN *)
  else Ok (map (fun x => sqrt (x / INR d)) m2).

(** [Handler<StdNodeMessage>], std.rs:67-129. *)
Definition handle_std (n_nodes : nat) (st : option std_calc) (msg : std_msg)
  : res (option std_calc * list (source * (list R * nat))) :=
  match st with
  | None => Panic UnwrapNone
  | Some c =>
      let nodes := sc_nodes c ++ [sm_source msg] in
      if (length nodes <? n_nodes)%nat then
        match sc_n c, sc_mean c, sc_m2 c with
        | Some n, Some mean, Some m2 =>
            Ok (Some {| sc_nodes := nodes; sc_n := Some (n + sm_n msg)%nat;
                        sc_mean := Some (merge_mean n mean msg); sc_m2 := Some (merge_m2 n mean m2 msg) |}, [])
        | _, _, _ => Ok (Some {| sc_nodes := nodes; sc_n := Some (sm_n msg); sc_mean := Some (sm_mean msg);
                                 sc_m2 := Some (sm_m2 msg) |}, [])
        end
      else
        match sc_n c, sc_mean c, sc_m2 c with
        | Some n, Some mean, Some m2 =>
            let global_n := (n + sm_n msg)%nat in
            let! std := std_of global_n (merge_m2 n mean m2 msg) in
            Ok (Some {| sc_nodes := nodes; sc_n := Some global_n; sc_mean := Some mean; sc_m2 := Some m2 |},
                map (fun s => (s, (std, global_n))) nodes)
        | _, _, _ =>
            let! std := std_of (sm_n msg) (sm_m2 msg) in
            Ok (Some {| sc_nodes := nodes; sc_n := Some (sm_n msg); sc_mean := Some (sm_mean msg);
                        sc_m2 := Some (sm_m2 msg) |}, map (fun s => (s, (std, sm_n msg))) nodes)
        end
  end.

(** The main node handling a sequence of messages, collecting everything it sends. *)
(** The messages in the order of arrival (actix), minmax.rs:48-104, std.rs:67-129. *)
Fixpoint collect {S M O} (handle : option S -> M -> res (option S * list O)) (st : option S) (msgs : list M)
  : res (option S * list O) :=
  match msgs with
  | [] => Ok (st, [])
  | m :: t => let! r := handle st m in
              let! q := collect handle (fst r) t in
              Ok (fst q, snd r ++ snd q)
  end.
End Collect.
Arguments minmax_msg : clear implicits.
Arguments minmax_calc : clear implicits.
Arguments std_msg : clear implicits.
Arguments std_calc : clear implicits.
