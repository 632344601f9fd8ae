(** The actors of the clustering of one segment and their messages: MultiKDEActor (actors/mod.rs), GaussianKDEActor (actors/gaussian_kde.rs) and its pool of
    EstimatorHelper (actors/helper.rs).  Messages under way are delivered in any order. *)
From Coq Require Import List Arith Bool.
From Verif.Base Require Import Res Assoc ListX.
From Verif.Protocol Require Import Model Pool.
From Verif.Kde Require Import Model.
Import ListNotations.

Section System.
Context {A D : Type} (gt : A -> A -> bool) (cmp : D -> D -> option comparison) (dist : A -> A -> D) (eqb : A -> A -> bool) (hashable : A -> bool) (zero : A)
  (add : A -> A -> A) (grid : list A -> res (list A)) (order : nat).
(** The responses of the helpers for a column, in the order of the tasks (gaussian_kde.rs:44-96); aborts with the preparations of the estimate. *)
Context (parts : list A -> res (list (list A))).

(** GaussianKDEMessage, EstimatorResponse, GaussianKDEResponse, actors/messages.rs.  A response that a helper will send counts as under way: helpers share nothing. *)
(** The messages of the three actors: EstimatorResponse (gaussian_kde.rs:148), GaussianKDEMessage (139), GaussianKDEResponse (actors/mod.rs:110); the poison pills are left out. *)
Inductive message := Column (c : list A) | Part (r : list A) | Density (e : list A).
(** [data]: the columns, [next_dim], [current], [centers]: MultiKDEActor (actors/mod.rs:20-29); [pool_], [sum]: GaussianKDEActor (gaussian_kde.rs:13-21); [mail]: messages
    under way; [result]: the ClusteringResponse that was sent. *)
Record system := { data : list (list A); next_dim : nat; current : option (list A); centers : list (list A); pool_ : helper; sum : option (list A);
  mail : list message; result : option (list nat * list (list A)) }.

(** [cluster_next_dim], actors/mod.rs:45-71. *)
Definition cluster_next_dim (s : system) : res system :=
  match nth_error (data s) (next_dim s) with
  | Some c => Ok {| data := data s; next_dim := S (next_dim s); current := Some c; centers := centers s; pool_ := pool_ s; sum := sum s; mail := mail s ++ [Column c]; result := result s |}
  | None =>
      let! r := finish eqb hashable (centers s) in
      Ok {| data := data s; next_dim := next_dim s; current := current s; centers := []; pool_ := pool_ s; sum := sum s; mail := mail s; result := Some r |}
  end.
(** [Handler<GaussianKDEMessage>], gaussian_kde.rs:139-146 with 37-96. *)
Definition on_column (s : system) (c : list A) : res system :=
  let! ps := parts c in
  Ok {| data := data s; next_dim := next_dim s; current := current s; centers := centers s; pool_ := pool (@dispatch unit (length ps)); sum := None;
        mail := mail s ++ map Part ps; result := result s |}.
(** [Handler<EstimatorResponse>], gaussian_kde.rs:148-173. *)
Definition on_part (s : system) (r : list A) : res system :=
  let! h := h_received_one (pool_ s) in
  let! e := add_response add (sum s) r in
  if h_running h
  then Ok {| data := data s; next_dim := next_dim s; current := current s; centers := centers s; pool_ := h; sum := e; mail := mail s; result := result s |}
  else let! e := unwrap e in
       Ok {| data := data s; next_dim := next_dim s; current := current s; centers := centers s; pool_ := h; sum := None; mail := mail s ++ [Density e]; result := result s |}.
(** [Handler<GaussianKDEResponse>], actors/mod.rs:110-116 with 73-92. *)
Definition on_density (s : system) (e : list A) : res system :=
  let! column := unwrap (current s) in
  let! c := column_centers gt cmp dist zero grid order column e in
  cluster_next_dim {| data := data s; next_dim := next_dim s; current := current s; centers := centers s ++ [c]; pool_ := pool_ s; sum := sum s; mail := mail s; result := result s |}.

(** The handlers, gaussian_kde.rs:139-173, actors/mod.rs:110-116. *)
Definition handle (s : system) (m : message) : res system :=
  match m with Column c => on_column s c | Part r => on_part s r | Density e => on_density s e end.
(** The [i]-th message under way is delivered; a choice that is not possible changes nothing. *)
(** Delivery (actix, no code): any message under way is handled next; an answer of the pool may be given at any time (actors/helper.rs:93-101). *)
Definition deliver (s : system) (i : nat) : res system :=
  match nth_error (mail s) i with
  | None => Ok s
  | Some m => handle {| data := data s; next_dim := next_dim s; current := current s; centers := centers s; pool_ := pool_ s; sum := sum s;
                        mail := firstn i (mail s) ++ skipn (S i) (mail s); result := result s |} m
  end.
(** [Handler<MultiKDEMessage>], actors/mod.rs:99-108. *)
Definition begin (columns : list (list A)) : res system :=
  cluster_next_dim {| data := columns; next_dim := 0; current := None; centers := []; pool_ := new_helper; sum := None; mail := []; result := None |}.
(** A schedule of deliveries from [Handler<MultiKDEMessage>], actors/mod.rs:99-108. *)
Definition run (columns : list (list A)) (schedule : list nat) : res system := let! s := begin columns in foldM deliver schedule s.

(** The same without messages: one column after the other, the answers of the helpers added in the order of the tasks. *)
(** Reference: the answers of the threads added in the order of the tasks, gaussian_kde.rs:81-96, 153-158. *)
Definition sequential_density (c : list A) : res (list A) :=
  let! ps := parts c in
  let! e := foldM (add_response add) ps None in
  unwrap e.
(** Reference: the columns one after the other, actors/mod.rs:45-93. *)
Definition sequential (columns : list (list A)) : res (list nat * list (list A)) :=
  let! cs := mapM (fun c => let! e := sequential_density c in column_centers gt cmp dist zero grid order c e) columns in
  finish eqb hashable cs.
End System.
