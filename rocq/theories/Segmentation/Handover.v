(** The hand-over of first points between neighbouring partitions, without self-correction:
    segmentation/mod.rs:83-110 ([segment], [distribute_or_wait_for_segments]), 245-269 ([try_send_inter_node_points]), 385-455 (first-point handler).
    Hosts are numbered 0..N-1, N >= 2; host [k] holds the points [part k].  The distribution that follows is the exchange of Protocol/Exchange.v. *)
From Coq Require Import List Arith Bool.
From Verif.Base Require Import Res Params.
From Verif.Segmentation Require Import Model.
From Verif.Protocol Require Import Exchange.
Import ListNotations.

(** Where a host is: before [segment], waiting, distributing; segmentation/mod.rs:83-110, 385-455. *)
Inductive phase :=
| Before                                            (** has not segmented its points yet *)
| Waiting (g : segmentation) (foreign : for_nodes)  (** waits for the first point of the next partition *)
| Distributing (g : segmentation) (foreign : for_nodes)
| Dead (why : panic).

(** [self.segmentation], segmentation/mod.rs:24-38. *)
Definition segmentation_of (f : phase) : segmentation := match f with Waiting g _ | Distributing g _ => g | _ => new_segmentation end.
(** [transitions_for_nodes] passed on, segmentation/mod.rs:97-110. *)
Definition foreign_of (f : phase) : for_nodes := match f with Waiting _ m | Distributing _ m => m | _ => [] end.

(** [get_previous_idx] of host [k] (see C02). *)
(** [get_previous_idx], utils/mod.rs:74-76, on a complete table. *)
Definition previous (n k : nat) : nat := (k + (n - 1)) mod n.

(** All hosts and the messages under way (telepathy; no code). *)
Record hworld := { phase_of : nat -> phase; first_points : list (nat * (pt * transition)) (** in flight: receiver, content *) }.

(** [segment], 83-110 with 245-269. *)
Definition segments (p : params) (k : nat) (points : list pt) : phase * list (nat * (pt * transition)) :=
  match build_segments p k points new_segmentation with
  | Panic e => (Dead e, [])
  | Ok (g, foreign) =>
      let sent := match send_point g, send_transition g with Some a, Some t => [(previous (n_cluster_nodes p) k, (a, t))] | _, _ => [] end in
      let g' := {| transitions := transitions g; asked := asked g; send_point := None; send_transition := None; last_point := last_point g;
                   last_transition := last_transition g; invalid_directions := invalid_directions g |} in
      (if k =? n_cluster_nodes p - 1 then Distributing g' foreign else Waiting g' foreign, sent)
  end.

(** [Handler<SendFirstPointMessage>], 385-455: without a check whether the host has segmented its points. *)
Definition hands_over (p : params) (k : nat) (a : pt) (t : transition) (f : phase) : phase :=
  match f with
  | Dead e => Dead e
  | _ => match first_point p k a t (segmentation_of f) (foreign_of f) with Ok (g, foreign) => Distributing g foreign | Panic e => Dead e end
  end.

(** One step; [early]: may a first point be delivered to a host that has not segmented its points yet? *)
(** Delivery (no code): a host segments its points (segmentation/mod.rs:83-110) or a first point arrives (385-455). *)
Inductive hstep (p : params) (part : nat -> list pt) (early : bool) : hworld -> hworld -> Prop :=
| segment_step : forall w k, k < n_cluster_nodes p -> phase_of w k = Before ->
    hstep p part early w {| phase_of := set (phase_of w) k (fst (segments p k (part k))); first_points := first_points w ++ snd (segments p k (part k)) |}
| first_point_step : forall w k a t l r, first_points w = l ++ (k, (a, t)) :: r -> early = true \/ phase_of w k <> Before ->
    hstep p part early w {| phase_of := set (phase_of w) k (hands_over p k a t (phase_of w k)); first_points := l ++ r |}.

(** Before [segment], segmentation/mod.rs:83. *)
Definition hinitial : hworld := {| phase_of := fun _ => Before; first_points := [] |}.
(** All executions (specification; segmentation/mod.rs:83-110, 385-455). *)
Inductive hreachable (p : params) (part : nat -> list pt) (early : bool) : hworld -> Prop :=
| h_start : hreachable p part early hinitial
| h_after : forall w w', hreachable p part early w -> hstep p part early w w' -> hreachable p part early w'.
(** No step is possible (specification; segmentation/mod.rs:83-110, 385-455). *)
Definition hstuck (p : params) (part : nat -> list pt) (early : bool) (w : hworld) : Prop := forall w', ~ hstep p part early w w'.
