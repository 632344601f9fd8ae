(** How an analysis is started: src/lib.rs:26-65, src/bin/s2gpp.rs, src/parameters.rs:6-25, and what the data manager does with its role,
    src/data_manager/mod.rs:161-182.
    Not modelled: the command line parser, logging, the name lookup of addresses; a file is given by its records (Reader/Model.v). *)
From Coq Require Import List Arith Reals Bool.
From Verif.Base Require Import Res Params.
From Verif.Topology Require Import Model.
From Verif.Reader Require Import Model.
From Verif.Manager Require Import Collect.
Import ListNotations.

Section Entry.
Context {addr path : Type}.

(** [Role], parameters.rs:6-25. *)
Inductive role := Main (data_path : option path) | Sub (mainhost : addr).
(** The parameters that decide how to start, parameters.rs:27-77: role, own address, size of the cluster, explainability. *)
Record settings := { own_role : role; own_host : addr; cluster_size : nat; explainability : bool }.

(** What is started: [training.fit(data)] (lib.rs:27-31); [Cluster::new] with a ClusterMemberListener (lib.rs:49-51); a StartTrainingMessage
    without peers and without data (lib.rs:52-59). *)
Inductive begun := Fits (data : list (list R)) | Joins (host : addr) (seeds : list addr) | StartsAlone.

(** lib.rs:43-46 *)
Definition seed_nodes (s : settings) : list addr := match own_role s with Sub mainhost => [mainhost] | Main _ => [] end.
(** [s2gpp_async], lib.rs:41-65. *)
Definition s2gpp_async (s : settings) : begun := if 1 <? cluster_size s then Joins (own_host s) (seed_nodes s) else StartsAlone.
(** [s2gpp], lib.rs:26-39. *)
Definition s2gpp (s : settings) (data : option (list (list R))) : begun := match data with Some d => Fits d | None => s2gpp_async s end.
(** [main] of the program, bin/s2gpp.rs:8-21. *)
Definition program (s : settings) : res begun := if explainability s && (1 <? cluster_size s) then Panic Explicit else Ok (s2gpp s None).

(** [if let Role::Main { data_path: Some(data_path) } = role], data_manager/mod.rs:172-176. *)
Definition reads_file (r : role) : bool := match r with Main (Some _) => true | _ => false end.
End Entry.
Arguments role : clear implicits.
Arguments settings : clear implicits.
Arguments begun : clear implicits.

Section Managers.
Context {addr path cell : Type}.
Variables (parse : cell -> option R) (fmax : R) (p : params) (roles : nat -> role addr path).
Variables (peers : nat -> cluster_nodes nat) (width : nat) (records : list (list cell)).

(** [Handler<LoadDataMessage>], data_manager/mod.rs:161-182, by the role of host [h]. *)
Definition on_load (h : nat) (s : host cell) : res (host cell * list (parcel (cell := cell))) :=
  if reads_file (roles h) then
    let! sent := read_csv p (peers h) (S (length records)) width records in
    Ok ({| table := peers h; buffered := buffered s; hdata := hdata s; mcalc := mcalc s; scalc := scalc s; minmax := minmax s; dev := dev s; preps := preps s |},
        map (fun ad => send h (fst ad) (DPart (snd ad))) sent)
  else
    let! overlap := usub (pattern_length p) 1 in
    Ok ({| table := peers h; buffered := []; hdata := hdata s; mcalc := mcalc s; scalc := scalc s; minmax := minmax s; dev := dev s; preps := preps s |},
        map (fun d => (true, h, DPart d)) (rev (buffered s))).
(** The handlers, data_manager/mod.rs:161-254. *)
Definition handle_as (h : nat) (s : host cell) (m : dmsg cell) : res (host cell * list (parcel (cell := cell))) :=
  match m with DLoad => on_load h s | _ => handle parse fmax p peers width records h s m end.

(** One step, as in Manager/Collect.v: a message arrives, or a host handles the first message of its mailbox (data_manager/mod.rs:161-254). *)
Inductive step_as : world cell -> world cell -> Prop :=
| arrives : forall w before h m after, parcels w = before ++ (false, h, m) :: after ->
    step_as w {| hosts := hosts w; parcels := before ++ after ++ [(true, h, m)] |}
| acts : forall w before h m after s' out, next_in_mailbox (parcels w) before h m after ->
    handle_as h (hosts w h) m = Ok (s', out) -> step_as w {| hosts := set_host (hosts w) h s'; parcels := before ++ after ++ out |}.
(** A host aborts on its next message (a panic in a handler of data_manager/mod.rs:161-254). *)
Definition aborts_as (w : world cell) : Prop :=
  exists before h m after q, next_in_mailbox (parcels w) before h m after /\ handle_as h (hosts w h) m = Panic q.
(** Sequences of [k] steps (data_manager/mod.rs:161-254). *)
Inductive runs_as : nat -> world cell -> world cell -> Prop :=
| runs_here : forall w, runs_as 0 w w
| runs_on : forall k w w' w'', runs_as k w w' -> step_as w' w'' -> runs_as (S k) w w''.

(** [StartsAlone]: the own training passes the message on to the own data manager, lib.rs:52-59, training/mod.rs:152-172. *)
Definition alone_start : world cell := {| hosts := fun _ => new_host; parcels := [(true, 0, DLoad)] |}.
End Managers.
