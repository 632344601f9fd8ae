(** The data managers of all hosts from the start of the training to the start of the preprocessing, with the data they handle:
    src/data_manager/mod.rs:82-254 with data_reader/mod.rs and stats_collector/{minmax,std,mod}.rs.
    Simplifications: numbers are reals (Stats/Model.v); a host is addressed by its cluster index; the main host has index 0 and
    is the one with a file (C04); the file has one line per record and a header line. *)
From Coq Require Import List Arith Reals Bool.
From Verif.Base Require Import Res Params.
From Verif.Topology Require Import Model.
From Verif.Reader Require Import Model.
From Verif.Stats Require Import Model.
Import ListNotations.

Section Collect.
Context {cell : Type}.

(** The messages of the data manager until preprocessing: LoadDataMessage, DataPartitionMessage, LocalReadDataMessage,
    MinMaxNodeMessage, StdNodeMessage, MinMaxDoneMessage, StdDoneMessage (data_manager/mod.rs:161-254, minmax.rs:48, std.rs:67). *)
Inductive dmsg :=
| DLoad
| DPart (d : list (list cell))
| DLocal (d : list (list R))
| DMinMax (m : minmax_msg nat)
| DStd (m : std_msg nat)
| DMinMaxDone (mn mx : list R)
| DStdDone (std : list R) (n : nat).

(** [DataManager], data_manager/mod.rs:41-56: peer table, buffered partitions, data, the two collections, the published
    statistics; [preps] counts how often preprocessing was started. *)
Record host := mkHost {
  table : cluster_nodes nat;
  buffered : list (list (list cell));
  hdata : option (list (list R));
  mcalc : option (minmax_calc nat);
  scalc : option (std_calc nat);
  minmax : option (list R * list R);
  dev : option (list R * nat);
  preps : nat
}.

(** [new], data_manager/mod.rs:59-80. *)
Definition new_host : host :=
  {| table := []; buffered := []; hdata := None; mcalc := None; scalc := None; minmax := None; dev := None; preps := 0 |}.

(** A message under way: whether it has reached the mailbox of the receiver, the receiver, the message. *)
Definition parcel : Type := (bool * nat * dmsg)%type.

(** [do_send] of host [h] to a local or remote address (actix, actix-telepathy; used in data_reader/mod.rs:70-96). *)
Definition send (h : nat) (a : any_addr nat) (m : dmsg) : parcel :=
  match a with Local => (true, h, m) | Remote j => (false, j, m) end.

(** [match self.cluster_nodes.get_main_node()], minmax.rs:32-39, std.rs:48-55. *)
Definition main_of (c : cluster_nodes nat) : any_addr nat := match get c 0 with None => Local | Some a => Remote a end.

(** The answer to a registered source, minmax.rs:79-87, std.rs:116-121: the own address or a remote one. *)
Definition answer (h s : nat) (m : dmsg) : parcel := if s =? h then (true, h, m) else (false, s, m).

(** [ncols] of the matrix; simplification: that of the first row. *)
Definition columns (d : list (list R)) : nat := match d with [] => 0 | r :: _ => length r end.

Variables (parse : cell -> option R) (fmax : R) (p : params).

(** [calculate_datastats], data_manager/mod.rs:89-104. *)
Definition datastats (h : nat) (s : host) (d : list (list R)) : res (host * list parcel) :=
  let! sm := calculate_std p (table s) (columns d) d h in
  Ok ({| table := table s; buffered := buffered s; hdata := Some d; mcalc := Some minmax_init; scalc := Some std_init;
         minmax := minmax s; dev := dev s; preps := preps s |},
      [send h (main_of (table s)) (DMinMax (calculate_minmax fmax (columns d) d h)); send h (main_of (table s)) (DStd sm)]).

(** [datastats_finished] and [preprocess], data_manager/mod.rs:106-126; [is_done], stats_collector/mod.rs:30-35. *)
Definition finished (s : host) : res (host * list parcel) :=
  match minmax s, dev s with
  | Some _, Some _ =>
      match hdata s with
      | Some _ => Ok ({| table := table s; buffered := buffered s; hdata := hdata s; mcalc := mcalc s; scalc := scalc s;
                         minmax := minmax s; dev := dev s; preps := preps s + 1 |}, [])
      | None => Panic Explicit
      end
  | _, _ => Ok (s, [])
  end.

Variables (peers : nat -> cluster_nodes nat) (width : nat) (records : list (list cell)).

(** The handlers, data_manager/mod.rs:161-254, minmax.rs:48-104, std.rs:67-129.  [peers h]: the table in the LoadDataMessage of
    host [h]; [records]: the file of host 0. *)
Definition handle (h : nat) (s : host) (m : dmsg) : res (host * list parcel) :=
  match m with
  | DLoad =>
      if h =? 0 then
        let! sent := read_csv p (peers h) (S (length records)) width records in
        Ok ({| table := peers h; buffered := buffered s; hdata := hdata s; mcalc := mcalc s; scalc := scalc s;
               minmax := minmax s; dev := dev s; preps := preps s |},
            map (fun ad => send h (fst ad) (DPart (snd ad))) sent)
      else
        let! overlap := usub (pattern_length p) 1 in
        Ok ({| table := peers h; buffered := []; hdata := hdata s; mcalc := mcalc s; scalc := scalc s;
               minmax := minmax s; dev := dev s; preps := preps s |},
            map (fun d => (true, h, DPart d)) (rev (buffered s)))
  | DPart d =>
      if all_connected p (table s) then let! data := load_partition parse p d in datastats h s data
      else Ok ({| table := table s; buffered := buffered s ++ [d]; hdata := hdata s; mcalc := mcalc s; scalc := scalc s;
                  minmax := minmax s; dev := dev s; preps := preps s |}, [])
  | DLocal d => datastats h s d
  | DMinMax m =>
      let! r := handle_minmax (n_cluster_nodes p) (mcalc s) m in
      Ok ({| table := table s; buffered := buffered s; hdata := hdata s; mcalc := fst r; scalc := scalc s;
             minmax := minmax s; dev := dev s; preps := preps s |},
          map (fun o => answer h (fst o) (DMinMaxDone (fst (snd o)) (snd (snd o)))) (snd r))
  | DStd m =>
      let! r := handle_std (n_cluster_nodes p) (scalc s) m in
      Ok ({| table := table s; buffered := buffered s; hdata := hdata s; mcalc := mcalc s; scalc := fst r;
             minmax := minmax s; dev := dev s; preps := preps s |},
          map (fun o => answer h (fst o) (DStdDone (fst (snd o)) (snd (snd o)))) (snd r))
  | DMinMaxDone mn mx =>
      finished {| table := table s; buffered := buffered s; hdata := hdata s; mcalc := mcalc s; scalc := scalc s;
                  minmax := Some (mn, mx); dev := dev s; preps := preps s |}
  | DStdDone std n =>
      finished {| table := table s; buffered := buffered s; hdata := hdata s; mcalc := mcalc s; scalc := scalc s;
                  minmax := minmax s; dev := Some (std, n); preps := preps s |}
  end.

(** All hosts, and the messages under way in the order in which they reached a mailbox or were sent (actix and the network;
    handlers of data_manager/mod.rs:161-254). *)
Record world := mkWorld { hosts : nat -> host; parcels : list parcel }.

(** The state of host [h] is replaced (one actor, data_manager/mod.rs:41-56). *)
Definition set_host (hs : nat -> host) (h : nat) (s : host) : nat -> host := fun j => if j =? h then s else hs j.

(** [m] is the message in the mailbox of [h] that arrived first: actix serves a mailbox in order. *)
Definition next_in_mailbox (l : list parcel) (before : list parcel) (h : nat) (m : dmsg) (after : list parcel) : Prop :=
  l = before ++ (true, h, m) :: after /\ Forall (fun x => fst x <> (true, h)) before.

(** One step: any message on the network arrives, or a host handles the first message in its mailbox
    (actix, actix-telepathy; handlers of data_manager/mod.rs:161-254). *)
Inductive step : world -> world -> Prop :=
| arrive : forall w before h m after, parcels w = before ++ (false, h, m) :: after ->
    step w {| hosts := hosts w; parcels := before ++ after ++ [(true, h, m)] |}
| act : forall w before h m after s' out, next_in_mailbox (parcels w) before h m after ->
    handle h (hosts w h) m = Ok (s', out) ->
    step w {| hosts := set_host (hosts w) h s'; parcels := before ++ after ++ out |}.

(** A host aborts on its next message (a panic in a handler of data_manager/mod.rs:161-254). *)
Definition aborts (w : world) : Prop :=
  exists before h m after q, next_in_mailbox (parcels w) before h m after /\ handle h (hosts w h) m = Panic q.

(** Sequences of [k] steps (handlers of data_manager/mod.rs:161-254). *)
Inductive runs : nat -> world -> world -> Prop :=
| runs_refl : forall w, runs 0 w w
| runs_step : forall k w w' w'', runs k w w' -> step w' w'' -> runs (S k) w w''.

(** Every host is told its peers: LoadDataMessage after StartTrainingMessage, training/mod.rs:152-172. *)
Definition file_start : world :=
  {| hosts := fun _ => new_host; parcels := map (fun h => (false, h, DLoad)) (seq 0 (n_cluster_nodes p)) |}.
End Collect.
Arguments dmsg : clear implicits.
Arguments host : clear implicits.
Arguments world : clear implicits.

(** The array interface: one host, which gets the data itself, training/mod.rs:152-163, interface/mod.rs:29-43. *)
Definition array_start {cell} (d : list (list R)) : world cell :=
  {| hosts := fun _ => new_host; parcels := [(true, 0, DLocal d)] |}.
