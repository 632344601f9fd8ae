(** Control flow of the data manager actor of one host until preprocessing starts: src/data_manager/mod.rs:82-126 and the handlers
    161-254.  The numerical work of the steps is modelled in Reader, Stats and Preprocess; here only the order matters. *)
From Coq Require Import List Arith Bool.
Import ListNotations.

Section Manager.
Context {data : Type}.

(** Messages to the actor: [LoadDataMessage] (with a complete peer table, C04), [DataPartitionMessage], [MinMaxDoneMessage],
    [StdDoneMessage]. *)
(** The messages of the data manager until preprocessing, data_manager/mod.rs:161-254. *)
Inductive msg := MLoad | MPart (d : data) | MMinMaxDone | MStdDone.

(** [role] = the host reads the file (161-182); [connected]: [cluster_nodes.all_connected] (188); [partition_buffer];
    [stored]: [self.data]; [calcs], [preps]: how often [calculate_datastats] and [preprocess] ran; [mm], [sd]: the fields tested by
    [DatasetStats::is_done] (stats_collector/mod.rs:30-35).  [mailbox] is the FIFO mailbox of the actor, [network] the
    messages under way to it, which may arrive in any order. *)
Record mstate := {
  role : bool; connected : bool; partition_buffer : list data; stored : option data;
  calcs : nat; preps : nat; mm : bool; sd : bool; mailbox : list msg; network : list msg
}.

(** A host before training starts.  The reading host has [own], its own partition, still in the file; for the others the
    partition comes over the network. *)
(** The state after [new], data_manager/mod.rs:59-80, with what the network will bring. *)
Definition start (is_reader : bool) (own : data) : mstate :=
  {| role := is_reader; connected := false; partition_buffer := []; stored := None; calcs := 0; preps := 0; mm := false; sd := false;
     mailbox := []; network := if is_reader then [MLoad] else [MLoad; MPart own] |}.

(** [datastats_finished], 106-110. *)
Definition stats_finished (s : mstate) : mstate :=
  if mm s && sd s then
    {| role := role s; connected := connected s; partition_buffer := partition_buffer s; stored := stored s; calcs := calcs s;
       preps := preps s + 1; mm := mm s; sd := sd s; mailbox := mailbox s; network := network s |}
  else s.

(** Handler of the first message in the mailbox; [own] is the partition the reading host sends to itself (172-177, C06);
    the other hosts re-queue their buffered partitions, last one first (82-87, 179). *)
Definition handle (own : data) (s : mstate) (m : msg) (rest : list msg) : mstate :=
  match m with
  | MLoad =>
      if role s then
        {| role := role s; connected := true; partition_buffer := partition_buffer s; stored := stored s; calcs := calcs s;
           preps := preps s; mm := mm s; sd := sd s; mailbox := rest ++ [MPart own]; network := network s |}
      else
        {| role := role s; connected := true; partition_buffer := []; stored := stored s; calcs := calcs s;
           preps := preps s; mm := mm s; sd := sd s; mailbox := rest ++ map MPart (rev (partition_buffer s)); network := network s |}
  | MPart d =>
      if connected s then
        (* calculate_datastats: the answers of the main node will come over the network *)
        {| role := role s; connected := connected s; partition_buffer := partition_buffer s; stored := Some d; calcs := calcs s + 1;
           preps := preps s; mm := mm s; sd := sd s; mailbox := rest; network := network s ++ [MMinMaxDone; MStdDone] |}
      else
        {| role := role s; connected := connected s; partition_buffer := partition_buffer s ++ [d]; stored := stored s; calcs := calcs s;
           preps := preps s; mm := mm s; sd := sd s; mailbox := rest; network := network s |}
  | MMinMaxDone =>
      stats_finished
        {| role := role s; connected := connected s; partition_buffer := partition_buffer s; stored := stored s; calcs := calcs s;
           preps := preps s; mm := true; sd := sd s; mailbox := rest; network := network s |}
  | MStdDone =>
      stats_finished
        {| role := role s; connected := connected s; partition_buffer := partition_buffer s; stored := stored s; calcs := calcs s;
           preps := preps s; mm := mm s; sd := true; mailbox := rest; network := network s |}
  end.

(** One step: a message of the network arrives, or the actor handles the first message of its mailbox. *)
(** Delivery (actix, no code): the network hands a message over or the mailbox is served, data_manager/mod.rs:161-254. *)
Inductive step (own : data) : mstate -> mstate -> Prop :=
| arrive : forall s before m after, network s = before ++ m :: after ->
    step own s {| role := role s; connected := connected s; partition_buffer := partition_buffer s; stored := stored s;
                  calcs := calcs s; preps := preps s; mm := mm s; sd := sd s; mailbox := mailbox s ++ [m];
                  network := before ++ after |}
| act : forall s m rest, mailbox s = m :: rest -> step own s (handle own s m rest).

(** All states of such executions (specification; handlers of data_manager/mod.rs:161-254). *)
Inductive reachable (is_reader : bool) (own : data) : mstate -> Prop :=
| r_start : reachable is_reader own (start is_reader own)
| r_step : forall s s', reachable is_reader own s -> step own s s' -> reachable is_reader own s'.
End Manager.
Arguments msg : clear implicits.
Arguments mstate : clear implicits.
