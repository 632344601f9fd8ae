From Coq Require Import List Arith ZArith Lia Bool Reals.
From Verif.Base Require Import Res Params ListX.
From Verif.Topology Require Import Model Spec.
From Verif.Reader Require Import Model Spec Proofs.
From Verif.Stats Require Import Model Spec.
From Verif.Manager Require Import Collect CollectSpec.
From Verif.Entry Require Import Model Proofs.
From Verif.Properties Require Import Collect.
Import ListNotations.
Local Open Scope nat_scope.

(** C96: false.  A process that is neither given an array nor a file - a sub process, or a main process without a data path - on what it takes to be a cluster of one: it starts, reports nothing,
    handles one message and then waits for ever. *)
Theorem C96_nothing_to_read_refuted : forall addr path cell (parse : cell -> option R) fmax p (s : settings addr path) peers width records,
  reads_file (own_role s) = false -> cluster_size s <= 1 -> 1 <= pattern_length p ->
  program s = Ok StartsAlone /\ s2gpp s None = StartsAlone
  /\ forall k w, runs_as parse fmax p (fun _ => own_role s) peers width records k alone_start w ->
       ~ aborts_as parse fmax p (fun _ => own_role s) peers width records w /\ k <= 1 /\ forall h, hdata (hosts w h) = None /\ preps (hosts w h) = 0.
Proof.
  intros addr path cell parse fmax p s peers width records Hr Hc Hp.
  assert (E : s2gpp s None = StartsAlone) by (cbn; unfold s2gpp_async; destruct (Nat.ltb_spec 1 (cluster_size s)); [lia|reflexivity]).
  split; [|split; [exact E|]].
  - unfold program. rewrite E. destruct (Nat.ltb_spec 1 (cluster_size s)); [lia|]. now rewrite andb_false_r.
  - intros k w Hrun. destruct (nobody_reads parse fmax p (fun _ => own_role s) peers width records 1 alone_start Hp (fun _ _ => Hr)) with (k := k) (s := w) as (A & B & C); auto.
    + split; [repeat constructor|]. intros h. cbn. auto.
    + repeat constructor.
    + cbn in B. repeat split; auto; [lia|apply C|apply C].
Qed.
Print Assumptions C96_nothing_to_read_refuted.
(** A sub process with the default cluster size, and a main process without a file. *)
Example C96_nothing_to_read_case : exists s s' : settings nat nat, own_role s = Sub 7 /\ own_role s' = Main None /\ reads_file (own_role s) = false /\ reads_file (own_role s') = false
  /\ cluster_size s = 1 /\ cluster_size s' = 1.
Proof. exists {| own_role := Sub 7; own_host := 8; cluster_size := 1; explainability := false |}, {| own_role := Main None; own_host := 8; cluster_size := 1; explainability := true |}. repeat split. Qed.

(** The same on a cluster of any size: the hosts find each other, and all of them wait for ever. *)
Theorem C96_cluster_without_file_refuted : forall addr path cell (parse : cell -> option R) fmax p (roles : nat -> role addr path) peers width records,
  (forall h, h < n_cluster_nodes p -> reads_file (roles h) = false) -> 1 <= pattern_length p ->
  forall k w, runs_as parse fmax p roles peers width records k (file_start p) w ->
    ~ aborts_as parse fmax p roles peers width records w /\ k <= 2 * n_cluster_nodes p /\ forall h, hdata (hosts w h) = None /\ preps (hosts w h) = 0.
Proof.
  intros addr path cell parse fmax p roles peers width records Hr Hp k w Hrun.
  destruct (nobody_reads parse fmax p roles peers width records (n_cluster_nodes p) (file_start p) Hp Hr) with (k := k) (s := w) as (A & B & C); auto.
  - split; [|intros h; cbn; auto]. cbn. apply Forall_forall. intros x Hx. apply in_map_iff in Hx. destruct Hx as (h & <- & _). reflexivity.
  - apply Forall_forall. intros x Hx. cbn in Hx. apply in_map_iff in Hx. destruct Hx as (h & <- & Hh). apply in_seq in Hh. cbn. lia.
  - split; [exact A|]. split; [|exact C].
    assert (L : forall l, pending (map (fun h => (false, h, @DLoad cell)) l) = 2 * length l).
    { induction l as [|x l IH]; [reflexivity|]. cbn [map length]. rewrite pending_cons, IH. lia. }
    cbn [parcels file_start] in B. rewrite L, seq_length in B. lia.
Qed.
Print Assumptions C96_cluster_without_file_refuted.

(** A cluster of no hosts is accepted: the file is read, and its rows are kept for ever. *)
Theorem C96_no_hosts_refuted : forall addr path cell (parse : cell -> option R) fmax p (s : settings addr path) f width records,
  own_role s = Main (Some f) -> cluster_size s = n_cluster_nodes p -> n_cluster_nodes p = 0 -> 1 <= pattern_length p -> Forall (fun r => length r = width) records ->
  program s = Ok StartsAlone
  /\ forall k w, runs_as parse fmax p (fun _ => own_role s) (fun _ => []) width records k alone_start w ->
       ~ aborts_as parse fmax p (fun _ => own_role s) (fun _ => []) width records w /\ k <= 2 /\ preps (hosts w 0) = 0 /\ hdata (hosts w 0) = None
       /\ ((forall w', ~ step_as parse fmax p (fun _ => own_role s) (fun _ => []) width records w w') -> buffered (hosts w 0) = [records]).
Proof.
  intros addr path cell parse fmax p s f width records Hrole Hcs HN Hp HF. split.
  { unfold program, s2gpp, s2gpp_async. rewrite Hcs, HN. cbn. now rewrite andb_false_r. }
  assert (Er : read_csv p ([] : cluster_nodes nat) (S (length records)) width records = Ok [(Local, records)]).
  { rewrite (read_csv_ok p [] width records Hp HF (or_introl eq_refl)). cbn [len_incl_own length Nat.add seq map iter_take]. cbv [len_incl_own]. cbn. unfold partition_of, slice. cbn.
    rewrite Nat.sub_0_r, firstn_all. reflexivity. }
  set (h1 := {| table := []; buffered := []; hdata := None; mcalc := None; scalc := None; minmax := None; dev := None; preps := 0 |} : host cell).
  set (h2 := {| table := []; buffered := [records]; hdata := None; mcalc := None; scalc := None; minmax := None; dev := None; preps := 0 |} : host cell).
  assert (E1 : on_load p (fun _ => own_role s) (fun _ => []) width records 0 new_host = Ok (h1, [(true, 0, DPart records)])).
  { unfold on_load. rewrite Hrole. cbn [reads_file]. rewrite Er. reflexivity. }
  assert (E2 : handle parse fmax p (fun _ => []) width records 0 h1 (DPart records) = Ok (h2, [])).
  { cbn [handle]. unfold all_connected. rewrite HN. reflexivity. }
  assert (One : forall (x : parcel (cell := cell)) b h m before after, [x] = before ++ (b, h, m) :: after -> before = [] /\ after = [] /\ x = (b, h, m)).
  { intros x b h m before after E. destruct before as [|y before]; [injection E as -> <-; auto|]. injection E as _ E. destruct before; discriminate. }
  assert (G : forall k w, runs_as parse fmax p (fun _ => own_role s) (fun _ => []) width records k alone_start w ->
     (k = 0 /\ hosts w 0 = new_host /\ parcels w = [(true, 0, DLoad)]) \/ (k = 1 /\ hosts w 0 = h1 /\ parcels w = [(true, 0, DPart records)]) \/ (k = 2 /\ hosts w 0 = h2 /\ parcels w = [])).
  { intros k w Hrun. remember (@alone_start cell) as w0 eqn:E0. induction Hrun as [w|k w w' w'' Hrun IH Hs]; [subst; left; auto|]. specialize (IH E0).
    destruct Hs as [w' before h m after E|w' before h m after s' out (E & _) Eh].
    - exfalso. destruct IH as [(_ & _ & P)|[(_ & _ & P)|(_ & _ & P)]]; rewrite P in E; [apply One in E; destruct E as (_ & _ & E); discriminate|apply One in E; destruct E as (_ & _ & E); discriminate|destruct before; discriminate].
    - destruct IH as [(-> & Hh & P)|[(-> & Hh & P)|(-> & Hh & P)]]; rewrite P in E; [| |destruct before; discriminate]; apply One in E; destruct E as (-> & -> & E); injection E as <- <-; rewrite Hh in Eh.
      + cbn [handle_as] in Eh. rewrite E1 in Eh. injection Eh as <- <-. right. left. auto.
      + cbn [handle_as] in Eh. rewrite E2 in Eh. injection Eh as <- <-. right. right. auto. }
  intros k w Hrun. specialize (G k w Hrun). split; [|split; [lia|]].
  - intros (before & h & m & after & q & (E & _) & Eh). destruct G as [(-> & Hh & P)|[(-> & Hh & P)|(-> & Hh & P)]]; rewrite P in E; [| |destruct before; discriminate]; apply One in E; destruct E as (-> & -> & E); injection E as <- <-; rewrite Hh in Eh; cbn [handle_as] in Eh.
    + rewrite E1 in Eh. discriminate.
    + rewrite E2 in Eh. discriminate.
  - split; [|split].
    + destruct G as [(_ & -> & _)|[(_ & -> & _)|(_ & -> & _)]]; reflexivity.
    + destruct G as [(_ & -> & _)|[(_ & -> & _)|(_ & -> & _)]]; reflexivity.
    + intros Hend. destruct G as [(_ & Hh & P)|[(_ & Hh & P)|(_ & -> & _)]]; [| |reflexivity]; exfalso.
      * apply (Hend {| hosts := set_host (hosts w) 0 h1; parcels := [(true, 0, DPart records)] |}). apply (acts parse fmax p (fun _ => own_role s) (fun _ => []) width records w [] 0 DLoad [] h1 [(true, 0, DPart records)]); [split; [exact P|constructor]|rewrite Hh; exact E1].
      * apply (Hend {| hosts := set_host (hosts w) 0 h2; parcels := [] |}). apply (acts parse fmax p (fun _ => own_role s) (fun _ => []) width records w [] 0 (DPart records) [] h2 []); [split; [exact P|constructor]|rewrite Hh; exact E2].
Qed.
Print Assumptions C96_no_hosts_refuted.

(** A main process with a file on one machine, started by the program or through the library: in every execution it gets all its rows and the statistics, once (C91). *)
Theorem C96_file_on_one_machine_partial : forall addr path cell (parse : cell -> option R) val fmax p (s : settings addr path) f width records,
  let rows := map (selected p width val) records in
  let w := Z.to_nat (column_limit width (column_end p)) - column_start p in
  let roles := fun h => if h =? 0 then own_role s else Sub (own_host s) in
  own_role s = Main (Some f) -> cluster_size s = n_cluster_nodes p -> n_cluster_nodes p = 1 ->
  1 <= pattern_length p <= length records -> 2 <= length records ->
  Forall (fun r => length r = width) records -> (Z.of_nat width < 2 ^ 64)%Z ->
  (forall r b, In r records -> In b r -> parse b = Some (val b)) ->
  (Z.of_nat (column_start p) <= column_limit width (column_end p) <= Z.of_nat width)%Z ->
  (forall j x, entry rows j x -> (- fmax <= x <= fmax)%R) ->
  program s = Ok StartsAlone /\ s2gpp s None = StartsAlone
  /\ exists mn mx, column_extremes rows w mn mx
  /\ forall k t, runs_as parse fmax p roles (fun _ => []) width records k alone_start t ->
       ~ aborts_as parse fmax p roles (fun _ => []) width records t /\ k <= 33
       /\ preps (hosts t 0) <= 1
       /\ (preps (hosts t 0) = 1 -> hdata (hosts t 0) = Some rows /\ minmax (hosts t 0) = Some (mn, mx))
       /\ ((forall t', ~ step_as parse fmax p roles (fun _ => []) width records t t') -> preps (hosts t 0) = 1).
Proof.
  intros addr path cell parse val fmax p s f width records rows w roles Hrole Hcs HN Hpl Hlen HF Hw Hparse Hcol Hent.
  assert (E : s2gpp s None = StartsAlone) by (cbn; unfold s2gpp_async; rewrite Hcs, HN; reflexivity).
  split; [unfold program; rewrite E, Hcs, HN; cbn; now rewrite andb_false_r|]. split; [exact E|].
  assert (Hr : forall h, reads_file (roles h) = (h =? 0)). { intros h. unfold roles. rewrite Hrole. destruct (h =? 0); reflexivity. }
  assert (Hin : introduced (n_cluster_nodes p) (fun _ => [])).
  { rewrite HN. intros h Hh. assert (h = 0) by lia. subst h. split; [|intros j a []]. unfold all_but. cbn. split; [lia|]. split; [constructor|]. intros j. cbn. lia. }
  destruct (C91_statistics_everywhere cell parse val fmax p (fun _ => []) width records) as (mn & mx & X & A & _); auto; try (rewrite HN; try rewrite Nat.div_1_r; try rewrite Nat.mod_1_r; lia).
  exists mn, mx. split; [exact X|]. intros k t Hrun.
  assert (Hst : step parse fmax p (fun _ => []) width records (file_start p) (@alone_start cell)).
  { unfold file_start. rewrite HN. exact (arrive parse fmax p (fun _ => []) width records {| hosts := fun _ => new_host; parcels := [(false, 0, DLoad)] |} [] 0 DLoad [] eq_refl). }
  assert (Hrun' : runs parse fmax p (fun _ => []) width records (S k) (file_start p) t).
  { apply runs_as_iff in Hrun; [|exact Hr]. remember (@alone_start cell) as w0 eqn:E0. induction Hrun as [w'|k w1 w2 w3 Hrun IH Hs]; [exact (runs_step parse fmax p (fun _ => []) width records 0 (file_start p) (file_start p) w' (runs_refl _ _ _ _ _ _ _) Hst)|econstructor; [now apply IH|exact Hs]]. }
  destruct (A _ _ Hrun') as (A1 & A2 & (std & A3) & A4). rewrite HN in A2. destruct (A3 0 ltac:(lia)) as (B1 & B2).
  split; [intros Hab; apply A1; apply (aborts_as_iff parse fmax p roles (fun _ => []) width records t Hr); exact Hab|]. split; [cbn in A2; lia|]. split; [exact B1|]. split.
  - intros H1. destruct (B2 H1) as (C1 & C2 & _). split; [|exact C2]. rewrite C1, HN. f_equal. unfold partition_of, slice. cbn. fold rows. now rewrite Nat.sub_0_r, firstn_all.
  - intros Hend. apply A4; [|lia]. intros t' Ht. apply (Hend t'). now apply step_as_iff.
Qed.
Print Assumptions C96_file_on_one_machine_partial.
Definition c96_params : params :=
  {| rate := 100; n_threads := 1; n_cluster_nodes := 1; pattern_length := 3; latent := 1; query_length := 5; column_start := 1; column_end := (-1)%Z; self_correction := false |}.
Definition c96_settings : settings nat nat := {| own_role := Main (Some 5); own_host := 1; cluster_size := 1; explainability := true |}.
Example C96_file_on_one_machine_case :
  own_role c96_settings = Main (Some 5) /\ cluster_size c96_settings = n_cluster_nodes c96_params /\ n_cluster_nodes c96_params = 1
  /\ 1 <= pattern_length c96_params <= length c91_records /\ 2 <= length c91_records
  /\ Forall (fun r => length r = 3) c91_records /\ (Z.of_nat 3 < 2 ^ 64)%Z
  /\ (Z.of_nat (column_start c96_params) <= column_limit 3 (column_end c96_params) <= Z.of_nat 3)%Z
  /\ map (selected c96_params 3 INR) c91_records = map (fun x => [INR x]) [0; 2; 4; 1; 3; 0; 2; 4].
Proof. repeat split; try (cbn; lia); try (repeat constructor). Qed.

(** A cluster: the main host with or without a file, the others as sub processes.  When nothing is left to do, preprocessing has started on every host exactly when the main host was given a
    file (for a file that C91 is about). *)
Theorem C96_cluster_exactly : forall addr path cell (parse : cell -> option R) val fmax p (f : option path) (main : addr) peers width records,
  let N := n_cluster_nodes p in
  let rows := map (selected p width val) records in
  let roles := fun h => if h =? 0 then Main f else Sub main in
  1 <= N -> introduced N peers ->
  1 <= pattern_length p <= length records / N -> length records mod N <= pattern_length p - 1 -> 2 <= length records ->
  Forall (fun r => length r = width) records -> (Z.of_nat width < 2 ^ 64)%Z ->
  (forall r b, In r records -> In b r -> parse b = Some (val b)) ->
  (Z.of_nat (column_start p) <= column_limit width (column_end p) <= Z.of_nat width)%Z ->
  (forall j x, entry rows j x -> (- fmax <= x <= fmax)%R) ->
  forall k t, runs_as parse fmax p roles peers width records k (file_start p) t -> (forall t', ~ step_as parse fmax p roles peers width records t t') ->
    ~ aborts_as parse fmax p roles peers width records t
    /\ forall h, h < N -> (preps (hosts t h) = 1 <-> f <> None) /\ (preps (hosts t h) = 0 <-> f = None).
Proof.
  intros addr path cell parse val fmax p f main peers width records N rows roles HN Hin Hpl Hmod Hlen HF Hw Hparse Hcol Hent k t Hrun Hend. destruct f as [f|].
  - assert (Hr : forall h, reads_file (roles h) = (h =? 0)). { intros h. unfold roles. destruct (h =? 0); reflexivity. }
    destruct (C91_statistics_everywhere cell parse val fmax p peers width records) as (mn & mx & X & A & _); auto.
    apply runs_as_iff in Hrun; [|exact Hr]. destruct (A _ _ Hrun) as (A1 & _ & _ & A4).
    split; [intros Hab; apply A1; apply (aborts_as_iff parse fmax p roles peers width records t Hr); exact Hab|].
    intros h Hh. assert (E : preps (hosts t h) = 1). { apply A4; [|exact Hh]. intros t' Ht. apply (Hend t'). now apply step_as_iff. }
    rewrite E. repeat split; intros; congruence.
  - assert (Hr : forall h, h < n_cluster_nodes p -> reads_file (roles h) = false). { intros h _. unfold roles. destruct (h =? 0); reflexivity. }
    destruct (C96_cluster_without_file_refuted addr path cell parse fmax p roles peers width records Hr ltac:(lia) k t Hrun) as (A & _ & B).
    split; [exact A|]. intros h _. destruct (B h) as (_ & ->). repeat split; intros; congruence.
Qed.
Print Assumptions C96_cluster_exactly.
(** The hypotheses are those of C91: two hosts, a file with an index column, one channel and a label column. *)
Example C96_cluster_exactly_case : 1 <= n_cluster_nodes c91_params /\ introduced (n_cluster_nodes c91_params) c91_peers
  /\ 1 <= pattern_length c91_params <= length c91_records / 2 /\ length c91_records mod 2 <= pattern_length c91_params - 1.
Proof. destruct C91_case as (A & B & C & D & _). auto. Qed.

(** The program refuses to explain scores on a cluster before it joins, and refuses nothing else; the library refuses nothing: it joins the cluster, with the address of the main host as the
    only seed of a sub process and none for the main host. *)
Theorem C96_explainability_on_clusters : forall addr path (s : settings addr path),
  (program s = Panic Explicit <-> explainability s = true /\ 2 <= cluster_size s)
  /\ (forall q, program s = Panic q -> q = Explicit)
  /\ (2 <= cluster_size s -> s2gpp s None = Joins (own_host s) (match own_role s with Main _ => [] | Sub main => [main] end))
  /\ (cluster_size s <= 1 -> s2gpp s None = StartsAlone)
  /\ forall d, s2gpp s (Some d) = Fits d.
Proof.
  intros addr path s. unfold program, s2gpp, s2gpp_async, seed_nodes.
  destruct (Nat.ltb_spec 1 (cluster_size s)) as [H|H]; destruct (explainability s); cbn; repeat split; intros; try lia; try congruence; try reflexivity; try (destruct H0; lia || congruence).
  all: try (destruct (own_role s); reflexivity).
Qed.
Print Assumptions C96_explainability_on_clusters.
Example C96_explainability_case : exists s : settings nat nat, program s = Panic Explicit /\ s2gpp s None = Joins 8 [7].
Proof. exists {| own_role := Sub 7; own_host := 8; cluster_size := 2; explainability := true |}. split; reflexivity. Qed.

(** A cluster of no hosts, and a file of two rows; and a cluster of three hosts without a file. *)
Example C96_no_hosts_case : exists (p : params) (s : settings nat nat), own_role s = Main (Some 5) /\ cluster_size s = n_cluster_nodes p /\ n_cluster_nodes p = 0 /\ 1 <= pattern_length p
  /\ Forall (fun r => length r = 1) [[3]; [4]].
Proof.
  exists {| rate := 100; n_threads := 1; n_cluster_nodes := 0; pattern_length := 2; latent := 1; query_length := 5; column_start := 0; column_end := 0%Z; self_correction := false |},
    {| own_role := Main (Some 5); own_host := 1; cluster_size := 0; explainability := false |}.
  repeat split; try (cbn; lia); repeat constructor.
Qed.
Example C96_cluster_without_file_case : exists (p : params) (roles : nat -> role nat nat), n_cluster_nodes p = 3 /\ roles 0 = Main None /\ roles 1 = Sub 1 /\ roles 2 = Sub 1
  /\ (forall h, h < n_cluster_nodes p -> reads_file (roles h) = false) /\ 1 <= pattern_length p.
Proof.
  exists {| rate := 100; n_threads := 1; n_cluster_nodes := 3; pattern_length := 2; latent := 1; query_length := 5; column_start := 0; column_end := 0%Z; self_correction := false |},
    (fun h => if h =? 0 then Main None else Sub 1).
  repeat split; try (cbn; lia). intros h _. destruct (h =? 0); reflexivity.
Qed.
