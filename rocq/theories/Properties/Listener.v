From Coq Require Import List Arith Lia Bool Permutation.
From Verif.Base Require Import Res Params Assoc.
From Verif.Topology Require Import Model Spec.
From Verif.Listener Require Import Model Spec Proofs Repeats Subs.
Import ListNotations.

(** C04.  [others] are the hosts besides [main]; [es] is any order of the joins seen by the main host.  There is one list
    [l] of all hosts, beginning with the main host's own index 0, such that
    - the main host does nothing before the last join and then sends [l] to every other host and starts training once;
    - every other host, for every interleaving [es'] of its joins with the arrival of [l], does nothing before the last of
      these events and then starts training once;
    - all numberings are by position in [l] and the own index derived from the peer table is the own position. *)
Theorem C04_cluster_agreement : forall addr (eqb : addr -> addr -> bool),
  (forall a b, reflect (a = b) (eqb a b)) ->
  forall p main others es s' outs,
  n_cluster_nodes p = length (main :: others) -> 2 <= n_cluster_nodes p -> NoDup (main :: others) ->
  Permutation es (map NewMember others) -> run eqb p Main main init es s' outs ->
  exists l,
    Permutation l (main :: others)
    /\ (exists t pre, outs = pre ++ [map (fun a => SendSorted a l) (tl l) ++ [StartTraining t]] /\ concat pre = []
        /\ numbered_by main l t /\ get_own_idx t = Ok 0)
    /\ (forall a, In a others <-> In a (tl l))
    /\ forall self k es' s'' outs', nth_error l k = Some self -> self <> main ->
        Permutation es' (map NewMember (filter (fun a => negb (eqb self a)) (main :: others)) ++ [SortedMembers l]) ->
        run eqb p (Sub main) self init es' s'' outs' ->
        exists t pre, outs' = pre ++ [[StartTraining t]] /\ concat pre = []
          /\ numbered_by self l t /\ get_own_idx t = Ok k.
Proof. exact @cluster_agreement. Qed.
Print Assumptions C04_cluster_agreement.

(** The runs quantified over exist for every list of events. *)
Theorem C04_runs_exist : forall addr (eqb : addr -> addr -> bool) p (r : role addr) self es s, 1 <= n_cluster_nodes p ->
  exists s' outs, run eqb p r self s es s' outs.
Proof. exact @run_exists. Qed.
Print Assumptions C04_runs_exist.

(** Host 7 is main, hosts 5 and 9 join in the order 9, 5; on host 5 the list arrives between the joins of 9 and 7. *)
Example C04_example_main :
  run Nat.eqb (with_rate_nodes 100 3) Main 7 init [NewMember 9; NewMember 5]
    {| connected := [5; 9]; sorted_nodes := [(1, 5); (2, 9)]; addr_buffer := []; stopped := false |}
    [[]; [SendSorted 5 [7; 5; 9]; SendSorted 9 [7; 5; 9]; StartTraining [(1, 5); (2, 9)]]].
Proof.
  econstructor; [eapply (step_join_eq Nat.eqb _ _ _ _ _ [9]); [reflexivity|reflexivity|reflexivity]|].
  econstructor; [eapply (step_join_eq Nat.eqb _ _ _ _ _ [5; 9]); [reflexivity|reflexivity|reflexivity]|]. constructor.
Qed.
Example C04_example_sub :
  run Nat.eqb (with_rate_nodes 100 3) (Sub 7) 5 init [NewMember 9; SortedMembers [7; 5; 9]; NewMember 7]
    {| connected := [9; 7]; sorted_nodes := [(0, 7); (2, 9)]; addr_buffer := [7; 5; 9]; stopped := false |}
    [[]; []; [StartTraining [(0, 7); (2, 9)]]].
Proof.
  econstructor; [eapply (step_join_eq Nat.eqb _ _ _ _ _ [9]); [reflexivity|reflexivity|reflexivity]|].
  econstructor; [eapply step_sorted_eq; reflexivity|].
  econstructor; [eapply (step_join_eq Nat.eqb _ _ _ _ _ [9; 7]); [reflexivity|cbn; apply perm_swap|reflexivity]|]. constructor.
Qed.

(** C05 is false: a repeated notification for a known member starts training a second time. *)
Theorem C05_start_at_most_once_refuted : exists p self es s' outs,
  run Nat.eqb p Main self init es s' outs /\ starts outs = 2.
Proof.
  exists (with_rate_nodes 100 2), 7, [NewMember 5; NewMember 5]. eexists _, _. split.
  - econstructor; [eapply (step_join_eq Nat.eqb _ _ _ _ _ [5]); [reflexivity|reflexivity|reflexivity]|].
    econstructor; [eapply (step_join_eq Nat.eqb _ _ _ _ _ [5]); [reflexivity|reflexivity|reflexivity]|]. constructor.
  - vm_compute. reflexivity.
Qed.
Print Assumptions C05_start_at_most_once_refuted.

(** How often the main host starts, for every sequence of announcements and departures: once for every announcement at
    which all other hosts are known, repeated announcements included. *)
Theorem C05_starts_exactly : forall addr (eqb : addr -> addr -> bool),
  (forall a b, reflect (a = b) (eqb a b)) ->
  forall p self es s' outs, 1 <= n_cluster_nodes p ->
  Forall member_event es -> ~ In self (joined es) -> run eqb p Main self init es s' outs ->
  starts outs = length (filter (all_announced eqb (n_cluster_nodes p - 1) es) (seq 0 (length es))).
Proof.
  intros addr eqb Heq p self es s' outs HN HF Hself Hrun.
  exact (proj1 (main_runs eqb Heq p self es init s' outs [] HN Hrun (main_inv_init p self) HF Hself)).
Qed.
Print Assumptions C05_starts_exactly.

(** Three hosts; host 5 is announced again after host 9, and host 9 leaves and comes back: three starts. *)
Example C05_exact_case :
  length (filter (all_announced Nat.eqb (3 - 1)
    [NewMember 5; NewMember 5; NewMember 9; MemberLeft 9; NewMember 9; NewMember 5]) (seq 0 6)) = 3
  /\ exists s' outs, run Nat.eqb (with_rate_nodes 100 3) Main 7 init
       [NewMember 5; NewMember 5; NewMember 9; MemberLeft 9; NewMember 9; NewMember 5] s' outs.
Proof. split; [reflexivity|]. apply run_exists. cbn. lia. Qed.

(** How often a host that is not the main host starts, for every sequence of announcements, lists and departures. Until the
    first departure it starts at every list that comes when all others are known, and at every announcement with which all
    others are known if a list came too early; after the first departure it does nothing. *)
Theorem C05_sub_starts_exactly : forall addr (eqb : addr -> addr -> bool),
  (forall a b, reflect (a = b) (eqb a b)) ->
  forall p main self es s' outs, 1 <= n_cluster_nodes p ->
  Forall list_not_empty es -> run eqb p (Sub main) self init es s' outs ->
  starts outs = length (filter (sub_starts eqb (n_cluster_nodes p - 1) es) (seq 0 (length es))).
Proof.
  intros addr eqb Heq p main self es s' outs HN HF Hrun.
  exact (sub_runs eqb Heq p main self es init s' outs [] HN Hrun (sub_inv_init eqb _) HF).
Qed.
Print Assumptions C05_sub_starts_exactly.

(** Three hosts; the list comes before host 9 is known, host 5 is announced again, the list is sent again, and host 9
    leaves before the last announcement: three starts. *)
Example C05_sub_case :
  let es := [NewMember 5; SortedMembers [9; 5; 7]; NewMember 9; NewMember 5; SortedMembers [9; 5; 7]; MemberLeft 9; NewMember 5] in
  filter (sub_starts Nat.eqb (3 - 1) es) (seq 0 7) = [2; 3; 4]
  /\ Forall list_not_empty es
  /\ exists s' outs, run Nat.eqb (with_rate_nodes 100 3) (Sub 9) 7 init es s' outs.
Proof. split; [reflexivity|]. split; [repeat constructor; discriminate|]. apply run_exists. cbn. lia. Qed.

(** C56 is false: the main host counts members that have already left; it starts training with host 5 although it left. *)
Theorem C56_start_with_connected_members_refuted : exists p self es s' outs t,
  es = [NewMember 5; MemberLeft 5; NewMember 9]
  /\ run Nat.eqb p Main self init es s' outs
  /\ In (StartTraining t) (concat outs) /\ In 5 (map snd t).
Proof.
  exists (with_rate_nodes 100 3), 7. eexists _, _, _, [(1, 9); (2, 5)]. split; [reflexivity|]. split.
  - econstructor; [eapply (step_join_eq Nat.eqb _ _ _ _ _ [5]); [reflexivity|reflexivity|reflexivity]|].
    econstructor; [eapply step_left_eq; reflexivity|].
    econstructor; [eapply (step_join_eq Nat.eqb _ _ _ _ _ [9; 5]); [reflexivity|reflexivity|reflexivity]|]. constructor.
  - vm_compute. intuition.
Qed.
Print Assumptions C56_start_with_connected_members_refuted.

(** The main host never takes back an announcement: every start hands over a table of exactly the hosts announced so far,
    those that have left included, and it starts only when these are as many as the cluster has other hosts. *)
Theorem C56_members_that_left_are_counted : forall addr (eqb : addr -> addr -> bool),
  (forall a b, reflect (a = b) (eqb a b)) ->
  forall p self es s' outs, 1 <= n_cluster_nodes p ->
  Forall member_event es -> ~ In self (joined es) -> run eqb p Main self init es s' outs ->
  forall k out t, nth_error outs k = Some out -> In (StartTraining t) out ->
  exists c, length c = n_cluster_nodes p - 1 /\ NoDup (self :: c)
            /\ (forall a, In a c <-> In a (joined (firstn (S k) es)))
            /\ numbered_by self (self :: c) t.
Proof.
  intros addr eqb Heq p self es s' outs HN HF Hself Hrun.
  exact (proj2 (main_runs eqb Heq p self es init s' outs [] HN Hrun (main_inv_init p self) HF Hself)).
Qed.
Print Assumptions C56_members_that_left_are_counted.
