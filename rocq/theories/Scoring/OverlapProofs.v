From Coq Require Import List Arith Bool Lia Permutation Sorting.Sorted.
From Verif.Base Require Import Res Assoc ListX.
From Verif.Edges Require Import Model Proofs HostProofs.
From Verif.Protocol Require Import Model Exchange.
From Verif.Transposition Require Import Spec Proofs.
From Verif.Scoring Require Import Model Spec WindowProofs Overlap.
Import ListNotations.

Section Overlap.
Variables N q : nat.
Hypothesis HN : 2 <= N.
Hypothesis Hq : 1 <= q.
Variable data : nat -> list edge * list nat.
(** The data of every host at the end. *)
Variable final : nat -> list edge * list nat.
Variable out : nat -> overlap_message.
Hypothesis Hlast : final (N - 1) = data (N - 1).
Hypothesis Hout : forall p, p < N -> overlap_of q (final p) = Ok (out p).
Hypothesis Hadd : forall p, p < N - 1 -> add_overlap (data p) (out (S p)) = Ok (final p).

Definition done_proto (p : nat) : protocol overlap_message :=
  if p =? N - 1 then {| n_total := 0; n_received := 0; n_sent := 1; buffer := [] |} else {| n_total := 1; n_received := 1; n_sent := 1; buffer := [] |}.
(** Hosts [j] and above have scored. *)
Definition oinv (j : nat) (w : oworld) : Prop :=
  j <= N
  /\ (forall p, j <= p < N -> o_ready (ohosts w p) = true /\ o_scored (ohosts w p) = 1 /\ o_data (ohosts w p) = final p
        /\ (o_proto (ohosts w p) = done_proto p \/ (p = N - 1 /\ j = 0 /\ onet w = [] /\ o_proto (ohosts w p) = {| n_total := 0; n_received := 0; n_sent := 1; buffer := [out 0] |})))
  /\ (forall p, p < j -> o_scored (ohosts w p) = 0 /\ o_data (ohosts w p) = data p
        /\ (o_ready (ohosts w p) = true -> p < N - 1 /\ o_proto (ohosts w p) = {| n_total := 1; n_received := 0; n_sent := 0; buffer := [] |})
        /\ (o_ready (ohosts w p) = false -> o_proto (ohosts w p) = new_protocol \/ (S p = j /\ j < N /\ onet w = [] /\ o_proto (ohosts w p) = {| n_total := 0; n_received := 0; n_sent := 0; buffer := [out j] |})))
  /\ (onet w = [] /\ (j < N -> if j =? 0 then buffer (o_proto (ohosts w (N - 1))) = [out 0] else o_ready (ohosts w (j - 1)) = false /\ buffer (o_proto (ohosts w (j - 1))) = [out j])
      \/ (j < N /\ onet w = [(prev N j, out j)])).

Lemma oinv_start : oinv N (ofresh data).
Proof.
  unfold oinv. ssplit; [lia|intros p Hp; lia| |left; split; [reflexivity|lia]]. intros p Hp. cbn. ssplit; [reflexivity|reflexivity|discriminate|auto].
Qed.

Lemma set_same : forall A (f : nat -> A) i a, set f i a i = a.
Proof. intros. unfold set. now rewrite Nat.eqb_refl. Qed.
Lemma set_other : forall A (f : nat -> A) i j a, j <> i -> set f i a j = f j.
Proof. intros. unfold set. now destruct (Nat.eqb_spec j i). Qed.

(** No handler aborts. *)
Lemma ready_ok : forall j w p, oinv j w -> p < N -> o_ready (ohosts w p) = false ->
  exists h out', init_done N q p (ohosts w p) = Ok (h, out') /\ exists j', oinv j' {| ohosts := set (ohosts w) p h; onet := onet w ++ out' |}.
Proof.
  intros j w p (Hj & H1 & H2 & H3) Hp Hr.
  assert (Hpj : p < j) by (destruct (Nat.lt_ge_cases p j); [assumption|]; destruct (H1 p ltac:(lia)) as (E & _); congruence).
  destruct (H2 p Hpj) as (Es & Ed & _ & Hpr). specialize (Hpr Hr). unfold init_done. destruct (Nat.eqb_spec p (N - 1)) as [->|Hne].
  - assert (Ej : j = N) by lia. subst j. unfold send_overlap. cbn [o_data o_proto o_ready o_scored]. rewrite Ed, <- Hlast, Hout by lia. cbn [bind].
    assert (Epr : o_proto (ohosts w (N - 1)) = new_protocol) by (destruct Hpr as [E|(_ & E & _)]; [exact E|lia]).
    assert (En : onet w = []) by (destruct H3 as [(E & _)|(E & _)]; [exact E|lia]).
    eexists _, _. split; [reflexivity|]. exists (N - 1). unfold oinv. ssplit; [lia| | |].
    + intros p Hp'. assert (p = N - 1) by lia. subst p. cbn [ohosts]. rewrite set_same. cbn [o_ready o_scored o_data o_proto]. ssplit; [reflexivity|now rewrite Es|reflexivity|].
      left. rewrite Epr. unfold done_proto. rewrite Nat.eqb_refl. reflexivity.
    + intros p Hp'. cbn [ohosts onet]. rewrite set_other by lia. destruct (H2 p ltac:(lia)) as (A & B & C & D). ssplit; [exact A|exact B|exact C|].
      intros Hf. left. destruct (D Hf) as [E|(E & _)]; [exact E|lia].
    + right. cbn [onet]. rewrite En. split; [lia|reflexivity].
  - unfold resolve_buffer, start. cbn [n_total n_received n_sent buffer o_data o_proto o_ready o_scored].
    destruct Hpr as [Epr|(Hsj & HjN & En & Epr)]; rewrite Epr; cbn [n_total n_received n_sent buffer new_protocol map].
    + eexists _, _. split; [reflexivity|]. exists j. rewrite app_nil_r. unfold oinv. ssplit; [lia| | |].
      * intros p' Hp'. cbn [ohosts onet]. rewrite set_other by lia. apply H1. exact Hp'.
      * intros p' Hp'. cbn [ohosts onet]. destruct (Nat.eq_dec p' p) as [->|Hd]; [|rewrite set_other by exact Hd; now apply H2].
        rewrite set_same. cbn [o_ready o_scored o_data o_proto]. ssplit; [exact Es|exact Ed|intros _; split; [lia|reflexivity]|discriminate].
      * cbn [ohosts onet]. destruct H3 as [(A & B)|(A & B)]; [left; split; [exact A|]|right; auto]. intros HjN. specialize (B HjN). destruct (Nat.eqb_spec j 0); [lia|].
        destruct (Nat.eq_dec (j - 1) p) as [E|E]; [|now rewrite set_other]. rewrite E in B. rewrite Epr in B. cbn in B. destruct B as (_ & B). discriminate.
    + eexists _, _. split; [reflexivity|]. exists j. cbn [map]. rewrite En. cbn [app]. unfold oinv. ssplit; [lia| | |].
      * intros p' Hp'. cbn [ohosts onet]. rewrite set_other by lia. destruct (H1 p' Hp') as (A & B & C & [D|(D & D0 & _)]); [auto|lia].
      * intros p' Hp'. cbn [ohosts onet]. destruct (Nat.eq_dec p' p) as [->|Hd].
        -- rewrite set_same. cbn [o_ready o_scored o_data o_proto]. ssplit; [exact Es|exact Ed|intros _; split; [lia|reflexivity]|discriminate].
        -- rewrite set_other by exact Hd. destruct (H2 p' Hp') as (A & B & C & D). ssplit; [exact A|exact B|exact C|]. intros Hf. destruct (D Hf) as [E|(E & _)]; [now left|lia].
      * right. cbn [onet]. split; [exact HjN|]. unfold prev. destruct (Nat.eqb_spec j 0); [lia|]. do 3 f_equal. lia.
Qed.

Lemma take_ok : forall j w p m l r, oinv j w -> onet w = l ++ (p, m) :: r ->
  exists h out', take_overlap N q p m (ohosts w p) = Ok (h, out') /\ exists j', oinv j' {| ohosts := set (ohosts w) p h; onet := l ++ r ++ out' |}.
Proof.
  intros j w p m l r (Hj & H1 & H2 & H3) En. destruct H3 as [(E & _)|(HjN & E)]; [rewrite E in En; now destruct l|].
  assert (Elr : l = [] /\ r = [] /\ p = prev N j /\ m = out j).
  { rewrite E in En. destruct l as [|x l]; [|injection En as _ En; now destruct l]. cbn in En. injection En as E1 E2 E3. auto. }
  destruct Elr as (-> & -> & -> & ->). cbn [app]. unfold prev. destruct (Nat.eqb_spec j 0) as [->|Hj0].
  - destruct (H1 (N - 1) ltac:(lia)) as (A & B & C & D). assert (Epr : o_proto (ohosts w (N - 1)) = done_proto (N - 1)) by (destruct D as [D|(_ & _ & D & _)]; [exact D|congruence]).
    unfold take_overlap. rewrite Epr. unfold done_proto. rewrite Nat.eqb_refl. unfold received, is_running. cbn. eexists _, _. split; [reflexivity|]. exists 0. unfold oinv. ssplit; [lia| |intros p Hp; lia|].
    + intros p Hp. cbn [ohosts onet]. destruct (Nat.eq_dec p (N - 1)) as [->|Hd].
      * rewrite set_same. cbn [o_ready o_scored o_data o_proto]. ssplit; [exact A|exact B|exact C|]. right. auto.
      * rewrite set_other by exact Hd. destruct (H1 p Hp) as (A' & B' & C' & D'). ssplit; auto. left. destruct D' as [D'|(D' & _)]; [exact D'|congruence].
    + left. split; [reflexivity|]. intros _. cbn [ohosts Nat.eqb]. rewrite set_same. reflexivity.
  - destruct (H2 (j - 1) ltac:(lia)) as (A & B & C & D). unfold take_overlap. destruct (o_ready (ohosts w (j - 1))) eqn:Er.
    + destruct (C eq_refl) as (Hlt & Epr). rewrite Epr. unfold received, is_running. cbn [n_total n_received n_sent Nat.ltb Nat.leb orb negb].
      rewrite B. replace (out j) with (out (S (j - 1))) by (f_equal; lia). rewrite Hadd by lia. cbn [bind]. unfold send_overlap. cbn [o_data o_proto o_ready o_scored]. rewrite Hout by lia. cbn [bind o_proto sent n_total n_received n_sent is_running Nat.ltb Nat.leb orb].
      unfold is_running. cbn [o_proto sent n_total n_received n_sent Nat.ltb Nat.leb orb]. eexists _, _. split; [reflexivity|]. exists (j - 1). unfold oinv. ssplit; [lia| | |].
      * intros p Hp. cbn [ohosts onet]. destruct (Nat.eq_dec p (j - 1)) as [->|Hd].
        -- rewrite set_same. cbn [o_ready o_scored o_data o_proto]. ssplit; [reflexivity|now rewrite A|reflexivity|]. left. unfold done_proto. destruct (Nat.eqb_spec (j - 1) (N - 1)); [lia|]. reflexivity.
        -- rewrite set_other by exact Hd. destruct (H1 p ltac:(lia)) as (A' & B' & C' & D'). ssplit; auto. left. destruct D' as [D'|(_ & _ & D' & _)]; [exact D'|congruence].
      * intros p Hp. cbn [ohosts onet]. rewrite set_other by lia. destruct (H2 p ltac:(lia)) as (A' & B' & C' & D'). ssplit; auto. intros Hf. destruct (D' Hf) as [D''|(D'' & _)]; [now left|lia].
      * right. cbn [onet]. split; [lia|]. unfold prev. reflexivity.
    + destruct (D eq_refl) as [Epr|(_ & _ & D' & _)]; [|congruence]. rewrite Epr. unfold received, is_running. cbn. eexists _, _. split; [reflexivity|]. exists j. unfold oinv. ssplit; [lia| | |].
      * intros p Hp. cbn [ohosts onet]. rewrite set_other by lia. destruct (H1 p Hp) as (A' & B' & C' & D'). ssplit; auto. left. destruct D' as [D'|(_ & D' & _)]; [exact D'|lia].
      * intros p Hp. cbn [ohosts onet]. destruct (Nat.eq_dec p (j - 1)) as [->|Hd].
        -- rewrite set_same. cbn [o_ready o_scored o_data o_proto]. ssplit; [exact A|exact B|congruence|]. intros _. right. ssplit; [lia|lia|reflexivity|reflexivity].
        -- rewrite set_other by exact Hd. destruct (H2 p Hp) as (A' & B' & C' & D'). ssplit; auto. intros Hf. destruct (D' Hf) as [D''|(D'' & _)]; [now left|lia].
      * left. split; [reflexivity|]. intros _. cbn [ohosts]. destruct (Nat.eqb_spec j 0); [lia|]. rewrite set_same. cbn [o_ready o_proto buffer]. auto.
Qed.

Lemma oinv_reachable : forall w, oreachable N q data w -> exists j, oinv j w.
Proof.
  intros w H. induction H as [|w w' H (j & IH) Hs]; [exists N; apply oinv_start|]. destruct Hs as [w p h o Hp Hr E|w p m l r h o En E].
  - destruct (ready_ok j w p IH Hp Hr) as (h' & o' & E' & I). rewrite E in E'. injection E' as -> ->. exact I.
  - destruct (take_ok j w p m l r IH En) as (h' & o' & E' & I). rewrite E in E'. injection E' as -> ->. exact I.
Qed.
Lemma oinv_scored : forall j w p, oinv j w -> p < N -> o_scored (ohosts w p) <= 1 /\ (o_scored (ohosts w p) = 1 -> o_data (ohosts w p) = final p).
Proof.
  intros j w p (Hj & H1 & H2 & H3) Hp. destruct (Nat.lt_ge_cases p j) as [L|L].
  - destruct (H2 p L) as (A & _). rewrite A. split; [lia|discriminate].
  - destruct (H1 p ltac:(lia)) as (_ & A & B & _). rewrite A. split; [lia|auto].
Qed.
(** Nothing left to do: all hosts have scored. *)
Lemma oinv_stuck : forall j w, oinv j w -> (forall w', ~ ostep N q w w') -> forall p, p < N -> o_scored (ohosts w p) = 1.
Proof.
  intros j w I Hs. assert (Hr : forall p, p < N -> o_ready (ohosts w p) = true).
  { intros p Hp. destruct (o_ready (ohosts w p)) eqn:E; [reflexivity|]. destruct (ready_ok j w p I Hp E) as (h & o & E' & _). exfalso. eapply Hs. eapply becomes_ready; eauto. }
  assert (En : onet w = []).
  { destruct (onet w) as [|[p m] r] eqn:E; [reflexivity|]. destruct (take_ok j w p m [] r I E) as (h & o & E' & _). exfalso. eapply Hs. apply (takes N q w p m [] r h o E E'). }
  destruct I as (Hj & H1 & H2 & H3). intros p Hp. destruct (Nat.eq_dec j 0) as [->|Hj0]; [destruct (H1 p ltac:(lia)) as (_ & X & _); exact X|]. exfalso. destruct (Nat.eq_dec j N) as [->|HjN].
  - destruct (H2 (N - 1) ltac:(lia)) as (_ & _ & A & _). destruct (A (Hr (N - 1) ltac:(lia))) as (A' & _). lia.
  - destruct H3 as [(_ & A)|(_ & A)]; [|congruence]. specialize (A ltac:(lia)). destruct (Nat.eqb_spec j 0); [lia|]. destruct A as (A & _). rewrite Hr in A by lia. discriminate.
Qed.
(** ** Every run ends *)
Definition todo_at (h : ohost) : nat := (if o_ready h then 0 else 1) + (1 - o_scored h).
Definition todo (w : oworld) : nat := list_sum (map (fun k => todo_at (ohosts w k)) (seq 0 N)).
Lemma todo_change : forall w p h net, p < N -> todo {| ohosts := set (ohosts w) p h; onet := net |} + todo_at (ohosts w p) = todo w + todo_at h.
Proof.
  intros w p h net Hp. unfold todo. cbn [ohosts]. assert (G : forall n s, list_sum (map (fun k => todo_at (set (ohosts w) p h k)) (seq s n)) + (if (s <=? p) && (p <? s + n) then todo_at (ohosts w p) else 0)
    = list_sum (map (fun k => todo_at (ohosts w k)) (seq s n)) + (if (s <=? p) && (p <? s + n) then todo_at h else 0)).
  { induction n as [|n IH]; intros s; [cbn [seq map]; destruct (Nat.leb_spec s p), (Nat.ltb_spec p (s + 0)); cbn [andb]; lia|]. cbn [seq map]. change (list_sum (?a :: ?b)) with (a + list_sum b). specialize (IH (S s)). destruct (Nat.eq_dec s p) as [->|Ne].
    - rewrite set_same. destruct (Nat.leb_spec (S p) p); [lia|]. cbn [andb] in IH. destruct (Nat.leb_spec p p), (Nat.ltb_spec p (p + S n)); cbn [andb]; lia.
    - rewrite set_other by exact Ne. destruct (Nat.leb_spec (S s) p), (Nat.leb_spec s p), (Nat.ltb_spec p (S s + n)), (Nat.ltb_spec p (s + S n)); cbn [andb] in *; lia. }
  specialize (G N 0). cbn [Nat.leb Nat.add andb] in G. destruct (Nat.ltb_spec p N); [|lia]. exact G.
Qed.
Lemma ostep_decreases : forall j w w', oinv j w -> ostep N q w w' -> todo w' < todo w \/ todo w' = todo w /\ length (onet w') < length (onet w).
Proof.
  intros j w w' (Hj & H1 & H2 & H3) St. destruct St as [w p h o Hp Hr E|w p m l r h o En E].
  - left. pose proof (todo_change w p h (onet w ++ o) Hp) as T.
    assert (Th : o_ready h = true /\ o_scored (ohosts w p) <= o_scored h).
    { unfold init_done in E. destruct (p =? N - 1); [|destruct (resolve_buffer _); injection E as <- _; cbn; auto]. unfold send_overlap in E. destruct (overlap_of _ _); [|discriminate]. cbn [bind] in E. injection E as <- _. cbn. auto. }
    destruct Th as (T1 & T2). unfold todo_at in T. rewrite T1, Hr in T. lia.
  - destruct H3 as [(E0 & _)|(HjN & E0)]; [rewrite E0 in En; now destruct l|].
    assert (Ep : l = [] /\ r = [] /\ p = prev N j). { rewrite E0 in En. destruct l as [|x l]; [|injection En as _ En; now destruct l]. cbn in En. injection En as E1 E2 E3. auto. }
    destruct Ep as (-> & -> & ->). assert (Hp : prev N j < N) by (unfold prev; destruct (Nat.eqb_spec j 0); lia). pose proof (todo_change w (prev N j) h ([] ++ [] ++ o) Hp) as T.
    unfold take_overlap in E. unfold received in E. destruct (is_running (o_proto (ohosts w (prev N j)))) eqn:Er; cbn [negb] in E.
    + left. destruct (Nat.eq_dec j 0) as [->|Nj].
      * exfalso. cbn [prev Nat.eqb] in Er. destruct (H1 (N - 1) ltac:(lia)) as (_ & _ & _ & D). assert (Epr : o_proto (ohosts w (N - 1)) = done_proto (N - 1)) by (destruct D as [D|(_ & _ & D & _)]; [exact D|congruence]).
        rewrite Epr in Er. unfold done_proto in Er. rewrite Nat.eqb_refl in Er. discriminate.
      * assert (Epj : prev N j = j - 1) by (unfold prev; now destruct (Nat.eqb_spec j 0)). rewrite Epj in *. destruct (H2 (j - 1) ltac:(lia)) as (S0 & _).
        destruct (add_overlap _ _) as [dt|]; [|discriminate]. cbn [bind] in E. unfold send_overlap in E. destruct (overlap_of _ _) as [o'|]; [|discriminate]. cbn [bind o_proto] in E. 
        match type of E with (if ?b then _ else _) = _ => destruct b; [discriminate|] end.
        assert (Th : o_ready h = o_ready (ohosts w (j - 1)) /\ o_scored h = 1) by (injection E as <- _; cbn; split; [reflexivity|now rewrite S0]). destruct Th as (T1 & T2). unfold todo_at in T. rewrite T1, T2, S0 in T. lia.
    + right. assert (Th : o_ready h = o_ready (ohosts w (prev N j)) /\ o_scored h = o_scored (ohosts w (prev N j)) /\ o = []) by (injection E as <- <-; auto). destruct Th as (T1 & T2 & ->). unfold todo_at in T. rewrite T1, T2 in T. split; [lia|]. cbn [onet app]. rewrite E0. cbn. lia.
Qed.
End Overlap.
