From Coq Require Import List Arith Bool Lia Permutation.
From Verif.Base Require Import ListX.
From Verif.Manager Require Import Model.
Import ListNotations.

Section M.
Context {data : Type} (own : data).
Notation msg := (msg data). Notation mstate := (mstate data).

Definition isL (m : msg) := match m with MLoad => true | _ => false end.
Definition isP (m : msg) := match m with MPart _ => true | _ => false end.
Definition isM (m : msg) := match m with MMinMaxDone => true | _ => false end.
Definition isS (m : msg) := match m with MStdDone => true | _ => false end.
Definition cnt (f : msg -> bool) (s : mstate) := length (filter f (mailbox s ++ network s)).
Definition b2n (b : bool) := if b then 1 else 0.

Definition inv (is_reader : bool) (s : mstate) : Prop :=
  role s = is_reader
  /\ cnt isL s + b2n (connected s) = 1
  /\ cnt isP s + length (partition_buffer s) + calcs s + (if is_reader then 1 - b2n (connected s) else 0) = 1
  /\ (connected s = true -> partition_buffer s = [])
  /\ cnt isM s + b2n (mm s) = calcs s
  /\ cnt isS s + b2n (sd s) = calcs s
  /\ preps s = b2n (mm s && sd s)
  /\ stored s = (if calcs s =? 0 then None else Some own)
  /\ Forall (fun m => match m with MPart d => d = own | _ => True end) (mailbox s ++ network s)
  /\ Forall (fun d => d = own) (partition_buffer s).

Lemma cnt_perm : forall f (l l' : list msg), Permutation l l' -> length (filter f l) = length (filter f l').
Proof. intros f l l' H. induction H; cbn; [reflexivity| | |congruence]; repeat destruct (f _); cbn; lia. Qed.

Lemma filter_parts : forall f (l : list data), (forall d, f (MPart d) = false) -> filter f (map MPart l) = [].
Proof. intros f l H. induction l as [|a t IH]; cbn; [reflexivity|]. now rewrite H. Qed.

Lemma inv_step : forall is_reader s s', inv is_reader s -> step own s s' -> inv is_reader s'.
Proof.
  intros is_reader s s' HI Hs. destruct Hs as [s before m after Hn|s m rest Hm].
  - (* arrival: only a reordering *)
    destruct HI as (I0 & I1 & I2 & I3 & I4 & I5 & I6 & I7 & I8 & I9).
    assert (HP : Permutation ((mailbox s ++ [m]) ++ before ++ after) (mailbox s ++ network s)).
    { rewrite Hn, <- app_assoc. apply Permutation_app_head. cbn. apply Permutation_middle. }
    unfold inv, cnt. cbn [role connected partition_buffer stored calcs preps mm sd mailbox network].
    rewrite !(cnt_perm _ _ _ HP). unfold cnt in *. ssplit; auto.
    eapply Permutation_Forall; [apply Permutation_sym; exact HP|exact I8].
  - destruct HI as (I0 & I1 & I2 & I3 & I4 & I5 & I6 & I7 & I8 & I9).
    unfold cnt in *. rewrite Hm in *. cbn [app filter] in *. apply Forall_cons_iff in I8. destruct I8 as (I8 & I8').
    rewrite Forall_app in I8'. destruct I8' as (I8a & I8b).
    destruct m as [|d| |]; cbn [isL isP isM isS] in *; cbn [length] in *; rewrite !filter_app, !app_length in I1, I2, I4, I5.
    + (* load *)
      unfold handle. rewrite I0. destruct (connected s) eqn:Ec; cbn [b2n] in *; [lia|].
      destruct is_reader; unfold inv, cnt; cbn [role connected partition_buffer stored calcs preps mm sd mailbox network b2n];
        rewrite !filter_app, !app_length.
      * cbn [filter isL isP isM isS length]. 
        assert (partition_buffer s = []) by (apply length_zero_iff_nil; lia).
        ssplit; auto; try lia; rewrite ?Forall_app; ssplit; auto.
      * rewrite (filter_parts isL), (filter_parts isM), (filter_parts isS) by reflexivity.
        assert (Ef : filter isP (map MPart (rev (partition_buffer s))) = map MPart (rev (partition_buffer s))).
        { generalize (rev (partition_buffer s)). intros l. induction l as [|a t IH]; cbn; [reflexivity|]. now rewrite IH. }
        rewrite Ef, map_length, rev_length. cbn [length]. ssplit; auto; try lia.
        rewrite !Forall_app. ssplit; auto. rewrite Forall_forall. intros x Hx. apply in_map_iff in Hx.
        destruct Hx as (d & <- & Hd). apply in_rev in Hd. rewrite Forall_forall in I9. auto.
    + (* partition *)
      unfold handle. destruct (connected s) eqn:Ec; cbn [b2n] in *.
      * unfold inv, cnt; cbn [role connected partition_buffer stored calcs preps mm sd mailbox network b2n].
        assert (calcs s = 0) as E0 by lia.
        rewrite !filter_app, !app_length. cbn [filter isL isP isM isS length]. rewrite E0 in *. cbn [Nat.eqb Nat.add].
        assert (mm s = false) as Em by (destruct (mm s); cbn in *; [lia|reflexivity]).
        assert (sd s = false) as Es by (destruct (sd s); cbn in *; [lia|reflexivity]).
        rewrite Em, Es in *. cbn [b2n andb] in *. ssplit; auto; try lia.
        -- now rewrite I8.
        -- rewrite !Forall_app. ssplit; auto.
      * destruct is_reader; [lia|].
        unfold inv, cnt; cbn [role connected partition_buffer stored calcs preps mm sd mailbox network b2n].
        rewrite !filter_app, !app_length. cbn [length]. ssplit; auto; try lia; try congruence.
        -- rewrite Forall_app. auto.
        -- rewrite Forall_app. split; [exact I9|]. constructor; [exact I8|constructor].
    + assert (calcs s = 1) as E1 by (destruct is_reader; destruct (connected s); cbn in *; lia).
      assert (mm s = false) as Em by (destruct (mm s); cbn in *; [lia|reflexivity]). rewrite Em, E1 in *. cbn [b2n andb] in *.
      unfold handle, stats_finished. cbn [mm sd andb].
      destruct (sd s) eqn:Es; unfold inv, cnt; cbn [role connected partition_buffer stored calcs preps mm sd mailbox network b2n andb];
        rewrite ?Es, ?E1, !filter_app, !app_length; cbn [b2n andb]; ssplit; auto; try lia; rewrite ?Forall_app; auto.
    + assert (calcs s = 1) as E1 by (destruct is_reader; destruct (connected s); cbn in *; lia).
      assert (sd s = false) as Es by (destruct (sd s); cbn in *; [lia|reflexivity]). rewrite Es, E1 in *. rewrite andb_false_r in *. cbn [b2n andb] in *.
      unfold handle, stats_finished. cbn [mm sd andb].
      destruct (mm s) eqn:Em; unfold inv, cnt; cbn [role connected partition_buffer stored calcs preps mm sd mailbox network b2n andb];
        rewrite ?Em, ?E1, !filter_app, !app_length; cbn [b2n andb]; ssplit; auto; try lia; rewrite ?Forall_app; auto.
Qed.

Lemma reachable_inv : forall is_reader s, reachable is_reader own s -> inv is_reader s.
Proof.
  intros is_reader s H. induction H as [|s s' _ IH Hs]; [|eapply inv_step; eauto].
  unfold inv, start, cnt. cbn [role connected partition_buffer stored calcs preps mm sd mailbox network b2n andb app].
  destruct is_reader; cbn; repeat split; auto; repeat constructor; discriminate.
Qed.

Theorem manager_once : forall is_reader s, reachable is_reader own s ->
  calcs s <= 1 /\ preps s <= 1
  /\ (stored s = None \/ stored s = Some own)
  /\ (mailbox s = [] -> network s = [] -> calcs s = 1 /\ preps s = 1 /\ stored s = Some own).
Proof.
  intros is_reader s H. destruct (reachable_inv is_reader s H) as (I0 & I1 & I2 & I3 & I4 & I5 & I6 & I7 & I8 & I9).
  ssplit.
  - lia.
  - rewrite I6. destruct (_ && _); cbn; lia.
  - rewrite I7. destruct (calcs s =? 0); auto.
  - intros Em En. unfold cnt in *. rewrite Em, En in *. cbn [app filter length] in *.
    destruct (connected s) eqn:Ec; cbn [b2n] in *; [|lia]. rewrite I3 in I2 by reflexivity. cbn [length] in I2.
    assert (calcs s = 1) as E1 by (destruct is_reader; lia). rewrite E1 in *. cbn in I7.
    destruct (mm s); cbn in I4; [|lia]. destruct (sd s); cbn in I5; [|lia]. auto.
Qed.
End M.
