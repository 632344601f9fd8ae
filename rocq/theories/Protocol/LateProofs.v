(** Rings with a host that begins late: counters in every run, and a run that loses a contribution in every ring of three or more hosts. *)
From Coq Require Import List Arith Bool Lia Permutation.
From Verif.Base Require Import ListX.
From Verif.Protocol Require Import Model Exchange ExchangeProofs Ring RingProofs.
From Verif.Pipeline Require Import RunProofs.
Import ListNotations.

Section L.
Context {T : Type} (n : nat) (contribution : nat -> T).
Notation msg := (msg contribution).

(** ** Every run, whenever the hosts begin *)
Section Counters.
Hypothesis Hn : 2 <= n.
Definition ended (d : node T) : nat := if begun d then (if length (taken d) =? n - 1 then 1 else 0) else 0.
Lemma finished_step : forall allowed w w', linv n w -> (forall p, p < n -> finished (node_of w p) = ended (node_of w p)) -> rstep n contribution allowed w w' -> forall p, p < n -> finished (node_of w' p) = ended (node_of w' p).
Proof.
  intros allowed w w' HI HF St q Hq. destruct St as [w p Hp Hb Ha|w p m r Hp Ht|w p m r Hp Hm].
  - destruct (Nat.eq_dec q p) as [->|N]; [|rewrite put_node_other by exact N; now apply HF]. rewrite put_node_same. destruct (HI p Hp) as (P1 & _). destruct (P1 Hb) as (_ & _ & _ & Et). pose proof (HF p Hp) as F. unfold ended in F. rewrite Hb in F.
    unfold begin_ring, ended. cbn [resolve_buffer fst begun taken finished]. rewrite Et, F. destruct (Nat.eqb_spec (length (@nil (message T))) (n - 1)) as [E|E]; [cbn in E; lia|reflexivity].
  - cbn [node_of]. destruct (Nat.eq_dec q p) as [->|N]; [rewrite set_same; exact (HF p Hp)|rewrite set_other by exact N; now apply HF].
  - destruct (Nat.eq_dec q p) as [->|N]; [|rewrite put_node_other by exact N; now apply HF]. rewrite put_node_same. destruct (HI p Hp) as (P1 & P2 & P3). pose proof (HF p Hp) as F. pose proof (sends_le n Hn (node_of w (prev n p))) as Hle. set (d := node_of w p) in *. unfold take_in.
    destruct (begun d) eqn:Hb.
    + destruct (P2 eq_refl) as (E1 & E2 & E3 & E4). rewrite E4, Hm in P3. cbn [length] in P3. assert (Hsd : sends n d = S (length (taken d))) by (unfold sends; rewrite Hb; lia).
      assert (Erun : is_running (rproto (pop d r)) = true) by (unfold pop, is_running; cbn [rproto]; rewrite E1, E2; apply orb_true_iff; left; apply Nat.ltb_lt; lia).
      unfold received. rewrite Erun. cbn [pop rproto taken finished mailbox begun]. rewrite E1, E2, E3, Hsd. unfold is_running. cbn [n_total n_received n_sent]. unfold ended in *. rewrite Hb in F.
      destruct (Nat.eqb_spec (length (taken d)) (n - 1)) as [X|X]; [lia|]. destruct (Nat.ltb_spec (S (length (taken d))) (n - 1)) as [L|L]; cbn [orb fst begun taken finished]. all: rewrite ?Hb, ?app_length, ?F; cbn [length]; destruct (Nat.eqb_spec (length (taken d) + 1) (n - 1)); lia.
    + destruct (P1 eq_refl) as (E1 & E2 & E3 & Etk). assert (Erun : is_running (rproto (pop d r)) = false) by (unfold pop, is_running; cbn [rproto]; rewrite E1; reflexivity).
      unfold received. rewrite Erun. cbn [fst pop rproto taken finished mailbox begun]. unfold ended in *. cbn [begun]. rewrite Hb in *. exact F.
Qed.
Lemma finished_reachable : forall w, rreachable n contribution anytime w -> forall p, p < n -> finished (node_of w p) = ended (node_of w p).
Proof. intros w R. induction R as [|w w' R IH St]; [reflexivity|]. apply (finished_step anytime w w' (linv_reachable n contribution Hn anytime w R) IH St). Qed.
Lemma late_complete : forall w, rreachable n contribution anytime w -> rstuck n contribution w -> forall p, p < n -> length (taken (node_of w p)) = n - 1 /\ finished (node_of w p) = 1.
Proof.
  intros w R Hs. pose proof (linv_reachable n contribution Hn anytime w R) as HI. set (f := fun p => length (taken (node_of w p))).
  assert (Heq : forall p, p < n -> f p = Nat.min (S (f (prev n p))) (n - 1)).
  { intros p Hp. destruct (HI p Hp) as (_ & P2 & P3). destruct (stuck_facts n contribution w Hs p Hp) as (B & Tr & Mb). destruct (P2 B) as (_ & _ & _ & Eb).
    rewrite Eb, Tr, Mb in P3. cbn [length] in P3. unfold sends in P3. rewrite (proj1 (stuck_facts n contribution w Hs (prev n p) (prev_lt n Hn p))) in P3. unfold f. lia. }
  assert (G : forall m, m <= n - 1 -> forall p, p < n -> m <= f p).
  { induction m as [|m IH]; intros Hm p Hp; [lia|]. rewrite Heq by exact Hp. specialize (IH ltac:(lia) (prev n p) (prev_lt n Hn p)). lia. }
  assert (A : forall p, p < n -> f p = n - 1).
  { intros p Hp. pose proof (G (n - 1) (le_n _) p Hp). rewrite Heq by exact Hp. pose proof (G (n - 1) (le_n _) (prev n p) (prev_lt n Hn p)). lia. }
  intros p Hp. split; [now apply A|]. rewrite finished_reachable by assumption. unfold ended. rewrite (proj1 (stuck_facts n contribution w Hs p Hp)). fold (f p). now rewrite A, Nat.eqb_refl.
Qed.
End Counters.

(** ** A run that loses a contribution *)
Hypothesis Hn : 3 <= n.
Let Hn2 : 2 <= n. Proof. lia. Qed.

Definition ready : node T := {| begun := true; rproto := sent (start (n - 1) new_protocol); taken := []; finished := 0; mailbox := [] |}.
Lemma all_but_one : forall k, 2 <= k <= n -> exists w, rreachable n contribution anytime w /\
  (forall p, p < n -> node_of w p = if (p =? 0) || ((2 <=? p) && (p <? k)) then ready else new_node) /\
  (forall q, q < n -> transit w q = if (prev n q =? 0) || ((2 <=? prev n q) && (prev n q <? k)) then [msg (prev n q)] else []).
Proof.
  induction k as [|k IH]; intros Hk; [lia|].
  assert (Begin : forall w a (sel : nat -> bool), a < n -> sel a = false -> rreachable n contribution anytime w -> (forall p, p < n -> node_of w p = if sel p then ready else new_node) -> (forall q, q < n -> transit w q = if sel (prev n q) then [msg (prev n q)] else []) ->
    exists w', rreachable n contribution anytime w' /\ (forall p, p < n -> node_of w' p = if (p =? a) || sel p then ready else new_node) /\ (forall q, q < n -> transit w' q = if (prev n q =? a) || sel (prev n q) then [msg (prev n q)] else [])).
  { intros w a sel Ha Hs R H1 H2. exists (put n w a (begin_ring n contribution a (node_of w a))). pose proof (H1 a Ha) as Ea. rewrite Hs in Ea. ssplit.
    - eapply r_after; [exact R|]. apply begins; [exact Ha|now rewrite Ea|exact I].
    - intros p Hp. destruct (Nat.eqb_spec p a) as [->|N]; [rewrite put_node_same, Ea; reflexivity|rewrite put_node_other by exact N; now apply H1].
    - intros q Hq. destruct (Nat.eqb_spec (prev n q) a) as [E|N].
      + assert (q = next n a) as -> by (apply (prev_eq_next n Hn2 a q Ha Hq E)). rewrite put_transit_next, H2 by exact Hq. rewrite (prev_next n Hn2 a Ha), Hs, Ea. reflexivity.
      + rewrite put_transit_other; [now apply H2|]. intros ->. apply N. now apply prev_next. }
  destruct (Nat.eq_dec k 1) as [->|N1].
  - destruct (Begin rinitial 0 (fun _ => false)) as (w & R & A & B); [lia|reflexivity|constructor|reflexivity|reflexivity|]. exists w. split; [exact R|]. split.
    + intros p Hp. rewrite A by exact Hp. destruct p as [|[|p]]; reflexivity.
    + intros q Hq. rewrite B by exact Hq. destruct (prev n q) as [|[|p]]; reflexivity.
  - destruct (IH ltac:(lia)) as (w0 & R0 & A0 & B0).
    assert (E : forall p, (p =? k) || ((p =? 0) || ((2 <=? p) && (p <? k))) = (p =? 0) || ((2 <=? p) && (p <? S k))).
    { intros p. destruct (Nat.eqb_spec p k), (Nat.eqb_spec p 0), (Nat.leb_spec 2 p), (Nat.ltb_spec p k), (Nat.ltb_spec p (S k)); cbn; try reflexivity; lia. }
    destruct (Begin w0 k (fun p => (p =? 0) || ((2 <=? p) && (p <? k)))) as (w & R & A & B); [lia| |exact R0|exact A0|exact B0|].
    + destruct (Nat.eqb_spec k 0), (Nat.leb_spec 2 k), (Nat.ltb_spec k k); cbn; try reflexivity; lia.
    + exists w. split; [exact R|]. split; intros; [rewrite A by assumption|rewrite B by assumption]; now rewrite E.
Qed.

(** All have begun; hosts 2, 3, ... get the contributions in the order in which their predecessors took them in; the first one host 1 takes in is the one of the last host. *)
Definition mixed_up (w : rworld T) : Prop :=
  (forall p, p < n -> begun (node_of w p) = true) /\
  (forall p, 2 <= p < n -> taken (node_of w p) ++ mailbox (node_of w p) ++ transit w p = firstn (n - 1) (msg (p - 1) :: taken (node_of w (p - 1)))) /\
  hd_error (taken (node_of w 1) ++ mailbox (node_of w 1)) = Some (msg (n - 1)).
Lemma mixed_up_reached : exists w, rreachable n contribution anytime w /\ mixed_up w.
Proof.
  destruct (all_but_one n ltac:(lia)) as (w & R & A & B).
  assert (N0 : next n 0 = 1) by (unfold next; apply Nat.mod_small; lia). assert (N1 : next n 1 = 2) by (unfold next; apply Nat.mod_small; lia).
  assert (P : forall q, 1 <= q < n -> prev n q = q - 1) by (intros q Hq; destruct (prev_cases n Hn2 q ltac:(lia)) as [(_ & E)|(E & _)]; [exact E|lia]).
  assert (P0 : prev n 0 = n - 1) by (destruct (prev_cases n Hn2 0 ltac:(lia)) as [(E & _)|(_ & E)]; [lia|exact E]).
  assert (A0 : node_of w 0 = ready) by (rewrite A by lia; reflexivity). assert (A1 : node_of w 1 = new_node) by (rewrite A by lia; reflexivity).
  assert (A2 : forall p, 2 <= p < n -> node_of w p = ready). { intros p Hp. rewrite A by lia. destruct (Nat.eqb_spec p 0), (Nat.leb_spec 2 p), (Nat.ltb_spec p n); cbn; try reflexivity; lia. }
  assert (B0 : transit w 0 = [msg (n - 1)]). { rewrite B by lia. rewrite P0. destruct (Nat.eqb_spec (n - 1) 0), (Nat.leb_spec 2 (n - 1)), (Nat.ltb_spec (n - 1) n); cbn; try reflexivity; lia. }
  assert (B1 : transit w 1 = [msg 0]) by (rewrite B, P by lia; reflexivity). assert (B2 : transit w 2 = []) by (rewrite B, P by lia; reflexivity).
  assert (B3 : forall q, 3 <= q < n -> transit w q = [msg (q - 1)]). { intros q Hq. rewrite B, P by lia. destruct (Nat.eqb_spec (q - 1) 0), (Nat.leb_spec 2 (q - 1)), (Nat.ltb_spec (q - 1) n); cbn; try reflexivity; lia. }
  clear A B.
  set (d1 := pop new_node [msg 0]). set (w1 := {| node_of := set (node_of w) 1 d1; transit := set (transit w) 1 [] |}).
  assert (R1 : rreachable n contribution anytime w1). { eapply r_after; [exact R|]. unfold w1, d1. rewrite <- A1. change [msg 0] with ([] ++ [msg 0]) at 1. replace (@nil (message T)) with (mailbox (node_of w 1)) at 1 by (rewrite A1; reflexivity). apply arrives; [lia|exact B1]. }
  set (d2 := {| begun := false; rproto := {| n_total := 0; n_received := 0; n_sent := 0; buffer := [msg 0] |}; taken := []; finished := 0; mailbox := [] |}).
  set (w2 := put n w1 1 (d2, [])).
  assert (R2 : rreachable n contribution anytime w2). { eapply r_after; [exact R1|]. unfold w2. change (d2, @nil (message T)) with (take_in (msg 0) (pop d1 [])). replace d1 with (node_of w1 1) by (unfold w1; cbn [node_of]; apply set_same). apply takes_in; [lia|]. unfold w1. cbn [node_of]. rewrite set_same. reflexivity. }
  assert (C0 : node_of w2 0 = ready) by (unfold w2; rewrite put_node_other by lia; unfold w1; cbn [node_of]; now rewrite set_other by lia).
  assert (D0 : transit w2 0 = [msg (n - 1)]) by (unfold w2; rewrite put_transit_other by lia; unfold w1; cbn [transit]; now rewrite set_other by lia).
  set (d3 := pop ready [msg (n - 1)]). set (w3 := {| node_of := set (node_of w2) 0 d3; transit := set (transit w2) 0 [] |}).
  assert (R3 : rreachable n contribution anytime w3). { eapply r_after; [exact R2|]. unfold w3, d3. rewrite <- C0. change [msg (n - 1)] with ([] ++ [msg (n - 1)]) at 1. replace (@nil (message T)) with (mailbox (node_of w2 0)) at 1 by (rewrite C0; reflexivity). apply arrives; [lia|exact D0]. }
  set (d4 := {| begun := true; rproto := {| n_total := n - 1; n_received := 1; n_sent := 2; buffer := [] |}; taken := [msg (n - 1)]; finished := 0; mailbox := [] |}).
  set (w4 := put n w3 0 (d4, [msg (n - 1)])).
  assert (E4 : take_in (msg (n - 1)) (pop d3 []) = (d4, [msg (n - 1)])).
  { unfold d3, d4, ready. remember (n - 1) as t eqn:Et. destruct t as [|[|t]]; [lia|lia|]. reflexivity. }
  assert (R4 : rreachable n contribution anytime w4). { eapply r_after; [exact R3|]. unfold w4. rewrite <- E4. replace d3 with (node_of w3 0) by (unfold w3; cbn [node_of]; apply set_same). apply takes_in; [lia|]. unfold w3. cbn [node_of]. rewrite set_same. reflexivity. }
  assert (C1 : node_of w4 1 = d2) by (unfold w4; rewrite put_node_other by lia; unfold w3; cbn [node_of]; rewrite set_other by lia; unfold w2; apply put_node_same).
  assert (D1 : transit w4 1 = [msg (n - 1)]). { unfold w4. pose proof (put_transit_next n w3 0 (d4, [msg (n - 1)])) as X. rewrite N0 in X. rewrite X. unfold w3. cbn [transit snd]. rewrite set_other by lia. unfold w2. rewrite put_transit_other by lia. unfold w1. cbn [transit]. rewrite set_same. reflexivity. }
  set (d5 := pop d2 [msg (n - 1)]). set (w5 := {| node_of := set (node_of w4) 1 d5; transit := set (transit w4) 1 [] |}).
  assert (R5 : rreachable n contribution anytime w5). { eapply r_after; [exact R4|]. unfold w5, d5. rewrite <- C1. change [msg (n - 1)] with ([] ++ [msg (n - 1)]) at 1. replace (@nil (message T)) with (mailbox (node_of w4 1)) at 1 by (rewrite C1; reflexivity). apply arrives; [lia|exact D1]. }
  assert (C5 : node_of w5 1 = d5) by (unfold w5; cbn [node_of]; apply set_same).
  exists (put n w5 1 (begin_ring n contribution 1 (node_of w5 1))). split.
  { eapply r_after; [exact R5|]. apply begins; [lia|rewrite C5; reflexivity|exact I]. }
  set (w6 := put n w5 1 (begin_ring n contribution 1 (node_of w5 1))).
  assert (F1 : node_of w6 1 = fst (begin_ring n contribution 1 d5)) by (unfold w6; rewrite put_node_same, C5; reflexivity).
  assert (F0 : node_of w6 0 = d4) by (unfold w6; rewrite put_node_other by lia; unfold w5; cbn [node_of]; rewrite set_other by lia; unfold w4; apply put_node_same).
  assert (F2 : forall p, 2 <= p < n -> node_of w6 p = ready).
  { intros p Hp. unfold w6. rewrite put_node_other by lia. unfold w5. cbn [node_of]. rewrite set_other by lia. unfold w4. rewrite put_node_other by lia. unfold w3. cbn [node_of]. rewrite set_other by lia. unfold w2. rewrite put_node_other by lia. unfold w1. cbn [node_of]. rewrite set_other by lia. now apply A2. }
  assert (G2 : forall q, 2 <= q < n -> transit w5 q = transit w q).
  { intros q Hq. unfold w5. cbn [transit]. rewrite set_other by lia. unfold w4. rewrite put_transit_other by lia. unfold w3. cbn [transit]. rewrite set_other by lia. unfold w2. destruct (Nat.eq_dec q 2) as [->|N]; [pose proof (put_transit_next n w1 1 (d2, [])) as X; rewrite N1 in X; rewrite X; cbn [snd]; rewrite app_nil_r|rewrite put_transit_other by lia]; unfold w1; cbn [transit]; now rewrite set_other by lia. }
  assert (H2 : forall q, 2 <= q < n -> transit w6 q = [msg (q - 1)]).
  { intros q Hq. unfold w6. destruct (Nat.eq_dec q 2) as [->|N]; [pose proof (put_transit_next n w5 1 (begin_ring n contribution 1 (node_of w5 1))) as X; rewrite N1 in X; rewrite X, G2, B2 by lia; reflexivity|]. rewrite put_transit_other by lia. rewrite G2 by lia. apply B3. lia. }
  unfold mixed_up. ssplit.
  - intros p Hp. destruct (Nat.eq_dec p 0) as [->|Z]; [now rewrite F0|]. destruct (Nat.eq_dec p 1) as [->|Z']; [now rewrite F1|]. rewrite F2 by lia. reflexivity.
  - intros p Hp. rewrite F2, H2 by lia. cbn [ready taken mailbox app]. assert (Et : taken (node_of w6 (p - 1)) = []) by (destruct (Nat.eq_dec p 2) as [->|Z]; [cbn [Nat.sub]; now rewrite F1|rewrite F2 by lia; reflexivity]).
    rewrite Et. destruct (n - 1) as [|k] eqn:En; [lia|]. cbn [firstn]. now rewrite firstn_nil.
  - rewrite F1. reflexivity.
Qed.

Lemma mixed_up_step : forall w w', rreachable n contribution anytime w -> mixed_up w -> rstep n contribution anytime w w' -> mixed_up w'.
Proof.
  intros w w' R (M1 & M2 & M3) St. pose proof (linv_reachable n contribution Hn2 anytime w R) as HI. destruct St as [w p Hp Hb Ha|w p m r Hp Ht|w p m r Hp Hm].
  - rewrite (M1 p Hp) in Hb. discriminate.
  - assert (Tk : forall q, taken (set (node_of w) p (pop (node_of w p) (mailbox (node_of w p) ++ [m])) q) = taken (node_of w q)) by (intros q; destruct (Nat.eq_dec q p) as [->|N]; [now rewrite set_same|now rewrite set_other]).
    unfold mixed_up. cbn [node_of transit]. ssplit.
    + intros q Hq. destruct (Nat.eq_dec q p) as [->|N]; [rewrite set_same; now apply M1|rewrite set_other by exact N; now apply M1].
    + intros q Hq. rewrite !Tk, <- (M2 q Hq). destruct (Nat.eq_dec q p) as [->|N]; [|now rewrite !set_other by exact N]. rewrite !set_same, Ht. cbn [pop mailbox]. now rewrite <- !app_assoc.
    + rewrite Tk. destruct (Nat.eq_dec p 1) as [->|N]; [|rewrite set_other by lia; exact M3]. rewrite set_same. cbn [pop mailbox]. destruct (taken (node_of w 1) ++ mailbox (node_of w 1)) as [|x l] eqn:E; [discriminate|]. rewrite app_assoc, E. exact M3.
  - destruct (HI p Hp) as (_ & P2 & P3). destruct (P2 (M1 p Hp)) as (E1 & E2 & E3 & E4). pose proof (sends_le n Hn2 (node_of w (prev n p))) as Hle. set (d := node_of w p) in *. rewrite E4, Hm in P3. cbn [length] in P3.
    assert (Hb : begun d = true) by now apply M1. assert (Hsd : sends n d = S (length (taken d))) by (unfold sends; rewrite Hb; lia).
    assert (Tin : exists d', take_in m (pop d r) = (d', if S (length (taken d)) <? n - 1 then [m] else []) /\ begun d' = true /\ taken d' = taken d ++ [m] /\ mailbox d' = r).
    { assert (Erun : is_running (rproto (pop d r)) = true) by (unfold pop, is_running; cbn [rproto]; rewrite E1, E2; apply orb_true_iff; left; apply Nat.ltb_lt; lia).
      unfold take_in, received. rewrite Erun. cbn [pop rproto taken finished mailbox begun]. rewrite E1, E2, E3, Hsd. unfold is_running. cbn [n_total n_received n_sent]. destruct (Nat.ltb_spec (S (length (taken d))) (n - 1)) as [L|L]; cbn [orb]; (eexists; split; [reflexivity|]); cbn [begun taken mailbox]; ssplit; try reflexivity; exact Hb. }
    destruct Tin as (d' & -> & B' & T' & Mb'). unfold mixed_up. ssplit.
    + intros q Hq. destruct (Nat.eq_dec q p) as [->|N]; [rewrite put_node_same; exact B'|rewrite put_node_other by exact N; now apply M1].
    + intros q Hq. pose proof (M2 q Hq) as Eq. pose proof (next_ne n Hn2 p Hp) as Nn. destruct (Nat.eq_dec q p) as [->|N].
      * rewrite put_node_same. rewrite put_transit_other by (intros X; apply Nn; now symmetry). rewrite put_node_other by (clear -Hq; lia). cbn [fst]. rewrite T', Mb', <- Eq. fold d. rewrite Hm. now rewrite <- !app_assoc.
      * rewrite (put_node_other n w p _ q N). destruct (Nat.eq_dec (q - 1) p) as [E|N'].
        -- assert (q = next n p) as -> by (destruct (next_cases n Hn2 p Hp) as [(Y & X)|(Y & X)]; lia). rewrite E, put_node_same, put_transit_next in *. cbn [fst snd]. rewrite T'. fold d in Eq.
           rewrite !app_assoc. rewrite app_assoc in Eq. rewrite Eq. change (msg p :: taken d ++ [m]) with ((msg p :: taken d) ++ [m]).
           destruct (Nat.ltb_spec (S (length (taken d))) (n - 1)) as [L|L]; [rewrite !firstn_all2 by (rewrite ?app_length; cbn [length]; lia); reflexivity|]. rewrite app_nil_r, firstn_app. cbn [length]. replace (n - 1 - S (length (taken d))) with 0 by lia. cbn [firstn]. now rewrite app_nil_r.
        -- rewrite put_transit_other, put_node_other by (exact N' || (destruct (next_cases n Hn2 p Hp) as [(Y & X)|(Y & X)]; lia)). exact Eq.
    + destruct (Nat.eq_dec p 1) as [->|N]; [|rewrite put_node_other by lia; exact M3]. rewrite put_node_same. cbn [fst]. rewrite T', Mb', <- app_assoc. cbn [app]. rewrite <- Hm. exact M3.
Qed.

Lemma mixed_up_ends : exists w, (rreachable n contribution anytime w /\ mixed_up w) /\ rstuck n contribution w.
Proof.
  destruct mixed_up_reached as (w & R & M). apply (completes _ (fun w => rreachable n contribution anytime w /\ mixed_up w) (rstep n contribution anytime) (rweight n) (fun _ => 0)) with (w := w); [| |auto].
  - clear w R M. intros w (R & M1 & _). destruct (some_below (fun p => match mailbox (node_of w p) with [] => false | _ => true end) n) as [(p & Hp & E)|E1].
    { left. destruct (mailbox (node_of w p)) as [|m r] eqn:Em; [discriminate|]. eexists. eapply takes_in; eauto. }
    destruct (some_below (fun p => match transit w p with [] => false | _ => true end) n) as [(p & Hp & E)|E2].
    { left. destruct (transit w p) as [|m r] eqn:Em; [discriminate|]. eexists. eapply arrives; eauto. }
    right. intros w' St. inversion St as [w0 p Hp Hb Ha|w0 p m r Hp Ht|w0 p m r Hp Hm]; subst; [rewrite (M1 p Hp) in Hb; discriminate|specialize (E2 p Hp); now rewrite Ht in E2|specialize (E1 p Hp); now rewrite Hm in E1].
  - clear w R M. intros w w' (R & M) St. split; [split; [eapply r_after; eauto|eapply mixed_up_step; eauto]|]. left. exact (proj2 (linv_step n contribution Hn2 anytime w w' (linv_reachable n contribution Hn2 anytime w R) St)).
Qed.

Lemma loses_one : exists w, rreachable n contribution anytime w /\ rstuck n contribution w /\
  (forall i, i < n - 2 -> nth_error (taken (node_of w (n - 1))) i = Some (msg (n - 2 - i))) /\ nth_error (taken (node_of w (n - 1))) (n - 2) = Some (msg (n - 1)).
Proof.
  destruct mixed_up_ends as (w & (R & M1 & M2 & M3) & St). exists w. split; [exact R|]. split; [exact St|].
  assert (G : forall p, 1 <= p < n -> (forall i, i < p - 1 -> nth_error (taken (node_of w p)) i = Some (msg (p - 1 - i))) /\ nth_error (taken (node_of w p)) (p - 1) = Some (msg (n - 1))).
  { induction p as [|p IH]; intros Hp; [lia|]. destruct (Nat.eq_dec p 0) as [->|N].
    - split; [intros i Hi; lia|]. destruct (stuck_facts n contribution w St 1 ltac:(lia)) as (_ & _ & Mb). rewrite Mb, app_nil_r in M3. destruct (taken (node_of w 1)); [discriminate|exact M3].
    - destruct (IH ltac:(lia)) as (I1 & I2). destruct (stuck_facts n contribution w St (S p) ltac:(lia)) as (_ & Tr & Mb). pose proof (M2 (S p) ltac:(lia)) as E. rewrite Tr, Mb, !app_nil_r in E. replace (S p - 1) with p in * by lia. rewrite E.
      assert (F : forall i, i < n - 1 -> nth_error (firstn (n - 1) (msg p :: taken (node_of w p))) i = nth_error (msg p :: taken (node_of w p)) i).
      { intros i Hi. rewrite <- (firstn_skipn (n - 1) (msg p :: taken (node_of w p))) at 2. destruct (Nat.lt_ge_cases i (length (firstn (n - 1) (msg p :: taken (node_of w p))))) as [L|L]; [now rewrite nth_error_app1|].
        rewrite firstn_length in L. assert (L' : length (msg p :: taken (node_of w p)) <= i) by lia. rewrite (proj2 (nth_error_None _ _)) by (rewrite firstn_length; lia). symmetry. apply nth_error_None. rewrite firstn_skipn. exact L'. }
      split.
      + intros i Hi. rewrite F by lia. destruct i as [|i]; [now rewrite Nat.sub_0_r|]. cbn [nth_error]. rewrite I1 by lia. do 2 f_equal. lia.
      + rewrite F by lia. destruct p as [|p]; [lia|]. cbn [nth_error]. replace (S p - 1) with p in I2 by lia. exact I2. }
  destruct (G (n - 1) ltac:(lia)) as (G1 & G2). split; [intros i Hi; rewrite G1 by lia; do 2 f_equal; lia|]. replace (n - 2) with (n - 1 - 1) by lia. exact G2.
Qed.
End L.
