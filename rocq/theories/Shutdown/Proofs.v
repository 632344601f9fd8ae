From Coq Require Import List Arith Bool Lia Permutation.
From Verif.Base Require Import ListX.
From Verif.Protocol Require Import Model Exchange ExchangeProofs Ring RingProofs Spec.
From Verif.Shutdown Require Import Model.
Import ListNotations.

Section P.
Context {T : Type} (n : nat) (contribution : nat -> T) (Hn : 2 <= n).

(** Every step is a step of the ring or leaves it as it is. *)
Lemma sstep_ring : forall allowed notified crashes w w', sstep n contribution allowed notified crashes w w' ->
  (rstep n contribution allowed (ring w) (ring w') /\ gone w' = gone w) \/
  (ring w' = ring w /\ exists p, p < n /\ gone w p = false /\ gone w' = set (gone w) p true /\
    (1 <= finished (node_of (ring w) p) \/ (p <> 0 /\ notified (node_of (ring w) p) /\ exists q, q < n /\ gone w q = true) \/ crashes p)).
Proof.
  intros allowed notified crashes w w' H. destruct H.
  - left. cbn. split; [now apply begins|reflexivity].
  - left. cbn. split; [now apply arrives|reflexivity].
  - left. cbn. split; [now apply takes_in|reflexivity].
  - right. cbn. split; [reflexivity|]. exists p. repeat (split; [now auto|]). now left.
  - right. cbn. split; [reflexivity|]. exists p. repeat (split; [now auto|]). right. left. eauto.
  - right. cbn. split; [reflexivity|]. exists p. repeat (split; [now auto|]). right. now right.
Qed.
Lemma sreachable_ring : forall allowed notified crashes w, sreachable n contribution allowed notified crashes w -> rreachable n contribution allowed (ring w).
Proof.
  intros allowed notified crashes w. induction 1 as [|w w' _ IH Hs]; [constructor|]. destruct (sstep_ring _ _ _ _ _ Hs) as [(Hr & _)|(-> & _)]; [eapply r_after; eauto|exact IH].
Qed.

(** The number of results never goes down. *)
Lemma finished_mono : forall allowed w w' p, rstep n contribution allowed w w' -> finished (node_of w p) <= finished (node_of w' p).
Proof.
  intros allowed w w' p H. destruct H as [w q Hq Hb Ha|w q m r Hq Ht|w q m r Hq Hm].
  - destruct (Nat.eq_dec p q) as [->|Hne]; [rewrite put_node_same; unfold begin_ring; destruct (resolve_buffer _); cbn; lia|rewrite put_node_other; auto].
  - cbn. destruct (Nat.eq_dec p q) as [->|Hne]; [rewrite set_same; cbn; lia|rewrite set_other; auto].
  - destruct (Nat.eq_dec p q) as [->|Hne]; [rewrite put_node_same|rewrite put_node_other; auto].
    unfold take_in. cbn [pop rproto taken finished begun mailbox]. destruct (received m (rproto (node_of w q))) as (pr & [|]); [destruct (is_running pr)|]; cbn; lia.
Qed.

(** Who is gone has its result, if notices are late and nobody is lost. *)
Lemma gone_finished : forall allowed (notified : node T -> Prop) (crashes : nat -> Prop) w, (forall d, notified d -> 1 <= finished d) -> sreachable n contribution allowed notified crashes w ->
  forall p, ~ crashes p -> gone w p = true -> 1 <= finished (node_of (ring w) p).
Proof.
  intros allowed notified crashes w Hnot. induction 1 as [|w w' _ IH Hs]; intros p Hc Hg; [discriminate|].
  destruct (sstep_ring _ _ _ _ _ Hs) as [(Hr & E)|(E & q & Hq & Hgq & E2 & Hwhy)].
  - rewrite E in Hg. pose proof (finished_mono _ _ _ p Hr). specialize (IH p Hc Hg). lia.
  - rewrite E. rewrite E2 in Hg. destruct (Nat.eq_dec p q) as [->|Hne].
    + destruct Hwhy as [H|[(_ & H & _)|H]]; [exact H|now apply Hnot|contradiction].
    + rewrite set_other in Hg by auto. now apply IH.
Qed.

Lemma finished_all : forall w p, rinv n contribution w -> p < n -> 1 <= finished (node_of w p) -> begun (node_of w p) = true /\ length (taken (node_of w p)) = n - 1 /\ finished (node_of w p) = 1 /\ mailbox (node_of w p) = [] /\ transit w p = [].
Proof.
  intros w p HI Hp Hf. destruct (HI p Hp) as (P1 & P2 & P3). destruct (begun (node_of w p)).
  - destruct (P2 eq_refl) as (Epr & Ef). rewrite Ef in Hf |- *. destruct (Nat.eqb_spec (length (taken (node_of w p))) (n - 1)) as [E|]; [|lia]. 
    apply (f_equal (@length _)) in P3. rewrite !app_length in P3. unfold sent_list in P3. rewrite map_length, seq_length in P3. pose proof (sends_le n Hn (node_of w (prev n p))).
    destruct (mailbox (node_of w p)); [|cbn [length] in P3; lia]. destruct (transit w p); [|cbn [length] in P3; lia]. auto.
  - destruct (P1 eq_refl) as (_ & _ & E). lia.
Qed.

Lemma late_notices_stuck : forall w crashes, sreachable n contribution not_overtaken after_result crashes w -> (forall p, ~ crashes p) -> sstuck n contribution after_result w -> rstuck n contribution (ring w) /\ forall p, p < n -> 1 <= finished (node_of (ring w) p) -> gone w p = true.
Proof.
  intros w crashes Hr Hc Hs. pose proof (rinv_reachable n contribution Hn _ (sreachable_ring _ _ _ _ Hr)) as HI. split.
  - assert (G : forall p, p < n -> gone w p = true -> begun (node_of (ring w) p) = true /\ mailbox (node_of (ring w) p) = [] /\ transit (ring w) p = []).
    { intros p Hp Hg. destruct (finished_all (ring w) p HI Hp) as (A & _ & _ & B & C); [|auto].
      eapply (gone_finished not_overtaken after_result crashes w); auto. }
    intros v Hv. inversion Hv as [u p Hp Hb Ha|u p m r Hp Ht|u p m r Hp Hm]; subst; destruct (gone w p) eqn:Hg.
    + destruct (G p Hp Hg) as (A & _). congruence.
    + eapply Hs. eapply s_begins; eauto.
    + destruct (G p Hp Hg) as (_ & _ & A). congruence.
    + eapply Hs. eapply s_arrives; eauto.
    + destruct (G p Hp Hg) as (_ & A & _). congruence.
    + eapply Hs. eapply s_takes_in; eauto.
  - intros p Hp Hf. destruct (gone w p) eqn:Hg; [reflexivity|]. exfalso. eapply Hs. eapply s_done; eauto.
Qed.

(** What a host takes in was sent by a host that has begun. *)
Lemma begun_origin : forall w, rinv n contribution w -> forall j p, p < n -> S j <= length (taken (node_of w p)) -> S j <= n - 1 -> begun (node_of w (origin n p (S j))) = true.
Proof.
  intros w HI. assert (Hsends : forall p k, p < n -> k <= length (taken (node_of w p)) -> 1 <= k -> begun (node_of w (prev n p)) = true /\ k <= S (length (taken (node_of w (prev n p))))).
  { intros p k Hp Hk H1. destruct (HI p Hp) as (_ & _ & P3). apply (f_equal (@length _)) in P3. rewrite !app_length in P3. unfold sent_list in P3. rewrite map_length, seq_length in P3.
    unfold sends in P3. destruct (begun (node_of w (prev n p))); [split; [reflexivity|lia]|lia]. }
  induction j as [|j IH]; intros p Hp Hk Hj.
  - destruct (Hsends p 1 Hp Hk ltac:(lia)) as (B & _). replace (origin n p 1) with (prev n p); [exact B|]. rewrite <- (next_prev n Hn p Hp) at 2.
    rewrite origin_next by (auto using prev_lt; lia). now rewrite origin_0 by (auto using prev_lt).
  - destruct (Hsends p (S (S j)) Hp Hk ltac:(lia)) as (_ & L). rewrite <- (next_prev n Hn p Hp). rewrite origin_next by (auto using prev_lt; lia). apply IH; [apply prev_lt; exact Hn|lia|lia].
Qed.
Lemma finished_begun : forall w p q, rinv n contribution w -> p < n -> q < n -> 1 <= finished (node_of w p) -> begun (node_of w q) = true.
Proof.
  intros w p q HI Hp Hq Hf. destruct (finished_all w p HI Hp Hf) as (B & L & _). destruct (Nat.eq_dec q p) as [->|Hne]; [exact B|].
  assert (Hin : In q (map (fun j => origin n p (S j)) (seq 0 (n - 1)))).
  { eapply Permutation_in; [symmetry; apply origins_perm; auto|]. apply filter_In. rewrite in_seq, negb_true_iff, Nat.eqb_neq. lia. }
  apply in_map_iff in Hin. destruct Hin as (j & <- & Hj). apply in_seq in Hj. apply begun_origin; auto; lia.
Qed.

(** Begun stays begun; a host that is gone does nothing. *)
Lemma gone_mono : forall allowed notified crashes w w' p, sstep n contribution allowed notified crashes w w' -> gone w p = true -> gone w' p = true /\ begun (node_of (ring w') p) = begun (node_of (ring w) p).
Proof.
  intros allowed notified crashes w w' p H Hg. destruct H as [w q Hq Hgq Hb Ha|w q m r Hq Hgq Ht|w q m r Hq Hgq Hm|w q Hq Hgq Hf|w q q' Hq Hq' Hne Hgq Hg' Hno|w q Hq Hgq Hc]; cbn [ring gone];
    (assert (p <> q) by congruence); rewrite ?put_node_other, ?set_other by auto; auto. cbn [node_of]. rewrite set_other by auto. auto.
Qed.
End P.

Section Termination.
Context {T : Type} (n : nat) (contribution : nat -> T) (Hn : 2 <= n).
Definition alive (w : sworld T) : nat := rsum n (fun p => if gone w p then 0 else 1).
Lemma alive_set : forall (w : sworld T) r p, p < n -> gone w p = false -> alive {| ring := r; gone := set (gone w) p true |} < alive w.
Proof.
  intros w r p Hp Hg. unfold alive. cbn [gone]. pose proof (rsum_set_fun n Hn bool (fun b : bool => if b then 0 else 1) (gone w) p true Hp) as E. cbv beta in E. rewrite Hg in E. lia.
Qed.
Lemma shutdown_no_infinite : forall allowed notified crashes (run : nat -> sworld T), sreachable n contribution allowed notified crashes (run 0) ->
  ~ (forall i, sstep n contribution allowed notified crashes (run i) (run (S i))).
Proof.
  intros allowed notified crashes run H0 Hrun.
  assert (R : forall i, sreachable n contribution allowed notified crashes (run i)). { induction i; [exact H0|]. eapply s_after; eauto. }
  assert (D : forall i, rweight n (ring (run (S i))) + alive (run (S i)) < rweight n (ring (run i)) + alive (run i)).
  { intros i. pose proof (linv_reachable n contribution Hn allowed _ (sreachable_ring n contribution _ _ _ _ (R i))) as L.
    destruct (sstep_ring n contribution _ _ _ _ _ (Hrun i)) as [(Hr & E)|(E & p & Hp & Hg & E2 & _)].
    - destruct (linv_step n contribution Hn allowed _ _ L Hr) as (_ & W). unfold alive. rewrite E. lia.
    - rewrite E. pose proof (alive_set (run i) (ring (run (S i))) p Hp Hg) as A. replace (alive (run (S i))) with (alive {| ring := ring (run (S i)); gone := set (gone (run i)) p true |}); [lia|].
      unfold alive. cbn [gone]. now rewrite E2. }
  assert (B : forall i, rweight n (ring (run i)) + alive (run i) + i <= rweight n (ring (run 0)) + alive (run 0)). { induction i as [|i IH]; [lia|]. specialize (D i). lia. }
  specialize (B (S (rweight n (ring (run 0)) + alive (run 0)))). lia.
Qed.
End Termination.

(** ** Executable schedules *)
Inductive schoice := SBegin (p : nat) | SArrive (p : nat) | STake (p : nat) | SDone (p : nat) | SLeft (p q : nat).
Definition sdo {T} (n : nat) (contribution : nat -> T) (w : sworld T) (c : schoice) : sworld T :=
  match c with
  | SBegin p => if (p <? n) && negb (gone w p) && negb (begun (node_of (ring w) p)) && (match buffer (rproto (node_of (ring w) p)) with [] => true | _ => false end)
      then {| ring := put n (ring w) p (begin_ring n contribution p (node_of (ring w) p)); gone := gone w |} else w
  | SArrive p => match transit (ring w) p with
      | m :: r => if (p <? n) && negb (gone w p) then {| ring := {| node_of := set (node_of (ring w)) p (pop (node_of (ring w) p) (mailbox (node_of (ring w) p) ++ [m])); transit := set (transit (ring w)) p r |}; gone := gone w |} else w
      | [] => w end
  | STake p => match mailbox (node_of (ring w) p) with m :: r => if (p <? n) && negb (gone w p) then {| ring := put n (ring w) p (take_in m (pop (node_of (ring w) p) r)); gone := gone w |} else w | [] => w end
  | SDone p => if (p <? n) && negb (gone w p) && (1 <=? finished (node_of (ring w) p)) then {| ring := ring w; gone := set (gone w) p true |} else w
  | SLeft p q => if (p <? n) && (q <? n) && negb (p =? 0) && negb (gone w p) && gone w q then {| ring := ring w; gone := set (gone w) p true |} else w
  end.
Definition srun {T} (n : nat) (contribution : nat -> T) (cs : list schoice) : sworld T := fold_left (sdo n contribution) cs sinitial.
Ltac bsplit := repeat match goal with H : _ && _ = true |- _ => apply andb_true_iff in H; destruct H | H : negb _ = true |- _ => apply negb_true_iff in H end.
Lemma sdo_step : forall T n (contribution : nat -> T) crashes w c, sdo n contribution w c = w \/ sstep n contribution nothing_early anytime crashes w (sdo n contribution w c).
Proof.
  intros T n contribution crashes w c. destruct c as [p|p|p|p|p q]; cbn [sdo].
  - destruct (_ && _) eqn:E; [right|now left]. bsplit. apply s_begins; auto; [now apply Nat.ltb_lt|]. unfold nothing_early. destruct (buffer _); [reflexivity|discriminate].
  - destruct (transit (ring w) p) as [|m r] eqn:E; [now left|]. destruct (_ && _) eqn:E1; [right|now left]. bsplit. apply s_arrives; auto. now apply Nat.ltb_lt.
  - destruct (mailbox (node_of (ring w) p)) as [|m r] eqn:E; [now left|]. destruct (_ && _) eqn:E1; [right|now left]. bsplit. apply s_takes_in; auto. now apply Nat.ltb_lt.
  - destruct (_ && _) eqn:E; [right|now left]. bsplit. apply s_done; [now apply Nat.ltb_lt|auto|now apply Nat.leb_le].
  - destruct (_ && _) eqn:E; [right|now left]. bsplit. apply s_left with q; auto; try now apply Nat.ltb_lt. now apply Nat.eqb_neq. exact I.
Qed.
Lemma srun_reachable : forall T n (contribution : nat -> T) crashes cs, sreachable n contribution nothing_early anytime crashes (srun n contribution cs).
Proof.
  intros T n contribution crashes cs. unfold srun. assert (H : sreachable n contribution nothing_early anytime crashes sinitial) by constructor. revert H. generalize (@sinitial T).
  induction cs as [|c cs IH]; intros w H; cbn [fold_left]; [exact H|]. apply IH. destruct (sdo_step T n contribution crashes w c) as [->|Hs]; [exact H|]. eapply s_after; eauto.
Qed.
(** A sufficient test for the end of a run. *)
Definition sstuck_test {T} (n : nat) (w : sworld T) : bool :=
  forallb (fun p => gone w p || (begun (node_of (ring w) p) && (length (transit (ring w) p) =? 0) && (length (mailbox (node_of (ring w) p)) =? 0) && (finished (node_of (ring w) p) =? 0)
    && ((p =? 0) || forallb (fun q => negb (gone w q)) (seq 0 n)))) (seq 0 n).
Lemma sstuck_test_ok : forall T n (contribution : nat -> T) notified w, sstuck_test n w = true -> sstuck n contribution notified w.
Proof.
  intros T n contribution notified w H w' Hs. unfold sstuck_test in H. rewrite forallb_forall in H.
  assert (D : forall p, p < n -> gone w p = false -> begun (node_of (ring w) p) = true /\ transit (ring w) p = [] /\ mailbox (node_of (ring w) p) = [] /\ finished (node_of (ring w) p) = 0 /\
    (p = 0 \/ forall q, q < n -> gone w q = false)).
  { intros p Hp Hg. specialize (H p). rewrite in_seq in H. specialize (H ltac:(lia)). rewrite Hg in H. cbn [orb] in H. bsplit. repeat match goal with E : (_ =? 0) = true |- _ => apply Nat.eqb_eq in E end.
    ssplit; auto; try (now apply length_zero_iff_nil). match goal with E : _ || _ = true |- _ => apply orb_true_iff in E; destruct E as [E|E] end; [left; now apply Nat.eqb_eq|right].
    intros q Hq. rewrite forallb_forall in *. match goal with E : forall x, In x (seq 0 n) -> negb _ = true |- _ => specialize (E q); rewrite in_seq in E; apply negb_true_iff, E; lia end. }
  inversion Hs as [u p Hp Hg Hb Ha|u p m r Hp Hg Ht|u p m r Hp Hg Hm|u p Hp Hg Hf|u p q Hp Hq Hne Hg Hgq Hno|u p Hp Hg []]; subst u; destruct (D p Hp Hg) as (A1 & A2 & A3 & A4 & A5); try congruence; try lia.
  destruct A5 as [->|A5]; [now apply Hne|]. rewrite (A5 q Hq) in Hgq. discriminate.
Qed.
