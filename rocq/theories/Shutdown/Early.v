(** A run on any cluster of at least three hosts in which the last host leaves before it passed the contribution of host 1 on. *)
From Coq Require Import List Arith Bool Lia Permutation.
From Verif.Base Require Import ListX.
From Verif.Protocol Require Import Model Exchange ExchangeProofs Ring RingProofs Spec.
From Verif.Shutdown Require Import Model Proofs.
Import ListNotations.

Section Early.
Context {T : Type} (n : nat) (contribution : nat -> T) (Hn : 3 <= n).
Let Hn2 : 2 <= n.
Proof. lia. Qed.
Notation reach := (sreachable n contribution nothing_early anytime (fun _ => False)).
Notation taken_by w p := (length (taken (node_of (ring w) p))).

Lemma reach_rinv : forall w, reach w -> rinv n contribution (ring w).
Proof. intros w H. apply rinv_reachable; [exact Hn2|]. apply nothing_early_ok. eapply sreachable_ring. exact H. Qed.
Lemma reach_linv : forall w, reach w -> linv n (ring w).
Proof. intros w H. apply (linv_reachable n contribution Hn2 nothing_early). eapply sreachable_ring. exact H. Qed.

Lemma all_begin : forall k, k <= n -> exists w, reach w /\ (forall p, gone w p = false)
  /\ (forall p, taken (node_of (ring w) p) = [] /\ buffer (rproto (node_of (ring w) p)) = [] /\ begun (node_of (ring w) p) = (p <? k)).
Proof.
  induction k as [|k IH]; intros Hk.
  - exists sinitial. split; [constructor|]. split; [reflexivity|]. intros p. repeat split.
  - destruct (IH ltac:(lia)) as (w & Hr & Hg & Hd). exists {| ring := put n (ring w) k (begin_ring n contribution k (node_of (ring w) k)); gone := gone w |}.
    destruct (Hd k) as (Tk & Bk & Gk). rewrite Nat.ltb_irrefl in Gk. split; [|split; [exact Hg|]].
    + eapply s_after; [exact Hr|]. apply s_begins; auto.
    + intros p. cbn [ring]. destruct (Nat.eq_dec p k) as [->|Hne].
      * rewrite put_node_same. unfold begin_ring. cbn. rewrite Tk. repeat split; auto. symmetry. apply Nat.leb_le. lia.
      * rewrite put_node_other by exact Hne. destruct (Hd p) as (A & B & C). repeat split; auto. rewrite C. destruct (Nat.ltb_spec p k), (Nat.ltb_spec p (S k)); try reflexivity; lia.
Qed.

Lemma take_in_facts : forall m (d : node T), begun (fst (take_in m d)) = begun d /\ length (taken (fst (take_in m d))) <= S (length (taken d)).
Proof.
  intros m d. unfold take_in. destruct (received m (rproto d)) as (pr & [|]); [destruct (is_running pr)|]; cbn; rewrite ?app_length; cbn; split; auto; lia.
Qed.

Definition halted (w : sworld T) (p : nat) : bool := ((p =? n - 1) && (n - 3 <=? taken_by w p)) || ((length (mailbox (node_of (ring w) p)) =? 0) && (length (transit (ring w) p) =? 0)).
Lemma drive : forall b w, rweight n (ring w) = b -> reach w -> (forall p, gone w p = false) -> (forall p, p < n -> begun (node_of (ring w) p) = true) -> taken_by w (n - 1) <= n - 3 ->
  exists w', reach w' /\ (forall p, gone w' p = false) /\ (forall p, p < n -> begun (node_of (ring w') p) = true) /\ taken_by w' (n - 1) <= n - 3 /\ forall p, p < n -> halted w' p = true.
Proof.
  induction b as [b IH] using lt_wf_ind; intros w Hb Hr Hg Hall Ht.
  destruct (forallb (halted w) (seq 0 n)) eqn:E;
    [exists w; repeat (split; [assumption|]); intros p Hp; rewrite forallb_forall in E; apply E, in_seq; lia|].
  assert (Ex : exists p, p < n /\ halted w p = false);
    [clear - E; assert (G : forall l, forallb (halted w) l = false -> exists p, In p l /\ halted w p = false);
      [induction l as [|a l IH]; [discriminate|]; cbn [forallb]; intros H; destruct (halted w a) eqn:Ha; [destruct (IH H) as (p & Hp & Hq); exists p; split; [now right|exact Hq]|exists a; split; [now left|exact Ha]]
      |destruct (G _ E) as (p & Hp & Hq); exists p; apply in_seq in Hp; split; [lia|exact Hq]]|].
  destruct Ex as (p & Hp & Hh); unfold halted in Hh; apply orb_false_iff in Hh; destruct Hh as (H1 & H2).
  assert (Hlt : p = n - 1 -> taken_by w p < n - 3) by (intros ->; rewrite Nat.eqb_refl in H1; cbn [andb] in H1; apply Nat.leb_gt in H1; exact H1).
  assert (Sx : exists w', sstep n contribution nothing_early anytime (fun _ => False) w w' /\ gone w' = gone w /\ rstep n contribution nothing_early (ring w) (ring w')
          /\ (forall q, q < n -> begun (node_of (ring w') q) = begun (node_of (ring w) q)) /\ taken_by w' (n - 1) <= n - 3).
  { destruct (mailbox (node_of (ring w) p)) as [|m r] eqn:Em;
    [destruct (transit (ring w) p) as [|m r] eqn:Et; [discriminate|]; eexists; split; [apply (s_arrives n contribution nothing_early anytime (fun _ => False) w p m r Hp (Hg p) Et)|];
      split; [reflexivity|]; split; [now apply arrives|]; split;
        [intros q _; cbn; destruct (Nat.eq_dec q p) as [->|Hne]; [rewrite set_same; reflexivity|now rewrite set_other]
        |cbn; destruct (Nat.eq_dec (n - 1) p) as [<-|Hne]; [rewrite set_same; exact Ht|rewrite set_other by exact Hne; exact Ht]]
    |eexists; split; [apply (s_takes_in n contribution nothing_early anytime (fun _ => False) w p m r Hp (Hg p) Em)|];
      split; [reflexivity|]; split; [now apply takes_in|]; destruct (take_in_facts m (pop (node_of (ring w) p) r)) as (F1 & F2); cbn [pop begun taken] in F1, F2; split;
        [intros q _; cbn [ring]; destruct (Nat.eq_dec q p) as [->|Hne]; [rewrite put_node_same; exact F1|now rewrite put_node_other]
        |cbn [ring]; destruct (Nat.eq_dec (n - 1) p) as [<-|Hne]; [rewrite put_node_same; specialize (Hlt eq_refl); lia|rewrite put_node_other by exact Hne; exact Ht]]]. }
  destruct Sx as (w' & S1 & S2 & S3 & S4 & S5); destruct (linv_step n contribution Hn2 nothing_early _ _ (reach_linv w Hr) S3) as (_ & W).
  apply (IH (rweight n (ring w')) ltac:(lia) w' eq_refl); [eapply s_after; eauto|now rewrite S2|intros q Hq; rewrite S4; auto|exact S5].
Qed.

Lemma taken_bound : forall w p, rinv n contribution w -> p < n -> begun (node_of w p) = true ->
  length (taken (node_of w p)) + length (mailbox (node_of w p)) + length (transit w p) = sends n (node_of w (prev n p)).
Proof.
  intros w p HI Hp Hb. destruct (HI p Hp) as (_ & P2 & P3). destruct (P2 Hb) as (E & _). rewrite E in P3. cbn [buffer app] in P3.
  apply (f_equal (@length _)) in P3. rewrite !app_length in P3. unfold sent_list in P3. rewrite map_length, seq_length in P3. lia.
Qed.

(** Host 1 has everything; the last host has not taken the contribution of host 1 in. *)
Lemma host1_first : exists w, reach w /\ (forall p, gone w p = false) /\ (forall p, p < n -> begun (node_of (ring w) p) = true) /\ taken_by w (n - 1) = n - 3 /\ finished (node_of (ring w) 1) = 1.
Proof.
  destruct (all_begin n (le_n n)) as (w0 & R0 & G0 & D0).
  destruct (drive _ w0 eq_refl R0 G0) as (w & Hr & Hg & Hall & Ht & Hh).
  { intros p Hp. destruct (D0 p) as (_ & _ & ->). now apply Nat.ltb_lt. }
  { destruct (D0 (n - 1)) as (-> & _). cbn. lia. }
  pose proof (reach_rinv w Hr) as HI. set (t := fun p => taken_by w p).
  assert (Hchain : forall p, p < n -> p <> n - 1 -> t p = Nat.min (S (t (prev n p))) (n - 1)).
  { intros p Hp Hne. specialize (Hh p Hp). unfold halted in Hh. destruct (Nat.eqb_spec p (n - 1)); [contradiction|]. cbn [andb orb] in Hh.
    apply andb_true_iff in Hh. destruct Hh as (A & B). apply Nat.eqb_eq in A, B. pose proof (taken_bound (ring w) p HI Hp (Hall p Hp)) as E. rewrite A, B in E.
    unfold sends in E. rewrite (Hall _ (prev_lt n Hn2 p)) in E. unfold t. lia. }
  assert (Hp0 : forall p, p < n - 1 -> t p = Nat.min (t (n - 1) + 1 + p) (n - 1)).
  { induction p as [|p IH]; intros Hp; rewrite Hchain by lia.
    - destruct (prev_cases n Hn2 0 ltac:(lia)) as [(A & _)|(_ & ->)]; lia.
    - destruct (prev_cases n Hn2 (S p) ltac:(lia)) as [(_ & ->)|(A & _)]; [|lia]. replace (S p - 1) with p by lia. rewrite IH by lia. lia. }
  assert (Hlast : t (n - 1) = n - 3).
  { specialize (Hh (n - 1) ltac:(lia)). unfold halted in Hh. rewrite Nat.eqb_refl in Hh. cbn [andb] in Hh. apply orb_true_iff in Hh. destruct Hh as [Hh|Hh].
    - apply Nat.leb_le in Hh. unfold t. lia.
    - apply andb_true_iff in Hh. destruct Hh as (A & B). apply Nat.eqb_eq in A, B. pose proof (taken_bound (ring w) (n - 1) HI ltac:(lia) (Hall (n - 1) ltac:(lia))) as E. rewrite A, B in E.
      unfold sends in E. rewrite (Hall _ (prev_lt n Hn2 _)) in E. destruct (prev_cases n Hn2 (n - 1) ltac:(lia)) as [(_ & Ep)|(A' & _)]; [|lia]. rewrite Ep in E.
      pose proof (Hp0 (n - 1 - 1) ltac:(lia)) as Q. unfold t in *. lia. }
  exists w. repeat (split; [assumption|]). destruct (HI 1 ltac:(lia)) as (_ & P2 & _). destruct (P2 (Hall 1 ltac:(lia))) as (_ & ->).
  pose proof (Hp0 1 ltac:(lia)) as Q. unfold t in *. destruct (Nat.eqb_spec (taken_by w 1) (n - 1)); [reflexivity|lia].
Qed.

(** The main host will miss one contribution. *)
Definition stranded (w : sworld T) : Prop :=
  reach w /\ gone w 0 = false /\ gone w 1 = true /\ gone w (n - 1) = true /\ (forall p, p < n -> begun (node_of (ring w) p) = true) /\ taken_by w (n - 1) = n - 3 /\ finished (node_of (ring w) 1) = 1.
Lemma stranded_main : forall w, stranded w -> finished (node_of (ring w) 0) = 0 /\ taken_by w 0 <= n - 2.
Proof.
  intros w (Hr & H0 & H1 & Hl & Hall & Ht & Hf). pose proof (reach_rinv w Hr) as HI. pose proof (taken_bound (ring w) 0 HI ltac:(lia) (Hall 0 ltac:(lia))) as E.
  destruct (prev_cases n Hn2 0 ltac:(lia)) as [(A & _)|(_ & Ep)]; [lia|]. rewrite Ep in E. unfold sends in E. rewrite (Hall (n - 1) ltac:(lia)) in E.
  destruct (HI 0 ltac:(lia)) as (_ & P2 & _). destruct (P2 (Hall 0 ltac:(lia))) as (_ & ->). destruct (Nat.eqb_spec (taken_by w 0) (n - 1)); split; try reflexivity; lia.
Qed.
Lemma stranded_step : forall w w', stranded w -> sstep n contribution nothing_early anytime (fun _ => False) w w' -> stranded w'.
Proof.
  intros w w' Hw Hs. destruct (stranded_main w Hw) as (F0 & _). destruct Hw as (Hr & H0 & H1 & Hl & Hall & Ht & Hf).
  assert (Hr' : reach w') by (eapply s_after; eauto). split; [exact Hr'|].
  destruct Hs as [w q Hq Hgq Hb Ha|w q m r Hq Hgq Htr|w q m r Hq Hgq Hm|w q Hq Hgq Hff|w q q' Hq Hq' Hne Hgq Hg' Hno|w q Hq Hgq []]; cbn [ring gone] in *.
  - rewrite (Hall q Hq) in Hb. discriminate.
  - assert (q <> 1) by congruence. assert (q <> n - 1) by congruence. cbn [node_of]. rewrite !set_other by auto. repeat (split; [assumption|]). split; [|auto].
    intros p Hp. destruct (Nat.eq_dec p q) as [->|Hne]; [rewrite set_same; cbn; auto|rewrite set_other; auto].
  - assert (q <> 1) by congruence. assert (q <> n - 1) by congruence. rewrite !put_node_other by auto. repeat (split; [assumption|]). split; [|auto].
    intros p Hp. destruct (Nat.eq_dec p q) as [->|Hne]; [rewrite put_node_same; destruct (take_in_facts m (pop (node_of (ring w) q) r)) as (F1 & _); rewrite F1; cbn; auto|rewrite put_node_other; auto].
  - assert (q <> 0) by (intros ->; lia). assert (q <> 1) by congruence. assert (q <> n - 1) by congruence. rewrite !set_other by auto. repeat split; auto.
  - assert (q <> 1) by congruence. assert (q <> n - 1) by congruence. rewrite !set_other by auto. repeat split; auto.
Qed.
Lemma stranded_ends : forall b w, rweight n (ring w) + alive n w = b -> stranded w -> exists w', stranded w' /\ sstuck n contribution anytime w'.
Proof.
  induction b as [b IH] using lt_wf_ind; intros w Hb Hw.
  destruct (sstuck_test n w) eqn:E; [exists w; split; [exact Hw|now apply sstuck_test_ok]|].
  assert (Sx : exists w', sstep n contribution nothing_early anytime (fun _ => False) w w').
  { destruct (stranded_main w Hw) as (F0 & _); destruct Hw as (Hr & H0 & H1 & Hl & Hall & Ht & Hf); unfold sstuck_test in E;
    match type of E with forallb ?f _ = false => assert (Ex : exists p, p < n /\ f p = false) end;
    [clear - E; match type of E with forallb ?f (seq 0 n) = false => assert (G : forall l, forallb f l = false -> exists p, In p l /\ f p = false) end;
      [induction l as [|a l IH]; [discriminate|]; cbn [forallb]; intros H; apply andb_false_iff in H; destruct H as [H|H]; [exists a; split; [now left|exact H]|destruct (IH H) as (p & Hp & Hq); exists p; split; [now right|exact Hq]]
      |destruct (G _ E) as (p & Hp & Hq); exists p; apply in_seq in Hp; split; [lia|exact Hq]]|];
    destruct Ex as (p & Hp & Hh); cbv beta in Hh; apply orb_false_iff in Hh; destruct Hh as (Gp & Hh); rewrite (Hall p Hp) in Hh; cbn [andb] in Hh;
    destruct (transit (ring w) p) as [|m r] eqn:Et; [|eexists; eapply s_arrives; eauto];
    destruct (mailbox (node_of (ring w) p)) as [|m r] eqn:Em; [|eexists; eapply s_takes_in; eauto];
    destruct (finished (node_of (ring w) p)) as [|k] eqn:Ef; [|eexists; eapply s_done; eauto; lia];
    cbn [length Nat.eqb andb] in Hh; apply orb_false_iff in Hh; destruct Hh as (Hz & _); apply Nat.eqb_neq in Hz;
    eexists; apply (s_left n contribution nothing_early anytime (fun _ => False) w p 1); auto; try lia; exact I. }
  destruct Sx as (w' & Hs); pose proof (stranded_step w w' Hw Hs) as Hw'.
  assert (D : rweight n (ring w') + alive n w' < rweight n (ring w) + alive n w).
  { pose proof (reach_linv w (proj1 Hw)) as L; destruct (sstep_ring n contribution _ _ _ _ _ Hs) as [(Hrr & Eg)|(Er & p & Hp & Hg & E2 & _)];
    [destruct (linv_step n contribution Hn2 _ _ _ L Hrr) as (_ & W); unfold alive; rewrite Eg; lia
    |rewrite Er; pose proof (alive_set n Hn2 w (ring w') p Hp Hg) as A; replace (alive n w') with (alive n {| ring := ring w'; gone := set (gone w) p true |}); [lia|unfold alive; cbn [gone]; now rewrite E2]]. }
  apply (IH _ ltac:(rewrite <- Hb; exact D) w' eq_refl Hw').
Qed.
Lemma early_leave_all : exists w, reach w /\ sstuck n contribution anytime w /\ gone w 0 = false /\ finished (node_of (ring w) 0) = 0 /\ ~ In (1, contribution 1) (taken (node_of (ring w) 0))
  /\ finished (node_of (ring w) 1) = 1 /\ gone w 1 = true /\ gone w (n - 1) = true.
Proof.
  destruct host1_first as (w & Hr & Hg & Hall & Ht & Hf).
  set (w1 := {| ring := ring w; gone := set (gone w) 1 true |}).
  assert (S1 : sstep n contribution nothing_early anytime (fun _ => False) w w1) by (apply s_done; [lia|auto|lia]).
  set (w2 := {| ring := ring w1; gone := set (gone w1) (n - 1) true |}).
  assert (S2 : sstep n contribution nothing_early anytime (fun _ => False) w1 w2).
  { apply (s_left n contribution nothing_early anytime (fun _ => False) w1 (n - 1) 1); try lia; [unfold w1; cbn [gone]; rewrite set_other by lia; auto|reflexivity|exact I]. }
  assert (Hw : stranded w2).
  { split; [eapply s_after; [eapply s_after; eauto|exact S2]|]. unfold w2, w1. cbn [ring gone]. repeat split; auto.
    - rewrite !set_other by lia. auto.
    - rewrite set_other by lia. apply set_same.
    - apply set_same. }
  destruct (stranded_ends _ w2 eq_refl Hw) as (w' & Hw' & Hs). destruct (stranded_main w' Hw') as (F & L).
  destruct Hw' as (Hr' & G0 & G1 & Gl & Hall' & _ & F1). exists w'. repeat (split; [assumption|]). split; [|auto].
  destruct (taken_prefix n contribution Hn2 (ring w') 0 (reach_rinv w' Hr') ltac:(lia)) as (E & _). rewrite E. intros Hin. apply in_map_iff in Hin. destruct Hin as (j & Ej & Hj). apply in_seq in Hj.
  unfold msg in Ej. injection Ej as Ej _. destruct (origin_cases n Hn2 0 (S j) ltac:(lia) ltac:(lia)) as [(A & B)|(A & B)]; lia.
Qed.
End Early.
