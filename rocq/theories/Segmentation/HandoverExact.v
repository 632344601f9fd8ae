(** How the hand-over of first points ends on every host, whether or not the partitions have usable transitions. *)
From Coq Require Import List Arith ZArith Bool Lia Permutation.
From Verif.Base Require Import Res Params Assoc ListX.
From Verif.Topology Require Import Model Proofs.
From Verif.Transition Require Import Model Spec Proofs.
From Verif.Protocol Require Import Exchange.
From Verif.Segmentation Require Import Model Spec Blocks Proofs PathProofs Handover HandoverProofs.
Import ListNotations.

Section Exact.
Variable p : params.
Notation N := (n_cluster_nodes p).
Notation r := (rate p).
Variable part : nat -> list pt.
Hypothesis HN : 1 <= N <= r.
Hypothesis Hfine : forall k, k < N -> all_fine p (part k).

Definition early_phase (f : phase) : bool := match f with Before | Waiting _ _ => true | _ => false end.

Definition waits (k : nat) (g : segmentation) (m : for_nodes) : Prop :=
  transitions g = transitions (fst (built p k (part k))) /\ asked g = asked (fst (built p k (part k))) /\
  last_point g = last_point (fst (built p k (part k))) /\ last_transition g = last_opt None (usable_pairs r (part k)) /\ m = snd (built p k (part k)).

Lemma segments_any : forall k, k < N -> exists g m, segments p k (part k) = (if k =? N - 1 then Distributing g m else Waiting g m, if k =? 0 then [] else first_message p part k) /\ waits k g m.
Proof.
  intros k Hk. unfold segments. rewrite (build_ok p HN k (part k) (Hfine k Hk)). cbn beta iota. set (b := built p k (part k)) in *. rewrite (surjective_pairing b).
  eexists _, _. split; [f_equal|unfold waits; ssplit; reflexivity].
  unfold b, built, first_message. cbn [fst send_point send_transition]. destruct (Nat.eqb_spec k 0) as [->|Hk0]; [reflexivity|].
  destruct (hd_error (part k)); [|reflexivity]. destruct (hd_error (usable_pairs r (part k))); [|reflexivity].
  assert (Ep : previous N k = k - 1).
  { unfold previous. replace (k + (N - 1)) with (k - 1 + 1 * N) by lia. rewrite Nat.mod_add by lia. apply Nat.mod_small. lia. }
  now rewrite Ep.
Qed.

Lemma message_shape : forall k, first_message p part k = [] /\ usable_pairs r (part k) = [] \/
  exists a t, first_message p part k = [(k - 1, (a, t))] /\ In a (part k) /\ In t (usable_pairs r (part k)) /\ usable_pairs r (part k) <> [].
Proof.
  intros k. unfold first_message. destruct (part k) as [|a l] eqn:E; [left; auto|]. cbn [hd_error].
  destruct (usable_pairs r (a :: l)) as [|t u]; [left; auto|]. right. exists a, t. cbn. ssplit; auto. discriminate.
Qed.

Lemma first_point_no_transition : forall k a t g m, last_transition g = None -> first_point p k a t g m = Panic UnwrapNone.
Proof. intros k a t g m E. unfold first_point. rewrite E. destruct (last_point g); reflexivity. Qed.

Definition xinv (w : hworld) : Prop :=
  (forall j a t, In (j, (a, t)) (first_points w) -> j + 1 < N /\ segmented (phase_of w (j + 1)) = true /\ early_phase (phase_of w j) = true
     /\ usable_pairs r (part (j + 1)) <> [] /\ pseg a < r /\ fine p t) /\
  (forall j, j + 1 < N -> segmented (phase_of w (j + 1)) = true -> usable_pairs r (part (j + 1)) <> [] -> early_phase (phase_of w j) = true -> exists a t, In (j, (a, t)) (first_points w)) /\
  NoDup (map fst (first_points w)) /\
  (forall k, k < N -> match phase_of w k with
    | Before => True
    | Waiting g m => k <> N - 1 /\ waits k g m
    | Distributing _ _ => k = N - 1 \/ segmented (phase_of w (k + 1)) = true /\ usable_pairs r (part (k + 1)) <> [] /\ usable_pairs r (part k) <> []
    | Dead e => e = UnwrapNone /\ k + 1 < N /\ segmented (phase_of w (k + 1)) = true /\ usable_pairs r (part (k + 1)) <> [] /\ usable_pairs r (part k) = []
    end).

Lemma segmented_set : forall w k f j, segmented f = true -> segmented (phase_of w j) = true -> segmented (set (phase_of w) k f j) = true.
Proof. intros w k f j Hf Hj. destruct (Nat.eq_dec j k) as [->|Hne]; [now rewrite set_same|now rewrite set_other]. Qed.

Lemma xinv_step : forall w w', xinv w -> hstep p part false w w' -> xinv w'.
Proof.
  intros w w' (I1 & I2 & I3 & I4) St. destruct St as [w k Hk Hb|w k a t l rr En Hearly].
  - destruct (segments_any k Hk) as (g & m & E & Hw). rewrite E. cbn [fst snd].
    set (f := if k =? N - 1 then Distributing g m else Waiting g m).
    assert (Fs : segmented f = true) by (unfold f; now destruct (k =? N - 1)).
    assert (Hmsg : forall j a t, In (j, (a, t)) (if k =? 0 then [] else first_message p part k) -> j + 1 = k /\ usable_pairs r (part k) <> [] /\ pseg a < r /\ fine p t).
    { intros j a t Hi. destruct (Nat.eqb_spec k 0); [destruct Hi|]. destruct (message_shape k) as [(Em & _)|(a' & t' & Em & Ha & Ht & Hu)]; rewrite Em in Hi; [destruct Hi|].
      destruct Hi as [Hi|[]]. injection Hi as <- <- <-. ssplit; [lia|exact Hu|now apply (Hfine k Hk)|].
      exact (proj1 (fine_pairs p HN (part k) t' (Hfine k Hk) Ht)). }
    assert (Hno : forall j a t, j + 1 = k -> ~ In (j, (a, t)) (first_points w)).
    { intros j a t Ej Hi. destruct (I1 j a t Hi) as (_ & Hs & _). rewrite Ej, Hb in Hs. discriminate. }
    unfold xinv; split; [|split; [|split]]; cbn [phase_of first_points].
    + intros j a t Hi. apply in_app_or in Hi. destruct Hi as [Hi|Hi].
      * destruct (I1 j a t Hi) as (A & B & C & D). ssplit; try apply D; [exact A|now apply segmented_set|].
        destruct (Nat.eq_dec j k) as [->|Hne]; [|rewrite set_other by exact Hne; exact C]. rewrite set_same. unfold f. destruct (Nat.eqb_spec k (N - 1)); [lia|reflexivity].
      * destruct (Hmsg j a t Hi) as (Ej & Hu & Ha & Ht). subst k. rewrite set_same, set_other by lia. ssplit; auto.
        pose proof (I4 j ltac:(lia)) as P. destruct (phase_of w j) eqn:Ed; try reflexivity; exfalso.
        -- destruct P as [P|(P & _)]; [lia|]. rewrite Hb in P. discriminate.
        -- destruct P as (_ & _ & P & _). rewrite Hb in P. discriminate.
    + intros j Hj Hs Hu Hd. destruct (Nat.eq_dec (j + 1) k) as [Ej|Hne].
      * subst k. destruct (message_shape (j + 1)) as [(_ & Z)|(a & t & Em & _)]; [congruence|]. exists a, t. apply in_or_app. right. destruct (Nat.eqb_spec (j + 1) 0); [lia|]. rewrite Em. left. f_equal. lia.
      * rewrite set_other in Hs by exact Hne. assert (Hd' : early_phase (phase_of w j) = true).
        { destruct (Nat.eq_dec j k) as [->|Hj2]; [now rewrite Hb|rewrite set_other in Hd by exact Hj2; exact Hd]. }
        destruct (I2 j Hj Hs Hu Hd') as (a & t & Hi). exists a, t. apply in_or_app. now left.
    + rewrite map_app. apply NoDup_app_intro; [exact I3| |].
      * destruct (k =? 0); [constructor|]. destruct (message_shape k) as [(-> & _)|(a & t & -> & _)]; cbn; repeat constructor. intros [].
      * intros j Hj Hj'. apply in_map_iff in Hj. destruct Hj as ((j1, (a1, t1)) & Ej1 & Hi1). apply in_map_iff in Hj'. destruct Hj' as ((j2, (a2, t2)) & Ej2 & Hi2). cbn in Ej1, Ej2. subst.
        destruct (Hmsg j a2 t2 Hi2) as (Ej & _). eapply Hno; eauto.
    + intros k' Hk'. destruct (Nat.eq_dec k' k) as [->|Hne].
      * rewrite set_same. unfold f. destruct (Nat.eqb_spec k (N - 1)) as [El|El]; [left; exact El|split; [exact El|exact Hw]].
      * rewrite set_other by exact Hne. specialize (I4 k' Hk'). destruct (phase_of w k') as [| |gg mm|e]; auto.
        -- destruct I4 as [I4|(A & B)]; [now left|right]. split; [now apply segmented_set|exact B].
        -- destruct I4 as (A & B & C & D). ssplit; try apply D; [exact A|exact B|now apply segmented_set].
  - destruct Hearly as [Hx|Hseg]; [discriminate|].
    assert (Hin : In (k, (a, t)) (first_points w)) by (rewrite En; apply in_or_app; right; now left).
    destruct (I1 k a t Hin) as (Hk & Hs1 & Hd & Hu & Fa & Ft). pose proof (I4 k ltac:(lia)) as Hp.
    destruct (phase_of w k) as [|g m|g m|e] eqn:Ep; [congruence| |discriminate|discriminate].
    destruct Hp as (_ & Hw). set (f := hands_over p k a t (Waiting g m)).
    assert (Hf : usable_pairs r (part k) = [] /\ f = Dead UnwrapNone \/ usable_pairs r (part k) <> [] /\ exists g' m', f = Distributing g' m').
    { unfold f, hands_over. cbn [segmentation_of foreign_of]. destruct Hw as (E1 & E2 & E3 & E4 & E5).
      destruct (usable_pairs r (part k)) as [|u us] eqn:Eu.
      - left. split; [reflexivity|]. rewrite first_point_no_transition by (rewrite E4; reflexivity). reflexivity.
      - right. split; [discriminate|].
        assert (Ne : part k <> []) by (intros Z; rewrite Z in Eu; discriminate).
        destruct (first_point_ok p HN k (part k) a t g m a (Hfine k ltac:(lia)) Ne ltac:(rewrite Eu; discriminate) Fa Ft E1 E2) as (g' & Eg & _).
        + rewrite E3. unfold built. cbn [fst last_point]. destruct (part k) as [|x xs]; [congruence|]. f_equal.
          destruct xs as [|y ys]; [reflexivity|]. change (last (x :: y :: ys) a) with (last (y :: ys) a). now apply last_default.
        + rewrite Eu. exact E4.
        + exact E5.
        + rewrite Eg. eauto. }
    assert (Fs : segmented f = true) by (destruct Hf as [(_ & ->)|(_ & g' & m' & ->)]; reflexivity).
    assert (Fe : early_phase f = false) by (destruct Hf as [(_ & ->)|(_ & g' & m' & ->)]; reflexivity).
    assert (Hrest : forall x, In x (l ++ rr) -> In x (first_points w) /\ fst x <> k).
    { intros x Hx. split; [rewrite En; apply in_app_or in Hx; apply in_or_app; destruct Hx; [now left|right; now right]|].
      rewrite En in I3. rewrite map_app in I3. cbn [map fst] in I3. apply NoDup_remove_2 in I3. intros Ex. apply I3. rewrite <- map_app, <- Ex. now apply in_map. }
    unfold xinv; split; [|split; [|split]]; cbn [phase_of first_points].
    + intros j b u Hi. destruct (Hrest _ Hi) as (Hi' & Hjk). cbn [fst] in Hjk. destruct (I1 j b u Hi') as (A & B & C & D). ssplit; try apply D; [exact A|now apply segmented_set|].
      rewrite set_other by exact Hjk. exact C.
    + intros j Hj Hs Hu' Hdj. destruct (Nat.eq_dec j k) as [->|Hjk]; [rewrite set_same in Hdj; congruence|]. rewrite set_other in Hdj by exact Hjk.
      assert (Hs' : segmented (phase_of w (j + 1)) = true).
      { destruct (Nat.eq_dec (j + 1) k) as [->|Hne]; [now rewrite Ep|rewrite set_other in Hs by exact Hne; exact Hs]. }
      destruct (I2 j Hj Hs' Hu' Hdj) as (b & u & Hi). exists b, u. rewrite En in Hi. apply in_app_or in Hi. apply in_or_app. destruct Hi as [Hi|[Hi|Hi]]; [now left| |now right].
      injection Hi as -> _ _. congruence.
    + rewrite En in I3. rewrite map_app in I3 |- *. cbn [map fst] in I3. eapply NoDup_remove_1; eauto.
    + intros k' Hk'. destruct (Nat.eq_dec k' k) as [->|Hne].
      * rewrite set_same. rewrite set_other by lia. destruct Hf as [(Z & ->)|(Z & g' & m' & ->)]; [ssplit; auto|right; ssplit; auto].
      * rewrite set_other by exact Hne. specialize (I4 k' Hk'). destruct (phase_of w k') as [| |gg mm|e]; auto.
        -- destruct I4 as [I4|(A & B)]; [now left|right]. split; [now apply segmented_set|exact B].
        -- destruct I4 as (A & B & C & D). ssplit; try apply D; [exact A|exact B|now apply segmented_set].
Qed.

Lemma xinv_reachable : forall w, hreachable p part false w -> xinv w.
Proof.
  intros w H. induction H as [|w w' H IH St]; [|eapply xinv_step; eauto].
  unfold xinv; ssplit; cbn; try (intros; easy); try constructor.
Qed.

Lemma ends_exactly : forall w k, hreachable p part false w -> hstuck p part false w -> k < N ->
  if k =? N - 1 then exists g m, phase_of w k = Distributing g m
  else match usable_pairs r (part (k + 1)), usable_pairs r (part k) with
       | [], _ => exists g m, phase_of w k = Waiting g m
       | _ :: _, [] => phase_of w k = Dead UnwrapNone
       | _ :: _, _ :: _ => exists g m, phase_of w k = Distributing g m
       end.
Proof.
  intros w k Hr St Hk. destruct (xinv_reachable w Hr) as (I1 & I2 & I3 & I4).
  assert (Hseg : forall j, j < N -> segmented (phase_of w j) = true).
  { intros j Hj. destruct (phase_of w j) eqn:Ep; try reflexivity. exfalso. eapply St. eapply segment_step; eauto. }
  pose proof (I4 k Hk) as P. pose proof (Hseg k Hk) as Sk. destruct (Nat.eqb_spec k (N - 1)) as [El|El].
  - destruct (phase_of w k) as [|g m|g m|e]; [discriminate|destruct P; congruence|eauto|destruct P as (_ & P & _); lia].
  - assert (Late : usable_pairs r (part (k + 1)) <> [] -> early_phase (phase_of w k) = false).
    { intros Hu. destruct (early_phase (phase_of w k)) eqn:Ee; [exfalso|reflexivity].
      destruct (I2 k ltac:(lia) (Hseg (k + 1) ltac:(lia)) Hu Ee) as (a & t & Hi). apply in_split in Hi. destruct Hi as (l1 & l2 & E). eapply St. eapply first_point_step; [exact E|].
      right. intros Z. rewrite Z in Sk. discriminate. }
    destruct (usable_pairs r (part (k + 1))) as [|u us] eqn:Eu.
    + destruct (phase_of w k) as [|g m|g m|e]; [discriminate|eauto| |].
      * destruct P as [P|(_ & P & _)]; congruence.
      * destruct P as (_ & _ & _ & P & _). congruence.
    + specialize (Late ltac:(discriminate)). destruct (usable_pairs r (part k)) as [|v vs] eqn:Ev.
      * destruct (phase_of w k) as [|g m|g m|e]; try discriminate; [|now destruct P as (-> & _)].
        destruct P as [P|(_ & _ & P)]; congruence.
      * destruct (phase_of w k) as [|g m|g m|e]; try discriminate; [eauto|]. destruct P as (_ & _ & _ & _ & P). congruence.
Qed.
End Exact.
