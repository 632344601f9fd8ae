From Coq Require Import List Arith ZArith Bool Lia Permutation.
From Verif.Base Require Import Res Params Assoc ListX.
From Verif.Topology Require Import Model Proofs.
From Verif.Transition Require Import Model Spec Proofs.
From Verif.Protocol Require Import Exchange.
From Verif.Segmentation Require Import Model Spec Blocks Proofs PathProofs Handover.
Import ListNotations.

Lemma pairs_snoc : forall A (l : list A) d x, l <> [] -> pairs (l ++ [x]) = pairs l ++ [(last l d, x)].
Proof.
  intros A l d x. induction l as [|y l IH]; intros H; [congruence|]. destruct l as [|z l]; [reflexivity|]. specialize (IH ltac:(discriminate)). cbn [app] in *.
  change (pairs (y :: z :: l ++ [x])) with ((y, z) :: pairs (z :: l ++ [x])). rewrite IH. reflexivity.
Qed.
Lemma pairs_join : forall A (l : list A) x m, pairs (l ++ x :: m) = pairs (l ++ [x]) ++ pairs (x :: m).
Proof.
  intros A l x m. induction l as [|y l IH]; [reflexivity|]. destruct l as [|z l]; [reflexivity|]. cbn [app] in *.
  change (pairs (y :: z :: l ++ x :: m)) with ((y, z) :: pairs (z :: l ++ x :: m)). rewrite IH. reflexivity.
Qed.
Lemma last_opt_app : forall A (l : list A) d x, last_opt d (l ++ [x]) = Some x.
Proof. intros. unfold last_opt. now rewrite fold_left_app. Qed.
Lemma last_opt_some : forall A (l : list A) d, l <> [] -> last_opt None l = Some (last l d).
Proof. intros A l d H. rewrite (app_removelast_last d H) at 1. apply last_opt_app. Qed.
Lemma filter_concat : forall A (f : A -> bool) ls, filter f (concat ls) = concat (map (filter f) ls).
Proof. intros A f ls. induction ls as [|l ls IH]; [reflexivity|]. cbn [concat map]. now rewrite filter_app, IH. Qed.
Lemma concat_split_perm : forall A (F : nat -> list A) L k, NoDup L -> In k L -> Permutation (F k ++ concat (map F (filter (fun q => negb (q =? k)) L))) (concat (map F L)).
Proof.
  intros A F L k. induction L as [|x L IH]; intros ND Hi; [destruct Hi|]. inversion ND; subst. cbn [filter]. destruct (Nat.eqb_spec x k) as [->|Hne]; cbn [negb map concat].
  - assert (E : filter (fun q => negb (q =? k)) L = L).
    { clear -H1. induction L as [|y L IH]; [reflexivity|]. cbn [filter]. destruct (Nat.eqb_spec y k) as [->|_]; [exfalso; apply H1; now left|]. cbn [negb]. f_equal. apply IH. intros H. apply H1. now right. }
    rewrite E. reflexivity.
  - destruct Hi as [->|Hi]; [congruence|]. specialize (IH H2 Hi). cbn [map concat]. rewrite Permutation_app_swap_app. now apply Permutation_app_head.
Qed.

Section S.
Variable p : params.
Hypothesis HN : 1 <= n_cluster_nodes p <= rate p.
Notation N := (n_cluster_nodes p).
Notation r := (rate p).

Lemma usable_snoc : forall l d x, l <> [] -> usable_pairs r (l ++ [x]) = usable_pairs r l ++ (if usable r (last l d, x) then [(last l d, x)] else []).
Proof. intros l d x H. unfold usable_pairs. rewrite (pairs_snoc _ l d) by exact H. rewrite filter_app. reflexivity. Qed.
Lemma usable_join : forall l x m, usable_pairs r (l ++ x :: m) = usable_pairs r (l ++ [x]) ++ usable_pairs r (x :: m).
Proof. intros. unfold usable_pairs. rewrite pairs_join. apply filter_app. Qed.

Lemma bucket_push : forall ts m j, bucket_for j (push_all p ts m) = bucket_for j m ++ filter (fun t => owner p (from_segment t) =? j) ts.
Proof.
  induction ts as [|t ts IH]; intros m j; [now rewrite app_nil_r|]. change (push_all p (t :: ts) m) with (push_all p ts (push_for (owner p (from_segment t)) t m)). rewrite IH. cbn [filter].
  unfold push_for, bucket_for. destruct (Nat.eqb_spec (owner p (from_segment t)) j) as [->|Hne].
  - destruct (lookup Nat.eqb j m) as [l|]; rewrite (lookup_insert_same Nat.eqb Nat.eqb_spec); [now rewrite <- app_assoc|reflexivity].
  - destruct (lookup Nat.eqb (owner p (from_segment t)) m) as [l|]; rewrite (lookup_insert_other Nat.eqb Nat.eqb_spec) by congruence; reflexivity.
Qed.

Lemma asks_all_snoc : forall ts prev t, asks_all p prev (ts ++ [t]) = asks_all p prev ts ++ asks p (last_opt prev ts) t.
Proof. induction ts as [|x ts IH]; intros prev t; cbn [app asks_all]; [now rewrite app_nil_r|]. rewrite IH, app_assoc. reflexivity. Qed.
Lemma push_all_app : forall a b m, push_all p (a ++ b) m = push_all p b (push_all p a m).
Proof. intros. unfold push_all. now rewrite fold_left_app. Qed.

(** ** The first point of the next partition *)
Lemma first_point_ok : forall own points a t g foreign d,
  all_fine p points -> points <> [] -> usable_pairs r points <> [] -> pseg a < r -> fine p t ->
  transitions g = transitions (fst (built p own points)) -> asked g = asked (fst (built p own points)) ->
  last_point g = Some (last points d) -> last_transition g = last_opt None (usable_pairs r points) -> foreign = snd (built p own points) ->
  exists g', first_point p own a t g foreign = Ok (g', snd (built p own (points ++ [a]))) /\
    transitions g' = transitions (fst (built p own (points ++ [a]))) /\ last_point g' = None /\
    asked g' = record p (if usable r (last points d, a) then asks_all p None (usable_pairs r (points ++ [a]))
                         else asks_all p None (usable_pairs r points) ++ between_asks p (last_opt None (usable_pairs r points)) t) [].
Proof.
  intros own points a t g foreign d Hf Hne Hu Ha Ht Et Eq El Elt Ef. unfold first_point. rewrite El, Elt. cbn [unwrap bind].
  pose proof (last_opt_some transition (usable_pairs r points) (a, a) Hu) as Elo. rewrite Elo. cbn [unwrap bind]. set (lt := last (usable_pairs r points) (a, a)) in *.
  set (sp := (last points d, a)). assert (Fsp : fine p sp). { split; [apply Hf|exact Ha]. cbn [sp fst snd from_segment]. unfold from_segment, sp. cbn [fst]. rewrite (app_removelast_last d Hne) at 2. apply in_or_app. right. now left. }
  rewrite (usable_ok p sp Fsp).
  pose proof (usable_snoc points d a Hne) as Es. fold sp in Es. destruct (usable r sp) eqn:U.
  - rewrite !owner_ok by exact HN. cbn [bind].
    match goal with |- context [find_splits ?x1 ?x2 ?x3 ?x4 ?x5 ?x6 ?x7] => replace (find_splits x1 x2 x3 x4 x5 x6 x7) with (Ok (record p (asks p (Some lt) sp) (asked g)))
      by (symmetry; exact (find_splits_ok p HN (Some lt) sp (asked g) Fsp U)) end. cbn [bind].
    unfold built. rewrite Es. eexists. ssplit.
    + f_equal. f_equal. cbn [snd]. rewrite push_all_app. rewrite Ef. reflexivity.
    + cbn [transitions fst]. rewrite Et. unfold built. cbn [fst transitions]. rewrite filter_app. cbn [filter]. destruct (_ =? own); [reflexivity|now rewrite app_nil_r].
    + reflexivity.
    + cbn [asked]. rewrite asks_all_snoc, record_app, Elo. rewrite Eq. reflexivity.
  - rewrite !owner_ok by exact HN. cbn [bind]. rewrite app_nil_r in Es.
    assert (Esb : split_between p (Some lt) t (owner p (from_segment t)) (owner p (to_segment lt)) (asked g) = Ok (record p (between_asks p (Some lt) t) (asked g))).
    { unfold split_between, between_asks. destruct (_ =? _); [reflexivity|]. apply (ask_record p HN). reflexivity. }
    match goal with |- context [split_between ?x1 ?x2 ?x3 ?x4 ?x5 ?x6] => replace (split_between x1 x2 x3 x4 x5 x6) with (Ok (record p (between_asks p (Some lt) t) (asked g))) by (symmetry; exact Esb) end.
    cbn [bind]. unfold built. rewrite Es. eexists. ssplit.
    + f_equal. f_equal. rewrite Ef. reflexivity.
    + cbn [transitions fst]. rewrite Et. reflexivity.
    + reflexivity.
    + cbn [asked]. rewrite record_app, Eq. reflexivity.
Qed.

(** ** The hand-over *)
Variable part : nat -> list pt.
Hypothesis Hfine : forall k, k < N -> all_fine p (part k).
Hypothesis Husable : forall k, k < N -> usable_pairs r (part k) <> [].

(** What the transitions collected by host [k] are taken from: its points and the first point of the next partition. *)
Definition extended (n k : nat) : list pt := part k ++ (if k + 1 <? n then firstn 1 (part (k + 1)) else []).

(** The questions collected by host [k] in the end. *)
Definition bridge (n k : nat) : list question :=
  if k + 1 <? n then
    match part (k + 1), hd_error (usable_pairs r (part (k + 1))) with
    | a :: _, Some t => if usable r (last (part k) a, a) then [] else between_asks p (last_opt None (usable_pairs r (part k))) t
    | _, _ => []
    end
  else [].
Definition collected (n k : nat) : list question := asks_all p None (usable_pairs r (extended n k)) ++ bridge n k.

Lemma part_ne : forall k, k < N -> part k <> [].
Proof. intros k Hk E. apply (Husable k Hk). rewrite E. reflexivity. Qed.

Definition segmented (f : phase) : bool := match f with Before => false | _ => true end.
Definition distributing (f : phase) : bool := match f with Distributing _ _ => true | _ => false end.
Definition first_message (k : nat) : list (nat * (pt * transition)) :=
  match hd_error (part k), hd_error (usable_pairs r (part k)) with Some a, Some t => [(k - 1, (a, t))] | _, _ => [] end.

Definition hinv (w : hworld) : Prop :=
  (forall j a t, In (j, (a, t)) (first_points w) -> j + 1 < N /\ segmented (phase_of w (j + 1)) = true /\ distributing (phase_of w j) = false /\ [(j, (a, t))] = first_message (j + 1)) /\
  (forall j, j + 1 < N -> segmented (phase_of w (j + 1)) = true -> distributing (phase_of w j) = false -> exists a t, In (j, (a, t)) (first_points w)) /\
  NoDup (map fst (first_points w)) /\
  (forall j, j + 1 < N -> distributing (phase_of w j) = true -> segmented (phase_of w (j + 1)) = true) /\
  (forall k, k < N -> match phase_of w k with
    | Before => True
    | Waiting g m => k <> N - 1 /\ transitions g = transitions (fst (built p k (part k))) /\ asked g = asked (fst (built p k (part k))) /\
        last_point g = last_point (fst (built p k (part k))) /\ last_transition g = last_opt None (usable_pairs r (part k)) /\ m = snd (built p k (part k))
    | Distributing g m => transitions g = transitions (fst (built p k (extended N k))) /\ m = snd (built p k (extended N k)) /\ asked g = record p (collected N k) []
    | Dead _ => False
    end).

Lemma first_message_some : forall k, k < N -> exists a t, first_message k = [(k - 1, (a, t))] /\ In a (part k) /\ In t (usable_pairs r (part k)) /\ firstn 1 (part k) = [a].
Proof.
  intros k Hk. unfold first_message. pose proof (Husable k Hk) as Hu. pose proof (part_ne k Hk) as Hn. destruct (part k) as [|a l] eqn:E; [congruence|]. 
  destruct (usable_pairs r (a :: l)) as [|t u]; [congruence|]. exists a, t. cbn. auto.
Qed.

Lemma last_point_built : forall k d, k < N -> last_point (fst (built p k (part k))) = Some (last (part k) d).
Proof.
  intros k d Hk. pose proof (part_ne k Hk) as Hn. unfold built. cbn [fst last_point]. destruct (part k) as [|x l]; [congruence|]. f_equal.
  destruct l as [|y l]; [reflexivity|]. change (last (x :: y :: l) d) with (last (y :: l) d). now apply last_default.
Qed.

Lemma segments_ok : forall k, k < N -> exists g m, segments p k (part k) = (if k =? N - 1 then Distributing g m else Waiting g m, if k =? 0 then [] else first_message k) /\
  transitions g = transitions (fst (built p k (part k))) /\ asked g = asked (fst (built p k (part k))) /\ last_point g = last_point (fst (built p k (part k))) /\
  last_transition g = last_opt None (usable_pairs r (part k)) /\ m = snd (built p k (part k)).
Proof.
  intros k Hk. unfold segments. rewrite (build_ok p HN k (part k) (Hfine k Hk)). cbn beta iota. set (b := built p k (part k)) in *. rewrite (surjective_pairing b).
  eexists _, _. ssplit; [f_equal| | | | |]; try reflexivity.
  unfold b, built, first_message. cbn [fst send_point send_transition]. destruct (Nat.eqb_spec k 0) as [->|Hk0]; [reflexivity|].
  destruct (hd_error (part k)); [|reflexivity]. destruct (hd_error (usable_pairs r (part k))); [|reflexivity].
  assert (Ep : previous N k = k - 1).
  { unfold previous. replace (k + (N - 1)) with (k - 1 + 1 * N) by lia. rewrite Nat.mod_add by lia. apply Nat.mod_small. lia. }
  now rewrite Ep.
Qed.

Lemma set_same : forall A (f : nat -> A) i a, set f i a i = a.
Proof. intros. unfold set. now rewrite Nat.eqb_refl. Qed.
Lemma set_other : forall A (f : nat -> A) i a j, j <> i -> set f i a j = f j.
Proof. intros. unfold set. destruct (Nat.eqb_spec j i); congruence. Qed.

Lemma hinv_step : forall w w', hinv w -> hstep p part false w w' -> hinv w'.
Proof.
  intros w w' (I1 & I2 & I3 & I5 & I4) St. destruct St as [w k Hk Hb|w k a t l rr En Hearly].
  - destruct (segments_ok k Hk) as (g & m & E & E1 & E2 & E3 & E4 & E5). rewrite E. cbn [fst snd].
    assert (Nod : distributing (phase_of w k) = false) by now rewrite Hb.
    assert (Hmsg : forall j a t, In (j, (a, t)) (if k =? 0 then [] else first_message k) -> j + 1 = k /\ [(j, (a, t))] = first_message k).
    { intros j a t Hi. destruct (Nat.eqb_spec k 0); [destruct Hi|]. destruct (first_message_some k Hk) as (a' & t' & Em & _). rewrite Em in Hi. destruct Hi as [Hi|[]]. injection Hi as <- <- <-. split; [lia|now rewrite Em]. }
    assert (Hno : forall j a t, j + 1 = k -> ~ In (j, (a, t)) (first_points w)).
    { intros j a t Ej Hi. destruct (I1 j a t Hi) as (_ & Hs & _). rewrite Ej, Hb in Hs. discriminate. }
    unfold hinv; ssplit; cbn [phase_of first_points].
    + intros j a t Hi. apply in_app_or in Hi. destruct Hi as [Hi|Hi].
      * destruct (I1 j a t Hi) as (A & B & C & D). ssplit; [exact A| | |exact D].
        -- destruct (Nat.eq_dec (j + 1) k) as [->|Hne]; [rewrite set_same; now destruct (k =? N - 1)|rewrite set_other by exact Hne; exact B].
        -- destruct (Nat.eq_dec j k) as [->|Hne]; [|rewrite set_other by exact Hne; exact C]. rewrite set_same. destruct (Nat.eqb_spec k (N - 1)); [lia|reflexivity].
      * destruct (Hmsg j a t Hi) as (Ej & Em). subst k. rewrite set_same, set_other by lia. ssplit; [lia|now destruct (j + 1 =? N - 1)| |exact Em].
        (* the predecessor cannot be distributing: it has not got its message yet *)
        destruct (distributing (phase_of w j)) eqn:Ed; [|reflexivity]. pose proof (I5 j Hk Ed) as Hs. rewrite Hb in Hs. discriminate.
    + intros j Hj Hs Hd. destruct (Nat.eq_dec (j + 1) k) as [Ej|Hne].
      * subst k. destruct (first_message_some (j + 1) Hj) as (a & t & Em & _). exists a, t. apply in_or_app. right. destruct (Nat.eqb_spec (j + 1) 0); [lia|]. rewrite Em. left. f_equal. lia.
      * rewrite set_other in Hs by exact Hne. assert (Hd' : distributing (phase_of w j) = false).
        { destruct (Nat.eq_dec j k) as [->|Hj2]; [exact Nod|rewrite set_other in Hd by exact Hj2; exact Hd]. }
        destruct (I2 j Hj Hs Hd') as (a & t & Hi). exists a, t. apply in_or_app. now left.
    + rewrite map_app. apply NoDup_app_intro; [exact I3| |].
      * destruct (k =? 0); [constructor|]. destruct (first_message_some k Hk) as (a & t & -> & _). repeat constructor. intros [].
      * intros j Hj Hj'. apply in_map_iff in Hj. destruct Hj as ((j1, (a1, t1)) & Ej1 & Hi1). apply in_map_iff in Hj'. destruct Hj' as ((j2, (a2, t2)) & Ej2 & Hi2). cbn in Ej1, Ej2. subst.
        destruct (Hmsg j a2 t2 Hi2) as (Ej & _). eapply Hno; eauto.
    + intros j Hj Hd. destruct (Nat.eq_dec j k) as [->|Hjk]; [rewrite set_same in Hd; destruct (Nat.eqb_spec k (N - 1)); [lia|discriminate]|]. rewrite set_other in Hd by exact Hjk.
      destruct (Nat.eq_dec (j + 1) k) as [->|Hne]; [rewrite set_same; now destruct (k =? N - 1)|rewrite set_other by exact Hne; now apply I5].
    + intros k' Hk'. destruct (Nat.eq_dec k' k) as [->|Hne]; [|rewrite set_other by exact Hne; apply I4; exact Hk']. rewrite set_same.
      destruct (Nat.eqb_spec k (N - 1)) as [El|El].
      * unfold collected, bridge, extended. destruct (Nat.ltb_spec (k + 1) N); [lia|]. rewrite !app_nil_r. ssplit; [exact E1|exact E5|exact E2].
      * now ssplit.
  - destruct Hearly as [Hx|Hseg]; [discriminate|].
    assert (Hin : In (k, (a, t)) (first_points w)) by (rewrite En; apply in_or_app; right; now left).
    destruct (I1 k a t Hin) as (Hk & Hs1 & Hd & Em). pose proof (I4 k ltac:(lia)) as Hp.
    destruct (phase_of w k) as [|g m|g m|e] eqn:Ep; [congruence| |discriminate|destruct Hp].
    destruct Hp as (_ & E1 & E2 & E3 & E4 & E5).
    destruct (first_message_some (k + 1) Hk) as (a' & t' & Em' & Ha & Ht & Ef). rewrite <- Em in Em'. injection Em' as _ -> ->.
    assert (Fa : pseg a' < r) by (apply (Hfine (k + 1)); assumption).
    assert (Ft : fine p t') by (exact (proj1 (fine_pairs p HN (part (k + 1)) t' (Hfine (k + 1) Hk) Ht))).
    destruct (first_point_ok k (part k) a' t' g m a' (Hfine k ltac:(lia)) (part_ne k ltac:(lia)) (Husable k ltac:(lia)) Fa Ft E1 E2) as (g' & Eg & G1 & G2 & G3).
    { rewrite E3. apply last_point_built. lia. }
    { exact E4. } { exact E5. }
    unfold hands_over. cbn [segmentation_of foreign_of]. rewrite Eg.
    assert (Hrest : forall x, In x (l ++ rr) -> In x (first_points w) /\ fst x <> k).
    { intros x Hx. split; [rewrite En; apply in_app_or in Hx; apply in_or_app; destruct Hx; [now left|right; now right]|].
      rewrite En in I3. rewrite map_app in I3. cbn [map fst] in I3. apply NoDup_remove_2 in I3. intros Ex. apply I3. rewrite <- map_app, <- Ex. now apply in_map. }
    unfold hinv; ssplit; cbn [phase_of first_points].
    + intros j b u Hi. destruct (Hrest _ Hi) as (Hi' & Hjk). cbn [fst] in Hjk. destruct (I1 j b u Hi') as (A & B & C & D). ssplit; [exact A| | |exact D].
      * destruct (Nat.eq_dec (j + 1) k) as [->|Hne]; [rewrite set_same; reflexivity|rewrite set_other by exact Hne; exact B].
      * rewrite set_other by exact Hjk. exact C.
    + intros j Hj Hs Hdj. destruct (Nat.eq_dec j k) as [->|Hjk]; [rewrite set_same in Hdj; discriminate|]. rewrite set_other in Hdj by exact Hjk.
      assert (Hs' : segmented (phase_of w (j + 1)) = true).
      { destruct (Nat.eq_dec (j + 1) k) as [->|Hne]; [now rewrite Ep|rewrite set_other in Hs by exact Hne; exact Hs]. }
      destruct (I2 j Hj Hs' Hdj) as (b & u & Hi). exists b, u. rewrite En in Hi. apply in_app_or in Hi. apply in_or_app. destruct Hi as [Hi|[Hi|Hi]]; [now left| |now right].
      injection Hi as -> _ _. congruence.
    + rewrite En in I3. rewrite map_app in I3 |- *. cbn [map fst] in I3. eapply NoDup_remove_1; eauto.
    + intros j Hj Hdj. destruct (Nat.eq_dec j k) as [->|Hjk]; [rewrite set_other by lia; exact Hs1|]. rewrite set_other in Hdj by exact Hjk.
      destruct (Nat.eq_dec (j + 1) k) as [->|Hne]; [rewrite set_same; reflexivity|rewrite set_other by exact Hne; now apply I5].
    + intros k' Hk'. destruct (Nat.eq_dec k' k) as [->|Hne]; [|rewrite set_other by exact Hne; apply I4; exact Hk']. rewrite set_same.
      unfold collected, bridge, extended. destruct (Nat.ltb_spec (k + 1) N); [|lia]. rewrite Ef. ssplit; [exact G1|reflexivity|]. rewrite G3. f_equal.
      destruct (part (k + 1)) as [|a0 l0] eqn:Epk; [discriminate Ef|]. cbn [firstn] in Ef. injection Ef as ->. unfold first_message in Em. rewrite Epk in Em. destruct (usable_pairs r (a' :: l0)) as [|t0 u0]; [discriminate Em|].
      cbn [hd_error] in *. injection Em as _ <-. destruct (usable r (last (part k) a', a')) eqn:U; [now rewrite app_nil_r|]. f_equal. rewrite (usable_snoc (part k) a' a' (part_ne k ltac:(lia))), U, app_nil_r. reflexivity.
Qed.

Lemma hinv_reachable : forall w, hreachable p part false w -> hinv w.
Proof.
  intros w H. induction H as [|w w' H IH St]; [|eapply hinv_step; eauto]. unfold hinv; ssplit; cbn; try (intros; easy); try constructor.
Qed.

Lemma hstuck_done : forall w, hinv w -> hstuck p part false w -> forall k, k < N -> distributing (phase_of w k) = true.
Proof.
  intros w (I1 & I2 & I3 & I5 & I4) St k Hk.
  assert (Hseg : forall j, j < N -> segmented (phase_of w j) = true).
  { intros j Hj. destruct (phase_of w j) eqn:Ep; try reflexivity. exfalso. eapply St. eapply segment_step; eauto. }
  destruct (distributing (phase_of w k)) eqn:Ed; [reflexivity|]. exfalso. pose proof (I4 k Hk) as Hp. pose proof (Hseg k Hk) as Hs.
  destruct (phase_of w k) as [|g m|g m|e] eqn:Ep; try discriminate; [|destruct Hp]. destruct Hp as (Hl & _).
  destruct (I2 k ltac:(lia) (Hseg (k + 1) ltac:(lia))) as (a & t & Hi); [now rewrite Ep|]. apply in_split in Hi. destruct Hi as (l1 & l2 & E). eapply St. eapply first_point_step; [exact E|].
  right. rewrite Ep. discriminate.
Qed.

(** ** All partitions together *)
Lemma usable_all : forall n s, (forall k, s <= k < s + n -> part k <> []) ->
  usable_pairs r (concat (map part (seq s n))) = concat (map (fun k => usable_pairs r (extended (s + n) k)) (seq s n)).
Proof.
  induction n as [|n IH]; intros s Hne; [reflexivity|]. cbn [seq map concat]. destruct n as [|n].
  - cbn [seq map concat]. rewrite !app_nil_r. unfold extended. destruct (Nat.ltb_spec (s + 1) (s + 1)); [lia|]. now rewrite app_nil_r.
  - replace (s + S (S n)) with (S s + S n) by lia. rewrite <- IH by (intros; apply Hne; lia). unfold extended at 1. destruct (Nat.ltb_spec (s + 1) (S s + S n)); [|lia].
    replace (s + 1) with (S s) by lia. cbn [seq map concat]. pose proof (Hne (S s) ltac:(lia)) as Hs. destruct (part (S s)) as [|a l]; [congruence|]. cbn [firstn app]. rewrite usable_join. reflexivity.
Qed.
Lemma own_and_received : forall j, j < N ->
  Permutation (filter (fun t => owner p (from_segment t) =? j) (usable_pairs r (extended N j)) ++
               concat (map (fun k => filter (fun t => owner p (from_segment t) =? j) (usable_pairs r (extended N k))) (filter (fun q => negb (q =? j)) (seq 0 N))))
              (filter (fun t => owner p (from_segment t) =? j) (usable_pairs r (concat (map part (seq 0 N))))).
Proof.
  intros j Hj. rewrite (usable_all N 0) by (intros k Hk; apply part_ne; lia). rewrite filter_concat, map_map.
  apply (concat_split_perm _ (fun k => filter (fun t => owner p (from_segment t) =? j) (usable_pairs r (extended (0 + N) k)))); [apply seq_NoDup|apply in_seq; lia].
Qed.

(** ** Every run ends *)
Definition hmeasure (w : hworld) : nat := 2 * length (filter (fun k => negb (segmented (phase_of w k))) (seq 0 N)) + length (first_points w).
End S.

Lemma segmented_not_before : forall p k points, segmented (fst (segments p k points)) = true.
Proof. intros p k points. unfold segments. destruct (build_segments _ _ _ _) as [(g, m)|]; [|reflexivity]. cbn [fst]. now destruct (k =? _). Qed.
Lemma segments_sent : forall p k points, length (snd (segments p k points)) <= 1.
Proof. intros p k points. unfold segments. destruct (build_segments _ _ _ _) as [(g, m)|]; [|cbn; lia]. cbn [snd]. destruct (send_point g), (send_transition g); cbn; lia. Qed.
Lemma hands_over_segmented : forall p k a t f, segmented (hands_over p k a t f) = true.
Proof. intros p k a t f. unfold hands_over. destruct f; try reflexivity; destruct (first_point _ _ _ _ _ _) as [(g', m)|]; reflexivity. Qed.

Lemma count_set : forall (P : phase -> bool) (f : nat -> phase) k a n s, s <= k < s + n -> P (f k) = true -> P a = false ->
  length (filter (fun i => P (f i)) (seq s n)) = S (length (filter (fun i => P (set f k a i)) (seq s n))).
Proof.
  intros P f k a n. induction n as [|n IH]; intros s Hk Hf Ha; [lia|]. cbn [seq filter]. destruct (Nat.eq_dec s k) as [->|Hne].
  - rewrite Hf, set_same, Ha. cbn [length]. f_equal. f_equal. apply filter_ext_in. intros i Hi. apply in_seq in Hi. rewrite set_other by lia. reflexivity.
  - rewrite (set_other _ f k a s) by exact Hne. destruct (P (f s)); cbn [length]; [f_equal|]; apply IH; auto; lia.
Qed.
Lemma count_le : forall (P : phase -> bool) (f : nat -> phase) k a n s, (P a = true -> P (f k) = true) ->
  length (filter (fun i => P (set f k a i)) (seq s n)) <= length (filter (fun i => P (f i)) (seq s n)).
Proof.
  intros P f k a n. induction n as [|n IH]; intros s Ha; [reflexivity|]. cbn [seq filter]. specialize (IH (S s) Ha).
  destruct (Nat.eq_dec s k) as [->|Hne]; [rewrite set_same|rewrite (set_other _ f k a s) by exact Hne].
  - destruct (P a); [rewrite Ha by reflexivity; cbn [length]; lia|]. destruct (P (f k)); cbn [length]; lia.
  - destruct (P (f s)); cbn [length]; lia.
Qed.
Lemma hmeasure_step : forall p part early w w', hstep p part early w w' -> hmeasure p w' < hmeasure p w.
Proof.
  intros p part early w w' St. unfold hmeasure. destruct St as [w k Hk Hb|w k a t l rr En _]; cbn [phase_of first_points].
  - rewrite (count_set (fun f => negb (segmented f)) (phase_of w) k (fst (segments p k (part k))) (n_cluster_nodes p) 0); [|lia|now rewrite Hb|now rewrite segmented_not_before].
    rewrite app_length. pose proof (segments_sent p k (part k)). lia.
  - pose proof (count_le (fun f => negb (segmented f)) (phase_of w) k (hands_over p k a t (phase_of w k)) (n_cluster_nodes p) 0) as H. cbn beta in H. rewrite hands_over_segmented in H. specialize (H ltac:(discriminate)).
    rewrite En, !app_length. cbn [length]. lia.
Qed.
Lemma h_no_infinite : forall p part early (run : nat -> hworld), ~ (forall i, hstep p part early (run i) (run (S i))).
Proof.
  intros p part early run H. assert (G : forall i, hmeasure p (run i) + i <= hmeasure p (run 0)).
  { induction i as [|i IH]; [lia|]. pose proof (hmeasure_step _ _ _ _ _ (H i)). lia. }
  specialize (G (S (hmeasure p (run 0)))). lia.
Qed.

(** ** The border between two partitions *)
Lemma in_dedup_from : forall l a q, In q (a :: dedup_from a l) <-> In q (a :: l).
Proof.
  induction l as [|b l IH]; intros a q; [tauto|]. cbn [dedup_from]. destruct (question_eqb_spec b a) as [->|Hne].
  - rewrite IH. cbn. tauto.
  - specialize (IH b q). cbn [In] in *. tauto.
Qed.
Lemma in_dedup : forall l q, In q (dedup l) <-> In q l.
Proof. intros [|a l] q; [tauto|]. apply in_dedup_from. Qed.
Lemma stutter_in : forall l l' q, stutter l l' -> (In q l <-> In q l').
Proof. intros l l' q H. induction H; cbn [In] in *; tauto. Qed.

Section Border.
Variable p : params.
Hypothesis HN : 1 <= n_cluster_nodes p <= rate p.
Notation r := (rate p).

Lemma in_questions : forall ts prev a b q, (forall t, In t ts -> fine p t /\ usable r t = true) ->
  (In q (filter (between_hosts p a b) (asks_all p prev ts)) <-> In q (steps_all p prev ts) /\ between_hosts p a b q = true).
Proof. intros ts prev a b q H. rewrite (stutter_in _ _ q (asks_all_steps p HN a b ts prev H)). rewrite filter_In. tauto. Qed.

Lemma steps_all_app : forall u prev v, steps_all p prev (u ++ v) = steps_all p prev u ++ steps_all p (last_opt prev u) v.
Proof. induction u as [|t u IH]; intros prev v; [reflexivity|]. cbn [app steps_all]. rewrite IH, app_assoc. reflexivity. Qed.

Lemma steps1_prev : forall pv t, usable r t = true -> exists rest, steps1 p (Some pv) t = first_question p pv t :: rest /\ steps1 p None t = inner_question p t 0 :: rest.
Proof.
  intros pv t Hu. pose proof (usable_span p t Hu) as Hs. unfold steps1. destruct (span p t) as [|d]; [lia|]. cbn [seq map within_question]. rewrite Nat.eqb_refl.
  exists (map (inner_question p t) (seq 1 d)). assert (Hnz : forall l, In l (seq 1 d) -> l <> 0) by (intros l Hl; apply in_seq in Hl; lia).
  split; f_equal; now apply within_inner.
Qed.

Lemma border : forall k P0 P1 a t1 g0 m0 g0' m0' g1 m1,
  all_fine p P0 -> all_fine p P1 -> usable_pairs r P0 <> [] -> hd_error P1 = Some a -> hd_error (usable_pairs r P1) = Some t1 ->
  build_segments p k P0 new_segmentation = Ok (g0, m0) -> first_point p k a t1 g0 m0 = Ok (g0', m0') ->
  build_segments p (k + 1) P1 new_segmentation = Ok (g1, m1) ->
  let before := last (usable_pairs r (P0 ++ [a])) t1 in
  (forall x y q, In q (map as_question (pairs (path r (usable_pairs r (P0 ++ P1))))) -> between_hosts p x y q = true ->
    In q (questions_of (asked g0') y x) \/ In q (questions_of (asked g1) y x) \/
    (q = as_question (arrival before, (from_id t1, (from_segment t1 + 1) mod r)) /\ (usable r (last P0 a, a) = true \/ owner p (from_segment t1) = owner p (to_segment before)))) /\
  (forall x y q t, hd_error (usable_pairs r P0) = Some t -> In q (questions_of (asked g0') y x) ->
    In q (map as_question (pairs (departure t :: path r (usable_pairs r (P0 ++ P1))))) /\ between_hosts p x y q = true).
Proof.
  intros k P0 P1 a t1 g0 m0 g0' m0' g1 m1 F0 F1 U0 Ha Ht1 B0 Fp B1 before.
  assert (N0 : P0 <> []) by (intros ->; apply U0; reflexivity).
  destruct P1 as [|a' P1]; [discriminate|]. injection Ha as ->.
  assert (Fa : pseg a < r) by (apply F1; now left).
  assert (It1 : In t1 (usable_pairs r (a :: P1))) by (destruct (usable_pairs r (a :: P1)); [discriminate|injection Ht1 as ->; now left]).
  destruct (fine_pairs p HN _ _ F1 It1) as (Ft1 & Ut1).
  rewrite (build_ok p HN k P0 F0) in B0. assert (E0 : built p k P0 = (g0, m0)) by congruence. assert (Eg0 : g0 = fst (built p k P0)) by now rewrite E0. assert (Em0 : m0 = snd (built p k P0)) by now rewrite E0. clear B0 E0.
  rewrite (build_ok p HN (k + 1) (a :: P1) F1) in B1. assert (E1 : built p (k + 1) (a :: P1) = (g1, m1)) by congruence. assert (Eg1 : g1 = fst (built p (k + 1) (a :: P1))) by now rewrite E1. clear B1 E1.
  assert (El : last_point g0 = Some (last P0 a)).
  { rewrite Eg0. unfold built. cbn [fst last_point]. destruct P0 as [|x l]; [congruence|]. f_equal. destruct l as [|y l]; [reflexivity|]. change (last (x :: y :: l) a) with (last (y :: l) a). now apply last_default. }
  destruct (first_point_ok p HN k P0 a t1 g0 m0 a F0 N0 U0 Fa Ft1) as (g' & Eg & _ & _ & Eq).
  { now rewrite Eg0. } { now rewrite Eg0. } { exact El. } { now rewrite Eg0. } { exact Em0. }
  rewrite Eg1. rewrite Fp in Eg. injection Eg as <- _.
  assert (F0a : all_fine p (P0 ++ [a])) by (intros x Hx; apply in_app_or in Hx; destruct Hx as [Hx|[<-|[]]]; auto).
  pose proof (usable_snoc p P0 a a N0) as Es.
  assert (U0a : usable_pairs r (P0 ++ [a]) <> []) by (rewrite Es; destruct (usable_pairs r P0); [congruence|discriminate]).
  assert (Fa0 : forall t, In t (usable_pairs r (P0 ++ [a])) -> fine p t /\ usable r t = true) by (intros t Ht; eapply (fine_pairs p HN); [|exact Ht]; assumption).
  assert (F00 : forall t, In t (usable_pairs r P0) -> fine p t /\ usable r t = true) by (intros t Ht; eapply (fine_pairs p HN); [|exact Ht]; assumption).
  assert (F11 : forall t, In t (usable_pairs r (a :: P1)) -> fine p t /\ usable r t = true) by (intros t Ht; eapply (fine_pairs p HN); [|exact Ht]; assumption).
  assert (Fall : forall t, In t (usable_pairs r (P0 ++ a :: P1)) -> fine p t /\ usable r t = true).
  { intros t Ht. rewrite usable_join in Ht. apply in_app_or in Ht. destruct Ht; auto. }
  assert (Eb : last_opt None (usable_pairs r (P0 ++ [a])) = Some before) by (apply last_opt_some; exact U0a).
  (* all steps of the complete path *)
  assert (Eall : steps_all p None (usable_pairs r (P0 ++ a :: P1)) = steps_all p None (usable_pairs r (P0 ++ [a])) ++ steps_all p (Some before) (usable_pairs r (a :: P1))).
  { rewrite usable_join, steps_all_app, Eb. reflexivity. }
  assert (Q0 : forall x y q, In q (questions_of (asked g0') y x) <->
     (In q (steps_all p None (usable_pairs r (P0 ++ [a]))) \/ (usable r (last P0 a, a) = false /\ owner p (from_segment t1) <> owner p (to_segment before) /\ q = first_question p before t1)) /\ between_hosts p x y q = true).
  { intros x y q. rewrite Eq, questions_of_record_nil, in_dedup. destruct (usable r (last P0 a, a)) eqn:U.
    - rewrite in_questions by assumption. intuition discriminate.
    - rewrite app_nil_r in Es. rewrite <- Es in *. rewrite Eb. rewrite filter_app, in_app_iff, in_questions by assumption. cbn [between_asks].
      destruct (Nat.eqb_spec (owner p (from_segment t1)) (owner p (to_segment before))) as [E|E]; cbn [filter In].
      + intuition congruence.
      + destruct (between_hosts p x y (first_question p before t1)) eqn:B; cbn [In]; intuition (subst; auto); congruence. }
  assert (Q1 : forall x y q, In q (questions_of (asked (fst (built p (k + 1) (a :: P1)))) y x) <-> In q (steps_all p None (usable_pairs r (a :: P1))) /\ between_hosts p x y q = true).
  { intros x y q. unfold built. cbn [fst asked]. rewrite questions_of_record_nil, in_dedup, in_questions by assumption. tauto. }
  assert (Est : exists t0 u0, usable_pairs r (P0 ++ a :: P1) = t0 :: u0 /\ hd_error (usable_pairs r P0) = Some t0).
  { rewrite usable_join, Es. destruct (usable_pairs r P0) as [|t0 u0]; [congruence|]. eexists t0, _. split; reflexivity. }
  destruct Est as (t0 & u0 & Eu & Eh).
  assert (Epairs : steps_all p None (usable_pairs r (P0 ++ a :: P1)) = map as_question (pairs (departure t0 :: path r (usable_pairs r (P0 ++ a :: P1))))).
  { rewrite (steps_all_pairs p HN _ None Fall). rewrite Eu. reflexivity. }
  assert (Esub : forall q, In q (map as_question (pairs (path r (usable_pairs r (P0 ++ a :: P1))))) -> In q (steps_all p None (usable_pairs r (P0 ++ a :: P1)))).
  { intros q Hq. rewrite Epairs. destruct (path r (usable_pairs r (P0 ++ a :: P1))) as [|z l]; [destruct Hq|]. change (pairs (departure t0 :: z :: l)) with ((departure t0, z) :: pairs (z :: l)). now right. }
  destruct (usable_pairs r (a :: P1)) as [|t1' u1] eqn:E1; [discriminate|]. cbn [hd_error] in Ht1. injection Ht1 as ->.
  destruct (steps1_prev before t1 Ut1) as (rest & R1 & R2). cbn [steps_all] in Eall, Q1. rewrite R1 in Eall. rewrite R2 in Q1.
  split.
  - intros x y q Hq Hb. apply Esub in Hq. rewrite Eall in Hq. apply in_app_or in Hq. destruct Hq as [Hq|Hq]; [left; apply Q0; auto|].
    cbn [app] in Hq. destruct Hq as [Hq|Hq].
    + assert (Eqq : q = as_question (arrival before, (from_id t1, (from_segment t1 + 1) mod r))) by (now subst q).
      destruct (usable r (last P0 a, a)) eqn:U; [right; right; auto|]. destruct (Nat.eq_dec (owner p (from_segment t1)) (owner p (to_segment before))) as [E|E]; [right; right; auto|].
      left. apply Q0. split; [right; auto|exact Hb].
    + right; left. apply Q1. split; [|exact Hb]. cbn [app]. now right.
  - intros x y q t Et Hq. rewrite Et in Eh. injection Eh as ->. rewrite <- Epairs, Eall. apply Q0 in Hq. destruct Hq as (Hq & Hb). split; [|exact Hb]. apply in_or_app.
    destruct Hq as [Hq|(_ & _ & ->)]; [now left|]. right. cbn [app]. now left.
Qed.
End Border.
