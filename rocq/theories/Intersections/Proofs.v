(** Proofs about the distribution of the crossings. *)
From Coq Require Import List Arith Bool Lia Permutation.
From Verif.Base Require Import Res Params ListX.
From Verif.Base Require Assoc.
From Verif.Topology Require Model Proofs.
From Verif.Transition Require Import Model Proofs.
From Verif.Protocol Require Import Exchange Spec.
From Verif.Segmentation Require Import Model Spec.
From Verif.Segmentation Require Proofs.
From Verif.Nodes Require Import Model Spec.
From Verif.Transposition Require Proofs.
From Verif.Intersections Require Import Model.
Import ListNotations.

Lemma mapM_inv : forall A B (f : A -> res B) l r, mapM f l = Ok r -> Forall2 (fun a b => f a = Ok b) l r.
Proof.
  induction l as [|a l IH]; intros r E; cbn in E; [injection E as <-; constructor|].
  destruct (f a) eqn:Ea; cbn in E; [|discriminate]. destruct (mapM f l) eqn:El; cbn in E; [|discriminate]. injection E as <-. constructor; [exact Ea|now apply IH].
Qed.
Lemma mapM_total : forall A B (f : A -> res B) l, (forall a, In a l -> exists b, f a = Ok b) -> exists r, mapM f l = Ok r.
Proof.
  induction l as [|a l IH]; intros H; [now exists []|]. destruct (H a (or_introl eq_refl)) as (b & Eb). destruct IH as (r & Er); [intros; apply H; now right|].
  exists (b :: r). cbn. now rewrite Eb, Er.
Qed.
Lemma lookup_some : forall V k (m : list (nat * V)) v, Assoc.lookup Nat.eqb k m = Some v -> In (k, v) m.
Proof. intros V k m v. apply Assoc.lookup_In. intros. apply Nat.eqb_spec. Qed.

Section Stage.
Context {C : Type} (cross : list transition -> transition -> nat -> res C) (p : params).
Hypothesis HN : 1 <= n_cluster_nodes p <= rate p.
Notation N := (n_cluster_nodes p).
Notation r := (rate p).
Notation crossing := (crossing C).
Notation by_segment := (@by_segment C).
Notation seg_is s := (fun c : crossing => c_segment c =? s).
Notation goes_to h := (fun c : crossing => owner p (c_segment c) =? h).

Lemma assignment : forall s, Topology.Model.segment_id_to_assignment p s = Ok (owner p s).
Proof. intros s. rewrite Topology.Proofs.assignment_ok by exact HN. reflexivity. Qed.
Lemma owner_bound : forall s, owner p s < N.
Proof. intros s. unfold owner. lia. Qed.

(** ** Filing by segment *)
Definition group (rs : list crossing) (s : nat) : option (list crossing) := match filter (seg_is s) rs with [] => None | l => Some l end.
Definition files (m : by_segment) (rs : list crossing) : Prop := NoDup (Assoc.keys m) /\ forall s, Assoc.lookup Nat.eqb s m = group rs s.

Lemma group_snoc : forall rs c s, group (rs ++ [c]) s = if c_segment c =? s then Some (filter (seg_is s) rs ++ [c]) else group rs s.
Proof.
  intros rs c s. unfold group. rewrite filter_app. cbn [filter]. destruct (c_segment c =? s); [|now rewrite app_nil_r]. now destruct (filter _ rs).
Qed.
Lemma files_push : forall m rs c, files m rs -> files (file_under (c_segment c) [c] m) (rs ++ [c]).
Proof.
  intros m rs c (ND & L). unfold file_under. split; [apply Assoc.NoDup_keys_insert; [intros; apply Nat.eqb_spec|exact ND]|]. intros s. rewrite group_snoc.
  destruct (Nat.eqb_spec (c_segment c) s) as [E|E].
  - subst s. rewrite Assoc.lookup_insert_same by (intros; apply Nat.eqb_spec). rewrite L. unfold group. destruct (filter _ rs); reflexivity.
  - rewrite Assoc.lookup_insert_other; [apply L|intros; apply Nat.eqb_spec|congruence].
Qed.
Lemma assign_all : forall own rs st fo acc, files fo acc -> exists fo', foldM (assign p own) rs (st, fo) = Ok (st ++ filter (goes_to own) rs, fo') /\ files fo' (acc ++ filter (fun c => negb (owner p (c_segment c) =? own)) rs).
Proof.
  induction rs as [|c rs IH]; intros st fo acc F.
  - exists fo. cbn. rewrite !app_nil_r. now split.
  - cbn [foldM]. unfold assign at 1. rewrite assignment. cbn [bind fst snd]. rewrite (Nat.eqb_sym own). cbn [filter]. destruct (owner p (c_segment c) =? own); cbn [negb].
    + destruct (IH (st ++ [c]) fo acc F) as (fo' & E & F'). exists fo'. rewrite <- app_assoc in E. now split.
    + destruct (IH st _ _ (files_push fo acc c F)) as (fo' & E & F'). exists fo'. rewrite <- app_assoc in F'. now split.
Qed.

(** ** The messages *)
Definition part_of (rs : list crossing) (s : nat) : list (nat * list crossing) := match group rs s with Some l => [(s, l)] | None => [] end.
Definition message_to (rs : list crossing) (id : nat) : list (nat * list crossing) := flat_map (part_of rs) (filter (fun s => owner p s =? id) (seq 0 r)).
(** What is filed after the messages for the hosts in [gone] have been cut out. *)
Definition rest (gone : list nat) (m : by_segment) (rs : list crossing) : Prop :=
  NoDup (Assoc.keys m) /\ forall s, s < r -> Assoc.lookup Nat.eqb s m = if in_dec Nat.eq_dec (owner p s) gone then None else group rs s.

Lemma keys_remove : forall V k (m : list (nat * V)), NoDup (Assoc.keys m) -> NoDup (Assoc.keys (Assoc.remove_key Nat.eqb k m)).
Proof.
  intros V k m. induction m as [|[k' v] m IH]; intros ND; [constructor|]. cbn [Assoc.remove_key]. inversion ND; subst. destruct (k =? k'); [assumption|]. cbn [Assoc.keys map fst]. constructor; [|now apply IH].
  intros Hi. apply H1. clear -Hi. induction m as [|[k2 v2] m IH]; [easy|]. cbn [Assoc.remove_key] in Hi. destruct (k =? k2); [now right|]. destruct Hi as [E|Hi]; [left; exact E|right; now apply IH].
Qed.
Lemma insert_fresh : forall V k (v : V) m, ~ In k (Assoc.keys m) -> Assoc.insert Nat.eqb k v m = m ++ [(k, v)].
Proof. intros. apply Assoc.insert_new; [intros; apply Nat.eqb_spec|assumption]. Qed.

Lemma message_ok : forall id gone m rs, ~ In id gone -> rest gone m rs -> exists m', message_for p id m = Ok (m', message_to rs id) /\ rest (id :: gone) m' rs.
Proof.
  intros id gone m rs Hid R. unfold message_for, message_to.
  match goal with |- context [foldM ?g (seq 0 r) _] => set (f := g) end.
  assert (G : forall k, k <= r -> exists m', foldM f (seq 0 k) (m, []) = Ok (m', flat_map (part_of rs) (filter (fun s => owner p s =? id) (seq 0 k))) /\ NoDup (Assoc.keys m') /\
     forall s, s < r -> Assoc.lookup Nat.eqb s m' = if (s <? k) && (owner p s =? id) then None else if in_dec Nat.eq_dec (owner p s) gone then None else group rs s).
  { induction k as [|k IH]; intros Hk.
    - exists m. cbn. destruct R as (ND & L). split; [reflexivity|split; [exact ND|exact L]].
    - destruct IH as (m' & E & ND & L); [lia|]. rewrite seq_S, filter_app. rewrite foldM_app. cbn [plus]. rewrite E. cbn [bind foldM]. unfold f at 1. rewrite assignment. cbn [bind fst snd].
      rewrite (Nat.eqb_sym id). cbn [filter]. specialize (L k ltac:(lia)) as Lk. destruct (Nat.eqb_spec (owner p k) id) as [Ek|Ek].
      + rewrite Lk. destruct (Nat.ltb_spec k k); [lia|]. cbn [andb]. rewrite Ek. destruct (in_dec Nat.eq_dec id gone); [contradiction|]. rewrite flat_map_app. cbn [flat_map]. assert (Ep : part_of rs k = match group rs k with Some l => [(k, l)] | None => [] end) by reflexivity. rewrite Ep. clear Ep. destruct (group rs k) as [l|] eqn:Eg.
        * exists (Assoc.remove_key Nat.eqb k m'). cbn [bind]. split; [|split; [now apply keys_remove|]].
          -- rewrite insert_fresh; [rewrite app_nil_r; reflexivity|]. unfold Assoc.keys. intros Hi. apply in_map_iff in Hi. destruct Hi as ([s l'] & Es & Hi). cbn in Es. subst s. apply in_flat_map in Hi. destruct Hi as (s & Hs & Hi).
             apply filter_In in Hs. destruct Hs as (Hs & _). apply in_seq in Hs. unfold part_of in Hi. destruct (group rs s); [destruct Hi as [Hi|[]]; injection Hi as -> _; lia|destruct Hi].
          -- intros s Hs. destruct (Nat.eq_dec s k) as [->|Hne].
             ++ rewrite Assoc.lookup_remove_same; [|intros; apply Nat.eqb_spec|exact ND]. rewrite Ek, Nat.eqb_refl. destruct (Nat.ltb_spec k (S k)); [reflexivity|lia].
             ++ rewrite Assoc.lookup_remove_other; [|intros; apply Nat.eqb_spec|exact Hne]. rewrite L by exact Hs. destruct (Nat.ltb_spec s k), (Nat.ltb_spec s (S k)); try lia; reflexivity.
        * exists m'. cbn [bind]. split; [now rewrite app_nil_r|split; [exact ND|]]. intros s Hs. rewrite L by exact Hs. destruct (Nat.eq_dec s k) as [->|Hne].
          -- destruct (Nat.ltb_spec k k); [lia|]. cbn [andb]. rewrite Eg. destruct (in_dec _ _ _), ((k <? S k) && (owner p k =? id)); reflexivity.
          -- destruct (Nat.ltb_spec s k), (Nat.ltb_spec s (S k)); try lia; reflexivity.
      + exists m'. cbn [bind]. rewrite app_nil_r. split; [reflexivity|split; [exact ND|]]. intros s Hs. rewrite L by exact Hs. destruct (Nat.eq_dec s k) as [->|Hne].
        * destruct (Nat.eqb_spec (owner p k) id); [contradiction|]. now rewrite !andb_false_r.
        * destruct (Nat.ltb_spec s k), (Nat.ltb_spec s (S k)); try lia; reflexivity. }
  destruct (G r (le_n r)) as (m' & E & ND & L). exists m'. split; [exact E|]. split; [exact ND|]. intros s Hs. rewrite L by exact Hs. destruct (Nat.ltb_spec s r); [|lia]. cbn [andb].
  destruct (Nat.eqb_spec (owner p s) id) as [Es|Es].
  - rewrite Es. destruct (in_dec Nat.eq_dec id (id :: gone)) as [_|H']; [reflexivity|exfalso; apply H'; now left].
  - destruct (in_dec Nat.eq_dec (owner p s) (id :: gone)) as [[H'|H']|H'], (in_dec Nat.eq_dec (owner p s) gone) as [G'|G']; try reflexivity; try contradiction; [congruence|exfalso; apply H'; now right].
Qed.
Lemma rotate_ok : forall others m rs, NoDup others -> (forall s, s < r -> Assoc.lookup Nat.eqb s m = group rs s) -> NoDup (Assoc.keys m) ->
  rotate p others m = Ok (map (fun id => (id, message_to rs id)) others).
Proof.
  intros others m rs ND L NDm. unfold rotate. match goal with |- context [foldM ?g others _] => set (f := g) end.
  assert (G : forall l gone m acc, NoDup l -> (forall id, In id l -> ~ In id gone) -> rest gone m rs -> exists m', foldM f l (m, acc) = Ok (m', acc ++ map (fun id => (id, message_to rs id)) l)).
  { induction l as [|id l IH]; intros gone m0 acc Hl Hg R; [exists m0; cbn; now rewrite app_nil_r|]. inversion Hl; subst. cbn [foldM]. unfold f at 1. cbn [fst snd].
    destruct (message_ok id gone m0 rs (Hg id (or_introl eq_refl)) R) as (m1 & E & R1). rewrite E. cbn [bind fst snd].
    destruct (IH (id :: gone) m1 (acc ++ [(id, message_to rs id)]) H2) as (m2 & E2); [|exact R1|].
    - intros id' Hi [<-|Hg']; [contradiction|]. now apply (Hg id' (or_intror Hi)).
    - exists m2. etransitivity; [exact E2|]. now rewrite <- app_assoc. }
  destruct (G others [] m [] ND) as (m' & E); [intros ? ? []|split; [exact NDm|exact L]|]. rewrite E. reflexivity.
Qed.

(** ** Taking in *)
Lemma take_in_ok : forall own (msg : by_segment) st fo, (forall x, In x msg -> owner p (fst x) = own) -> take_in p own (st, fo) msg = Ok (st ++ flat_map snd msg, fo).
Proof.
  intros own msg. induction msg as [|[s l] msg IH]; intros st fo H; [cbn; now rewrite app_nil_r|]. unfold take_in in *. cbn [foldM]. rewrite assignment. cbn [bind fst snd].
  pose proof (H (s, l) (or_introl eq_refl)) as E. cbn in E. rewrite E, Nat.eqb_refl. rewrite IH; [|intros; apply H; now right]. cbn [flat_map snd]. now rewrite app_assoc.
Qed.
Lemma take_in_all : forall own (msgs : list by_segment) st, (forall msg x, In msg msgs -> In x msg -> owner p (fst x) = own) ->
  foldM (take_in p own) msgs (st, []) = Ok (st ++ flat_map (flat_map snd) msgs, []).
Proof.
  intros own msgs. induction msgs as [|msg msgs IH]; intros st H; [cbn; now rewrite app_nil_r|]. cbn [foldM]. rewrite take_in_ok; [|intros; now apply (H msg); [left|]]. cbn [bind].
  rewrite IH; [|intros msg' x Hm Hx; apply (H msg' x); [now right|exact Hx]]. cbn [flat_map]. now rewrite app_assoc.
Qed.
Lemma message_to_owner : forall rs id x, In x (message_to rs id) -> owner p (fst x) = id.
Proof.
  intros rs id x Hi. unfold message_to in Hi. apply in_flat_map in Hi. destruct Hi as (s & Hs & Hi). apply filter_In in Hs. destruct Hs as (_ & Hs). apply Nat.eqb_eq in Hs.
  unfold part_of in Hi. destruct (group rs s); [|destruct Hi]. destruct Hi as [<-|[]]. exact Hs.
Qed.
Lemma message_content : forall rs id, (forall c, In c rs -> c_segment c < r) -> Permutation (flat_map snd (message_to rs id)) (filter (goes_to id) rs).
Proof.
  intros rs id Hs. pose proof (classes_perm _ (fun c : crossing => c_segment c) (filter (goes_to id) rs) r) as CP. specialize (CP ltac:(intros c Hc; apply filter_In in Hc; now apply Hs)).
  etransitivity; [|exact CP]. clear CP Hs. unfold message_to. match goal with |- Permutation ?a ?b => cut (a = b); [intros ->; reflexivity|] end. generalize (seq 0 r). induction l as [|s l IH]; [reflexivity|]. 
  rewrite map_cons, concat_cons. change (filter (fun s => owner p s =? id) (s :: l)) with (if owner p s =? id then s :: filter (fun s => owner p s =? id) l else filter (fun s => owner p s =? id) l).
  assert (E : filter (seg_is s) (filter (goes_to id) rs) = if owner p s =? id then filter (seg_is s) rs else []).
  { clear. induction rs as [|c rs IH]; [now destruct (_ =? _)|]. cbn [filter]. destruct (Nat.eqb_spec (c_segment c) s) as [Es|Es].
    - subst s. destruct (owner p (c_segment c) =? id) eqn:Eo; cbn [filter]; [rewrite Nat.eqb_refl, IH; reflexivity|exact IH].
    - destruct (owner p (c_segment c) =? id); cbn [filter]; [destruct (Nat.eqb_spec (c_segment c) s); [contradiction|exact IH]|exact IH]. }
  rewrite E. destruct (owner p s =? id); [|exact IH].
  match goal with |- flat_map snd (flat_map ?f (s :: ?l')) = _ => change (flat_map f (s :: l')) with (f s ++ flat_map f l') end. rewrite flat_map_app, IH. f_equal. unfold part_of, group. destruct (filter (seg_is s) rs); [reflexivity|]. cbn [flat_map snd]. now rewrite app_nil_r.
Qed.

(** ** The results of a host *)
Definition crossed_by (t : transition) : list (nat * nat) := map (fun s => (from_id t, s)) (crossed_segments r (from_segment t) (to_segment t)).
Lemma results_keys : forall ts rs, results cross p ts = Ok rs -> Permutation (map (fun c => (c_id c, c_segment c)) rs) (flat_map crossed_by ts).
Proof.
  intros ts rs E. apply mapM_inv in E.
  assert (Em : map (fun c => (c_id c, c_segment c)) rs = map (fun task => (from_id (fst task), snd task)) (rev (tasks_of p ts))).
  { induction E as [|task c l l' Hc _ IH]; [reflexivity|]. cbn [map]. rewrite IH. f_equal. unfold cross_task in Hc. destruct (cross ts (fst task) (snd task)); [|discriminate]. cbn in Hc. injection Hc as <-. reflexivity. }
  rewrite Em, map_rev. etransitivity; [symmetry; apply Permutation_rev|]. match goal with |- Permutation ?a ?b => cut (a = b); [intros ->; reflexivity|] end. unfold tasks_of. clear. induction ts as [|t ts IH]; [reflexivity|]. cbn [flat_map]. rewrite map_app, IH. f_equal. rewrite map_map. reflexivity.
Qed.
Lemma results_source : forall ts rs c, results cross p ts = Ok rs -> In c rs -> exists t, In t ts /\ c_id c = from_id t /\ In (c_segment c) (crossed_segments r (from_segment t) (to_segment t)) /\ cross ts t (c_segment c) = Ok (c_coordinates c).
Proof.
  intros ts rs c E Hc. apply mapM_inv in E. assert (G : exists task, In task (rev (tasks_of p ts)) /\ cross_task cross ts task = Ok c).
  { induction E as [|task c' l l' Ht _ IH]; [destruct Hc|]. destruct Hc as [<-|Hc]; [exists task; split; [now left|exact Ht]|]. destruct (IH Hc) as (t & Hi & Et). exists t. split; [now right|exact Et]. }
  destruct G as ((t & s) & Hi & Et). apply in_rev in Hi. unfold tasks_of in Hi. apply in_flat_map in Hi. destruct Hi as (t' & Ht & Hi). apply in_map_iff in Hi. destruct Hi as (s' & Es & Hs). injection Es as -> ->.
  unfold cross_task in Et. cbn [fst snd] in Et. destruct (cross ts t s) eqn:Ec; [|discriminate]. cbn in Et. injection Et as <-. exists t. cbn. auto.
Qed.
Lemma crossed_by_visits : forall t, pseg (fst t) < r -> pseg (snd t) < r -> usable r t = true -> crossed_by t = visits r t.
Proof.
  intros t H1 H2 U. unfold usable in U. apply andb_true_iff in U. destruct U as (_ & U). apply Nat.leb_le in U. unfold crossed_by, from_segment, to_segment. rewrite crossed_eq by assumption. unfold visits. now rewrite map_map.
Qed.
Lemma crossed_bound : forall t s, In s (crossed_segments r (from_segment t) (to_segment t)) -> s < r.
Proof. intros t s Hi. unfold crossed_segments in Hi. apply in_map_iff in Hi. destruct Hi as (lag & <- & _). apply Nat.mod_upper_bound. lia. Qed.

Lemma start_ok : forall own others ts rs, NoDup others -> ~ In own others -> results cross p ts = Ok rs ->
  start_stage cross p own others ts = Ok (filter (goes_to own) rs, map (fun id => (id, message_to rs id)) others).
Proof.
  intros own others ts rs ND Hown E. unfold start_stage, calculate. rewrite E. cbn [bind].
  destruct (assign_all own rs [] [] []) as (fo & Ef & (NDf & Lf)); [split; [constructor|reflexivity]|].
  match goal with |- context [foldM ?u ?v ?w] => replace (foldM u v w) with (Ok (filter (goes_to own) rs, fo)) by (symmetry; exact Ef) end. cbn [bind fst snd app] in *.
  set (frs := filter (fun c => negb (owner p (c_segment c) =? own)) rs) in *.
  rewrite (rotate_ok others fo frs ND (fun s _ => Lf s) NDf). cbn [bind]. f_equal. f_equal. apply map_ext_in. intros id Hid. f_equal.
  unfold message_to. apply flat_map_ext_in'. intros s Hs. apply filter_In in Hs. destruct Hs as (_ & Hs). apply Nat.eqb_eq in Hs. unfold part_of, group.
  replace (filter (seg_is s) frs) with (filter (seg_is s) rs); [reflexivity|]. unfold frs. clear -Hs Hid Hown. induction rs as [|c rs IH]; [reflexivity|]. cbn [filter]. destruct (Nat.eqb_spec (c_segment c) s) as [Es|Es].
  - subst s. rewrite Hs. destruct (Nat.eqb_spec id own); [subst; contradiction|]. cbn [negb filter]. rewrite Nat.eqb_refl. now rewrite IH.
  - destruct (negb _); cbn [filter]; [destruct (Nat.eqb_spec (c_segment c) s); [contradiction|exact IH]|exact IH].
Qed.
End Stage.
