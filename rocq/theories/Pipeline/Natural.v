(** The analysis of one machine knows coordinates and distances only through the sectors, the computation of a crossing and the clustering. *)
From Coq Require Import List Arith Bool Lia.
From Verif.Base Require Import Res Params ListX.
From Verif.Topology Require Import Model.
From Verif.Segmentation Require Import Model Spec.
From Verif.Intersections Require Import Model.
From Verif.Nodes Require Import Model.
From Verif.Edges Require Import Model.
From Verif.Scoring Require Import Model.
From Verif.Pipeline Require Import Model Spec Proofs.
Import ListNotations.

Definition cmap {C C'} (f : C -> C') (c : crossing C) : crossing C' := {| c_id := c_id c; c_segment := c_segment c; c_coordinates := f (c_coordinates c) |}.

Lemma mapM_natural : forall A B B' (h : B -> B') (f : A -> res B) (f' : A -> res B') l, (forall a, In a l -> f' a = let! b := f a in Ok (h b)) -> mapM f' l = let! bs := mapM f l in Ok (map h bs).
Proof.
  intros A B B' h f f' l. induction l as [|a l IH]; intros H; [reflexivity|]. cbn [mapM]. rewrite (H a (or_introl eq_refl)), IH by (intros x Hx; apply H; now right).
  destruct (f a) as [b|]; [|reflexivity]. cbn [bind]. destruct (mapM f l) as [bs|]; reflexivity.
Qed.

Section Stages.
Context {C C' : Type}.
Variables (f : C -> C') (p : params).

Definition same_kept (r : res (list (crossing C) * @by_segment C)) (r' : res (list (crossing C') * @by_segment C')) : Prop :=
  match r, r' with Ok r, Ok r' => fst r' = map (cmap f) (fst r) | Panic e, Panic e' => e = e' | _, _ => False end.
Lemma assign_step : forall own c s s', fst s' = map (cmap f) (fst s) -> same_kept (assign p own s c) (assign p own s' (cmap f c)).
Proof.
  intros own c s s' H. unfold assign. cbn [c_segment cmap]. destruct (segment_id_to_assignment p (c_segment c)) as [o|e]; [|reflexivity]. cbn [bind].
  destruct (own =? o); cbn [same_kept fst]; [|exact H]. rewrite H, map_app. reflexivity.
Qed.
Lemma assign_natural : forall own rs s s', fst s' = map (cmap f) (fst s) -> same_kept (foldM (assign p own) rs s) (foldM (assign p own) (map (cmap f) rs) s').
Proof.
  intros own rs. induction rs as [|c rs IH]; intros s s' H; [exact H|]. cbn [map foldM]. pose proof (assign_step own c s s' H) as A.
  destruct (assign p own s c) as [r|e], (assign p own s' (cmap f c)) as [r'|e']; try contradiction; [|exact A]. apply IH. exact A.
Qed.

Variables (cross : list transition -> transition -> nat -> res C) (cross' : list transition -> transition -> nat -> res C').
Lemma start_natural : forall own ts, (forall t s, In t ts -> cross' ts t s = let! c := cross ts t s in Ok (f c)) ->
  match start_stage cross p own [] ts, start_stage cross' p own [] ts with
  | Ok r, Ok r' => fst r' = map (cmap f) (fst r)
  | Panic e, Panic e' => e = e'
  | _, _ => False
  end.
Proof.
  intros own ts H. unfold start_stage, calculate, results, rotate. cbn [foldM bind snd].
  rewrite (mapM_natural _ _ _ (cmap f) (cross_task cross ts) (cross_task cross' ts)).
  - destruct (mapM (cross_task cross ts) (rev (tasks_of p ts))) as [rs|e]; [|reflexivity]. cbn [bind]. pose proof (assign_natural own rs ([], []) ([], []) eq_refl) as A.
    destruct (foldM (assign p own) rs ([], [])) as [r|e], (foldM (assign p own) (map (cmap f) rs) ([], [])) as [r'|e']; cbn [bind]; try contradiction; exact A.
  - intros (t & s) Ht. apply in_rev in Ht. unfold tasks_of in Ht. apply in_flat_map in Ht. destruct Ht as (t' & Ht' & Hin). apply in_map_iff in Hin. destruct Hin as (s' & E & _). injection E as -> ->.
    unfold cross_task. cbn [fst snd]. rewrite H by exact Ht'. destruct (cross ts t s); reflexivity.
Qed.

Variables (cluster : list C -> res (list nat)) (cluster' : list C' -> res (list nat)).
Lemma nodes_natural : forall own store, (forall rows, 2 <= length rows -> incl rows (map c_coordinates store) -> cluster' (map f rows) = cluster rows) ->
  create_nodes cluster' p own (map (cmap f) store) = create_nodes cluster p own store.
Proof.
  intros own store H. unfold create_nodes. destruct (udiv (rate p) (n_cluster_nodes p)) as [w|]; [|reflexivity]. cbn [bind].
  assert (E : forall s, segment_nodes cluster' (map (cmap f) store) s = segment_nodes cluster store s).
  { intros s. assert (Ec : crossings_of (map (cmap f) store) s = option_map (map (cmap f)) (crossings_of store s)).
    { unfold crossings_of. assert (Ef : filter (fun c => c_segment c =? s) (map (cmap f) store) = map (cmap f) (filter (fun c => c_segment c =? s) store)).
      { clear. induction store as [|c l IH]; [reflexivity|]. cbn [map filter cmap c_segment]. destruct (c_segment c =? s); cbn [map]; now rewrite IH. }
      rewrite Ef. destruct (filter _ store); reflexivity. }
    assert (Hin : forall l, crossings_of store s = Some l -> incl (map c_coordinates l) (map c_coordinates store)).
    { intros l Hl. unfold crossings_of in Hl. assert (incl (filter (fun c => c_segment c =? s) store) store) by (intros x Hx; now apply filter_In in Hx). destruct (filter _ store) as [|c l'] eqn:Ef; [discriminate|]. injection Hl as <-. now apply incl_map. }
    unfold segment_nodes. rewrite Ec. destruct (crossings_of store s) as [l|]; [|reflexivity]. cbn [option_map]. specialize (Hin l eq_refl).
    assert (El : labels_of cluster' (Some (map (cmap f) l)) = labels_of cluster (Some l)).
    { destruct l as [|c [|c' l]]; [reflexivity|reflexivity|]. cbn [labels_of map]. rewrite <- H by (cbn [map length]; lia || exact Hin). cbn [map]. rewrite !map_map. reflexivity. }
    rewrite El. destruct (labels_of cluster (Some l)) as [labels|]; [|reflexivity]. cbn [bind]. destruct labels as [|k labels]; [reflexivity|]. f_equal. generalize (k :: labels). clear. induction l as [|c l IH]; intros ks; [reflexivity|].
    destruct ks as [|k ks]; [reflexivity|]. cbn [map combine]. f_equal. apply IH. }
  generalize (seq (w * own) (Nat.max (rate p) (w * own + 1) - w * own)). intros l. assert (Em : mapM (segment_nodes cluster' (map (cmap f) store)) l = mapM (segment_nodes cluster store) l) by (induction l as [|s l IH]; [reflexivity|cbn [mapM]; now rewrite E, IH]). now rewrite Em.
Qed.
End Stages.

Section Pipeline.
Context {K K' C C' : Type}.
Variables (g : K -> K') (f : C -> C') (sector : K -> nat) (sector' : K' -> nat) (flip : K -> K) (flip' : K' -> K').
Variables (cross : list K -> list transition -> transition -> nat -> res C) (cross' : list K' -> list transition -> transition -> nat -> res C').
Variables (cluster : list C -> res (list nat)) (cluster' : list C' -> res (list nat)) (p : params) (n : nat).
(** What the clustering may count on. *)
Variable fine : C -> Prop.
Hypothesis Hsector : forall k, sector' (g k) = sector k.
Hypothesis Hflip : forall k, flip' (g k) = g (flip k).
Hypothesis Hbound : forall k, sector k < rate p.
Hypothesis Hbound' : forall k, sector' k < rate p.
Hypothesis HN : n_cluster_nodes p = 1.
Hypothesis Hrate : 1 <= rate p.
Variable coords : list K.
Let ts := transitions_of p sector flip coords.
Let moved := followed p sector flip coords.
Hypothesis Hcross : forall t s, In t ts -> cross' (map g moved) ts t s = let! c := cross moved ts t s in Ok (f c).
Hypothesis Hfine : forall t s c, In t ts -> cross moved ts t s = Ok c -> fine c.
Hypothesis Hcluster : forall rows, 2 <= length rows -> Forall fine rows -> cluster' (map f rows) = cluster rows.

Lemma points_natural : forall l, points_at sector' (map g l) = points_at sector l.
Proof.
  intros l. unfold points_at. rewrite map_length. generalize 0. induction l as [|k l IH]; intros i; [reflexivity|]. cbn [length seq map combine fst snd]. rewrite Hsector. f_equal. apply IH.
Qed.
Lemma followed_natural : followed p sector' flip' (map g coords) = map g moved.
Proof.
  unfold moved, followed. rewrite points_natural. destruct (_ && _); [|reflexivity]. rewrite !map_map. apply map_ext. intros k. apply Hflip.
Qed.
Lemma transitions_natural : transitions_of p sector' flip' (map g coords) = ts.
Proof. unfold ts, transitions_of. rewrite followed_natural. now rewrite points_natural. Qed.

Lemma edges_natural : local_edges sector' flip' cross' cluster' p n (map g coords) = local_edges sector flip cross cluster p n coords.
Proof.
  unfold local_edges. rewrite !local_segmentation_ok by assumption. cbn [bind]. rewrite followed_natural, transitions_natural. fold ts moved.
  pose proof (start_natural f p (cross moved) (cross' (map g moved)) 0 ts Hcross) as S. destruct (start_stage (cross moved) p 0 [] ts) as [(st & m)|e] eqn:E, (start_stage (cross' (map g moved)) p 0 [] ts) as [(st' & m')|e']; try contradiction; [|now subst].
  cbn [bind fst] in *. subst st'. rewrite (nodes_natural f p cluster cluster'); [reflexivity|]. intros rows H2 Hin. apply Hcluster; [exact H2|]. apply Forall_forall. intros c Hc. apply Hin in Hc.
  (* every crossing in the store has been computed *)
  unfold start_stage, calculate, results, rotate in E. cbn [foldM bind snd] in E. destruct (mapM (cross_task (cross moved) ts) (rev (tasks_of p ts))) as [rs|] eqn:Em; [|discriminate]. cbn [bind] in E.
  destruct (foldM (assign p 0) rs ([], [])) as [(kept & fo)|] eqn:Ef; [|discriminate]. cbn [bind fst] in E. injection E as <- <-.
  assert (Hk : forall rs (s : list (crossing C) * @by_segment C) r, foldM (assign p 0) rs s = Ok r -> incl (fst r) (fst s ++ rs)).
  { clear. induction rs as [|x rs IH]; intros s r E; cbn [foldM] in E; [injection E as <-; rewrite app_nil_r; apply incl_refl|]. destruct (assign p 0 s x) as [s1|] eqn:Ex; [|discriminate]. cbn [bind] in E. apply IH in E. unfold assign in Ex. destruct (segment_id_to_assignment p (c_segment x)) as [o|]; [|discriminate]. cbn [bind] in Ex. injection Ex as <-.
    intros y Hy. apply E in Hy. destruct o; cbn [fst] in Hy; rewrite !in_app_iff in *; cbn [In] in *; tauto. }
  apply in_map_iff in Hc. destruct Hc as (x & <- & Hx). apply (Hk _ _ _ Ef) in Hx. cbn [app] in Hx.
  assert (Hr : forall l rs, mapM (cross_task (cross moved) ts) l = Ok rs -> forall x, In x rs -> exists task, In task l /\ cross moved ts (fst task) (snd task) = Ok (c_coordinates x)).
  { clear. induction l as [|a l IH]; intros rs E x Hx; cbn [mapM] in E; [injection E as <-; destruct Hx|]. destruct (cross_task (cross moved) ts a) as [b|] eqn:Ea; [|discriminate]. cbn [bind] in E. destruct (mapM _ l) as [bs|] eqn:El; [|discriminate]. cbn [bind] in E. injection E as <-.
    destruct Hx as [<-|Hx]; [|destruct (IH bs eq_refl x Hx) as (task & Ht & Et); exists task; split; [now right|exact Et]]. exists a. split; [now left|]. unfold cross_task in Ea. destruct (cross moved ts (fst a) (snd a)) as [c|] eqn:Ec; [|discriminate]. cbn [bind] in Ea. injection Ea as <-. reflexivity. }
  destruct (Hr _ _ Em x Hx) as ((t & s) & Ht & Et). cbn [fst snd] in Et. apply (Hfine t s); [|exact Et]. apply in_rev in Ht. unfold tasks_of in Ht. apply in_flat_map in Ht. destruct Ht as (t' & Ht' & Hin'). apply in_map_iff in Hin'. destruct Hin' as (s' & E & _). now injection E as -> ->.
Qed.
Lemma scoring_natural : local_scoring sector' flip' cross' cluster' p n (map g coords) = local_scoring sector flip cross cluster p n coords.
Proof. unfold local_scoring. rewrite edges_natural, map_length. reflexivity. Qed.
End Pipeline.
