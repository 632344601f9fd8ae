(** The crossing that is computed is the one meant. *)
From Coq Require Import List Arith Bool Lia Reals Lra.
From Verif.Base Require Import Res ListX.
From Verif.Stats Require Import Spec Proofs.
From Verif.Pca Require GramProofs.
From Verif.Segmentation Require Import Model.
From Verif.Geometry Require Import Model Spec Proofs Crossing.
From Verif.Kde Require Import Real RealSpec RealProofs.
From Verif.Intersections Require Import Real RealSpec.
Import ListNotations.
Local Open Scope R_scope.

Lemma offset_line : forall rate s (from to : nat -> R) t, offset rate s (fun j => from j + t * (to j - from j)) = offset rate s from + t * (offset rate s to - offset rate s from).
Proof. intros. unfold offset. ring. Qed.
Lemma crossing_on_border : forall rate s from to, offset rate s from <> offset rate s to -> offset rate s (crossing_point rate s from to) = 0.
Proof. intros rate s from to H. unfold crossing_point. rewrite offset_line. field. lra. Qed.

Section Cross.
Variables (d rate s : nat) (inv : (nat -> nat -> R) -> option (nat -> nat -> R)) (r mv : R) (from to : nat -> R).
Hypothesis Hd : (2 <= d)%nat.
Hypothesis Hinv : forall m m', inv m = Some m' -> left_inverse d m' m.
Hypothesis Hcomp : complete_inverse d inv.

Lemma intersection_formula : offset rate s from <> offset rate s to -> forall p, border_intersection d rate s inv r mv from to = Some p -> forall j, (j < d)%nat -> p j = crossing_point rate s from to j.
Proof.
  intros H p Hp j Hj. destruct (on_border d rate s inv r mv from to p Hd Hinv Hp) as (t & c & L & X & Y). unfold crossing_point. rewrite (L j Hj). f_equal. f_equal.
  assert (Z : offset rate s p = 0). { unfold offset. rewrite X, Y. unfold border_angle. ring. }
  assert (E : offset rate s p = offset rate s (fun j => from j + t * (to j - from j))) by (unfold offset; rewrite (L 0%nat), (L 1%nat) by lia; reflexivity).
  rewrite E, offset_line in Z. apply Rmult_eq_reg_r with (offset rate s from - offset rate s to); [|lra]. field_simplify; lra.
Qed.
Lemma intersection_found : 0 < r -> 0 < mv -> offset rate s from <> offset rate s to -> exists p, border_intersection d rate s inv r mv from to = Some p.
Proof.
  intros Hr Hmv H. unfold border_intersection, line_plane_intersection. destruct (inv (system from to (plane_points d rate s r mv))) as [m|] eqn:E; [cbn; eauto|].
  exfalso. apply Hcomp in E. destruct E as (x & (k & Hk & Hx) & Hz). apply Hx. refine (regular d rate s r mv from to x Hd Hr Hmv _ Hz k Hk). unfold offset in H. unfold border_angle. lra.
Qed.
Lemma intersection_parallel : offset rate s from = offset rate s to -> border_intersection d rate s inv r mv from to = None.
Proof.
  intros H. unfold border_intersection, line_plane_intersection. destruct (inv (system from to (plane_points d rate s r mv))) as [m|] eqn:E; [|reflexivity]. exfalso. apply Hinv in E.
  set (sg := sin (border_angle rate s)). set (cg := cos (border_angle rate s)).
  assert (Z : forall k, (k < d)%nat -> sg * system from to (plane_points d rate s r mv) k 0%nat - cg * system from to (plane_points d rate s r mv) k 1%nat = 0).
  { intros [|k] Hk; cbn [system].
    - unfold offset in H. fold (border_angle rate s) in H. fold sg cg in H. lra.
    - rewrite !plane_0, plane_x, plane_y by lia. unfold sg, cg. ring. }
  assert (C : forall i, (i < d)%nat -> sg * (if Nat.eqb i 0 then 1 else 0) - cg * (if Nat.eqb i 1 then 1 else 0) = 0).
  { intros i Hi. rewrite <- (E i 0%nat), <- (E i 1%nat) by lia. rewrite <- !GramProofs.Rsum_scal.
    assert (Sub : forall f g l, Rsum (map f l) - Rsum (map g l) = Rsum (map (fun k : nat => f k - g k) l)).
    { intros f g l. induction l as [|y l IHl]; cbn; [ring|]. unfold Rsum in *. cbn. rewrite <- IHl. ring. }
    rewrite Sub. apply Rsum_zero. intros k Hk. apply in_seq in Hk. transitivity (m i k * (sg * system from to (plane_points d rate s r mv) k 0%nat - cg * system from to (plane_points d rate s r mv) k 1%nat)); [ring|]. rewrite Z by lia. ring. }
  pose proof (C 0%nat ltac:(lia)) as C0. pose proof (C 1%nat ltac:(lia)) as C1. cbn [Nat.eqb] in C0, C1. pose proof (sin2_cos2 (border_angle rate s)) as U. unfold Rsqr in U. fold sg cg in U. nra.
Qed.
End Cross.

(** ** The extent of the planes *)
Lemma extent_ok : forall c, c <> [] -> exists e, extent c = Ok e /\ 0 <= e /\ forall x, In x c -> Rabs x <= e.
Proof.
  intros c Hc. unfold extent. destruct (r_max_ok c Hc) as (hi & -> & Hi & Mi). destruct (r_min_ok c Hc) as (lo & -> & Lo & Ml). cbn [bind]. eexists. split; [reflexivity|]. split; [apply Rle_trans with (2 := Rmax_r _ _), Rabs_pos|].
  intros x Hx. specialize (Mi x Hx). specialize (Ml x Hx). pose proof (Rmax_l hi (Rabs lo)). pose proof (Rmax_r hi (Rabs lo)). unfold Rabs in *. destruct (Rcase_abs x), (Rcase_abs lo); lra.
Qed.
Lemma fold_max_ge : forall l a, a <= fold_left Rmax l a /\ forall x, In x l -> x <= fold_left Rmax l a.
Proof.
  induction l as [|y l IH]; intros a; cbn [fold_left]; [split; [apply Rle_refl|intros ? []]|]. destruct (IH (Rmax a y)) as (A & B). split; [apply Rle_trans with (2 := A), Rmax_l|].
  intros x [<-|Hx]; [apply Rle_trans with (2 := A), Rmax_r|now apply B].
Qed.
Definition rows_ok (d : nat) (coords : list (list R)) (held : list transition) : Prop :=
  forall t, In t held -> exists a b, nth_error coords (pid (fst t)) = Some a /\ nth_error coords (pid (snd t)) = Some b /\ length a = d /\ length b = d.
Lemma max_value_ok : forall d coords held, (1 <= d)%nat -> rows_ok d coords held -> exists m, max_value coords held = Ok m /\ 0 <= m /\
  forall t a b x, In t held -> nth_error coords (pid (fst t)) = Some a -> nth_error coords (pid (snd t)) = Some b -> In x a \/ In x b -> Rabs x <= m.
Proof.
  intros d coords held Hd Hok. unfold max_value.
  assert (H : exists values, mapM (fun t : transition => let! from := coordinates_of coords (fst t) in let! e := extent from in let! to := coordinates_of coords (snd t) in let! e' := extent to in Ok (Rmax e (Rabs e'))) held = Ok values /\
    forall t a b x, In t held -> nth_error coords (pid (fst t)) = Some a -> nth_error coords (pid (snd t)) = Some b -> In x a \/ In x b -> exists v, In v values /\ Rabs x <= v).
  { induction held as [|t held IH]; [exists []; split; [reflexivity|intros ? ? ? ? []]|]. destruct IH as (values & E & F); [intros u Hu; apply Hok; now right|].
    destruct (Hok t (or_introl eq_refl)) as (a & b & Ea & Eb & La & Lb). destruct (extent_ok a) as (e & Ee & _ & Be); [intros ->; cbn in La; lia|]. destruct (extent_ok b) as (e' & Ee' & _ & Be'); [intros ->; cbn in Lb; lia|].
    exists (Rmax e (Rabs e') :: values). split; [cbn [mapM]; unfold coordinates_of at 1 2; rewrite Ea, Eb; cbn [unwrap bind]; rewrite Ee; cbn [bind]; rewrite Ee'; cbn [bind]; rewrite E; reflexivity|].
    intros u a' b' x [<-|Hu] Ea' Eb' Hx; [|destruct (F u a' b' x Hu Ea' Eb' Hx) as (v & Hv & Le); exists v; split; [now right|exact Le]].
    rewrite Ea in Ea'. rewrite Eb in Eb'. injection Ea' as <-. injection Eb' as <-. exists (Rmax e (Rabs e')). split; [now left|]. destruct Hx as [Hx|Hx]; [apply Rle_trans with (2 := Rmax_l _ _); now apply Be|apply Rle_trans with (2 := Rmax_r _ _), Rle_trans with (2 := Rle_abs _); now apply Be']. }
  destruct H as (values & E & F). rewrite E. cbn [bind]. eexists. split; [reflexivity|]. destruct (fold_max_ge values 0) as (P & Q). split; [exact P|]. intros t a b x Ht Ea Eb Hx. destruct (F t a b x Ht Ea Eb Hx) as (v & Hv & Le). apply Rle_trans with (1 := Le). now apply Q.
Qed.

Lemma channel_distances_eq : forall dim q x, (forall j, (j < 2 * dim)%nat -> q j = x j) -> channel_distances (2 * dim) q = map (fun c => sqrt (x c * x c + x (dim + c)%nat * x (dim + c)%nat)) (seq 0 dim).
Proof.
  intros dim q x H. unfold channel_distances. replace (2 * dim / 2)%nat with dim by (symmetry; rewrite Nat.mul_comm; now apply Nat.div_mul). apply map_ext_in. intros c Hc. apply in_seq in Hc. rewrite (Nat.add_comm c dim), !H by lia. reflexivity.
Qed.

Lemma real_cross_ok : forall dim inv rate coords held t s a b, (1 <= dim)%nat -> (forall m m', inv m = Some m' -> left_inverse (2 * dim) m' m) -> complete_inverse (2 * dim) inv ->
  rows_ok (2 * dim) coords held -> In t held -> nth_error coords (pid (fst t)) = Some a -> nth_error coords (pid (snd t)) = Some b ->
  (offset rate s (coords_fun a) <> offset rate s (coords_fun b) -> real_cross inv rate coords held t s = Ok (crossing_distances dim rate s (coords_fun a) (coords_fun b))) /\
  (offset rate s (coords_fun a) = offset rate s (coords_fun b) -> real_cross inv rate coords held t s = Panic Explicit).
Proof.
  intros dim inv rate coords held t s a b Hdim Hinv Hcomp Hok Ht Ea Eb. destruct (max_value_ok (2 * dim) coords held ltac:(lia) Hok) as (m & Em & Pm & Bm).
  unfold real_cross. rewrite Em. cbn [bind]. destruct held as [|t0 held]; [destruct Ht|]. cbn [nth_error unwrap bind]. destruct (Hok t0 (or_introl eq_refl)) as (a0 & b0 & Ea0 & _ & La0 & _). destruct (Hok t Ht) as (a' & b' & Ea' & Eb' & La & Lb).
  rewrite Ea in Ea'. rewrite Eb in Eb'. injection Ea' as <-. injection Eb' as <-. unfold coordinates_of. rewrite Ea0, Ea, Eb. cbn [unwrap bind]. rewrite La0, La, Lb, Nat.eqb_refl. cbn [negb orb].
  change (fun j => nth j a 0) with (coords_fun a). change (fun j => nth j b 0) with (coords_fun b). split; intros H.
  - assert (Mp : 0 < m).
    { destruct Pm as [Pm|Pm]; [exact Pm|]. exfalso. apply H. assert (Z : forall l k, (l = a \/ l = b) -> (k < 2)%nat -> coords_fun l k = 0).
      { intros l k Hl Hk. assert (In (coords_fun l k) l) by (unfold coords_fun; apply nth_In; destruct Hl; subst l; lia). assert (Rabs (coords_fun l k) <= m) by (apply (Bm t a b); auto; destruct Hl; subst l; auto). rewrite <- Pm in H1. pose proof (Rabs_pos (coords_fun l k)).
        destruct (Req_dec (coords_fun l k) 0) as [Ez|Nz]; [exact Ez|]. apply Rabs_no_R0 in Nz. lra. }
      unfold offset. rewrite !Z by (auto; lia). ring. }
    assert (Rp : 0 < plane_radius m) by (apply sqrt_lt_R0; nra).
    destruct (intersection_found (2 * dim) rate s inv (plane_radius m) m (coords_fun a) (coords_fun b) ltac:(lia) Hcomp Rp Mp H) as (q & Eq). rewrite Eq. replace (Nat.even (2 * dim)) with true by (symmetry; apply Nat.even_spec; now exists dim).
    f_equal. apply channel_distances_eq. intros j Hj. apply (intersection_formula (2 * dim) rate s inv (plane_radius m) m (coords_fun a) (coords_fun b)); auto; lia.
  - now rewrite (intersection_parallel (2 * dim) rate s inv (plane_radius m) m (coords_fun a) (coords_fun b) ltac:(lia) Hinv H).
Qed.

(** Other units: all coordinates times [k]. *)
Lemma offset_scale : forall rate s k x, offset rate s (fun j => k * x j) = k * offset rate s x.
Proof. intros. unfold offset. ring. Qed.
Lemma offset_ext : forall rate s x y, x 0%nat = y 0%nat -> x 1%nat = y 1%nat -> offset rate s x = offset rate s y.
Proof. intros rate s x y H0 H1. unfold offset. now rewrite H0, H1. Qed.
Lemma crossing_scale : forall rate s k from to j, k <> 0 -> offset rate s from <> offset rate s to -> crossing_point rate s (fun j => k * from j) (fun j => k * to j) j = k * crossing_point rate s from to j.
Proof. intros rate s k from to j Hk H. unfold crossing_point. rewrite !offset_scale. field. split; [lra|]. intros Z. apply H. apply Rmult_eq_reg_l with k; lra. Qed.
Lemma distances_scale : forall dim rate s k from to, 0 < k -> offset rate s from <> offset rate s to -> crossing_distances dim rate s (fun j => k * from j) (fun j => k * to j) = map (Rmult k) (crossing_distances dim rate s from to).
Proof.
  intros dim rate s k from to Hk H. unfold crossing_distances. cbv zeta. rewrite map_map. apply map_ext. intros c. rewrite !crossing_scale by (auto; lra). set (u := crossing_point rate s from to c). set (v := crossing_point rate s from to (dim + c)%nat).
  replace (k * u * (k * u) + k * v * (k * v)) with (k * k * (u * u + v * v)) by ring. rewrite sqrt_mult by nra. rewrite sqrt_square by lra. reflexivity.
Qed.
