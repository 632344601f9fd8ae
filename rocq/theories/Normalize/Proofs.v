From Coq Require Import ZArith Bool List Reals Lia Lra.
From Flocq Require Import IEEE754.BinarySingleNaN Core.
From Verif.Base Require Import Res ListX Float32 Float32Proofs.
From Verif.Normalize Require Import Model.
Import ListNotations.
Open Scope R_scope.

(** [le' c a b]: [b] is at least as extreme as [a]. *)
Definition le' (c : comparison) (a b : R) : Prop := match c with Gt => a <= b | _ => b <= a end.
Lemma le'_refl : forall c a, le' c a a.
Proof. intros [| |] a; cbn; lra. Qed.
Lemma le'_trans : forall c a b d, le' c a b -> le' c b d -> le' c a d.
Proof. intros [| |] a b d; cbn; lra. Qed.
Lemma extreme_fold : forall (c : comparison), c <> Eq -> forall l acc, f_finite acc = true -> (forall x, In x l -> f_finite x = true) ->
  exists m, foldM (fun acc x => match f_cmp x acc with None => Panic UnwrapNone | Some o => Ok (match o, c with Gt, Gt | Lt, Lt => x | _, _ => acc end) end) l acc = Ok m
    /\ (m = acc \/ In m l) /\ forall x, x = acc \/ In x l -> le' c (f_real x) (f_real m).
Proof.
  intros c Hc l. induction l as [|x l IH]; intros acc Ha Hf.
  - exists acc. split; [reflexivity|]. split; [now left|]. intros y [->|[]]. apply le'_refl.
  - cbn [foldM]. rewrite f_cmp_ok by (auto; apply Hf; now left). cbn [bind].
    set (acc' := match Rcompare (f_real x) (f_real acc), c with Gt, Gt | Lt, Lt => x | _, _ => acc end).
    assert (Ha' : f_finite acc' = true) by (unfold acc'; destruct (Rcompare (f_real x) (f_real acc)), c; auto; apply Hf; now left).
    destruct (IH acc' Ha') as (m & E & Hm & Hx); [intros y Hy; apply Hf; now right|]. exists m. split; [exact E|].
    assert (K : (acc' = x \/ acc' = acc) /\ le' c (f_real x) (f_real acc') /\ le' c (f_real acc) (f_real acc')).
    { unfold acc'. destruct (Rcompare_spec (f_real x) (f_real acc)), c; try congruence; cbn; split; auto; split; lra. }
    destruct K as (K1 & K2 & K3). split.
    + destruct Hm as [->|Hm]; [|right; now right]. destruct K1 as [->| ->]; [right; now left|now left].
    + intros y Hy. pose proof (Hx acc' (or_introl eq_refl)) as H0. destruct Hy as [->|[->|Hy]]; [eapply le'_trans; eassumption|eapply le'_trans; eassumption|]. apply Hx. now right.
Qed.
Lemma extreme_ok : forall (c : comparison), c <> Eq -> forall l, l <> [] -> (forall x, In x l -> f_finite x = true) ->
  exists m, f_extreme c l = Ok m /\ In m l /\ forall x, In x l -> le' c (f_real x) (f_real m).
Proof.
  intros c Hc l Hl Hf. destruct l as [|a l]; [congruence|]. unfold f_extreme.
  destruct (extreme_fold c Hc (a :: l) a) as (m & E & Hm & Hx); [apply Hf; now left|exact Hf|]. exists m. split; [exact E|]. split.
  - destruct Hm as [->|Hm]; [now left|exact Hm].
  - intros x H. apply Hx. now right.
Qed.

Lemma normalized : forall lo hi x, f_finite lo = true -> f_finite hi = true -> f_finite x = true -> f_real lo <= f_real x <= f_real hi -> f_real lo < f_real hi -> f_finite (f_sub hi lo) = true ->
  f_finite (f_div (f_sub x lo) (f_sub hi lo)) = true /\ f_real (f_div (f_sub x lo) (f_sub hi lo)) = rnd (rnd (f_real x - f_real lo) / rnd (f_real hi - f_real lo))
  /\ 0 <= rnd (f_real x - f_real lo) / rnd (f_real hi - f_real lo) <= 1 /\ 0 < rnd (f_real hi - f_real lo).
Proof.
  intros lo hi x Hlo Hhi Hx Hr Hlt Hs. destruct (f_sub_finite hi lo Hhi Hlo Hs) as (B & E).
  assert (P : 0 < rnd (f_real hi - f_real lo)).
  { assert (0 <= rnd (f_real hi - f_real lo)) by (rewrite <- rnd_0; apply rnd_mono; lra).
    pose proof (sub_neq_0 (f_real hi) (f_real lo) (f_real_format hi) (f_real_format lo) ltac:(lra)). lra. }
  assert (Q : 0 <= rnd (f_real x - f_real lo) <= rnd (f_real hi - f_real lo)).
  { split; [rewrite <- rnd_0|]; apply rnd_mono; lra. }
  destruct (f_sub_ok x lo Hx Hlo) as (F1 & E1). { rewrite Rabs_pos_eq by lra. rewrite Rabs_pos_eq in B by lra. lra. }
  assert (D : 0 <= rnd (f_real x - f_real lo) / rnd (f_real hi - f_real lo) <= 1).
  { split; [apply Rmult_le_pos; [lra|]; left; now apply Rinv_0_lt_compat|]. apply Rmult_le_reg_r with (rnd (f_real hi - f_real lo)); [exact P|]. unfold Rdiv. rewrite Rmult_assoc, Rinv_l by lra. lra. }
  assert (D' : 0 <= rnd (rnd (f_real x - f_real lo) / rnd (f_real hi - f_real lo)) <= 1).
  { split; [rewrite <- rnd_0|rewrite <- rnd_1]; apply rnd_mono; lra. }
  destruct (f_div_ok (f_sub x lo) (f_sub hi lo) F1) as (F2 & E2).
  - rewrite E. lra.
  - rewrite E, E1. rewrite Rabs_pos_eq by lra. pose proof one_lt_max. lra.
  - rewrite E, E1 in E2. ssplit; [exact F2|exact E2|lra|lra|exact P].
Qed.
