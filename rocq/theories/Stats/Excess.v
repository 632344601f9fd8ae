(** The standard deviation published by any number of nodes. *)
From Coq Require Import List Arith Reals Lia Lra Bool Permutation.
From Verif.Base Require Import Res Params Assoc ListX.
From Verif.Topology Require Import Model Spec Proofs.
From Verif.Reader Require Import Spec.
From Verif.Stats Require Import Model Spec Proofs.
Import ListNotations.
Local Open Scope R_scope.

(** ** The error *)
Lemma excess_from_snoc : forall parts before b, excess_from before (parts ++ [b]) = excess_from before parts + surplus (before ++ concat parts) b.
Proof.
  induction parts as [|a t IH]; intros before b; cbn [app excess_from concat]; [rewrite app_nil_r; ring|].
  rewrite IH, <- app_assoc. ring.
Qed.
Lemma excess_snoc : forall parts b, parts <> [] -> excess (parts ++ [b]) = excess parts + surplus (concat parts) b.
Proof. intros [|a t] b H; [congruence|]. cbn [app excess concat]. apply excess_from_snoc. Qed.

Lemma scatter_nonneg : forall l, 0 <= scatter l.
Proof.
  intros l. unfold scatter. set (c := mean l). clearbody c. induction l as [|x t IH]; unfold Rsum in *; cbn [map fold_right]; [lra|].
  pose proof (Rle_0_sqr (x - c)) as H. unfold Rsqr in H. lra.
Qed.

Lemma scatter_surplus : forall a b, a <> [] -> b <> [] -> scatter (a ++ b) + surplus a b = scatter a + scatter b + (mean b - mean a) * (mean b - mean a).
Proof. intros a b Ha Hb. rewrite scatter_app by assumption. unfold surplus. ring. Qed.

Lemma excess_from_bound : forall parts before e, before <> [] -> Forall (fun b => b <> []) parts -> 0 <= scatter before + e ->
  0 <= scatter (before ++ concat parts) + e + excess_from before parts.
Proof.
  induction parts as [|b t IH]; intros before e Hb HF H; cbn [concat excess_from]; [rewrite app_nil_r; lra|].
  inversion HF as [|? ? Hb' HF']; subst. rewrite app_assoc.
  pose proof (IH (before ++ b) (e + surplus before b)) as I.
  assert (N : before ++ b <> []) by (destruct before; [congruence|discriminate]).
  specialize (I N HF'). pose proof (scatter_surplus before b Hb Hb') as S. pose proof (scatter_nonneg b) as P.
  pose proof (Rle_0_sqr (mean b - mean before)) as Q. unfold Rsqr in Q. lra.
Qed.
Lemma excess_bound : forall parts, Forall (fun b => b <> []) parts -> 0 <= scatter (concat parts) + excess parts.
Proof.
  intros [|a t] HF; [cbn; pose proof (scatter_nonneg []); lra|]. inversion HF as [|? ? Ha HF']; subst. cbn [concat excess].
  pose proof (excess_from_bound t a 0 Ha HF' ltac:(pose proof (scatter_nonneg a); lra)). lra.
Qed.

Lemma surplus_nonpos : forall a b, (2 <= length a)%nat -> (2 <= length b)%nat -> surplus a b <= 0.
Proof.
  intros a b Ha Hb. apply le_INR in Ha, Hb. cbn [INR] in Ha, Hb. unfold surplus. set (n := INR (length a)) in *. set (m := INR (length b)) in *.
  pose proof (Rle_0_sqr (mean b - mean a)) as Q. unfold Rsqr in Q.
  assert (W : n * m / (n + m) >= 1).
  { apply Rle_ge. apply Rmult_le_reg_r with (n + m); [lra|]. unfold Rdiv. rewrite Rmult_assoc, Rinv_l by lra.
    pose proof (Rmult_le_compat_l (n - 2) 2 m ltac:(lra) Hb). lra. }
  set (d2 := (mean b - mean a) * (mean b - mean a)) in *. pose proof (Rmult_le_compat_l d2 (1 - n * m / (n + m)) 0 Q ltac:(lra)). lra.
Qed.
Lemma surplus_zero : forall a b, (3 <= length a)%nat -> (3 <= length b)%nat -> surplus a b = 0 -> mean b = mean a.
Proof.
  intros a b Ha Hb. apply le_INR in Ha, Hb. cbn [INR] in Ha, Hb. unfold surplus. set (n := INR (length a)) in *. set (m := INR (length b)) in *.
  assert (W : n * m / (n + m) > 1).
  { apply Rlt_gt. apply Rmult_lt_reg_r with (n + m); [lra|]. unfold Rdiv. rewrite Rmult_assoc, Rinv_l by lra.
    pose proof (Rmult_le_compat_l (n - 2) 3 m ltac:(lra) ltac:(lra)). lra. }
  intros Z. apply Rmult_integral in Z. destruct Z as [Z|Z]; [|lra]. apply Rmult_integral in Z. destruct Z; lra.
Qed.
Lemma surplus_same : forall a b, mean b = mean a -> surplus a b = 0.
Proof. intros a b E. unfold surplus. rewrite E. ring. Qed.

Lemma excess_from_nonpos : forall parts before, (2 <= length before)%nat -> Forall (fun b : list R => (2 <= length b)%nat) parts -> excess_from before parts <= 0.
Proof.
  induction parts as [|b t IH]; intros before H HF; cbn [excess_from]; [lra|]. inversion HF; subst.
  pose proof (surplus_nonpos before b H ltac:(assumption)). pose proof (IH (before ++ b) ltac:(rewrite app_length; lia) ltac:(assumption)). lra.
Qed.
Lemma excess_from_zero : forall parts before, (3 <= length before)%nat -> Forall (fun b : list R => (3 <= length b)%nat) parts ->
  (excess_from before parts = 0 <-> forall b, In b parts -> mean b = mean before).
Proof.
  induction parts as [|b t IH]; intros before H HF; cbn [excess_from]; [split; [intros _ b []|reflexivity]|].
  inversion HF as [|? ? Hb HF']; subst. assert (L : (3 <= length (before ++ b))%nat) by (rewrite app_length; lia).
  assert (Nb : before <> []) by (intros ->; cbn in H; lia). assert (Nb' : b <> []) by (intros ->; cbn in Hb; lia).
  assert (Two : Forall (fun b0 : list R => (2 <= length b0)%nat) t) by (rewrite Forall_forall in *; intros x Hx; pose proof (HF' x Hx); lia).
  split.
  - intros Z. pose proof (surplus_nonpos before b ltac:(lia) ltac:(lia)) as P1. pose proof (excess_from_nonpos t (before ++ b) ltac:(lia) Two) as P2.
    assert (Z1 : surplus before b = 0) by lra. assert (Z2 : excess_from (before ++ b) t = 0) by lra.
    apply surplus_zero in Z1; [|exact H|exact Hb]. rewrite (IH _ L HF') in Z2. intros x [<-|Hx]; [exact Z1|].
    rewrite (Z2 x Hx), mean_app_eq; auto.
  - intros A. rewrite (surplus_same before b) by (apply A; now left). rewrite Rplus_0_l. apply (IH _ L HF'). intros x Hx.
    rewrite (A x) by now right. rewrite mean_app_eq; auto; rewrite (A b) by (now left); reflexivity.
Qed.
Lemma excess_nonpos : forall parts, Forall (fun b : list R => (2 <= length b)%nat) parts -> excess parts <= 0.
Proof. intros [|a t] HF; cbn [excess]; [lra|]. inversion HF; subst. now apply excess_from_nonpos. Qed.
Lemma excess_zero : forall parts, Forall (fun b : list R => (3 <= length b)%nat) parts ->
  (excess parts = 0 <-> forall a b, In a parts -> In b parts -> mean a = mean b).
Proof.
  intros [|a t] HF; cbn [excess]; [split; [intros _ x y []|reflexivity]|]. inversion HF as [|? ? Ha HF']; subst.
  rewrite (excess_from_zero t a Ha HF'). split.
  - intros A x y Hx Hy. assert (B : forall z, In z (a :: t) -> mean z = mean a) by (intros z [<-|Hz]; auto). now rewrite (B x Hx), (B y Hy).
  - intros A b Hb. apply A; cbn; auto.
Qed.

(** ** The collection *)
Lemma column_concat : forall (A : Type) j (ms : list (list (list A))), column j (concat ms) = concat (map (column j) ms).
Proof. intros A j ms. induction ms as [|m t IH]; [reflexivity|]. cbn [concat map]. now rewrite column_app, IH. Qed.

Section Collect.
Context {source addr : Type}.
Notation part := (list (list R) * std_msg source)%type.

Definition fits (w : nat) (sp : part) : Prop := std_good w (fst sp) (snd sp) /\ Forall (fun r => length r = w) (fst sp) /\ fst sp <> [].
Definition col (j : nat) (sp : part) : list R := column j (fst sp).
Definition from (sp : part) : source := sm_source (snd sp).

Lemma merge_excess : forall w a b n mu q (msg : std_msg source) e j,
  Forall (fun r => length r = w) a -> Forall (fun r => length r = w) b -> a <> [] -> b <> [] -> (j < w)%nat ->
  n = length a -> nth_error mu j = Some (mean (column j a)) -> nth_error q j = Some (scatter (column j a) + e) -> std_good w b msg ->
  nth_error (merge_mean n mu msg) j = Some (mean (column j (a ++ b)))
  /\ nth_error (merge_m2 n mu q msg) j = Some (scatter (column j (a ++ b)) + (e + surplus (column j a) (column j b))).
Proof.
  intros w a b n mu q msg e j HFa HFb Ha Hb Hj Hn E1 E2 (Hn' & L1' & L2' & HS'). destruct (HS' j Hj) as (E1' & E2').
  assert (Ca : column j a <> []) by (eapply column_nonempty; eauto). assert (Cb : column j b <> []) by (eapply column_nonempty; eauto). split.
  - unfold merge_mean. rewrite nth_error_map, (nth_error_map2 _ _ _ _ _ _ j _ _ E1 E1'). cbn [option_map]. f_equal.
    rewrite column_app, mean_app by assumption. rewrite !(column_length _ _ w) by assumption. rewrite Hn, Hn', plus_INR. reflexivity.
  - unfold merge_m2. rewrite (nth_error_map2 _ _ _ Rplus _ _ j (scatter (column j b) + (scatter (column j a) + e))
      ((mean (column j b) - mean (column j a)) * (mean (column j b) - mean (column j a)) * 1)).
    + f_equal. rewrite column_app. pose proof (scatter_surplus (column j a) (column j b) Ca Cb). lra.
    + now apply nth_error_map2.
    + rewrite nth_error_map, (nth_error_map2 _ _ _ Rminus _ _ j _ _ E1' E1). cbn [option_map]. do 2 f_equal.
      rewrite Hn, Hn'. unfold Rdiv. apply Rinv_r. apply not_0_INR. destruct a; [congruence|cbn; lia].
Qed.

Lemma std_of_excess : forall w m n q e, (2 <= length m)%nat -> n = length m -> length q = w -> Forall (fun r => length r = w) m ->
  (forall j, (j < w)%nat -> nth_error q j = Some (scatter (column j m) + e j)) ->
  exists std, std_of n q = Ok std /\ length std = w
    /\ forall j, (j < w)%nat -> nth_error std j = Some (sqrt ((scatter (column j m) + e j) / (INR (length m) - 1))).
Proof.
  intros w m n q e H2 -> Lq HF Hq. unfold std_of. rewrite usub_ok by lia. cbn [bind].
  destruct (Nat.eqb_spec (length m - 1) 0); [lia|]. eexists. split; [reflexivity|]. split; [now rewrite map_length|].
  intros j Hj. rewrite nth_error_map, (Hq j Hj). cbn [option_map]. rewrite minus_INR by lia. reflexivity.
Qed.

Lemma collect_excess : forall N w todo done c n mu q,
  Forall (fits w) done -> Forall (fits w) todo -> done <> [] ->
  sc_nodes c = map from done -> sc_n c = Some n -> sc_mean c = Some mu -> sc_m2 c = Some q ->
  n = length (concat (map fst done)) -> length mu = w -> length q = w ->
  (forall j, (j < w)%nat -> nth_error mu j = Some (mean (column j (concat (map fst done))))
     /\ nth_error q j = Some (scatter (column j (concat (map fst done))) + excess (map (col j) done))) ->
  todo <> [] -> (length done + length todo = N)%nat ->
  exists st std, collect (handle_std N) (Some c) (map snd todo)
     = Ok (st, map (fun s => (s, (std, length (concat (map fst (done ++ todo)))))) (map from (done ++ todo)))
   /\ length std = w
   /\ forall j, (j < w)%nat -> nth_error std j
        = Some (sqrt ((scatter (column j (concat (map fst (done ++ todo)))) + excess (map (col j) (done ++ todo))) / (INR (length (concat (map fst (done ++ todo)))) - 1))).
Proof.
  intros N w todo; induction todo as [|[m msg] t IH]; intros done c n mu q HD HT Hdn Hnodes Cn Cm Cq Hn Lmu Lq HS Hne Hlen; [congruence|].
  inversion HT as [|? ? Hfit HT']; subst. pose proof Hfit as (Hg & HFm & Hm0). cbn [fst snd] in *.
  cbn [map snd collect]. unfold handle_std at 1. rewrite Hnodes, app_length, map_length, Cn, Cm, Cq. cbn [length].
  assert (En : map from done ++ [sm_source msg] = map from (done ++ [(m, msg)])) by (now rewrite map_app).
  rewrite En. assert (Ecat : concat (map fst (done ++ [(m, msg)])) = concat (map fst done) ++ m).
  { rewrite map_app, concat_app. cbn. now rewrite app_nil_r. }
  assert (HFd : Forall (fun r => length r = length mu) (concat (map fst done))).
  { rewrite Forall_forall in *. intros r Hr. apply in_concat in Hr. destruct Hr as (x & Hx & Hr). apply in_map_iff in Hx. destruct Hx as (sp & <- & Hsp).
    destruct (HD sp Hsp) as (_ & F & _). rewrite Forall_forall in F. now apply F. }
  assert (Hd0 : concat (map fst done) <> []).
  { destruct done as [|d0 ds]; [congruence|]. inversion HD as [|? ? (_ & _ & Z) _]; subst. cbn. destruct (fst d0); [congruence|discriminate]. }
  assert (Ln : (length (concat (map fst done)) + sm_n msg = length (concat (map fst (done ++ [(m, msg)]))))%nat).
  { rewrite Ecat, app_length. destruct Hg as (-> & _). reflexivity. }
  assert (Lmu' : length (merge_mean (length (concat (map fst done))) mu msg) = length mu) by (destruct Hg as (_ & G1 & _); unfold merge_mean; rewrite map_length, map2_length; congruence).
  assert (Lq' : length (merge_m2 (length (concat (map fst done))) mu q msg) = length mu)
    by (destruct Hg as (_ & G1 & G2 & _); unfold merge_m2; rewrite !map2_length; rewrite ?map_length, ?map2_length; congruence).
  assert (HS' : forall j, (j < length mu)%nat ->
    nth_error (merge_mean (length (concat (map fst done))) mu msg) j = Some (mean (column j (concat (map fst (done ++ [(m, msg)])))))
    /\ nth_error (merge_m2 (length (concat (map fst done))) mu q msg) j
       = Some (scatter (column j (concat (map fst (done ++ [(m, msg)])))) + excess (map (col j) (done ++ [(m, msg)])))).
  { intros j Hj. destruct (HS j Hj) as (S1 & S2).
    destruct (merge_excess (length mu) (concat (map fst done)) m _ mu q msg _ j HFd HFm Hd0 Hm0 Hj eq_refl S1 S2 Hg) as (M1 & M2).
    rewrite Ecat. split; [exact M1|]. rewrite M2. do 2 f_equal. rewrite map_app. cbn [map].
    rewrite excess_snoc by (destruct done; [congruence|discriminate]). do 2 f_equal. rewrite column_concat, map_map. reflexivity. }
  destruct t as [|sp' t'].
  - cbn [length]. destruct (Nat.ltb_spec (length done + 1) (length done + 1)) as [|_]; [lia|].
    assert (HF1 : Forall (fun r => length r = length mu) (concat (map fst (done ++ [(m, msg)])))) by (rewrite Ecat; now apply Forall_app).
    assert (H2 : (2 <= length (concat (map fst (done ++ [(m, msg)]))))%nat).
    { rewrite Ecat, app_length. destruct (concat (map fst done)); [congruence|]. destruct m; [congruence|]. cbn. lia. }
    destruct (std_of_excess (length mu) (concat (map fst (done ++ [(m, msg)]))) _ _ (fun j => excess (map (col j) (done ++ [(m, msg)]))) H2 Ln Lq' HF1
      (fun j Hj => proj2 (HS' j Hj))) as (std & Estd & Lstd & Hstd).
    rewrite Estd. cbn [bind fst snd collect map]. rewrite app_nil_r, Ln. exists (Some {| sc_nodes := map from (done ++ [(m, msg)]);
      sc_n := Some (length (concat (map fst (done ++ [(m, msg)])))); sc_mean := Some mu; sc_m2 := Some q |}), std. auto.
  - destruct (Nat.ltb_spec (length done + 1) (length done + S (length (sp' :: t')))) as [_|]; [|cbn in *; lia]. cbn [bind fst snd].
    match goal with |- context [collect _ (Some ?c1) _] => set (c1' := c1) end.
    destruct (IH (done ++ [(m, msg)]) c1' (length (concat (map fst done)) + sm_n msg)%nat (merge_mean (length (concat (map fst done))) mu msg) (merge_m2 (length (concat (map fst done))) mu q msg))
      as (st & std & E & Lstd & Hstd); auto; try discriminate.
    + apply Forall_app. auto.
    + destruct done; discriminate.
    + rewrite app_length. cbn. lia.
    + rewrite <- app_assoc in *. cbn [app length map snd] in *. rewrite E. cbn [bind fst snd app]. eauto.
Qed.

(** Several nodes, any means. *)
Theorem std_excess : forall w (parts : list part), parts <> [] -> Forall (fits w) parts -> (2 <= length (concat (map fst parts)))%nat ->
  exists st std, collect (handle_std (length parts)) (Some std_init) (map snd parts)
     = Ok (st, map (fun s => (s, (std, length (concat (map fst parts))))) (map from parts))
   /\ length std = w
   /\ forall j, (j < w)%nat -> nth_error std j
        = Some (sqrt ((scatter (column j (concat (map fst parts))) + excess (map (col j) parts)) / (INR (length (concat (map fst parts))) - 1))).
Proof.
  intros w [|[m msg] t] Hne HF H2; [congruence|]. inversion HF as [|? ? Hfit HT]; subst. pose proof Hfit as (Hg & HFm & Hm0). cbn [fst snd] in *.
  destruct t as [|sp' t'].
  - cbn [map snd collect length concat fst] in *. rewrite app_nil_r in *. unfold handle_std, std_init. cbn [sc_nodes sc_n sc_mean sc_m2 app length Nat.ltb Nat.leb].
    destruct Hg as (Gn & G1 & G2 & G).
    destruct (std_of_excess w m (sm_n msg) (sm_m2 msg) (fun _ => 0) H2 Gn G2 HFm) as (std & Estd & Lstd & Hstd).
    { intros j Hj. rewrite (proj2 (G j Hj)), Rplus_0_r. reflexivity. }
    rewrite Estd. cbn [bind fst snd collect map app]. rewrite Gn. do 2 eexists. split; [reflexivity|]. split; [exact Lstd|exact Hstd].
  - change (map snd ((m, msg) :: sp' :: t')) with (msg :: map snd (sp' :: t')). remember (map snd (sp' :: t')) as rest eqn:Er.
    cbn [collect]. unfold handle_std at 1, std_init. cbn [sc_nodes sc_n sc_mean sc_m2 app length].
    destruct (Nat.ltb_spec 1 (S (S (length t')))) as [_|]; [|lia]. cbn [bind fst snd].
    match goal with |- context [collect _ (Some ?c1) _] => set (c1' := c1) end. pose proof Hg as (Gn & G1 & G2 & G).
    destruct (collect_excess (S (S (length t'))) w (sp' :: t') [(m, msg)] c1' (sm_n msg) (sm_mean msg) (sm_m2 msg)) as (st & std & E & Lstd & Hstd); auto; try discriminate.
    + cbn. now rewrite app_nil_r.
    + intros j Hj. cbn [map fst concat excess excess_from col]. rewrite app_nil_r, Rplus_0_r. exact (G j Hj).
    + rewrite <- Er in E. cbn [length] in *. rewrite E. cbn [bind fst snd app]. eauto.
Qed.

(** ** The nodes of a cluster *)
Lemma slice_0_all : forall A (l : list A), slice 0 (length l) l = l.
Proof. intros A l. unfold slice. cbn. rewrite Nat.sub_0_r. apply firstn_all. Qed.
Lemma slice_join : forall A (l : list A) a b c, (a <= b <= c)%nat -> slice a b l ++ slice b c l = slice a c l.
Proof.
  intros A l a b c H. apply nth_error_ext. intros k. rewrite nth_error_slice. destruct (Nat.lt_ge_cases k (length (slice a b l))) as [L|L].
  - rewrite nth_error_app1 by exact L. rewrite nth_error_slice. rewrite slice_length in L.
    destruct (Nat.ltb_spec k (b - a)) as [|]; [|lia]. destruct (Nat.ltb_spec k (c - a)) as [|]; [reflexivity|lia].
  - rewrite nth_error_app2 by exact L. rewrite nth_error_slice. rewrite slice_length in *.
    destruct (Nat.lt_ge_cases (length l) b) as [S|S].
    + destruct (Nat.ltb_spec k (c - a)); destruct (Nat.ltb_spec (k - Nat.min (b - a) (length l - a)) (c - b)); try reflexivity;
        try (symmetry; apply nth_error_None; lia); try (apply nth_error_None; lia).
      transitivity (@None A); [apply nth_error_None; lia|symmetry; apply nth_error_None; lia].
    + rewrite Nat.min_l in * by lia. destruct (Nat.ltb_spec (k - (b - a)) (c - b)); destruct (Nat.ltb_spec k (c - a)); try lia; [f_equal; lia|reflexivity].
Qed.
Lemma own_parts : forall A N (rows : list A), (1 <= N)%nat -> concat (map (fun i => partition_of N 0 i rows) (seq 0 N)) = rows.
Proof.
  intros A N rows HN. pose proof (Nat.mul_div_le (length rows) N ltac:(lia)) as Hdiv. set (w := (length rows / N)%nat) in *.
  assert (P : forall k, (k < N)%nat -> concat (map (fun i => partition_of N 0 i rows) (seq 0 k)) = slice 0 (k * w) rows).
  { induction k as [|k IH]; intros Hk; [reflexivity|]. rewrite seq_S, map_app, concat_app, IH by lia. cbn [map concat plus]. rewrite app_nil_r.
    unfold partition_of. fold w. destruct (Nat.eqb_spec (S k) N); [lia|]. rewrite Nat.add_0_r. apply slice_join. lia. }
  destruct N as [|N]; [lia|]. rewrite seq_S, map_app, concat_app, P by lia. cbn [map concat plus]. rewrite app_nil_r.
  unfold partition_of. fold w. rewrite Nat.eqb_refl. rewrite slice_join by nia. apply slice_0_all.
Qed.
Lemma counted_rows : forall A p N i (rows : list A), (1 <= N)%nat -> (i < N)%nat -> (1 <= pattern_length p <= length rows / N)%nat ->
  let d := partition_of N (pattern_length p - 1) i rows in
  firstn (length d - counted p N i) d = partition_of N 0 i rows.
Proof.
  intros A p N i rows HN Hi HP d. destruct (counted_partition A p N i rows HN Hi HP) as (_ & E). fold d in E. rewrite E. unfold d, partition_of.
  pose proof (Nat.mul_div_le (length rows) N ltac:(lia)) as Hdiv. set (w := (length rows / N)%nat) in *.
  destruct (Nat.eqb_spec (S i) N) as [Ei|Ei]; destruct (Nat.eqb_spec i (N - 1)) as [E'|E']; try lia.
  - subst i. rewrite firstn_all2; [reflexivity|]. rewrite slice_length. lia.
  - unfold slice. rewrite firstn_firstn. f_equal. cbn [Nat.mul]. lia.
Qed.

Lemma own_part_length : forall A N i (rows : list A) k, (1 <= N)%nat -> (i < N)%nat -> (k <= length rows / N)%nat -> (k <= length (partition_of N 0 i rows))%nat.
Proof.
  intros A N i rows k HN Hi Hk. unfold partition_of. pose proof (Nat.mul_div_le (length rows) N ltac:(lia)) as Hdiv. set (w := (length rows / N)%nat) in *.
  destruct (Nat.eqb_spec (S i) N) as [E|E]; rewrite slice_length; nia.
Qed.

Lemma Rsum_perm' : forall l l', Permutation l l' -> Rsum l = Rsum l'.
Proof. intros l l' P. unfold Rsum. induction P; cbn; lra. Qed.
Lemma scatter_perm : forall l l', Permutation l l' -> scatter l = scatter l'.
Proof.
  intros l l' P. unfold scatter. assert (E : mean l = mean l') by (unfold mean; now rewrite (Rsum_perm' _ _ P), (Permutation_length P)).
  rewrite E. apply Rsum_perm'. now apply Permutation_map.
Qed.

Theorem std_cluster : forall p N w rows (hosts : list (nat * (cluster_nodes addr * source))),
  (1 <= N)%nat -> (1 <= pattern_length p <= length rows / N)%nat -> (2 <= length rows)%nat ->
  Forall (fun r => length r = w) rows ->
  Permutation (map fst hosts) (seq 0 N) ->
  (forall i c s, In (i, (c, s)) hosts -> all_but i N (keys c)) ->
  exists msgs std st,
    mapM (fun h => calculate_std p (fst (snd h)) w (partition_of N (pattern_length p - 1) (fst h) rows) (snd (snd h))) hosts = Ok msgs
    /\ collect (handle_std N) (Some std_init) msgs = Ok (st, map (fun s => (s, (std, length rows))) (map (fun h => snd (snd h)) hosts))
    /\ length std = w
    /\ forall j, (j < w)%nat -> nth_error std j
         = Some (sqrt ((scatter (column j rows) + excess (map (fun h => column j (partition_of N 0 (fst h) rows)) hosts)) / (INR (length rows) - 1))).
Proof.
  intros p N w rows hosts HN HP H2 HF Hperm Htab.
  assert (Hidx : forall h, In h hosts -> (fst h < N)%nat).
  { intros h Hh. assert (In (fst h) (seq 0 N)) as Hi by (eapply Permutation_in; [exact Hperm|]; now apply in_map).
    apply in_seq in Hi. lia. }
  assert (HM : exists parts : list part,
    mapM (fun h => calculate_std p (fst (snd h)) w (partition_of N (pattern_length p - 1) (fst h) rows) (snd (snd h))) hosts = Ok (map snd parts)
    /\ map from parts = map (fun h => snd (snd h)) hosts
    /\ map fst parts = map (fun h => partition_of N 0 (fst h) rows) hosts
    /\ Forall (fits w) parts).
  { clear Hperm. induction hosts as [|[i [c s]] t IH]; [exists []; ssplit; auto; constructor|].
    destruct IH as (parts & E & Es & Ep & Ef).
    { intros i' c' s' H'. apply (Htab i' c' s'). now right. }
    { intros h Hh. apply Hidx. now right. }
    assert (Hi : (i < N)%nat) by (apply (Hidx (i, (c, s))); now left).
    destruct (counted_partition _ p N i rows HN Hi HP) as (Hc1 & Hc2).
    destruct (calculate_std_ok p c i N w (partition_of N (pattern_length p - 1) i rows) s) as (msg & Em & Esrc & Hg).
    - apply (Htab i c s). now left.
    - now apply partition_widths.
    - lia.
    - exact Hc1.
    - rewrite counted_rows in Hg by assumption. cbn [mapM fst snd]. rewrite Em. cbn [bind]. rewrite E. cbn [bind].
      exists ((partition_of N 0 i rows, msg) :: parts). ssplit.
      + reflexivity.
      + cbn [map]. rewrite Es. unfold from at 1. cbn [snd]. now rewrite Esrc.
      + cbn [map fst]. now rewrite Ep.
      + constructor; [|exact Ef]. split; [exact Hg|]. split; [now apply partition_widths|]. cbn [fst].
        intros Z. pose proof (Nat.mul_div_le (length rows) N ltac:(lia)) as Hdiv.
        assert (L : length (partition_of N 0 i rows) = 0%nat) by (rewrite Z; reflexivity). rewrite <- (counted_rows _ p N i rows HN Hi HP), firstn_length in L. lia. }
  destruct HM as (parts & E & Es & Ep & Ef).
  assert (Lp : length parts = N).
  { apply (f_equal (@length source)) in Es. rewrite !map_length in Es. rewrite Es. apply Permutation_length in Hperm. now rewrite map_length, seq_length in Hperm. }
  assert (Pr : Permutation (concat (map fst parts)) rows).
  { rewrite Ep, <- (own_parts _ N rows HN) at 1. rewrite <- (map_map fst (fun i => partition_of N 0 i rows)), <- !flat_map_concat_map. now apply Permutation_flat_map. }
  assert (Lr : length (concat (map fst parts)) = length rows) by now apply Permutation_length.
  destruct (std_excess w parts) as (st & std & Ec & Lstd & Hstd); [intros ->; cbn in Lp; lia|exact Ef|lia|].
  exists (map snd parts), std, st. rewrite Lp, Es, Lr in Ec. ssplit; auto. intros j Hj. rewrite (Hstd j Hj), Lr. do 4 f_equal.
  - apply scatter_perm. unfold column. now apply Permutation_flat_map.
  - f_equal. apply (f_equal (map (column j))) in Ep. rewrite !map_map in Ep. exact Ep.
Qed.
End Collect.
