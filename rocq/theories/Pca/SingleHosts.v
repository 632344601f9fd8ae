(** The means of the hosts in single precision. *)
From Coq Require Import List Arith Bool Lia Permutation ZArith.
From Verif.Base Require Import ListX Float32.
From Verif.Pca Require Import Model Spec Exec Chunks Single SingleSpec HostsArrival.
From Coq Require Import Reals Lra.
From Flocq Require Import Core IEEE754.BinarySingleNaN.
From Verif.Base Require Import Float32Proofs.
From Verif.Normalize Require Import ScoreProofs.
From Verif.Pca Require Import SingleProofs SingleRuns.
Import ListNotations.
Open Scope R_scope.

Section Close.
Variable e : Z.
Hypothesis He : (-149 <= e <= 100)%Z.
Notation B := (bpow radix2 e).

(** A host. *)
Lemma host_close : forall column threads order t, within B column -> (1 <= length column)%nat -> (Z.of_nat (length column) <= 2 ^ 24)%Z -> (1 <= threads)%nat ->
  complete_run (length column) threads order t ->
  row_ok e (host_row column threads order)
  /\ Rabs (f_real (snd (host_row column threads order)) - mean_of column) <= (((1 + u) ^ threads - 1) + ((1 + u) ^ chunk_size (length column) threads - 1) + 3 * u) * B + 3 * eta.
Proof.
  intros column threads order t Hin H1 Hmax H2 Hr. unfold host_row, row_ok. cbn [fst snd]. pose proof u_pos as Hu. pose proof eta_pos as Hh. pose proof (bpow_gt_0 radix2 e) as HB.
  destruct (Nat.eqb_spec threads 1) as [->|Hne].
  - destruct (mean_within e He column Hin H1 Hmax) as (A & C & D). split; [auto|]. apply Rle_trans with (1 := D).
    assert (Ec : chunk_size (length column) 1 = length column) by (unfold chunk_size; rewrite Nat.add_sub, Nat.div_1_r; reflexivity). rewrite Ec.
    apply Rplus_le_compat; [|lra]. apply Rmult_le_compat_r; [lra|]. cbn [pow]. lra.
  - destruct (complete_busy _ _ _ _ H1 H2 Hr) as (Busy & _). destruct (runs_only _ _ _ _ H1 H2 Hr) as (o & -> & P1). pose proof (order_perm threads o H2 P1) as P.
    destruct (order_close e He column threads Hin H1 Hmax H2 Busy _ P) as (A & C & _). split; [auto|]. apply (order_accurate e He column threads Hin H1 Hmax H2 Busy _ P).
Qed.

Lemma weighted_means : forall E (L : list (list f32 * f32)), Forall (fun c => (1 <= length (fst c))%nat /\ Rabs (f_real (snd c) - mean_of (fst c)) <= E) L ->
  Rabs (weighted (map (fun c => (length (fst c), snd c)) L) - sum_of (concat (map fst L))) <= INR (length (concat (map fst L))) * E.
Proof.
  intros E L H. induction H as [|c L (H1 & H2) _ IH]; cbn [map concat].
  - cbn. rewrite Rminus_diag_eq, Rabs_R0 by reflexivity. lra.
  - rewrite sum_of_app, app_length, plus_INR. cbn [weighted fold_right fst snd]. fold (weighted (map (fun c => (length (fst c), snd c)) L)).
    assert (Hn : 1 <= INR (length (fst c))) by (apply (le_INR 1); exact H1).
    replace (sum_of (fst c)) with (INR (length (fst c)) * mean_of (fst c)) by (unfold mean_of; field; lra).
    match goal with |- Rabs (?a * ?x + ?y - (?a * ?m + ?z)) <= _ => replace (a * x + y - (a * m + z)) with (a * (x - m) + (y - z)) by ring end.
    apply Rle_trans with (1 := Rabs_triang _ _). rewrite Rabs_mult, (Rabs_pos_eq (INR (length (fst c)))) by lra.
    assert (INR (length (fst c)) * Rabs (f_real (snd c) - mean_of (fst c)) <= INR (length (fst c)) * E) by (apply Rmult_le_compat_l; lra). lra.
Qed.

(** All hosts. *)
Lemma cluster_close : forall hosts parts threads orders ts order T c, (1 <= hosts)%nat ->
  let column := concat (map parts (seq 0 hosts)) in
  within B column -> (Z.of_nat (length column) <= 2 ^ 24)%Z ->
  (forall h, (h < hosts)%nat -> (1 <= length (parts h))%nat /\ (1 <= threads h <= T)%nat /\ (chunk_size (length (parts h)) (threads h) <= c)%nat
     /\ complete_run (length (parts h)) (threads h) (orders h) (ts h)) ->
  Permutation order (seq 0 hosts) ->
  f_finite (cluster_mean parts threads orders order) = true /\ Rabs (f_real (cluster_mean parts threads orders order)) <= B
  /\ Rabs (f_real (cluster_mean parts threads orders order) - mean_of column) <= (((1 + u) ^ hosts - 1) + ((1 + u) ^ T - 1) + ((1 + u) ^ c - 1) + 5 * u) * B + 5 * eta.
Proof.
  intros hosts parts threads orders ts order T c Hh column Hin Hmax Hall HP. pose proof u_pos as Hu. pose proof eta_pos as He0. pose proof (bpow_gt_0 radix2 e) as HB.
  assert (Hpart : forall h, (h < hosts)%nat -> within B (parts h) /\ (length (parts h) <= length column)%nat).
  { intros h Hhh. split.
    - unfold within in *. rewrite Forall_forall in *. intros x Hx. apply Hin. unfold column. apply in_concat. exists (parts h). split; [apply in_map, in_seq; lia|exact Hx].
    - unfold column. replace hosts with (h + S (hosts - S h))%nat by lia. rewrite seq_app, map_app, concat_app, app_length, Nat.add_0_l. cbn [seq map concat]. rewrite app_length. lia. }
  set (E := (((1 + u) ^ T - 1) + ((1 + u) ^ c - 1) + 3 * u) * B + 3 * eta).
  assert (Hrow : forall h, (h < hosts)%nat -> row_ok e (host_row (parts h) (threads h) (orders h)) /\ Rabs (f_real (snd (host_row (parts h) (threads h) (orders h))) - mean_of (parts h)) <= E).
  { intros h Hhh. destruct (Hall h Hhh) as (A1 & A2 & A3 & A4). destruct (Hpart h Hhh) as (P1 & P2). destruct (host_close (parts h) (threads h) (orders h) (ts h)) as (R1 & R2); auto; try lia.
    split; [exact R1|]. apply Rle_trans with (1 := R2). unfold E. apply Rplus_le_compat_r, Rmult_le_compat_r; [lra|]. apply Rplus_le_compat_r. apply Rplus_le_compat; apply Rplus_le_compat_r, Rle_pow; lia || lra. }
  set (rows := fun h => host_row (parts h) (threads h) (orders h)).
  assert (Et : total (map fst (map rows (seq 0 hosts))) = length column).
  { rewrite map_map. change (fun x => fst (rows x)) with (fun x => length (parts x)). rewrite <- (map_map parts (@length f32)). apply len_total. }
  pose proof (Permutation_map rows HP) as PR. unfold cluster_mean. fold rows. destruct (global_within e He (map rows order)) as (A & C & D).
  - eapply Permutation_Forall; [symmetry; exact PR|]. apply Forall_forall. intros r Hr. apply in_map_iff in Hr. destruct Hr as (h & <- & Hh'). apply in_seq in Hh'. apply (Hrow h). lia.
  - intros E0. apply map_eq_nil in E0. subst. apply Permutation_nil in HP. destruct hosts; [lia|discriminate].
  - rewrite (total_perm _ _ (Permutation_map fst PR)), Et. exact Hmax.
  - split; [exact A|]. split; [exact C|]. rewrite (total_perm _ _ (Permutation_map fst PR)), Et, (weighted_perm _ _ PR), map_length, (Permutation_length HP), seq_length in D.
    pose proof (weighted_means E (map (fun h => (parts h, snd (rows h))) (seq 0 hosts))) as W.
    rewrite !map_map in W. change (fun x => fst (parts x, snd (rows x))) with parts in W. change (map (fun x => (length (fst (parts x, snd (rows x))), snd (parts x, snd (rows x)))) (seq 0 hosts)) with (map rows (seq 0 hosts)) in W. fold column in W.
    assert (W' : Rabs (weighted (map rows (seq 0 hosts)) - sum_of column) <= INR (length column) * E).
    { apply W. apply Forall_forall. intros r Hr. apply in_map_iff in Hr. destruct Hr as (h & <- & Hh'). apply in_seq in Hh'. cbn [fst snd]. destruct (Hall h ltac:(lia)) as (A1 & _). split; [exact A1|]. apply (Hrow h). lia. }
    assert (Hn : 1 <= INR (length column)). { apply (le_INR 1). destruct (Hall 0%nat ltac:(lia)) as (A1 & _). destruct (Hpart 0%nat ltac:(lia)) as (_ & A2). lia. }
    unfold mean_of. set (n := INR (length column)) in *. set (w := weighted _) in *.
    assert (E5 : Rabs (w / n - sum_of column / n) <= E).
    { replace (w / n - sum_of column / n) with ((w - sum_of column) * / n) by (unfold Rdiv; ring). rewrite Rabs_mult, (Rabs_pos_eq (/ n)) by (apply Rlt_le, Rinv_0_lt_compat; lra).
      apply Rmult_le_reg_r with n; [lra|]. rewrite Rmult_assoc, Rinv_l by lra. lra. }
    match goal with |- Rabs (?a - ?b) <= _ => replace (a - b) with ((a - w / n) + (w / n - b)) by ring end.
    apply Rle_trans with (1 := Rabs_triang _ _). unfold E in E5. lra.
Qed.
End Close.

(** Rows for which the number of hosts matters: 2^24 and 1 on the first host, 1 and -2^24 on the second, zeros on the others. *)
Definition pair_of (h : nat) : list f32 := match h with 0%nat => [f_of (2 ^ 24) 0; f_of 1 0] | 1%nat => [f_of 1 0; f_of (- 2 ^ 24) 0] | _ => [f_zero; f_zero] end.
Definition pairs_of (n : nat) : list f32 := concat (map pair_of (seq 0 n)).
Definition times (h : nat) : f32 := f_mul (f_of_nat 2) (f_mean (pair_of h)).

Lemma pairs_len : forall n, length (pairs_of n) = (2 * n)%nat.
Proof.
  intros n. unfold pairs_of. assert (G : forall a, length (concat (map pair_of (seq a n))) = (2 * n)%nat); [|apply G]. induction n as [|n IH]; intros a; cbn [seq map concat]; [reflexivity|]. rewrite app_length, IH. destruct a as [|[|a]]; cbn [pair_of length]; lia.
Qed.
Lemma pair_len : forall h, length (pair_of h) = 2%nat.
Proof. intros [|[|h]]; reflexivity. Qed.
Lemma add_zeros : forall l x, (forall y, In y l -> y = f_zero) -> f_add x f_zero = x -> fold_left f_add l x = x.
Proof. induction l as [|y l IH]; intros x Hl Hx; [reflexivity|]. cbn [fold_left]. rewrite (Hl y) by now left. rewrite Hx. apply IH; [intros z Hz; apply Hl; now right|exact Hx]. Qed.
Lemma pairs_sum : forall n, (2 <= n)%nat -> f_sum (pairs_of n) = f_zero.
Proof.
  intros n Hn. unfold pairs_of. replace n with (2 + (n - 2))%nat by lia. rewrite seq_app. cbn [seq app map]. cbn [concat]. unfold f_sum. rewrite !fold_left_app.
  cbn [pair_of fold_left]. replace (f_add (f_add (f_add (f_add f_zero (f_of (2 ^ 24) 0)) (f_of 1 0)) (f_of 1 0)) (f_of (- 2 ^ 24) 0)) with f_zero by (now apply f_same; vm_compute).
  apply add_zeros; [|now apply f_same; vm_compute]. intros y Hy. apply in_concat in Hy. destruct Hy as (l & Hl & Hy). apply in_map_iff in Hl. destruct Hl as (h & <- & Hh). apply in_seq in Hh.
  destruct h as [|[|h]]; try lia. destruct Hy as [<-|[<-|[]]]; reflexivity.
Qed.
Lemma times_big : forall h, (2 <= h)%nat -> times h = f_zero.
Proof. intros [|[|h]] H; try lia. unfold times. cbn [pair_of]. now apply f_same; vm_compute. Qed.
Lemma times_sum : forall n o, (2 <= n)%nat -> Permutation o (seq 1 (n - 1)) -> f_sum (map times (0%nat :: o)) = f_of 1 0.
Proof.
  intros n o Hn Ho. assert (H1 : In 1%nat o) by (apply (Permutation_in _ (Permutation_sym Ho)), in_seq; lia). apply in_split in H1. destruct H1 as (a & b & ->).
  assert (Hab : forall h, In h (a ++ b) -> (2 <= h)%nat).
  { intros h Hh. assert (Hd : NoDup (a ++ 1%nat :: b)) by (eapply Permutation_NoDup; [symmetry; exact Ho|apply seq_NoDup]). apply NoDup_remove_2 in Hd.
    assert (Hi : In h (seq 1 (n - 1))) by (apply (Permutation_in _ Ho); apply in_app_iff in Hh; apply in_app_iff; destruct Hh; [now left|right; now right]). apply in_seq in Hi. destruct (Nat.eq_dec h 1) as [->|]; [contradiction|lia]. }
  unfold f_sum. cbn [map]. rewrite map_app. cbn [map fold_left]. rewrite fold_left_app. cbn [fold_left].
  replace (f_add f_zero (times 0)) with (f_of (2 ^ 24) 0) by (unfold times; cbn [pair_of]; now apply f_same; vm_compute).
  rewrite (add_zeros (map times a)); [| |now apply f_same; vm_compute].
  - replace (f_add (f_of (2 ^ 24) 0) (times 1)) with (f_of 1 0) by (unfold times; cbn [pair_of]; now apply f_same; vm_compute).
    apply add_zeros; [|now apply f_same; vm_compute]. intros y Hy. apply in_map_iff in Hy. destruct Hy as (h & <- & Hh). apply times_big, Hab, in_app_iff. now right.
  - intros y Hy. apply in_map_iff in Hy. destruct Hy as (h & <- & Hh). apply times_big, Hab, in_app_iff. now left.
Qed.
Lemma zero_over : forall x n, f_finite x = true -> f_real x = INR n -> (1 <= n)%nat -> f_finite (f_div f_zero x) = true /\ f_real (f_div f_zero x) = 0.
Proof.
  intros x n Fx Ex Hn. assert (1 <= INR n) by (apply (le_INR 1); exact Hn). destruct (f_div_ok f_zero x eq_refl) as (A & E); rewrite Ex in *; [lra| |].
  - change (f_real f_zero) with 0. unfold Rdiv. rewrite Rmult_0_l, rnd_0, Rabs_R0. apply bpow_gt_0.
  - split; [exact A|]. rewrite E. change (f_real f_zero) with 0. unfold Rdiv. now rewrite Rmult_0_l, rnd_0.
Qed.
Lemma one_over : forall x n, f_finite x = true -> f_real x = INR n -> (1 <= n)%nat -> f_real (f_div (f_of 1 0) x) = rnd (/ INR n).
Proof.
  intros x n Fx Ex Hn. assert (H1 : 1 <= INR n) by (apply (le_INR 1); exact Hn).
  assert (One : f_real (f_of 1 0) = 1). { change (f_of 1 0) with (f_of_nat 1). rewrite (proj2 (of_nat_exact 1 ltac:(lia))). reflexivity. }
  destruct (f_div_ok (f_of 1 0) x eq_refl) as (_ & E); rewrite Ex in *; rewrite ?One in *; [lra| |].
  - unfold Rdiv. rewrite Rmult_1_l. assert (0 < / INR n <= 1) by (split; [apply Rinv_0_lt_compat; lra|rewrite <- Rinv_1; apply Rinv_le_contravar; lra]).
    assert (0 <= rnd (/ INR n) <= 1) by (split; [rewrite <- rnd_0; apply rnd_mono; lra|rewrite <- rnd_1; apply rnd_mono; lra]). rewrite Rabs_pos_eq by lra. pose proof one_lt_max. lra.
  - rewrite E. unfold Rdiv. now rewrite Rmult_1_l.
Qed.
(** A mean of zero stays zero in [finalize]. *)
Lemma global_one_zero : forall n m, (1 <= n)%nat -> (Z.of_nat n <= 2 ^ 24)%Z -> f_finite m = true -> f_real m = 0 -> f_real (f_global_mean [(n, m)]) = 0.
Proof.
  intros n m Hn Hz Fm Em. assert (B0 : Rabs (f_real m) <= bpow radix2 (-149)) by (rewrite Em, Rabs_R0; apply bpow_ge_0). unfold f_global_mean. cbn [map fst snd f_sum fold_left]. unfold f_sum. cbn [fold_left].
  destruct (of_nat_exact n Hz) as (Fn & En). assert (H1 : 1 <= INR n) by (apply (le_INR 1); exact Hn).
  destruct (FileProofs.f_mul_ok (f_of_nat n) m Fn Fm) as (Fp & Ep); [rewrite Em, Rmult_0_r, rnd_0, Rabs_R0; apply bpow_gt_0|]. rewrite Em, Rmult_0_r, rnd_0 in Ep.
  destruct (f_add_ok f_zero (f_mul (f_of_nat n) m) eq_refl Fp) as (Fa & Ea); [rewrite Ep; change (f_real f_zero) with 0; rewrite Rplus_0_l, rnd_0, Rabs_R0; apply bpow_gt_0|]. rewrite Ep in Ea. change (f_real f_zero) with 0 in Ea. rewrite Rplus_0_l, rnd_0 in Ea.
  destruct (counts_sum [n]) as (Fc & Ec); [unfold total; cbn [fold_right]; rewrite Nat.add_0_r; exact Hz|]. unfold f_sum in Fc, Ec. cbn [map fold_left] in Fc, Ec. unfold total in Ec. cbn [fold_right] in Ec. rewrite Nat.add_0_r in Ec.
  destruct (f_div_ok (f_add f_zero (f_mul (f_of_nat n) m)) (f_add f_zero (f_of_nat n)) Fa) as (_ & E); rewrite Ec in *; [lra| |].
  - rewrite Ea. unfold Rdiv. rewrite Rmult_0_l, rnd_0, Rabs_R0. apply bpow_gt_0.
  - rewrite E, Ea. unfold Rdiv. now rewrite Rmult_0_l, rnd_0.
Qed.
Lemma hosts_differ : forall n order, (2 <= n)%nat -> (Z.of_nat (2 * n) <= 2 ^ 24)%Z -> (exists o, order = 0%nat :: o /\ Permutation o (seq 1 (n - 1))) ->
  f_real (machine_mean (pairs_of n) 1 [0%nat]) = 0
  /\ f_real (cluster_mean pair_of (fun _ => 1%nat) (fun _ => [0%nat]) order) = rnd (/ INR (2 * n)).
Proof.
  intros n order Hn Hz (o & -> & Ho). split.
  - unfold machine_mean, cluster_mean. cbn [map]. unfold host_row. cbn [Nat.eqb]. rewrite pairs_len.
    assert (M : f_finite (f_mean (pairs_of n)) = true /\ f_real (f_mean (pairs_of n)) = 0).
    { unfold f_mean. rewrite pairs_sum, pairs_len by exact Hn. destruct (of_nat_exact (2 * n) Hz) as (F & E). apply (zero_over _ (2 * n) F E). lia. }
    destruct M as (M1 & M2). apply global_one_zero; auto. lia.
  - unfold cluster_mean, f_global_mean. rewrite !map_map.
    assert (E1 : forall l, map (fun x => f_mul (f_of_nat (fst (host_row (pair_of x) 1 [0%nat]))) (snd (host_row (pair_of x) 1 [0%nat]))) l = map times l).
    { intros l. apply map_ext. intros h. unfold host_row. cbn [fst snd Nat.eqb]. now rewrite pair_len. }
    assert (E2 : forall l, map (fun x => f_of_nat (fst (host_row (pair_of x) 1 [0%nat]))) l = map f_of_nat (map (fun _ => 2%nat) l)).
    { intros l. rewrite map_map. apply map_ext. intros h. unfold host_row. cbn [fst]. now rewrite pair_len. }
    rewrite E1, E2, (times_sum n) by assumption.
    assert (T : total (map (fun _ => 2%nat) (0%nat :: o)) = (2 * n)%nat).
    { assert (G : forall l : list nat, total (map (fun _ => 2%nat) l) = (2 * length l)%nat) by (unfold total; induction l as [|x l IH]; cbn [map fold_right length]; [reflexivity|]; lia).
      rewrite G. cbn [length]. rewrite (Permutation_length Ho), seq_length. lia. }
    destruct (counts_sum (map (fun _ => 2%nat) (0%nat :: o))) as (F & E); [now rewrite T|]. rewrite T in E. apply one_over; [exact F|exact E|lia].
Qed.

(** The number of threads. *)
Lemma spread_sum : forall n, (3 <= n)%nat -> f_sum (spread n) = f_zero.
Proof.
  intros n Hn. unfold spread. replace n with (3 + (n - 3))%nat by lia. rewrite seq_app, map_app. unfold f_sum. rewrite fold_left_app. cbn [seq map fold_left].
  replace (f_add (f_add (f_add f_zero (val 0)) (val 1)) (val 2)) with f_zero by (now apply f_same; vm_compute). apply zeros; [intros i Hi; apply in_seq in Hi; lia|now apply f_same; vm_compute].
Qed.
Lemma machine_spread_zero : forall n, (3 <= n)%nat -> (Z.of_nat n <= 2 ^ 24)%Z -> f_real (machine_mean (spread n) 1 [0%nat]) = 0.
Proof.
  intros n Hn Hz. unfold machine_mean, cluster_mean. cbn [map]. unfold host_row. cbn [Nat.eqb]. rewrite spread_len.
  assert (M : f_finite (f_mean (spread n)) = true /\ f_real (f_mean (spread n)) = 0).
  { unfold f_mean. rewrite spread_sum, spread_len by exact Hn. destruct (of_nat_exact n Hz) as (F & E). apply (zero_over _ n F E). lia. }
  destruct M as (M1 & M2). apply global_one_zero; auto. lia.
Qed.
Lemma machine_spread_pos : forall n, (3 <= n)%nat -> (Z.of_nat n <= 2 ^ 24)%Z -> 0 < f_real (machine_mean (spread n) n (0 :: 2 :: 1 :: seq 3 (n - 3))%nat).
Proof.
  intros n Hn Hz. unfold machine_mean, cluster_mean. cbn [map]. unfold host_row. destruct (Nat.eqb_spec n 1); [lia|]. rewrite spread_len.
  set (m := threads_mean (spread n) n (0 :: 2 :: 1 :: seq 3 (n - 3))%nat). assert (Em : f_real m = rnd (/ INR n)) by apply (spread_differs n Hn Hz). assert (H1 : 1 <= INR n) by (apply (le_INR 1); lia).
  assert (Pos : bpow radix2 (-24) <= rnd (/ INR n) <= 1).
  { assert (0 < / INR n <= 1) by (split; [apply Rinv_0_lt_compat; lra|rewrite <- Rinv_1; apply Rinv_le_contravar; lra]). split; [|rewrite <- rnd_1; apply rnd_mono; lra].
    rewrite <- (rnd_format (bpow radix2 (-24))) by (apply format_bpow; lia). apply rnd_mono. change (bpow radix2 (-24)) with (/ IZR (2 ^ 24)). apply Rinv_le_contravar; [lra|]. rewrite INR_IZR_INZ. now apply IZR_le. }
  assert (B24 : 0 < bpow radix2 (-24)) by apply bpow_gt_0.
  assert (Fm : f_finite m = true) by (destruct (f_finite m) eqn:F; [reflexivity|]; exfalso; revert F Em; destruct m; cbn; intros F Em; try discriminate; lra).
  unfold f_global_mean. cbn [map fst snd]. unfold f_sum. cbn [fold_left]. destruct (of_nat_exact n Hz) as (Fn & En).
  assert (Mx : IZR (2 ^ 24) < max_real) by (rewrite <- (Rabs_pos_eq (IZR (2 ^ 24))) by (apply IZR_le; lia); apply IZR_lt_max; lia).
  assert (Hi : INR n <= IZR (2 ^ 24)) by (rewrite INR_IZR_INZ; now apply IZR_le).
  assert (Q : bpow radix2 (-24) <= INR n * rnd (/ INR n) <= IZR (2 ^ 24)) by nra.
  assert (Rg : forall x, bpow radix2 (-24) <= x <= IZR (2 ^ 24) -> bpow radix2 (-24) <= rnd x <= IZR (2 ^ 24)).
  { intros x Hx. rewrite <- (rnd_format (bpow radix2 (-24))) by (apply format_bpow; lia). rewrite <- (rnd_format (IZR (2 ^ 24))) by (apply format_Z; lia). split; apply rnd_mono; lra. }
  destruct (FileProofs.f_mul_ok (f_of_nat n) m Fn Fm) as (Fp & Ep); [rewrite En, Em; pose proof (Rg _ Q); rewrite Rabs_pos_eq; lra|]. rewrite En, Em in Ep. pose proof (Rg _ Q) as Q1.
  destruct (f_add_ok f_zero (f_mul (f_of_nat n) m) eq_refl Fp) as (Fa & Ea); [rewrite Ep; change (f_real f_zero) with 0; rewrite Rplus_0_l; pose proof (Rg _ Q1); rewrite Rabs_pos_eq; lra|].
  rewrite Ep in Ea. change (f_real f_zero) with 0 in Ea. rewrite Rplus_0_l in Ea. pose proof (Rg _ Q1) as Q2.
  destruct (counts_sum [n]) as (Fc & Ec); [unfold total; cbn [fold_right]; rewrite Nat.add_0_r; exact Hz|]. unfold f_sum in Fc, Ec. cbn [map fold_left] in Fc, Ec. unfold total in Ec. cbn [fold_right] in Ec. rewrite Nat.add_0_r in Ec.
  assert (Q3 : bpow radix2 (-48) <= rnd (rnd (INR n * rnd (/ INR n))) / INR n <= IZR (2 ^ 24)).
  { split.
    - apply Rmult_le_reg_r with (INR n); [lra|]. unfold Rdiv. rewrite Rmult_assoc, Rinv_l, Rmult_1_r by lra. apply Rle_trans with (bpow radix2 (-24)); [|lra].
      replace (bpow radix2 (-24)) with (bpow radix2 (-48) * IZR (2 ^ 24)) by (change (IZR (2 ^ 24)) with (bpow radix2 24); rewrite <- bpow_plus; reflexivity). apply Rmult_le_compat_l; [apply bpow_ge_0|exact Hi].
    - apply Rmult_le_reg_r with (INR n); [lra|]. unfold Rdiv. rewrite Rmult_assoc, Rinv_l, Rmult_1_r by lra. assert (0 <= IZR (2 ^ 24)) by (apply IZR_le; lia). nra. }
  assert (Q4 : bpow radix2 (-48) <= rnd (rnd (rnd (INR n * rnd (/ INR n))) / INR n) <= IZR (2 ^ 24)).
  { rewrite <- (rnd_format (bpow radix2 (-48))) by (apply format_bpow; lia). rewrite <- (rnd_format (IZR (2 ^ 24))) by (apply format_Z; lia). split; apply rnd_mono; lra. }
  assert (B48 : 0 < bpow radix2 (-48)) by apply bpow_gt_0.
  destruct (f_div_ok (f_add f_zero (f_mul (f_of_nat n) m)) (f_add f_zero (f_of_nat n)) Fa) as (_ & E); rewrite Ec in *; [lra| |].
  - rewrite Ea. rewrite Rabs_pos_eq; lra.
  - rewrite E, Ea. lra.
Qed.
