(** A channel that never changes: its reference point is the centre of its windows, and the alignment divides by zero. *)
From Verif.Pca Require Import Model Spec.
From Coq Require Import List Arith Bool Lia Permutation ZArith Reals Lra.
From Flocq Require Import IEEE754.BinarySingleNaN Core.
From Verif.Base Require Import Res Params ListX Float32 Float32Proofs.
From Verif.Stats Require Import Model Proofs Single SingleSpec SingleProofs.
From Verif.Properties Require Import StatsSingle.
From Verif.PhaseSpace Require Import Model Spec Proofs.
From Verif.Pca Require Import Exec Chunks Single SingleSpec SingleProofs SingleRuns.
From Verif.Reader Require Import Spec Proofs.
From Verif.Front Require Import Single SingleSpec SingleProofs SingleAlign SilentSpec.
Import ListNotations.
Import Verif.Stats.Model.
Local Open Scope Z_scope.

(** ** Whole numbers *)
(** [x] stands for the whole number [k]. *)
Definition is (x : f32) (k : Z) : Prop := f_finite x = true /\ f_real x = IZR k.
Definition bound : Z := 16777216.

Lemma format_whole : forall k, Z.abs k <= bound -> format (IZR k).
Proof.
  intros k H. unfold format. destruct (Z.eq_dec (Z.abs k) bound) as [E|E].
  - assert (C : k = 2 ^ 24 \/ k = - 2 ^ 24) by (unfold bound in *; lia). assert (B : IZR (2 ^ 24) = bpow radix2 24) by (now rewrite <- IZR_Zpower).
    destruct C as [->| ->]; [|rewrite opp_IZR; apply generic_format_opp]; rewrite B; apply format_bpow; lia.
  - destruct (Z.eq_dec k 0) as [->|Hk]; [apply generic_format_0|]. replace (IZR k) with (F2R (Float radix2 k 0)) by (unfold F2R; cbn; ring). apply generic_format_F2R. intros _. unfold cexp, SpecFloat.fexp, SpecFloat.emin.
    assert (mag radix2 (F2R (Float radix2 k 0)) <= 24)%Z; [|lia].
    apply mag_le_bpow; [apply F2R_neq_0; exact Hk|]. rewrite <- F2R_Zabs. unfold F2R. cbn [Fnum Fexp]. change (bpow radix2 0) with 1%R. rewrite Rmult_1_r. rewrite <- (IZR_Zpower radix2 24) by lia. apply IZR_lt. change (radix2 ^ 24) with bound. lia.
Qed.
Lemma whole_max : forall k, Z.abs k <= bound -> (Rabs (rnd (IZR k)) < max_real)%R.
Proof.
  intros k H. rewrite rnd_format by now apply format_whole. rewrite <- abs_IZR. unfold max_real. rewrite <- (IZR_Zpower radix2 128) by lia. apply IZR_lt. unfold bound in *. change (radix2 ^ 128) with (2 ^ 128). lia.
Qed.
Lemma rnd_whole : forall k, Z.abs k <= bound -> rnd (IZR k) = IZR k. Proof. intros k H. apply rnd_format. now apply format_whole. Qed.
Lemma is_of : forall k, Z.abs k <= bound -> is (f_of k 0) k.
Proof.
  intros k H. assert (E : F2R (Float radix2 k 0) = IZR k) by (unfold F2R; cbn; ring). destruct (f_of_ok k 0) as (A & B); rewrite E in *; [now apply whole_max|]. split; [exact A|]. rewrite B. now apply rnd_whole.
Qed.
Lemma is_nat : forall n, Z.of_nat n <= bound -> is (f_of_nat n) (Z.of_nat n). Proof. intros n H. apply is_of. lia. Qed.
Lemma is_zero : is f_zero 0. Proof. split; reflexivity. Qed.
Lemma is_add : forall x y a b, is x a -> is y b -> Z.abs (a + b) <= bound -> is (f_add x y) (a + b).
Proof. intros x y a b (Fx & Rx) (Fy & Ry) H. destruct (f_add_ok x y Fx Fy) as (A & B); rewrite Rx, Ry, <- plus_IZR in *; [now apply whole_max|]. split; [exact A|]. rewrite B. now apply rnd_whole. Qed.
Lemma is_sub : forall x y a b, is x a -> is y b -> Z.abs (a - b) <= bound -> is (f_sub x y) (a - b).
Proof. intros x y a b (Fx & Rx) (Fy & Ry) H. destruct (f_sub_ok x y Fx Fy) as (A & B); rewrite Rx, Ry, <- minus_IZR in *; [now apply whole_max|]. split; [exact A|]. rewrite B. now apply rnd_whole. Qed.
Lemma is_mul : forall x y a b, is x a -> is y b -> Z.abs (a * b) <= bound -> is (f_mul x y) (a * b).
Proof.
  intros x y a b (Fx & Rx) (Fy & Ry) H. pose proof (@Bmult_correct 24 128 prec_pos prec_max mode_NE x y) as B. fold (f_real x) (f_real y) in B. rewrite Rx, Ry, <- mult_IZR in B. rewrite Rlt_bool_true in B by now apply whole_max.
  destruct B as (B1 & B2 & _). unfold f_finite in Fx, Fy. rewrite Fx, Fy in B2. split; [exact B2|]. unfold f_real, f_mul. rewrite B1. apply (rnd_whole _ H).
Qed.
Lemma is_div : forall x y a b, is x (a * b) -> is y b -> b <> 0 -> Z.abs a <= bound -> is (f_div x y) a.
Proof.
  intros x y a b (Fx & Rx) (Fy & Ry) Hb H. assert (N : IZR b <> 0%R) by (apply not_0_IZR; exact Hb). assert (E : (IZR (a * b) / IZR b = IZR a)%R) by (rewrite mult_IZR; field; exact N).
  destruct (f_div_ok x y Fx ltac:(now rewrite Ry)) as (A & B); rewrite Rx, Ry, E in *; [now apply whole_max|]. split; [exact A|]. rewrite B. now apply rnd_whole.
Qed.
Lemma is_cmp : forall x y a b, is x a -> is y b -> f_cmp x y = Some (a ?= b).
Proof. intros x y a b (Fx & Rx) (Fy & Ry). rewrite f_cmp_ok by assumption. rewrite Rx, Ry. now rewrite Rcompare_IZR. Qed.
Lemma is_gt_same : forall x y a, is x a -> is y a -> f_gt x y = false.
Proof. intros x y a Hx Hy. unfold f_gt. rewrite (is_cmp x y a a Hx Hy). now rewrite Z.compare_refl. Qed.
Lemma is_nan : forall x a, is x a -> f_nan x = false. Proof. intros [] a (H & _); try discriminate; reflexivity. Qed.

Lemma sum_whole : forall v l, Forall (fun x => is x v) l -> Z.abs v * Z.of_nat (length l) <= bound -> is (f_sum l) (v * Z.of_nat (length l)).
Proof.
  intros v l F H. unfold f_sum. enough (G : forall l n acc, Forall (fun x => is x v) l -> is acc (v * Z.of_nat n) -> Z.abs v * Z.of_nat (n + length l) <= bound -> is (fold_left f_add l acc) (v * Z.of_nat (n + length l))).
  { apply (G l 0%nat f_zero F); [rewrite Z.mul_0_r; apply is_zero|exact H]. }
  clear. induction l as [|x l IH]; intros n acc F A H; [rewrite Nat.add_0_r; exact A|]. inversion F as [|? ? Fx Fl]; subst. cbn [fold_left length] in *. replace (n + S (length l))%nat with (S n + length l)%nat in * by lia.
  apply IH; [exact Fl| |exact H]. replace (v * Z.of_nat (S n)) with (v * Z.of_nat n + v) by lia. apply is_add; auto. replace (v * Z.of_nat n + v) with (v * Z.of_nat (S n)) by lia. rewrite Z.abs_mul. rewrite (Z.abs_eq (Z.of_nat _)) by lia.
  apply Z.le_trans with (2 := H). apply Z.mul_le_mono_nonneg_l; lia.
Qed.
Lemma mean_whole : forall v l, Forall (fun x => is x v) l -> (1 <= length l)%nat -> Z.abs v * Z.of_nat (length l) <= bound -> Z.of_nat (length l) <= bound -> is (f_mean l) v.
Proof.
  intros v l F H1 H H2. unfold f_mean. apply (is_div _ _ v (Z.of_nat (length l))); [now apply sum_whole|now apply is_nat|lia|]. nia.
Qed.
Lemma sum_counts : forall v rows, Forall (fun r : nat * f32 => is (snd r) v) rows -> let n := fold_right Nat.add 0%nat (map fst rows) in Z.abs v * Z.of_nat n <= bound -> Z.of_nat n <= bound ->
  is (f_sum (map (fun r => f_mul (f_of_nat (fst r)) (snd r)) rows)) (v * Z.of_nat n) /\ is (f_sum (map (fun r => f_of_nat (fst r)) rows)) (Z.of_nat n).
Proof.
  intros v rows F n H H2. unfold f_sum. subst n.
  enough (G : forall rows k a b, Forall (fun r : nat * f32 => is (snd r) v) rows -> is a (v * Z.of_nat k) -> is b (Z.of_nat k) -> let n := (k + fold_right Nat.add 0 (map fst rows))%nat in Z.abs v * Z.of_nat n <= bound -> Z.of_nat n <= bound ->
    is (fold_left f_add (map (fun r => f_mul (f_of_nat (fst r)) (snd r)) rows) a) (v * Z.of_nat n) /\ is (fold_left f_add (map (fun r => f_of_nat (fst r)) rows) b) (Z.of_nat n)).
  { apply (G rows 0%nat f_zero f_zero F); auto; [rewrite Z.mul_0_r|]; apply is_zero. }
  clear. induction rows as [|(m, x) rows IH]; intros k a b F A B n H H2; subst n; cbn [map fold_left fold_right fst snd] in *; [rewrite Nat.add_0_r; auto|]. inversion F as [|? ? Fx Fl]; subst. cbn [snd] in Fx.
  set (s := fold_right Nat.add 0%nat (map fst rows)) in *. replace (k + (m + s))%nat with (k + m + s)%nat in * by lia.
  assert (Bd : forall j : nat, (j <= k + m + s)%nat -> Z.abs (v * Z.of_nat j) <= bound) by (intros j Hj; rewrite Z.abs_mul, (Z.abs_eq (Z.of_nat _)) by lia; apply Z.le_trans with (2 := H); apply Z.mul_le_mono_nonneg_l; lia).
  apply IH; auto.
  - replace (v * Z.of_nat (k + m)) with (v * Z.of_nat k + Z.of_nat m * v) by lia. apply is_add; [exact A| |].
    + apply is_mul; [apply is_nat; lia|exact Fx|]. rewrite Z.mul_comm. apply Bd. lia.
    + replace (v * Z.of_nat k + Z.of_nat m * v) with (v * Z.of_nat (k + m)) by lia. apply Bd. lia.
  - rewrite Nat2Z.inj_add. apply is_add; [exact B|apply is_nat; lia|lia].
Qed.
Lemma global_whole : forall v rows, Forall (fun r : nat * f32 => is (snd r) v) rows -> let n := fold_right Nat.add 0%nat (map fst rows) in (1 <= n)%nat -> Z.abs v * Z.of_nat n <= bound -> Z.of_nat n <= bound -> is (f_global_mean rows) v.
Proof. intros v rows F n H1 H H2. destruct (sum_counts v rows F H H2) as (A & B). unfold f_global_mean. apply (is_div _ _ v (Z.of_nat n)); auto; [lia|nia]. Qed.

(** ** The means *)
Lemma total_perm : forall l l' : list nat, Permutation l l' -> fold_right Nat.add 0%nat l = fold_right Nat.add 0%nat l'.
Proof. intros l l' P. induction P; cbn; lia. Qed.
Lemma total_concat : forall A (L : list (list A)), fold_right Nat.add 0%nat (map (@length A) L) = length (concat L).
Proof. intros A L. induction L as [|l L IH]; [reflexivity|]. cbn. now rewrite app_length, IH. Qed.

Lemma host_whole : forall v col threads order t, Forall (fun x => is x v) col -> (1 <= length col)%nat -> (1 <= threads)%nat -> complete_run (length col) threads order t ->
  Z.abs v * Z.of_nat (length col) <= bound -> Z.of_nat (length col) <= bound -> is (snd (host_row col threads order)) v.
Proof.
  intros v col threads order t F H1 H2 R Hb Hn. unfold host_row. cbn [snd]. destruct (Nat.eqb_spec threads 1); [now apply mean_whole|].
  destruct (complete_busy _ _ _ _ H1 H2 R) as (Busy & _). destruct (runs_only _ _ _ _ H1 H2 R) as (o & -> & Po). pose proof (order_perm threads o H2 Po) as P.
  pose proof (chunks_concat col threads H1 H2 Busy) as Cc.
  assert (T : fold_right Nat.add 0%nat (map fst (map (row_of col threads) (0%nat :: o))) = length col).
  { rewrite (total_perm _ (map fst (map (row_of col threads) (seq 0 threads)))) by now apply Permutation_map, Permutation_map. rewrite map_map. unfold row_of. cbn [fst]. rewrite <- (map_map (rows_of col threads) (@length f32)), total_concat. now rewrite Cc. }
  unfold threads_mean. apply global_whole; rewrite ?T; auto. apply Forall_forall. intros r Hr. apply in_map_iff in Hr. destruct Hr as (i & <- & Hi). apply (Permutation_in _ P) in Hi. apply in_seq in Hi. cbn [row_of snd].
  assert (Li : (length (rows_of col threads i) <= length col)%nat).
  { assert (E : length col = fold_right Nat.add 0%nat (map (@length f32) (map (rows_of col threads) (seq 0 threads)))) by now rewrite total_concat, Cc. rewrite E.
    assert (I : In i (seq 0 threads)) by (apply in_seq; lia). revert I. clear. generalize (seq 0 threads). induction l as [|a l IH]; [intros []|]. intros [<-|I]; cbn [map fold_right]; [lia|specialize (IH I); lia]. }
  destruct (rows_of_len col threads H1 H2 Busy i ltac:(lia)) as (L1 & _).
  apply mean_whole; [|exact L1| |lia].
  - apply Forall_forall. intros x Hx. rewrite Forall_forall in F. apply F. rewrite <- Cc. apply in_concat. exists (rows_of col threads i). split; [apply in_map, in_seq; lia|exact Hx].
  - apply Z.le_trans with (2 := Hb). apply Z.mul_le_mono_nonneg_l; lia.
Qed.
Lemma cluster_whole : forall v N parts threads orders ts order, (1 <= N)%nat -> Permutation order (seq 0 N) ->
  (forall h, (h < N)%nat -> Forall (fun x => is x v) (parts h) /\ (1 <= length (parts h))%nat /\ (1 <= threads h)%nat /\ complete_run (length (parts h)) (threads h) (orders h) (ts h)) ->
  Z.abs v * Z.of_nat (length (concat (map parts (seq 0 N)))) <= bound -> Z.of_nat (length (concat (map parts (seq 0 N)))) <= bound -> is (cluster_mean parts threads orders order) v.
Proof.
  intros v N parts threads orders ts order HN P H Hb Hn. set (n := length (concat (map parts (seq 0 N)))) in *.
  assert (T : fold_right Nat.add 0%nat (map fst (map (fun h => host_row (parts h) (threads h) (orders h)) order)) = n).
  { rewrite (total_perm _ (map fst (map (fun h => host_row (parts h) (threads h) (orders h)) (seq 0 N)))) by now apply Permutation_map, Permutation_map. rewrite map_map. unfold host_row. cbn [fst]. rewrite <- (map_map parts (@length f32)), total_concat. reflexivity. }
  assert (Le : forall h, (h < N)%nat -> (length (parts h) <= n)%nat).
  { intros h Hh. unfold n. rewrite <- total_concat. assert (I : In h (seq 0 N)) by (apply in_seq; lia). revert I. clear. generalize (seq 0 N). induction l as [|a l IH]; [intros []|]. intros [<-|I]; cbn [map fold_right]; [lia|specialize (IH I); lia]. }
  unfold cluster_mean. apply global_whole; rewrite ?T; auto.
  - apply Forall_forall. intros r Hr. apply in_map_iff in Hr. destruct Hr as (h & <- & Hh). apply (Permutation_in _ P) in Hh. apply in_seq in Hh. destruct (H h ltac:(lia)) as (F & L & Th & R). pose proof (Le h ltac:(lia)).
    apply (host_whole v _ _ _ (ts h)); auto; [|lia]. apply Z.le_trans with (2 := Hb). apply Z.mul_le_mono_nonneg_l; lia.
  - destruct (H 0%nat ltac:(lia)) as (_ & L & _). pose proof (Le 0%nat ltac:(lia)). lia.
Qed.

Lemma column_all : forall (Q : f32 -> Prop) c m, Forall (fun row => exists x, nth_error row c = Some x /\ Q x) m -> length (column c m) = length m /\ Forall Q (column c m).
Proof.
  intros Q c m F. induction F as [|row m (x & E & Hx) F (IH1 & IH2)]; [split; [reflexivity|constructor]|]. unfold column in *. cbn [flat_map]. rewrite E. cbn [app length]. split; [now rewrite IH1|now constructor].
Qed.
Lemma slice_forall : forall A (Q : A -> Prop) a b l, Forall Q l -> Forall Q (slice a b l).
Proof. intros A Q a b l F. apply Forall_forall. intros x Hx. rewrite Forall_forall in F. apply F. apply In_nth_error in Hx. destruct Hx as (i & E). rewrite nth_error_slice in E. destruct (Nat.ltb_spec i (b - a)); [|discriminate]. now apply nth_error_In in E. Qed.

Lemma window_whole : forall p dim rows c k i, silent rows c k -> (c < dim)%nat -> (1 <= latent p < pattern_length p)%nat -> (i + pattern_length p <= length rows)%nat -> Z.abs k * Z.of_nat (latent p) <= bound ->
  let w := PhaseSpace.Spec.window (f_sum_axis dim) (pattern_length p) (latent p) rows i in
  length (column c w) = (pattern_length p - latent p)%nat /\ Forall (fun x => is x (k * Z.of_nat (latent p))) (column c w).
Proof.
  intros p dim rows c k i S Hc HL Hi Hk w. unfold w. rewrite window_column by exact Hc. split; [now rewrite map_length, seq_length|]. apply Forall_forall. intros x Hx. apply in_map_iff in Hx. destruct Hx as (j & <- & Hj). apply in_seq in Hj.
  destruct (column_all (fun x => is x k) c (slice (i + j) (i + j + latent p) rows)) as (L & F); [apply slice_forall; exact S|].
  assert (Ls : length (slice (i + j) (i + j + latent p) rows) = latent p) by (rewrite slice_length; lia).
  rewrite Ls in L. pose proof (sum_whole k _ F) as G. rewrite L in G. now apply G.
Qed.

Lemma part_long : forall A p N h (rows : list A), (h < N)%nat -> (pattern_length p <= length rows / N)%nat -> (pattern_length p <= length (partition_of N (pattern_length p - 1) h rows))%nat.
Proof.
  intros A p N h rows Hh HP. pose proof (Nat.mul_div_le (length rows) N ltac:(lia)) as D. assert (M : (S h * (length rows / N) <= length rows)%nat) by nia.
  unfold partition_of. destruct (Nat.eqb_spec (S h) N); rewrite slice_length; cbn [Nat.mul] in *; lia.
Qed.
Lemma means_whole : forall p dim N rows windows threads orders order c k, (1 <= latent p < pattern_length p)%nat -> (1 <= N)%nat -> (pattern_length p <= length rows / N)%nat ->
  centred_by p dim N rows windows threads orders order -> silent rows c k -> (c < dim)%nat -> Z.of_nat (length rows) <= bound -> Z.abs k * Z.of_nat (latent p) * Z.of_nat (length rows) <= bound ->
  Forall (fun m => is m (k * Z.of_nat (latent p))) (channel_means (pattern_length p - latent p) windows threads orders order c).
Proof.
  intros p dim N rows windows threads orders order c k HL HN HP Hcb S Hc Hn Hk. pose proof Hcb as (He & Ht & Hruns & Ho).
  assert (El : (length rows / N <= length rows)%nat) by (apply Nat.div_le_upper_bound; [lia|]; nia).
  assert (Hkl : Z.abs k * Z.of_nat (latent p) <= bound) by nia.
  assert (W : concat (map windows (seq 0 N)) = PhaseSpace.Spec.embedding (f_sum_axis dim) (pattern_length p) (latent p) rows) by (apply (host_windows p dim N rows windows); auto; lia).
  assert (A : forall h w, (h < N)%nat -> In w (windows h) -> length (column c w) = (pattern_length p - latent p)%nat /\ Forall (fun x => is x (k * Z.of_nat (latent p))) (column c w)).
  { intros h w Hh Hw. assert (I : In w (concat (map windows (seq 0 N)))) by (apply in_concat; exists (windows h); split; [apply in_map, in_seq; lia|exact Hw]).
    rewrite W in I. unfold PhaseSpace.Spec.embedding in I. apply in_map_iff in I. destruct I as (i & <- & Hi). apply in_seq in Hi. apply window_whole; auto. lia. }
  assert (C : forall j h, (j < pattern_length p - latent p)%nat -> (h < N)%nat -> length (host_column c j (windows h)) = length (windows h) /\ Forall (fun x => is x (k * Z.of_nat (latent p))) (host_column c j (windows h))).
  { intros j h Hj Hh. unfold host_column. destruct (column_all (fun x => is x (k * Z.of_nat (latent p))) j (map (column c) (windows h))) as (L & F).
    - apply Forall_forall. intros col Hcol. apply in_map_iff in Hcol. destruct Hcol as (w & <- & Hw). destruct (A h w Hh Hw) as (L & F). destruct (nth_error_some _ (column c w) j ltac:(lia)) as (x & Ex). exists x. split; [exact Ex|]. rewrite Forall_forall in F. apply F. now apply nth_error_In in Ex.
    - rewrite map_length in L. auto. }
  assert (Hsome : exists ts, forall h, (h < N)%nat -> complete_run (length (windows h)) (threads h) (orders c h) (ts h)).
  { clear -Hruns Hc. assert (G : forall n, (n <= N)%nat -> exists ts, forall h, (h < n)%nat -> complete_run (length (windows h)) (threads h) (orders c h) (ts h)).
    { induction n as [|n IH]; intros Hk; [exists (fun _ => Own 0); intros h Hh; lia|]. destruct (IH ltac:(lia)) as (ts & Hts). destruct (Hruns c n Hc ltac:(lia)) as (t & Rt). exists (fun h => if (h =? n)%nat then t else ts h).
      intros h Hh. destruct (Nat.eqb_spec h n) as [->|]; [exact Rt|apply Hts; lia]. }
    now apply G. }
  destruct Hsome as (ts & Hts).
  assert (Lw : forall h, (h < N)%nat -> (1 <= length (windows h))%nat).
  { intros h Hh. specialize (He h Hh). unfold f_embed in He. assert (Lp : (pattern_length p <= length (partition_of N (pattern_length p - 1) h rows))%nat) by now apply part_long.
    rewrite phase_space_ok in He by (auto; lia). injection He as <-. unfold PhaseSpace.Spec.embedding. rewrite map_length, seq_length. lia. }
  apply Forall_forall. intros m Hm. apply in_map_iff in Hm. destruct Hm as (j & <- & Hj). apply in_seq in Hj.
  assert (Tot : (length (concat (map (fun h => host_column c j (windows h)) (seq 0 N))) <= length rows)%nat).
  { rewrite <- total_concat, map_map. assert (E : map (fun h => length (host_column c j (windows h))) (seq 0 N) = map (@length (list (list f32))) (map windows (seq 0 N))).
    { rewrite map_map. apply map_ext_in. intros h Hh. apply in_seq in Hh. apply C; lia. }
    rewrite E, total_concat, W. unfold PhaseSpace.Spec.embedding. rewrite map_length, seq_length. lia. }
  apply (cluster_whole _ N _ threads (orders c) ts (order c)); auto.
  - intros h Hh. destruct (C j h ltac:(lia) Hh) as (L & F). rewrite L. auto.
  - rewrite Z.abs_mul, (Z.abs_eq (Z.of_nat (latent p))) by lia. apply Z.le_trans with (2 := Hk). apply Z.mul_le_mono_nonneg_l; [apply Z.mul_nonneg_nonneg; lia|lia].
  - lia.
Qed.

(** ** The extremes and the reference *)
Lemma is_place : forall v k, f_nan v = false -> place v = IZR k -> Z.abs k <= bound -> is v k.
Proof.
  intros v k N P H. destruct v as [s|s| |s m e B]; try discriminate; try (split; [reflexivity|exact P]). exfalso. assert (L : (Rabs (IZR k) < max_real)%R) by (rewrite <- rnd_whole by exact H; now apply whole_max). unfold max_real in L.
  cbn [place] in P. assert (G : (0 < bpow radix2 128)%R) by apply bpow_gt_0. destruct s; rewrite <- P, ?Rabs_Ropp, Rabs_pos_eq in L; lra.
Qed.
(** What the main host collects are the extremes of the series. *)
Lemma collected_bounds : forall p dim N rows arrival mins maxs c, (1 <= N)%nat -> Permutation arrival (seq 0 N) -> (c < dim)%nat ->
  In (0%nat, (mins, maxs)) (f_collect N f_minmax_init (map (fun h => f_calculate_minmax dim (partition_of N (pattern_length p - 1) h rows) h) arrival)) ->
  exists mn mx, nth_error mins c = Some mn /\ nth_error maxs c = Some mx /\ f_nan mn = false /\ f_nan mx = false /\
    (forall x, f_entry rows c x -> f_nan x = false -> (place mn <= place x <= place mx)%R) /\
    forall x, f_entry rows c x -> f_finite x = true -> (exists y, f_entry rows c y /\ place y = place mn) /\ (exists y, f_entry rows c y /\ place y = place mx) /\ (place mn <= place x <= place mx)%R.
Proof.
  intros p dim N rows arrival mins maxs c HN P Hc I. set (parts := map (fun h => (h, partition_of N (pattern_length p - 1) h rows)) arrival).
  assert (Ln : length parts = N) by (unfold parts; rewrite map_length, (Permutation_length P); apply seq_length).
  assert (Ne : parts <> []) by (intros E; rewrite E in Ln; cbn in Ln; lia).
  destruct (C10_single_precision nat dim parts Ne) as ((mn & mx & E & L1 & L2 & H) & _). rewrite Ln in E.
  assert (Em : map (fun sp : nat * list (list f32) => f_calculate_minmax dim (snd sp) (fst sp)) parts = map (fun h => f_calculate_minmax dim (partition_of N (pattern_length p - 1) h rows) h) arrival) by (unfold parts; now rewrite map_map).
  rewrite Em in E. rewrite E in I. apply in_map_iff in I. destruct I as (s & Es & _). injection Es as _ <- <-.
  destruct (H c Hc) as (v & u & Ev & Eu & (A1 & A2 & A3 & A4) & (B1 & B2 & B3 & B4) & Q). exists v, u. do 4 (split; [auto|]).
  assert (Ent : forall x, f_entry (concat (map snd parts)) c x <-> f_entry rows c x).
  { intros x. unfold f_entry. assert (Rw : forall r, In r (concat (map snd parts)) <-> In r rows).
    { intros r. unfold parts. rewrite map_map. cbn [snd]. rewrite in_concat. split.
      - intros (l & Hl & Hr). apply in_map_iff in Hl. destruct Hl as (h & <- & _). unfold partition_of in Hr. destruct (S h =? N)%nat; apply In_nth_error in Hr; destruct Hr as (i & Ei); rewrite nth_error_slice in Ei; destruct (_ <? _)%nat; try discriminate; now apply nth_error_In in Ei.
      - intros Hr. apply In_nth_error in Hr. destruct Hr as (i & Ei). assert (Hi : (i < length rows)%nat) by (apply nth_error_Some; congruence). set (w := (length rows / N)%nat).
        assert (Hin : forall h, (h < N)%nat -> In (partition_of N (pattern_length p - 1) h rows) (map (fun h => partition_of N (pattern_length p - 1) h rows) arrival)).
        { intros h Hh. apply (in_map (fun h => partition_of N (pattern_length p - 1) h rows)). apply (Permutation_in _ (Permutation_sym P)). apply in_seq. lia. }
        destruct (Nat.lt_ge_cases i ((N - 1) * w)) as [Hlt|Hge].
        + assert (Hw : (1 <= w)%nat) by (destruct w; lia). assert (Hd : (i / w < N - 1)%nat) by (apply Nat.div_lt_upper_bound; lia). exists (partition_of N (pattern_length p - 1) (i / w) rows). split; [apply Hin; lia|].
          unfold partition_of. destruct (Nat.eqb_spec (S (i / w)) N); [lia|]. fold w. apply (slice_in _ _ _ _ i); [exact Ei|]. pose proof (Nat.mul_div_le i w ltac:(lia)). pose proof (Nat.mul_succ_div_gt i w ltac:(lia)). lia.
        + exists (partition_of N (pattern_length p - 1) (N - 1) rows). split; [apply Hin; lia|]. unfold partition_of. destruct (Nat.eqb_spec (S (N - 1)) N); [|lia]. apply (slice_in _ _ _ _ i); [exact Ei|]. fold w. lia. }
    split; intros (r & Hr & Hx); exists r; (split; [now apply Rw|exact Hx]). }
  split; [intros x Hx Nx; apply Ent in Hx; split; [now apply A4|now apply B4]|].
  intros x Hx Fx. apply Ent in Hx. destruct (Q x Hx Fx) as ((y & Hy & Py) & (z & Hz & Pz)). assert (Nx : f_nan x = false) by (destruct x; try discriminate; reflexivity).
  split; [exists y; split; [now apply Ent|exact Py]|]. split; [exists z; split; [now apply Ent|exact Pz]|]. split; [now apply A4|now apply B4].
Qed.
Lemma collected_extremes : forall p dim N rows arrival mins maxs c, (1 <= N)%nat -> Permutation arrival (seq 0 N) -> (c < dim)%nat ->
  In (0%nat, (mins, maxs)) (f_collect N f_minmax_init (map (fun h => f_calculate_minmax dim (partition_of N (pattern_length p - 1) h rows) h) arrival)) ->
  exists mn mx, nth_error mins c = Some mn /\ nth_error maxs c = Some mx /\ f_nan mn = false /\ f_nan mx = false /\
    forall x, f_entry rows c x -> f_finite x = true -> (exists y, f_entry rows c y /\ place y = place mn) /\ (exists y, f_entry rows c y /\ place y = place mx) /\ (place mn <= place x <= place mx)%R.
Proof.
  intros p dim N rows arrival mins maxs c HN P Hc I. destruct (collected_bounds p dim N rows arrival mins maxs c HN P Hc I) as (mn & mx & A & B & C & D & _ & E). exists mn, mx. ssplit; auto.
Qed.
Lemma linspace_whole : forall k s e, Z.abs k <= bound -> is s k -> is e k -> is (f_linspace s e 0) k.
Proof.
  intros k s e Hk Hs He. unfold f_linspace. assert (D : is (f_sub e s) 0) by (replace 0 with (k - k) by lia; apply is_sub; auto; unfold bound; lia).
  assert (Q : is (f_div (f_sub e s) (f_of_nat 99)) 0) by (apply (is_div _ _ 0 99); [exact D|apply (is_nat 99); unfold bound; lia|lia|unfold bound; lia]).
  assert (M : is (f_mul (f_div (f_sub e s) (f_of_nat 99)) (f_of_nat 0)) 0) by (apply (is_mul _ _ 0 0); [exact Q|apply (is_nat 0); unfold bound; lia|unfold bound; lia]).
  replace k with (k + 0) by lia. apply is_add; auto. lia.
Qed.
Lemma reference_whole : forall p k mm, Z.abs k * Z.of_nat (latent p) <= bound -> (1 <= latent p)%nat -> is (fst mm) k -> is (snd mm) k ->
  length (f_reference p mm) = (pattern_length p - latent p)%nat /\ Forall (fun x => is x (k * Z.of_nat (latent p))) (f_reference p mm).
Proof.
  intros p k mm H HL H1 H2. assert (Hk : Z.abs k <= bound) by nia. unfold f_reference. split; [apply repeat_length|]. apply Forall_forall. intros x Hx. apply repeat_spec in Hx. subst x.
  set (y := f_add f_zero (f_linspace (fst mm) (snd mm) 0)). assert (Y : is y k) by (replace k with (0 + k) by lia; apply is_add; [apply is_zero|now apply linspace_whole|lia]).
  pose proof (sum_whole k (repeat y (latent p))) as G. rewrite repeat_length in G. apply G; [|exact H]. apply Forall_forall. intros z Hz. apply repeat_spec in Hz. now subst z.
Qed.

(** ** The division by zero *)
(** A zero, or no number. *)
Definition nought (x : f32) : Prop := match x with B754_zero _ | B754_nan => True | _ => False end.
Lemma nought_is : forall x, is x 0 -> nought x.
Proof. intros [s|s| |s m e H] (F & R); try discriminate; try exact I. exfalso. unfold f_real in R. cbn [B2R] in R. apply eq_0_F2R in R. destruct s; discriminate. Qed.
Lemma nought_add : forall x y, nought x -> nought y -> nought (f_add x y).
Proof. intros [] [] Hx Hy; try destruct Hx; try destruct Hy; try exact I. cbn. now destruct (Bool.eqb _ _). Qed.
Lemma nought_mul : forall x y, nought x -> nought (f_mul x y). Proof. intros [] [] Hx; try destruct Hx; exact I. Qed.
Lemma nought_mul_r : forall x y, nought y -> nought (f_mul x y). Proof. intros [] [] Hx; try destruct Hx; exact I. Qed.
Lemma nought_fma : forall x y z, nought x -> nought z -> nought (f_fma x y z).
Proof. intros [] [] [] Hx Hz; try destruct Hx; try destruct Hz; try exact I; cbn; unfold Bfma; cbn; try now destruct (Bool.eqb _ _). Qed.
Lemma nought_div : forall x y, nought x -> nought y -> f_nan (f_div x y) = true. Proof. intros [] [] Hx Hy; try destruct Hx; try destruct Hy; reflexivity. Qed.
Lemma nought_sqrt : forall x, nought x -> nought (f_sqrt x). Proof. intros [] Hx; try destruct Hx; exact I. Qed.
Lemma nought_dot : forall l x, dot_product l x -> (forall a b, In (a, b) l -> nought a) -> nought x.
Proof.
  intros l x D. induction D as [|a b|l l1 l2 x y P D1 IH1 D2 IH2|l a b l1 x P D IH|l x D IH]; intros H.
  - exact I.
  - apply nought_mul. apply (H a b). now left.
  - apply nought_add; [apply IH1|apply IH2]; intros a b Hab; apply (H a b); apply (Permutation_in _ (Permutation_sym P)); apply in_app_iff; auto.
  - apply nought_fma; [apply (H a b); apply (Permutation_in _ (Permutation_sym P)); now left|]. apply IH. intros a' b' Hab. apply (H a' b'). apply (Permutation_in _ (Permutation_sym P)). now right.
  - apply nought_mul_r. now apply IH.
Qed.
Lemma nought_norm : forall v, (forall x, In x v -> nought x) -> nought (f_norm v).
Proof.
  intros v H. unfold f_norm. apply nought_sqrt. unfold f_sum. assert (Z0 : nought f_zero) by exact I. revert Z0. generalize f_zero. induction v as [|x v IH]; intros a Ha; [exact Ha|]. cbn [map fold_left]. apply IH; [intros; apply H; now right|].
  apply nought_add; [exact Ha|]. apply nought_mul. apply H. now left.
Qed.
Lemma nan_fma_2 : forall x y z, isnan y -> isnan (f_fma x y z). Proof. intros [] [] z H; try discriminate; reflexivity. Qed.
Lemma dot_nan_r : forall l x, dot_product l x -> forall a b, In (a, b) l -> isnan b -> isnan x.
Proof.
  intros l x D. induction D as [|a b|l l1 l2 x y P D1 IH1 D2 IH2|l a b l1 x P D IH|l x D IH]; intros u v Hin Hu.
  - destruct Hin.
  - destruct Hin as [E|[]]. injection E as -> ->. now apply nan_mul_r.
  - apply (Permutation_in _ P) in Hin. apply in_app_iff in Hin. destruct Hin as [Hin|Hin]; [apply nan_add_l; now apply (IH1 u v)|apply nan_add_r; now apply (IH2 u v)].
  - apply (Permutation_in _ P) in Hin. destruct Hin as [E|Hin]; [injection E as -> ->; now apply nan_fma_2|apply nan_fma_3; now apply (IH u v)].
  - apply nan_mul_r. now apply (IH u v).
Qed.

Lemma reduced_nought : forall means comps w v, Forall2 (fun a b => nought (f_sub a b)) w means -> reduced_row means comps w v -> forall x, In x v -> nought x.
Proof.
  intros means comps w v H R x Hx. destruct (Forall2_in_r _ _ _ _ _ R x Hx) as (comp & Hcomp & D). apply (nought_dot _ _ D). intros a b Hab. apply in_combine_l in Hab. clear -H Hab. induction H as [|y m w means Hy F IH]; [destruct Hab|].
  cbn [map2] in Hab. destruct Hab as [<-|Hab]; [exact Hy|now apply IH].
Qed.
Lemma alignment_nan : forall v m, f_alignment v m -> (forall x, In x v -> nought x) -> length m = 3%nat /\ Forall (fun row => length row = 3%nat /\ Forall (fun x => isnan x) row) m.
Proof.
  intros v m (v0 & v1 & v2 & -> & cosine & square & Dc & _ & ->) H. split; [now rewrite map_length, seq_length|].
  assert (Nn : nought (f_norm [v0; v1; v2])) by (now apply nought_norm). assert (N2 : isnan (f_div v2 (f_norm [v0; v1; v2]))) by (apply nought_div; [apply H; cbn; auto|exact Nn]).
  assert (Nc : isnan cosine) by (apply (dot_nan_r _ _ Dc f_one (f_div v2 (f_norm [v0; v1; v2]))); [cbn; auto|exact N2]).
  apply Forall_forall. intros row Hrow. apply in_map_iff in Hrow. destruct Hrow as (r & <- & _). split; [now rewrite map_length, seq_length|]. apply Forall_forall. intros x Hx. apply in_map_iff in Hx. destruct Hx as (c & <- & _).
  apply nan_add_r. apply nan_mul_r. apply nan_div_l. now apply nan_sub_r.
Qed.
Lemma whole_differences : forall v w means, length w = length means -> Forall (fun x => is x v) w -> Forall (fun x => is x v) means -> Forall2 (fun a b => nought (f_sub a b)) w means.
Proof.
  intros v w. induction w as [|a w IH]; intros [|b means] L Fw Fm; try discriminate; constructor; inversion Fw; inversion Fm; subst.
  - apply nought_is. replace 0 with (v - v) by lia. apply is_sub; auto. unfold bound. lia.
  - apply IH; auto.
Qed.

(** ** The alignment of a channel whose range is too wide *)
Lemma wide_sub : forall u v, f_nan u = false -> f_nan v = false -> (place u - place v >= bpow radix2 128)%R -> exists s, f_sub u v = B754_infinity s.
Proof.
  intros u v Nu Nv H. assert (G : (0 < bpow radix2 128)%R) by apply bpow_gt_0.
  assert (Fin : f_finite u = true -> f_finite v = true -> exists s, f_sub u v = B754_infinity s).
  { intros Fu Fv. assert (Pu : place u = f_real u) by (destruct u; try discriminate; reflexivity). assert (Pv : place v = f_real v) by (destruct v; try discriminate; reflexivity). rewrite Pu, Pv in H.
    pose proof (@Bminus_correct 24 128 prec_pos prec_max mode_NE u v Fu Fv) as B. fold (f_real u) (f_real v) in B.
    rewrite Rlt_bool_false in B.
    - destruct B as (B & _). exists (Bsign u). unfold f_sub. destruct (Bminus mode_NE u v) as [s|s| |s m e Hb]; cbn in B; try discriminate. now injection B as ->.
    - change (round radix2 _ _ _) with (rnd (f_real u - f_real v)). assert (M : (bpow radix2 128 <= rnd (f_real u - f_real v))%R) by (rewrite <- (rnd_format (bpow radix2 128)) by (apply format_bpow; lia); apply rnd_mono; lra).
      rewrite Rabs_pos_eq by lra. exact M. }
  pose proof (f_real_lt u) as Lu. pose proof (f_real_lt v) as Lv. unfold max_real in *. apply Rabs_def2 in Lu, Lv.
  destruct u as [s|s| |s m e B]; try discriminate; destruct v as [t|t| |t m' e' B']; try discriminate; try (now apply Fin); cbn [place] in H; try (destruct s; eexists; reflexivity); try (destruct t; eexists; reflexivity).
  destruct s, t; try (eexists; reflexivity); exfalso; lra.
Qed.
Lemma wide_linspace : forall s e, f_nan s = false -> f_nan e = false -> (place e - place s >= bpow radix2 128)%R -> isnan (f_linspace s e 0).
Proof.
  intros s e Ns Ne H. destruct (wide_sub e s Ne Ns H) as (b & E). unfold f_linspace. rewrite E. apply nan_add_r.
  destruct (is_nat 99 ltac:(unfold bound; lia)) as (F & R). destruct (f_of_nat 99) as [t|t| |t m x Hb]; try discriminate; [|reflexivity]. exfalso. change (f_real (B754_zero t)) with 0%R in R. apply (eq_IZR 0) in R. discriminate.
Qed.
Lemma infinite_linspace : forall s e, s = B754_infinity true \/ e = B754_infinity false -> isnan (f_linspace s e 0).
Proof.
  intros s e H. unfold f_linspace. apply nan_add_r. assert (D : isnan (f_sub e s) \/ exists b, f_sub e s = B754_infinity b).
  { destruct H as [-> | ->]; [destruct e as [t|t| |t m x B]|destruct s as [t|t| |t m x B]]; try (now left); try (right; eexists; reflexivity); destruct t; try (now left); right; eexists; reflexivity. }
  destruct D as [D|(b & ->)]; [destruct (f_sub e s); try discriminate; reflexivity|].
  destruct (is_nat 99 ltac:(unfold bound; lia)) as (F & R). destruct (f_of_nat 99) as [t|t| |t m x Hb]; try discriminate; [|reflexivity]. exfalso. change (f_real (B754_zero t)) with 0%R in R. apply (eq_IZR 0) in R. discriminate.
Qed.
Lemma place_top : forall x, f_nan x = false -> (bpow radix2 128 <= place x)%R -> x = B754_infinity false.
Proof.
  intros x N H. pose proof (f_real_lt x) as L. unfold max_real in L. apply Rabs_def2 in L. assert (G : (0 < bpow radix2 128)%R) by apply bpow_gt_0.
  destruct x as [s|[|]| |s m e B]; try discriminate; cbn [place] in H; try reflexivity; exfalso; lra.
Qed.
Lemma place_bottom : forall x, f_nan x = false -> (place x <= - bpow radix2 128)%R -> x = B754_infinity true.
Proof.
  intros x N H. pose proof (f_real_lt x) as L. unfold max_real in L. apply Rabs_def2 in L. assert (G : (0 < bpow radix2 128)%R) by apply bpow_gt_0.
  destruct x as [s|[|]| |s m e B]; try discriminate; cbn [place] in H; try reflexivity; exfalso; lra.
Qed.
Lemma wide_reference : forall p mm, (1 <= latent p)%nat -> isnan (f_linspace (fst mm) (snd mm) 0) -> length (f_reference p mm) = (pattern_length p - latent p)%nat /\ forall x, In x (f_reference p mm) -> isnan x.
Proof.
  intros p mm HL N. unfold f_reference. split; [apply repeat_length|]. intros x Hx. apply repeat_spec in Hx. subst x. destruct (latent p) as [|l]; [lia|]. apply (sum_nan _ (f_add f_zero (f_linspace (fst mm) (snd mm) 0))); [now left|]. now apply nan_add_r.
Qed.
Lemma nan_nought : forall x, isnan x -> nought x. Proof. intros [] H; try discriminate. exact I. Qed.

(** ** A reference on the axis to which it is to be turned *)
Lemma nought_div_l : forall x y, nought x -> nought (f_div x y). Proof. intros [] [] Hx; try destruct Hx; exact I. Qed.
Lemma nought_sub : forall x y, nought x -> nought y -> nought (f_sub x y).
Proof. intros [] [] Hx Hy; try destruct Hx; try destruct Hy; try exact I. cbn. now destruct (Bool.eqb _ _). Qed.
Lemma nought_times_over : forall x y z, nought x -> nought z -> isnan (f_mul x (f_div y z)).
Proof. intros [] [] [] Hx Hz; try destruct Hx; try destruct Hz; reflexivity. Qed.
Lemma skew_nought : forall w r c, nought (fst (fst w)) -> nought (snd (fst w)) -> nought (snd w) -> nought (f_skew w r c).
Proof. intros ((w0, w1), w2) r c H0 H1 H2. cbn [fst snd] in *. unfold f_skew. destruct r as [|[|[|r]]], c as [|[|[|c]]]; try exact I; try assumption; now apply nought_mul. Qed.
Lemma axis_nan : forall v0 v1 v2 m, nought v0 -> nought v1 -> f_alignment [v0; v1; v2] m -> length m = 3%nat /\ Forall (fun row => length row = 3%nat /\ Forall (fun x => isnan x) row) m.
Proof.
  intros v0 v1 v2 m H0 H1 (u0 & u1 & u2 & E & cosine & square & _ & Sq & ->). injection E as <- <- <-. split; [now rewrite map_length, seq_length|].
  set (n := f_norm [v0; v1; v2]) in *. set (w := f_cross_up (f_div v0 n, f_div v1 n, f_div v2 n)) in *.
  assert (Z : nought f_zero) by exact I.
  assert (W0 : nought (fst (fst w))) by (apply nought_sub; [apply nought_mul, nought_div_l, H1|now apply nought_mul_r]).
  assert (W1 : nought (snd (fst w))) by (apply nought_sub; [now apply nought_mul_r|apply nought_mul, nought_div_l, H0]).
  assert (W2 : nought (snd w)) by (apply nought_sub; now apply nought_mul_r).
  assert (S : nought (f_norm [fst (fst w); snd (fst w); snd w])) by (apply nought_norm; intros x [<-|[<-|[<-|[]]]]; assumption).
  apply Forall_forall. intros row Hrow. apply in_map_iff in Hrow. destruct Hrow as (r & <- & Hr). apply in_seq in Hr. split; [now rewrite map_length, seq_length|]. apply Forall_forall. intros x Hx. apply in_map_iff in Hx. destruct Hx as (c & <- & Hc). apply in_seq in Hc.
  apply nan_add_r. apply nought_times_over; [|now apply nought_mul]. apply (nought_dot _ _ (Sq r c ltac:(lia) ltac:(lia))). intros a b Hab. apply in_combine_l in Hab. apply in_map_iff in Hab. destruct Hab as (i & <- & _). now apply skew_nought.
Qed.
