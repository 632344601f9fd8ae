(** A value that is no number on its way through the means and the products. *)
From Coq Require Import List Arith Bool Lia Permutation.
From Flocq Require Import IEEE754.BinarySingleNaN.
From Verif.Base Require Import Res Params ListX Float32.
From Verif.Stats Require Import Model Proofs.
From Verif.PhaseSpace Require Import Model Spec Proofs.
From Verif.Pca Require Import Model Spec Exec Chunks Single SingleSpec.
From Verif.Pca Require Import SingleProofs SingleRuns.
From Verif.Reader Require Import Spec Proofs.
From Verif.Geometry Require Import Single.
From Verif.Front Require Import Single SingleSpec.
Import ListNotations.
Local Open Scope nat_scope.

Notation isnan x := (f_nan x = true).
Lemma nan_add_l : forall x y, isnan x -> isnan (f_add x y). Proof. intros [] y H; try discriminate. now destruct y. Qed.
Lemma nan_add_r : forall x y, isnan y -> isnan (f_add x y). Proof. intros x [] H; try discriminate. now destruct x. Qed.
Lemma nan_sub_l : forall x y, isnan x -> isnan (f_sub x y). Proof. intros [] y H; try discriminate. now destruct y. Qed.
Lemma nan_sub_r : forall x y, isnan y -> isnan (f_sub x y). Proof. intros x [] H; try discriminate. now destruct x. Qed.
Lemma nan_mul_l : forall x y, isnan x -> isnan (f_mul x y). Proof. intros [] y H; try discriminate. now destruct y. Qed.
Lemma nan_mul_r : forall x y, isnan y -> isnan (f_mul x y). Proof. intros x [] H; try discriminate. now destruct x. Qed.
Lemma nan_div_l : forall x y, isnan x -> isnan (f_div x y). Proof. intros [] y H; try discriminate. now destruct y. Qed.
Lemma nan_fma_1 : forall x y z, isnan x -> isnan (f_fma x y z). Proof. intros [] y z H; try discriminate. now destruct y. Qed.
Lemma nan_fma_3 : forall x y z, isnan z -> isnan (f_fma x y z).
Proof. intros x y [] H; try discriminate. destruct x, y; reflexivity. Qed.

Lemma fold_nan : forall l a, isnan a -> isnan (fold_left f_add l a).
Proof. induction l as [|x l IH]; intros a H; [exact H|]. apply IH. now apply nan_add_l. Qed.
Lemma sum_nan : forall l x, In x l -> isnan x -> isnan (f_sum l).
Proof.
  intros l x Hin Hx. unfold f_sum. generalize f_zero. induction l as [|y l IH]; intros a; [destruct Hin|]. cbn [fold_left]. destruct Hin as [->|Hin]; [apply fold_nan; now apply nan_add_r|now apply IH].
Qed.
Lemma mean_nan : forall l x, In x l -> isnan x -> isnan (f_mean l).
Proof. intros l x H Hx. unfold f_mean. apply nan_div_l. now apply (sum_nan l x). Qed.
Lemma global_nan : forall rows r, In r rows -> isnan (snd r) -> isnan (f_global_mean rows).
Proof.
  intros rows r H Hr. unfold f_global_mean. apply nan_div_l. apply (sum_nan _ (f_mul (f_of_nat (fst r)) (snd r))); [|now apply nan_mul_r]. apply (in_map (fun r => f_mul (f_of_nat (fst r)) (snd r))). exact H.
Qed.

Lemma dot_nan : forall l x, dot_product l x -> forall a b, In (a, b) l -> isnan a -> isnan x.
Proof.
  intros l x D. induction D as [|a b|l l1 l2 x y P D1 IH1 D2 IH2|l a b l1 x P D IH|l x D IH]; intros u v Hin Hu.
  - destruct Hin.
  - destruct Hin as [E|[]]. injection E as -> ->. now apply nan_mul_l.
  - apply (Permutation_in _ P) in Hin. apply in_app_iff in Hin. destruct Hin as [Hin|Hin]; [apply nan_add_l; now apply (IH1 u v)|apply nan_add_r; now apply (IH2 u v)].
  - apply (Permutation_in _ P) in Hin. destruct Hin as [E|Hin]; [injection E as -> ->; now apply nan_fma_1|apply nan_fma_3; now apply (IH u v)].
  - apply nan_mul_r. now apply (IH u v).
Qed.

(** ** The means *)
Lemma host_row_nan : forall col threads order t x, 1 <= length col -> 1 <= threads -> complete_run (length col) threads order t -> In x col -> isnan x -> isnan (snd (host_row col threads order)).
Proof.
  intros col threads order t x H1 H2 R Hin Hx. unfold host_row. cbn [snd]. destruct (threads =? 1); [now apply (mean_nan _ x)|].
  destruct (complete_busy _ _ _ _ H1 H2 R) as (Busy & _). destruct (runs_only _ _ _ _ H1 H2 R) as (o & -> & Po).
  rewrite <- (chunks_concat col threads H1 H2 Busy) in Hin. apply in_concat in Hin. destruct Hin as (chunk & Hc & Hin). apply in_map_iff in Hc. destruct Hc as (i & <- & Hi).
  unfold threads_mean. apply (global_nan _ (row_of col threads i)).
  - apply in_map. apply in_seq in Hi. destruct i as [|i]; [now left|]. right. apply (Permutation_in _ (Permutation_sym Po)). apply in_seq. lia.
  - cbn [row_of snd]. now apply (mean_nan _ x).
Qed.
Lemma cluster_mean_nan : forall N parts threads orders ts order h x, h < N ->
  1 <= length (parts h) -> 1 <= threads h -> complete_run (length (parts h)) (threads h) (orders h) (ts h) -> Permutation order (seq 0 N) -> In x (parts h) -> isnan x ->
  isnan (cluster_mean parts threads orders order).
Proof.
  intros N parts threads orders ts order h x Hh H1 H2 R P Hin Hx. unfold cluster_mean. apply (global_nan _ (host_row (parts h) (threads h) (orders h))).
  - apply (in_map (fun h => host_row (parts h) (threads h) (orders h))). apply (Permutation_in _ (Permutation_sym P)). apply in_seq. lia.
  - now apply (host_row_nan _ _ _ (ts h) x).
Qed.

(** ** The windows *)
Lemma sum_axis_nth : forall dim c block, c < dim -> nth_error (f_sum_axis dim block) c = Some (f_sum (column c block)).
Proof. intros dim c block H. unfold f_sum_axis. rewrite nth_error_map, (nth_error_nth' _ 0) by (rewrite seq_length; exact H). now rewrite seq_nth. Qed.
Lemma window_column : forall dim c P L rows i, c < dim ->
  column c (PhaseSpace.Spec.window (f_sum_axis dim) P L rows i) = map (fun j => f_sum (column c (slice (i + j) (i + j + L) rows))) (seq 0 (P - L)).
Proof.
  intros dim c P L rows i Hc. unfold PhaseSpace.Spec.window, column at 1. induction (seq 0 (P - L)) as [|j l IH]; [reflexivity|]. cbn [map flat_map]. rewrite sum_axis_nth by exact Hc. cbn [app]. now rewrite IH.
Qed.
Lemma row_covered : forall P L n r, 1 <= L < P -> P <= n -> r + 1 < n -> exists i j, i < n - (P - 1) /\ j < P - L /\ i + j <= r < i + j + L.
Proof.
  intros P L n r HL HP Hr. destruct (Nat.le_gt_cases r (n - P)) as [H|H]; [exists r, 0; lia|].
  destruct (Nat.le_gt_cases (r - (n - P)) (P - L - 1)) as [H'|H']; [exists (n - P), (r - (n - P)); lia|exists (n - P), (P - L - 1); lia].
Qed.
Lemma slice_in : forall A (l : list A) a b r x, nth_error l r = Some x -> a <= r < b -> In x (slice a b l).
Proof.
  intros A l a b r x E H. apply (nth_error_In _ (r - a)). rewrite nth_error_slice. destruct (Nat.ltb_spec (r - a) (b - a)); [|lia]. now replace (a + (r - a)) with r by lia.
Qed.
Lemma column_in : forall A (m : list (list A)) j r x, In r m -> nth_error r j = Some x -> In x (column j m).
Proof. intros A m j r x H E. unfold column. apply in_flat_map. exists r. split; [exact H|]. rewrite E. now left. Qed.
Lemma column_long : forall A (m : list (list A)) j r x, In r m -> nth_error r j = Some x -> 1 <= length (column j m).
Proof. intros A m j r x H E. pose proof (column_in A m j r x H E) as I. destruct (column j m); [destruct I|cbn; lia]. Qed.

(** The windows of the hosts are windows of the series, and all of them. *)
Lemma host_windows : forall p dim N rows windows, latent p < pattern_length p -> 1 <= N -> pattern_length p <= length rows / N ->
  (forall h, h < N -> f_embed p dim (partition_of N (pattern_length p - 1) h rows) = Ok (windows h)) ->
  concat (map windows (seq 0 N)) = PhaseSpace.Spec.embedding (f_sum_axis dim) (pattern_length p) (latent p) rows.
Proof.
  intros p dim N rows windows HL HN HP Hw. destruct (distributed_embedding (f_sum_axis dim) p N rows HL HN HP) as (parts & E & W).
  assert (El : length rows / N <= length rows) by (apply Nat.div_le_upper_bound; [lia|]; nia).
  rewrite phase_space_ok in W by (auto; lia). injection W as W. rewrite W. f_equal.
  assert (M : mapM (fun i => phase_space (f_sum_axis dim) p (partition_of N (pattern_length p - 1) i rows)) (seq 0 N) = Ok (map windows (seq 0 N))).
  { apply mapM_ok. intros i Hi. apply in_seq in Hi. apply Hw. lia. }
  rewrite E in M. now injection M.
Qed.

(** A value that is no number makes the mean of a position no number. *)
Lemma some_mean_nan : forall p dim N rows windows threads orders order ts r c row x,
  1 <= latent p < pattern_length p -> 1 <= N -> pattern_length p <= length rows / N ->
  (forall h, h < N -> f_embed p dim (partition_of N (pattern_length p - 1) h rows) = Ok (windows h)) ->
  (forall h, h < N -> 1 <= threads h /\ complete_run (length (windows h)) (threads h) (orders c h) (ts h)) -> Permutation (order c) (seq 0 N) ->
  r + 1 < length rows -> nth_error rows r = Some row -> nth_error row c = Some x -> isnan x -> c < dim ->
  exists j, j < pattern_length p - latent p /\ exists m, nth_error (channel_means (pattern_length p - latent p) windows threads orders order c) j = Some m /\ isnan m.
Proof.
  intros p dim N rows windows threads orders order ts r c row x HL HN HP Hw Hruns Ho Hr Er Ex Hx Hc.
  assert (El : length rows / N <= length rows) by (apply Nat.div_le_upper_bound; [lia|]; nia).
  destruct (row_covered (pattern_length p) (latent p) (length rows) r HL ltac:(lia) Hr) as (i & j & Hi & Hj & Hij).
  exists j. split; [exact Hj|]. unfold channel_means. rewrite nth_error_map, (nth_error_nth' _ 0) by (rewrite seq_length; exact Hj). rewrite seq_nth by exact Hj. cbn [option_map Nat.add]. eexists. split; [reflexivity|].
  set (w := PhaseSpace.Spec.window (f_sum_axis dim) (pattern_length p) (latent p) rows i).
  assert (Hin : In w (concat (map windows (seq 0 N)))).
  { rewrite (host_windows p dim N rows windows) by (auto; lia). unfold PhaseSpace.Spec.embedding. apply in_map. apply in_seq. lia. }
  apply in_concat in Hin. destruct Hin as (ws & Hws & Hin). apply in_map_iff in Hws. destruct Hws as (h & <- & Hh). apply in_seq in Hh.
  set (s := f_sum (column c (slice (i + j) (i + j + latent p) rows))).
  assert (Es : nth_error (column c w) j = Some s).
  { unfold w. rewrite window_column by exact Hc. rewrite nth_error_map, (nth_error_nth' _ 0) by (rewrite seq_length; exact Hj). now rewrite seq_nth. }
  assert (Ns : isnan s). { unfold s. apply (sum_nan _ x); [|exact Hx]. apply (column_in _ _ _ row); [|exact Ex]. now apply (slice_in _ _ _ _ r). }
  assert (Lc : length (host_column c j (windows h)) = length (windows h)).
  { unfold host_column. rewrite (column_length _ _ (pattern_length p - latent p)); [apply map_length| |exact Hj]. apply Forall_forall. intros v Hv. apply in_map_iff in Hv. destruct Hv as (w' & <- & Hw').
    assert (I : In w' (concat (map windows (seq 0 N)))) by (apply in_concat; exists (windows h); split; [apply in_map, in_seq; lia|exact Hw']).
    rewrite (host_windows p dim N rows windows) in I by (auto; lia). unfold PhaseSpace.Spec.embedding in I. apply in_map_iff in I. destruct I as (i' & <- & _). rewrite window_column by exact Hc. now rewrite map_length, seq_length. }
  destruct (Hruns h ltac:(lia)) as (Ht & R).
  apply (cluster_mean_nan N (fun h => host_column c j (windows h)) threads (orders c) ts (order c) h s); try assumption; try lia.
  - apply (column_long _ _ j (column c w) s); [apply in_map; exact Hin|exact Es].
  - now rewrite Lc.
  - apply (column_in _ _ j (column c w) s); [apply in_map; exact Hin|exact Es].
Qed.

(** ** The points *)
Lemma map2_nth : forall A B C (f : A -> B -> C) l m j a b, nth_error l j = Some a -> nth_error m j = Some b -> nth_error (map2 f l m) j = Some (f a b).
Proof. intros A B C f. induction l as [|x l IH]; intros m [|j] a b Ha Hb; try discriminate; destruct m as [|y m]; try discriminate; cbn in *; [congruence|now apply IH]. Qed.
Lemma combine_nth_error : forall A B (l : list A) (m : list B) j a b, nth_error l j = Some a -> nth_error m j = Some b -> nth_error (combine l m) j = Some (a, b).
Proof. intros A B. induction l as [|x l IH]; intros m [|j] a b Ha Hb; try discriminate; destruct m as [|y m]; try discriminate; cbn in *; [congruence|now apply IH]. Qed.
Lemma nth_error_some : forall A (l : list A) j, j < length l -> exists x, nth_error l j = Some x.
Proof. intros A l j H. destruct (nth_error l j) eqn:E; [eauto|]. apply nth_error_None in E. lia. Qed.
Lemma Forall2_nth : forall A B (R : A -> B -> Prop) l m, Forall2 R l m -> forall j a, nth_error l j = Some a -> exists b, nth_error m j = Some b /\ R a b.
Proof. intros A B R l m F. induction F as [|x y l m Hxy F IH]; intros [|j] a E; try discriminate; cbn in *; [injection E as <-; eauto|now apply IH]. Qed.
Lemma Forall2_len : forall A B (R : A -> B -> Prop) l m, Forall2 R l m -> length l = length m.
Proof. intros A B R l m F. induction F as [|x y l m _ _ IH]; cbn; congruence. Qed.
Lemma Forall2_in_r : forall A B (R : A -> B -> Prop) l m, Forall2 R l m -> forall b, In b m -> exists a, In a l /\ R a b.
Proof. intros A B R l m F. induction F as [|x y l m Hxy F IH]; intros b Hb; [destruct Hb|]. destruct Hb as [<-|Hb]; [exists x; split; [now left|exact Hxy]|]. destruct (IH b Hb) as (a & Ha & R'). exists a. split; [now right|exact R']. Qed.

Lemma reduced_nan : forall means comps w v j m, nth_error means j = Some m -> isnan m -> j < length w -> Forall (fun comp => length comp = length w) comps -> reduced_row means comps w v -> forall x, In x v -> isnan x.
Proof.
  intros means comps w v j m Em Nm Hj Hc H x Hx. destruct (Forall2_in_r _ _ _ _ _ H x Hx) as (comp & Hcomp & D). rewrite Forall_forall in Hc. specialize (Hc comp Hcomp).
  destruct (nth_error_some _ w j Hj) as (a & Ea). destruct (nth_error_some _ comp j ltac:(lia)) as (b & Eb).
  apply (dot_nan _ _ D (f_sub a m) b); [|now apply nan_sub_r]. apply (nth_error_In _ j). apply combine_nth_error; [now apply map2_nth|exact Eb].
Qed.
Lemma rotated_nan : forall m v r x, r < 2 -> length m = 3 -> Forall (fun row => length row = 3) m -> length v = 3 -> (forall y, In y v -> isnan y) -> rotated_entry r m v x -> isnan x.
Proof.
  intros m v r x Hr Hm HF Hv Nv (row & Er & D). rewrite Forall_forall in HF. pose proof (HF row (nth_error_In _ _ Er)) as Lr.
  destruct v as [|a v]; [discriminate|]. destruct row as [|b row]; [discriminate|]. apply (dot_nan _ _ D a b); [now left|]. apply Nv. now left.
Qed.
Lemma point_nan : forall dim c ms vs q v, c < dim -> length ms = dim -> length vs = dim -> Forall (fun m => length m = 3 /\ Forall (fun row => length row = 3) m) ms ->
  nth_error vs c = Some v -> length v = 3 -> (forall y, In y v -> isnan y) -> rotated_point ms vs q ->
  length q = dim + dim /\ (exists x, nth_error q c = Some x /\ isnan x) /\ (exists y, nth_error q (dim + c) = Some y /\ isnan y).
Proof.
  intros dim c ms vs q v Hc Lm Lv Sm Ev L3 Nv (xs & ys & Fx & Fy & ->).
  assert (Lx : length xs = dim) by (rewrite <- (Forall2_len _ _ _ _ _ Fx), combine_length; lia). assert (Ly : length ys = dim) by (rewrite <- (Forall2_len _ _ _ _ _ Fy), combine_length; lia).
  destruct (nth_error_some _ ms c ltac:(lia)) as (m & Em). rewrite Forall_forall in Sm. destruct (Sm m (nth_error_In _ _ Em)) as (S1 & S2).
  pose proof (combine_nth_error _ _ _ _ _ _ _ Em Ev) as Ec. destruct (Forall2_nth _ _ _ _ _ Fx c _ Ec) as (x & Ex & Rx). destruct (Forall2_nth _ _ _ _ _ Fy c _ Ec) as (y & Ey & Ry). cbn [fst snd] in *.
  split; [rewrite app_length; lia|]. split.
  - exists x. split; [rewrite nth_error_app1 by lia; exact Ex|]. apply (rotated_nan m v 0); auto.
  - exists y. split; [rewrite nth_error_app2 by lia; rewrite Lx; replace (dim + c - dim) with c by lia; exact Ey|]. apply (rotated_nan m v 1); auto.
Qed.

Lemma nan_segment : forall rate a, isnan a -> 1 <= rate -> f_segment_id a rate = Ok 0.
Proof.
  intros rate a N H. unfold f_segment_id. destruct (Nat.eqb_spec rate 0); [lia|]. destruct a; try discriminate.
  assert (E1 : isnan (f_add f_two_pi B754_nan)) by now apply nan_add_r. pose proof (nan_div_l _ (f_div f_two_pi (f_of_nat rate)) E1) as E2. destruct (f_div (f_add f_two_pi B754_nan) (f_div f_two_pi (f_of_nat rate))); try discriminate.
  cbn [floor_usize]. now rewrite BinInt.Z.mod_0_l by lia.
Qed.
Lemma segment_nan : forall atan2 rate q c x, keeps_nan atan2 -> 1 <= rate -> 2 <= length q -> c < 2 -> nth_error q c = Some x -> isnan x -> f_segment_of atan2 q rate = Ok 0.
Proof.
  intros atan2 rate q c x K Hr Hq Hc E Nx. destruct q as [|a [|b q]]; cbn in Hq; try lia. cbn [f_segment_of]. apply nan_segment; [|exact Hr]. apply K.
  destruct c as [|[|c]]; [| |lia]; cbn in E; injection E as ->; tauto.
Qed.
