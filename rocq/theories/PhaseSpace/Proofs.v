From Coq Require Import List Arith Lia Bool Reals Lra.
From Verif.Base Require Import Res Params Assoc ListX.
From Verif.Topology Require Import Model Spec Proofs.
From Verif.Reader Require Import Spec Proofs.
From Verif.Stats Require Import Model Spec Proofs.
From Verif.PhaseSpace Require Import Model Spec.
Import ListNotations.

Lemma slice_rows_ok : forall V a b (data : list V), a <= b -> b <= length data -> slice_rows a b data = Ok (slice a b data).
Proof.
  intros V a b data Ha Hb. unfold slice_rows. destruct (Nat.leb_spec a b); [|lia]. destruct (Nat.leb_spec b (length data)); [|lia].
  reflexivity.
Qed.

Section P.
Context {V : Type} (rowsum : list V -> V).

Lemma first_window_ok : forall p i data, latent p < pattern_length p -> i + (pattern_length p - 1) <= length data ->
  first_window rowsum p (pattern_length p - latent p) i data = Ok (window rowsum (pattern_length p) (latent p) data i).
Proof.
  intros p i data HL Hn. unfold first_window, window. apply mapM_ok. intros j Hj. apply in_seq in Hj.
  rewrite slice_rows_ok by lia. reflexivity.
Qed.

Lemma window_shift : forall P L data i, L < P ->
  window rowsum P L data (S i) = skipn 1 (window rowsum P L data i) ++ [rowsum (slice (S i + P - L - 1) (S i + P - 1) data)].
Proof.
  intros P L data i HL. unfold window.
  replace (P - L) with (S (P - L - 1)) by lia.
  rewrite seq_S at 1. rewrite map_app. cbn [map seq skipn]. f_equal.
  - rewrite <- seq_shift, map_map. apply map_ext. intros j. do 2 f_equal; lia.
  - do 3 f_equal; lia.
Qed.

Lemma next_window_ok : forall p i data, latent p < pattern_length p -> S i + (pattern_length p - 1) <= length data ->
  next_window rowsum p (pattern_length p - latent p) (S i) (window rowsum (pattern_length p) (latent p) data i) data
  = Ok (window rowsum (pattern_length p) (latent p) data (S i)).
Proof.
  intros p i data HL Hn. unfold next_window.
  destruct (Nat.eqb_spec (pattern_length p - latent p) 0); [lia|].
  rewrite !usub_ok by lia. cbn [bind]. rewrite !usub_ok by lia. cbn [bind]. rewrite slice_rows_ok by lia. cbn [bind].
  now rewrite window_shift.
Qed.

Lemma windows_ok : forall p data count i cur, latent p < pattern_length p ->
  i + count + (pattern_length p - 1) <= length data ->
  match cur with None => True | Some c => exists k, i = S k /\ c = window rowsum (pattern_length p) (latent p) data k end ->
  windows rowsum p (pattern_length p - latent p) i count cur data
  = Ok (map (window rowsum (pattern_length p) (latent p) data) (seq i count)).
Proof.
  intros p data count; induction count as [|count IH]; intros i cur HL Hn Hc; [reflexivity|].
  cbn [windows seq map].
  assert (E : match cur with
              | None => first_window rowsum p (pattern_length p - latent p) i data
              | Some c => next_window rowsum p (pattern_length p - latent p) i c data
              end = Ok (window rowsum (pattern_length p) (latent p) data i)).
  { destruct cur as [c|].
    - destruct Hc as (k & -> & ->). apply next_window_ok; lia.
    - apply first_window_ok; lia. }
  rewrite E. cbn [bind]. rewrite IH; [reflexivity|exact HL|lia|]. exists i. auto.
Qed.

Theorem phase_space_ok : forall p data, latent p < pattern_length p -> pattern_length p - 1 <= length data ->
  phase_space rowsum p data = Ok (embedding rowsum (pattern_length p) (latent p) data).
Proof.
  intros p data HL Hn. unfold phase_space. rewrite !usub_ok by lia. cbn [bind]. rewrite !usub_ok by lia. cbn [bind].
  rewrite windows_ok; [reflexivity|exact HL|lia|exact I].
Qed.

(** ** Distribution *)
Lemma window_slice : forall P L (rows : list V) a b i, L < P -> a + i + (P - 1) <= b ->
  window rowsum P L (slice a b rows) i = window rowsum P L rows (a + i).
Proof.
  intros P L rows a b i HL Hb. unfold window. apply map_ext_in. intros j Hj. apply in_seq in Hj.
  rewrite slice_slice by lia. do 2 f_equal; lia.
Qed.

Lemma partition_bounds : forall N P (rows : list V) i, 1 <= N -> i < N -> 1 <= P -> P <= length rows / N ->
  exists b, partition_of N (P - 1) i rows = slice (i * (length rows / N)) b rows /\ b <= length rows
    /\ i * (length rows / N) + (P - 1) <= b
    /\ b - i * (length rows / N) - (P - 1)
       = (if S i =? N then length rows - (P - 1) - i * (length rows / N) else length rows / N).
Proof.
  intros N P rows i HN Hi HP Hpl. unfold partition_of.
  pose proof (Nat.mul_div_le (length rows) N ltac:(lia)) as Hdiv. set (w := length rows / N) in *.
  destruct (Nat.eqb_spec (S i) N) as [E|E].
  - exists (length rows). subst N. cbn [Nat.mul] in *. repeat split; lia.
  - exists (S i * w + (P - 1)). assert (S (S i) * w <= N * w) by (apply Nat.mul_le_mono_r; lia). cbn [Nat.mul] in *.
    repeat split; lia.
Qed.

Lemma partition_embedding : forall N P L (rows : list V) i, L < P -> 1 <= N -> i < N -> P <= length rows / N ->
  embedding rowsum P L (partition_of N (P - 1) i rows)
  = map (window rowsum P L rows)
      (seq (i * (length rows / N)) (if S i =? N then length rows - (P - 1) - i * (length rows / N) else length rows / N)).
Proof.
  intros N P L rows i HL HN Hi Hpl.
  destruct (partition_bounds N P rows i HN Hi ltac:(lia) Hpl) as (b & E & Hb & Hb2 & Hlen). rewrite E.
  unfold embedding. rewrite slice_length. rewrite <- Hlen. set (a := i * (length rows / N)) in *.
  replace (Nat.min (b - a) (length rows - a) - (P - 1)) with (b - a - (P - 1)) by lia.
  rewrite <- (Nat.add_0_r a) at 3. 
  assert (G : forall m s, s + m + (P - 1) <= b - a ->
    map (window rowsum P L (slice a b rows)) (seq s m) = map (window rowsum P L rows) (seq (a + s) m)).
  { induction m as [|m IH]; intros s Hs; [reflexivity|]. cbn [seq map]. rewrite window_slice by lia. f_equal.
    replace (S (a + s)) with (a + S s) by lia. apply IH. lia. }
  apply G. lia.
Qed.

Lemma concat_blocks : forall A (f : nat -> A) w last N, 1 <= N ->
  concat (map (fun i => map f (seq (i * w) (if S i =? N then last - i * w else w))) (seq 0 N)) = map f (seq 0 ((N - 1) * w + (last - (N - 1) * w))).
Proof.
  intros A f w last N HN. destruct N as [|N]; [lia|]. cbn [Nat.sub]. rewrite Nat.sub_0_r, seq_S, map_app, concat_app.
  cbn [map concat]. rewrite app_nil_r, Nat.add_0_l, Nat.eqb_refl, seq_app, map_app. f_equal.
  rewrite (map_ext_in _ (fun i => map f (seq (i * w) w))).
  2:{ intros i Hi. apply in_seq in Hi. destruct (Nat.eqb_spec (S i) (S N)); [lia|reflexivity]. }
  clear HN. induction N as [|N IH]; [reflexivity|].
  rewrite seq_S, map_app, concat_app, IH. cbn [map concat]. rewrite app_nil_r, Nat.add_0_l.
  replace (S N * w) with (N * w + w) by lia. now rewrite seq_app, map_app.
Qed.

Theorem distributed_embedding : forall p N (rows : list V), latent p < pattern_length p -> 1 <= N ->
  pattern_length p <= length rows / N ->
  exists parts,
    mapM (fun i => phase_space rowsum p (partition_of N (pattern_length p - 1) i rows)) (seq 0 N) = Ok parts
    /\ phase_space rowsum p rows = Ok (concat parts).
Proof.
  intros p N rows HL HN Hpl.
  pose proof (Nat.mul_div_le (length rows) N ltac:(lia)) as Hdiv.
  exists (map (fun i => embedding rowsum (pattern_length p) (latent p) (partition_of N (pattern_length p - 1) i rows)) (seq 0 N)).
  split.
  - apply mapM_ok. intros i Hi. apply in_seq in Hi. apply phase_space_ok; [exact HL|].
    destruct (partition_bounds N (pattern_length p) rows i HN ltac:(lia) ltac:(lia) Hpl) as (b & -> & Hb & Hb2 & _).
    rewrite slice_length. lia.
  - assert (1 * (length rows / N) <= N * (length rows / N)) by (apply Nat.mul_le_mono_r; lia).
    rewrite phase_space_ok by (lia || exact HL). f_equal.
    rewrite (map_ext_in _ (fun i => map (window rowsum (pattern_length p) (latent p) rows)
      (seq (i * (length rows / N)) (if S i =? N then (length rows - (pattern_length p - 1)) - i * (length rows / N) else length rows / N)))).
    2:{ intros i Hi. apply in_seq in Hi. apply partition_embedding; lia. }
    rewrite concat_blocks by exact HN. unfold embedding. do 2 f_equal.
    assert ((N - 1) * (length rows / N) + length rows / N = N * (length rows / N))
      by (destruct N; [lia|cbn [Nat.sub Nat.mul]; rewrite Nat.sub_0_r; lia]). lia.
Qed.

(** Ids: point [k] of node [i] is window [id] of the complete embedding. *)
Theorem point_ids_are_window_numbers : forall addr (c : cluster_nodes addr) own N p (rows : list V) part ids,
  all_but own N (keys c) -> latent p < pattern_length p -> pattern_length p <= length rows / N ->
  phase_space rowsum p (partition_of N (pattern_length p - 1) own rows) = Ok part ->
  point_ids c (length rows) (length part) = Ok ids ->
  length ids = length part /\
  forall k id w, nth_error ids k = Some id -> nth_error part k = Some w ->
    nth_error (embedding rowsum (pattern_length p) (latent p) rows) id = Some w.
Proof.
  intros addr c own N p rows part ids Hall HL Hpl Hps Hids.
  pose proof (all_but_len _ _ _ Hall) as Hlen. pose proof (proj1 Hall) as Hown.
  assert (Lc : len_incl_own c = N) by (unfold len_incl_own; rewrite len_keys; lia).
  assert (HN : 1 <= N) by lia.
  unfold point_ids in Hids. rewrite Lc, udiv_ok in Hids by lia. cbn [bind] in Hids.
  rewrite (own_idx c own _ Hall) in Hids. cbn [bind] in Hids. injection Hids as <-. rewrite seq_length. split; [reflexivity|].
  destruct (partition_bounds N (pattern_length p) rows own HN Hown ltac:(lia) Hpl) as (b & Eb & Hb & Hb2 & Hcnt).
  rewrite phase_space_ok in Hps; [|exact HL|rewrite Eb, slice_length; lia]. injection Hps as <-.
  rewrite (partition_embedding N) by lia. set (cnt := if S own =? N then _ else _) in *.
  intros k id w Hk Hw.
  assert (Hkc : k < cnt).
  { apply nth_error_Some in Hk || (assert (nth_error (map (window rowsum (pattern_length p) (latent p) rows)
       (seq (own * (length rows / N)) cnt)) k <> None) by congruence). 
    rewrite nth_error_map in Hw. destruct (nth_error (seq (own * (length rows / N)) cnt) k) eqn:E; [|discriminate].
    assert (k < length (seq (own * (length rows / N)) cnt)) by (apply nth_error_Some; congruence). now rewrite seq_length in *. }
  rewrite nth_error_map, nth_error_seq in Hw by exact Hkc. cbn [option_map] in Hw.
  rewrite nth_error_seq in Hk by (rewrite map_length, seq_length; exact Hkc). injection Hk as <-.
  unfold embedding. rewrite nth_error_map, nth_error_seq by lia. cbn [option_map].
  replace (0 + (length rows / N * own + k)) with (own * (length rows / N) + k) by lia. exact Hw.
Qed.
End P.

(** ** The reference data set *)
Local Open Scope R_scope.

Lemma column_repeat : forall A (v : list A) d x k, nth_error v d = Some x -> column d (repeat v k) = repeat x k.
Proof. intros A v d x k Hx. unfold column. induction k as [|k IH]; cbn; [reflexivity|]. now rewrite Hx, IH. Qed.

Lemma slice_repeat : forall A (x : A) a b n, (b <= n)%nat -> (a <= b)%nat -> slice a b (repeat x n) = repeat x (b - a).
Proof.
  intros A x a b n Hb Ha. apply nth_error_ext. intros i. rewrite nth_error_slice.
  destruct (Nat.ltb_spec i (b - a)).
  - rewrite !nth_error_repeat by lia. reflexivity.
  - symmetry. apply nth_error_None. rewrite repeat_length. lia.
Qed.

Lemma sum_repeat : forall x k, fold_left Rplus (repeat x k) 0 = INR k * x.
Proof.
  intros x k. rewrite fold_left_Rplus, Rplus_0_l. unfold Rsum.
  induction k as [|k IH]; [cbn; lra|]. cbn [repeat fold_right]. rewrite IH, S_INR. lra.
Qed.

Lemma map2_seq : forall (f : R -> R -> R) (g : R -> R) l m, length l = length m ->
  map (fun d => match nth_error l d, nth_error m d with Some s, Some e => g (f s e) | _, _ => 0 end) (seq 0 (length l))
  = map g (map2 f l m).
Proof.
  intros f g l; induction l as [|x t IH]; intros [|y u] H; cbn in *; try lia; [reflexivity|].
  f_equal. rewrite <- seq_shift, map_map. apply IH. lia.
Qed.

Theorem reference_dataset_ok : forall p mn mx, (latent p <= pattern_length p)%nat -> length mn = length mx ->
  reference_dataset p mn mx
  = Ok (map (fun i => repeat (map2 (fun s e => INR (latent p) * (s + INR i * ((e - s) / 99))) mn mx) (pattern_length p - latent p))
            (seq 0 100)).
Proof.
  intros p mn mx HL Hlen. unfold reference_dataset. rewrite usub_ok by exact HL. cbn [bind].
  rewrite Hlen, Nat.eqb_refl. cbn [negb]. apply mapM_ok. intros i _.
  set (v := map2 (fun s e => linspace s e 100 i) mn mx).
  rewrite (mapM_ok _ _ _ (fun _ => map2 (fun s e => INR (latent p) * (s + INR i * ((e - s) / 99))) mn mx)).
  - f_equal. generalize (pattern_length p - latent p)%nat as k. intros k.
    assert (G : forall s, map (fun _ : nat => map2 (fun s e => INR (latent p) * (s + INR i * ((e - s) / 99))) mn mx) (seq s k)
                = repeat (map2 (fun s e => INR (latent p) * (s + INR i * ((e - s) / 99))) mn mx) k).
    { induction k as [|k IH]; intros s; cbn; [reflexivity|]. now rewrite IH. }
    apply G.
  - intros j Hj. apply in_seq in Hj. rewrite slice_rows_ok; [|lia|rewrite repeat_length; lia]. cbn [bind]. f_equal.
    rewrite slice_repeat by lia. replace (j + latent p - j)%nat with (latent p) by lia.
    rewrite <- Hlen.
    assert (Ef : map2 (fun s e => INR (latent p) * (s + INR i * ((e - s) / 99))) mn mx
                 = map (fun x => INR (latent p) * x) v).
    { unfold v, linspace. clear. revert mx. induction mn as [|a t IH]; intros [|b u]; cbn [map2 map]; try reflexivity.
      rewrite IH. f_equal. replace (INR (100 - 1)) with 99; [reflexivity|]. rewrite INR_IZR_INZ. reflexivity. }
    rewrite Ef. unfold v. rewrite <- map2_seq by exact Hlen. apply map_ext_in. intros d Hd. apply in_seq in Hd.
    destruct (nth_error mn d) as [s|] eqn:Es; [|apply nth_error_None in Es; lia].
    destruct (nth_error mx d) as [e|] eqn:Ee; [|apply nth_error_None in Ee; lia].
    rewrite (column_repeat _ _ d (linspace s e 100 i)) by (now apply (nth_error_map2 _ _ _ (fun s e => linspace s e 100 i))). apply sum_repeat.
Qed.
