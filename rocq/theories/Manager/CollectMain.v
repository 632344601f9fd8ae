(** The statistics stage on a file the reader can distribute. *)
From Coq Require Import List Arith ZArith Lia Bool Reals Lra Permutation.
From Verif.Base Require Import Res Params Assoc ListX.
From Verif.Topology Require Import Model Spec Proofs.
From Verif.Reader Require Import Model Spec Proofs.
From Verif.Stats Require Import Model Spec Proofs.
From Verif.Manager Require Import Collect CollectSpec CollectProofs.
Import ListNotations.
Local Open Scope nat_scope.

Lemma slice_map : forall A B (f : A -> B) l a b, slice a b (map f l) = map f (slice a b l).
Proof. intros. unfold slice. now rewrite skipn_map, firstn_map. Qed.
Lemma partition_map : forall A B (f : A -> B) N o i l, partition_of N o i (map f l) = map f (partition_of N o i l).
Proof. intros. unfold partition_of. rewrite map_length, !slice_map. now destruct (S i =? N). Qed.

Lemma extremes_unique : forall rows w mn mx mn' mx', column_extremes rows w mn mx -> column_extremes rows w mn' mx' -> mn = mn' /\ mx = mx'.
Proof.
  intros rows w mn mx mn' mx' (L1 & L2 & H) (L1' & L2' & H'). split; apply nth_error_ext; intros j.
  - destruct (Nat.lt_ge_cases j w) as [Hj|Hj].
    + destruct (H j Hj) as (v & u & Ev & _ & (A & B) & _). destruct (H' j Hj) as (v' & u' & Ev' & _ & (A' & B') & _).
      rewrite Ev, Ev'. f_equal. apply Rle_antisym; auto.
    + rewrite !(proj2 (nth_error_None _ _)) by lia. reflexivity.
  - destruct (Nat.lt_ge_cases j w) as [Hj|Hj].
    + destruct (H j Hj) as (v & u & _ & Eu & _ & (A & B)). destruct (H' j Hj) as (v' & u' & _ & Eu' & _ & (A' & B')).
      rewrite Eu, Eu'. f_equal. apply Rle_antisym; auto.
    + rewrite !(proj2 (nth_error_None _ _)) by lia. reflexivity.
Qed.

Lemma handle_minmax_some : forall source N (st : option (minmax_calc source)) m st' o,
  handle_minmax N st m = Ok (st', o) -> exists c, st' = Some c.
Proof.
  intros source N st m st' o H. unfold handle_minmax in H. destruct st as [c|]; [|discriminate].
  destruct (length _ =? N); [|injection H as <- _; eauto].
  destruct (unwrap _) as [a|]; [|discriminate]. cbn [bind] in H. destruct (unwrap _) as [b|]; [|discriminate]. injection H as <- _. eauto.
Qed.
Lemma handle_std_some : forall source N (st : option (std_calc source)) m st' o,
  handle_std N st m = Ok (st', o) -> exists c, st' = Some c.
Proof.
  intros source N st m st' o H. unfold handle_std in H. destruct st as [c|]; [|discriminate].
  destruct (length _ <? N); destruct (sc_n c), (sc_mean c), (sc_m2 c);
    try (injection H as <- _; eauto; fail); destruct (std_of _ _); try discriminate; cbn [bind] in H; injection H as <- _; eauto.
Qed.
Lemma collect_some : forall S M O (f : option S -> M -> res (option S * list O)) l c st o,
  (forall s m s' o', f s m = Ok (s', o') -> exists c, s' = Some c) ->
  collect f (Some c) l = Ok (st, o) -> exists c', st = Some c'.
Proof.
  intros S M O f l. induction l as [|x t IH]; intros c st o Hf H; cbn [collect] in H; [injection H as <- _; eauto|].
  destruct (f (Some c) x) as [[q z]|] eqn:E; [|discriminate]. cbn [bind fst snd] in H. destruct (Hf _ _ _ _ E) as (c' & ->).
  destruct (collect f (Some c') t) as [[q2 z2]|] eqn:E2; [|discriminate]. cbn [bind fst snd] in H. injection H as <- _. eapply IH; eauto.
Qed.
Lemma collect_std_prefix : forall source N (todo done : list (std_msg source)) c, sd_state done c -> length done + length todo < N ->
  exists c', collect (handle_std N) (Some c) todo = Ok (Some c', []).
Proof.
  intros source N todo; induction todo as [|m t IH]; intros done c (Hn & Hm) Hlen; [eexists; reflexivity|].
  cbn [collect length] in *. unfold handle_std at 1. rewrite Hn, app_length, map_length. cbn [length].
  destruct (Nat.ltb_spec (length done + 1) N) as [_|]; [|lia].
  destruct (sc_n c) as [n|], (sc_mean c) as [mu|], (sc_m2 c) as [q|]; try contradiction; cbn [bind fst snd].
  - destruct Hm as (_ & ->). match goal with |- context [collect _ (Some ?c1) _] => destruct (IH (done ++ [m]) c1) as (c' & E) end.
    + split; [cbn; now rewrite map_app|]. cbn. split; [destruct done; discriminate|]. rewrite total_n_app. cbn. lia.
    + rewrite app_length. cbn. lia.
    + rewrite E. cbn. eauto.
  - subst done. match goal with |- context [collect _ (Some ?c1) _] => destruct (IH [m] c1) as (c' & E) end.
    + split; [reflexivity|]. cbn. split; [discriminate|lia].
    + cbn in *. lia.
    + rewrite E. cbn. eauto.
Qed.

Lemma NoDup_extend : forall N r, NoDup r -> (forall x, In x r -> x < N) ->
  exists t, Permutation (r ++ t) (seq 0 N).
Proof.
  intros N r ND H.
  assert (E : forall u v : list nat, NoDup u -> NoDup v -> incl u v -> exists t, Permutation (u ++ t) v).
  { intros u. induction u as [|x u IH]; intros v Nu Nv I; [exists v; reflexivity|].
    inversion Nu; subst. assert (In x v) as Hx by (apply I; now left). apply in_split in Hx. destruct Hx as (a & b & ->).
    destruct (IH (a ++ b)) as (t & P); [assumption|now apply NoDup_remove in Nv| |].
    - intros y Hy. assert (In y (a ++ x :: b)) as Hy' by (apply I; now right). apply in_app_iff in Hy'. apply in_app_iff.
      destruct Hy' as [|[->|]]; auto. contradiction.
    - exists t. cbn [app]. rewrite P. apply Permutation_middle. }
  apply E; [exact ND|apply seq_NoDup|]. intros x Hx. apply in_seq. specialize (H x Hx). lia.
Qed.

Section Main.
Context {cell : Type}.
Variables (parse : cell -> option R) (val : cell -> R) (fmax : R) (p : params) (peers : nat -> cluster_nodes nat) (width : nat)
  (records : list (list cell)).
Let N := n_cluster_nodes p.
Let rows := map (selected p width val) records.
Let w := Z.to_nat (column_limit width (column_end p)) - column_start p.
Hypothesis HN : 1 <= N.
Hypothesis Hin : introduced N peers.
Hypothesis HP : 1 <= pattern_length p <= length records / N.
Hypothesis Hmod : length records mod N <= pattern_length p - 1.
Hypothesis H2 : 2 <= length records.
Hypothesis HW : Forall (fun r => length r = width) records.
Hypothesis Hw64 : (Z.of_nat width < 2 ^ 64)%Z.
Hypothesis Hparse : forall r b, In r records -> In b r -> parse b = Some (val b).
Hypothesis Hlim : (Z.of_nat (column_start p) <= column_limit width (column_end p) <= Z.of_nat width)%Z.
Hypothesis Hb : forall j x, entry rows j x -> (- fmax <= x <= fmax)%R.

Let ov := pattern_length p - 1.
Let dat h := partition_of N ov h rows.
Let SM h := match calculate_std p (peers h) (columns (dat h)) (dat h) h with
            | Ok m => m | Panic _ => {| sm_n := 0; sm_mean := []; sm_m2 := []; sm_source := h |} end.

Lemma rows_length : length rows = length records.
Proof. unfold rows. apply map_length. Qed.
Lemma rows_width : Forall (fun r => length r = w) rows.
Proof.
  unfold rows. rewrite Forall_map. apply (Forall_impl _ (P := fun r => length r = width)); [|exact HW].
  intros r Hr. unfold selected. rewrite map_length, slice_length, Hr. unfold w. lia.
Qed.
Lemma Hall : forall h, h < N -> all_but h N (keys (peers h)).
Proof. intros h Hh. apply (Hin h Hh). Qed.
Lemma Hget : forall h j, h < N -> j < N -> j <> h -> get (peers h) j = Some j.
Proof.
  intros h j Hh Hj Hne. destruct (proj2 (get_remote_iff (peers h) h N j (Hall h Hh)) (conj Hj Hne)) as (a & E). rewrite E. f_equal.
  apply lookup_In in E; [|exact Nat.eqb_spec]. eapply (Hin h Hh); eauto.
Qed.

Lemma part_length : forall h, h < N -> counted p N h < length (dat h) /\ 1 <= length (dat h).
Proof.
  intros h Hh. destruct (counted_partition _ p N h rows HN Hh) as (A & _); [rewrite rows_length; exact HP|]. unfold dat, ov. split; [exact A|lia].
Qed.
Lemma dat_width : forall h, Forall (fun r => length r = w) (dat h).
Proof. intros h. apply partition_widths, rows_width. Qed.
Lemma dat_columns : forall h, h < N -> columns (dat h) = w.
Proof.
  intros h Hh. pose proof (dat_width h) as F. destruct (part_length h Hh) as (_ & L). destruct (dat h) as [|r t]; [cbn in L; lia|].
  apply Forall_inv in F. exact F.
Qed.

Lemma Hread : read_csv p (peers 0) (S (length records)) width records
  = Ok (map (fun j => (if j =? 0 then Local else Remote j, partition_of N ov j records)) (seq 0 N)).
Proof.
  assert (L : len_incl_own (peers 0) = N).
  { pose proof (all_but_len _ _ _ (Hall 0 HN)) as L. unfold len_incl_own, len, keys in *. rewrite map_length in L. exact L. }
  rewrite read_csv_ok; [|lia|exact HW|rewrite L; right; split; [apply HP|exact Hmod]]. rewrite L.
  f_equal. rewrite iter_take_spec, L, Nat.sub_0_r, Nat.min_id, combine_map_addr. apply map_ext_in. intros j Hj. apply in_seq in Hj.
  f_equal. unfold address_of. destruct (Nat.eqb_spec j 0) as [->|].
  - destruct (get (peers 0) 0) as [a|] eqn:E; [|reflexivity].
    assert (0 < N /\ 0 <> 0) by (apply (get_remote_iff (peers 0) 0 N 0 (Hall 0 HN)); eauto). lia.
  - rewrite Hget by lia. reflexivity.
Qed.

Lemma Hload : forall h, h < N -> load_partition parse p (partition_of N ov h records) = Ok (dat h).
Proof.
  intros h Hh. destruct (part_length h Hh) as (_ & L). unfold dat, rows in *. rewrite partition_map in *. rewrite map_length in L.
  rewrite (load_ok parse p _ width val); auto.
  - intros E. rewrite E in L. cbn in L. lia.
  - apply Forall_forall. intros r Hr. apply partition_In in Hr. revert r Hr. apply Forall_forall. exact HW.
  - intros r b Hr. apply Hparse. eapply partition_In; eauto.
Qed.

Lemma Hstd_source : forall h, h < N -> calculate_std p (peers h) (columns (dat h)) (dat h) h = Ok (SM h) /\ sm_source (SM h) = h.
Proof.
  intros h Hh. destruct (part_length h Hh) as (Hc & _).
  destruct (calculate_std_ok p (peers h) h N (columns (dat h)) (dat h) h (Hall h Hh)) as (m & E & Es & _); auto; [|lia|].
  - rewrite dat_columns by exact Hh. apply dat_width.
  - unfold SM. rewrite E. auto.
Qed.
Lemma Hstd : forall h, h < N -> calculate_std p (peers h) (columns (dat h)) (dat h) h = Ok (SM h).
Proof. intros h Hh. now apply Hstd_source. Qed.

Definition hosts_in (r : list nat) := map (fun h => (h, dat h)) r.
Lemma mm_hosts : forall r, (forall x, In x r -> x < N) ->
  map (fun h => calculate_minmax fmax (columns (dat h)) (dat h) h) r = mm_msgs fmax w (hosts_in r).
Proof.
  intros r H. unfold mm_msgs, hosts_in. rewrite map_map. apply map_ext_in. intros h Hh. cbn [fst snd]. now rewrite dat_columns by auto.
Qed.

Lemma minmax_of : forall r, Permutation r (seq 0 N) -> exists mn mx st,
  collect (handle_minmax N) (Some minmax_init) (mm_msgs fmax w (hosts_in r)) = Ok (st, map (fun s => (s, (mn, mx))) r)
  /\ column_extremes rows w mn mx
  /\ (forall k, k < N -> exists st, collect (handle_minmax N) (Some minmax_init) (firstn k (mm_msgs fmax w (hosts_in r))) = Ok (st, [])).
Proof.
  intros r P.
  destruct (minmax_global N ov fmax w rows (hosts_in r)) as ((mn & mx & st & E & L1 & L2 & H) & Hk); auto using rows_width.
  - intros E. pose proof rows_length as L. rewrite E in L. cbn in L. lia.
  - unfold hosts_in. rewrite map_map. cbn [snd]. apply (Permutation_map dat). exact P.
  - exists mn, mx, st. split; [|split; [split; auto|exact Hk]]. rewrite E.
    assert (Ef : map fst (hosts_in r) = r) by (unfold hosts_in; rewrite map_map; apply map_id). now rewrite Ef.
Qed.

Definition is_final (mn mx : list R) : Prop := forall r, NoDup r -> (forall x, In x r -> x < N) -> exists c,
  collect (handle_minmax N) (Some minmax_init) (map (fun h => calculate_minmax fmax (columns (dat h)) (dat h) h) r)
  = Ok (Some c, if length r =? N then map (fun s => (s, (mn, mx))) r else []).

Lemma HcM : exists mn mx, column_extremes rows w mn mx /\ is_final mn mx.
Proof.
  destruct (minmax_of (seq 0 N) (Permutation_refl _)) as (mn & mx & st & E & Hx & _). exists mn, mx. split; [exact Hx|].
  intros r ND H. rewrite mm_hosts by exact H.
  assert (G : exists st', collect (handle_minmax N) (Some minmax_init) (mm_msgs fmax w (hosts_in r))
              = Ok (st', if length r =? N then map (fun s => (s, (mn, mx))) r else [])).
  { destruct (Nat.eqb_spec (length r) N) as [L|L].
    - destruct (minmax_of r (nodup_full N r ND H L)) as (mn' & mx' & st' & E' & Hx' & _).
      destruct (extremes_unique _ _ _ _ _ _ Hx' Hx) as (-> & ->). eauto.
    - destruct (NoDup_extend N r ND H) as (t & P). destruct (minmax_of (r ++ t) P) as (_ & _ & _ & _ & _ & Hk).
      assert (Lr : length r < N).
      { apply Permutation_length in P. rewrite app_length, seq_length in P. lia. }
      destruct (Hk (length r) Lr) as (st' & E'). exists st'. rewrite <- E'. f_equal.
      unfold mm_msgs, hosts_in. rewrite !map_map, map_app, firstn_app, map_length, Nat.sub_diag, firstn_O, app_nil_r.
      rewrite firstn_all2 by (rewrite map_length; lia). reflexivity. }
  destruct G as (st' & G). destruct (collect_some _ _ _ _ _ _ _ _ (handle_minmax_some nat N) G) as (c & ->). eauto.
Qed.

Lemma HcS : forall r, NoDup r -> (forall x, In x r -> x < N) -> exists c sd,
  collect (handle_std N) (Some std_init) (map SM r) = Ok (Some c, if length r =? N then map (fun s => (s, (sd, length records))) r else []).
Proof.
  intros r ND H. destruct (Nat.eqb_spec (length r) N) as [L|L].
  - destruct (std_counts_rows p N w rows (map (fun h => (h, (peers h, h))) r) HN) as (msgs & sd & st & Em & Ec).
    + rewrite rows_length. exact HP.
    + rewrite rows_length. exact H2.
    + apply rows_width.
    + rewrite map_map. cbn [fst]. rewrite map_id. now apply nodup_full.
    + intros i c s Hi. apply in_map_iff in Hi. destruct Hi as (h & E & Hh). injection E as <- <- <-. apply Hall. auto.
    + assert (Em' : msgs = map SM r).
      { rewrite (mapM_ok _ _ _ (fun h => SM (fst h))) in Em.
        - injection Em as <-. rewrite map_map. reflexivity.
        - intros [h q] Hh. apply in_map_iff in Hh. destruct Hh as (h' & E & Hh'). injection E as <- <-. cbn [fst snd].
          fold (dat h'). rewrite <- (dat_columns h') by auto. apply Hstd. auto. }
      subst msgs. rewrite Ec.
      assert (Ef : map (fun h : nat * (cluster_nodes nat * nat) => snd (snd h)) (map (fun h => (h, (peers h, h))) r) = r)
        by (rewrite map_map; apply map_id). rewrite Ef, rows_length.
      destruct (collect_some _ _ _ _ _ _ _ _ (handle_std_some nat N) Ec) as (c & ->). eauto.
  - assert (Lr : length r < N).
    { destruct (NoDup_extend N r ND H) as (t & P). apply Permutation_length in P. rewrite app_length, seq_length in P. lia. }
    destruct (collect_std_prefix nat N (map SM r) [] std_init) as (c & E).
    + split; reflexivity.
    + rewrite map_length. cbn. lia.
    + exists c, []. exact E.
Qed.

Theorem statistics_everywhere : exists mn mx, column_extremes rows w mn mx
  /\ (forall k s, runs parse fmax p peers width records k (file_start p) s ->
        ~ aborts parse fmax p peers width records s
        /\ k <= (N + 3) * (8 * N) + N
        /\ (exists std, forall h, h < N -> preps (hosts s h) <= 1
              /\ (preps (hosts s h) = 1 -> hdata (hosts s h) = Some (partition_of N (pattern_length p - 1) h rows)
                    /\ minmax (hosts s h) = Some (mn, mx) /\ dev (hosts s h) = Some (std, length rows)))
        /\ ((forall s', ~ step parse fmax p peers width records s s') -> forall h, h < N -> preps (hosts s h) = 1))
  /\ (exists k s, runs parse fmax p peers width records k (file_start p) s
        /\ forall s', ~ step parse fmax p peers width records s s').
Proof.
  destruct HcM as (mn & mx & Hx & Hf). exists mn, mx. split; [exact Hx|].
  set (II := Inv fmax peers N (fun j => partition_of N ov j records) dat SM mn mx (length records)).
  assert (Hinv : forall k s, runs parse fmax p peers width records k (file_start p) s ->
    exists g, II g s /\ k + phi N g s <= (N + 3) * (8 * N) + N).
  { intros k s Hr. exact (inv_runs parse fmax p peers width records N (fun j => partition_of N ov j records) dat SM mn mx (length records) eq_refl HN (proj1 HP) Hall Hget Hread Hload Hstd Hf HcS k s Hr). }
  assert (Hstep : forall g s s', II g s -> step parse fmax p peers width records s s' -> exists g', II g' s' /\ phi N g' s' < phi N g s).
  { intros g s s' I S. exact (inv_step parse fmax p peers width records N (fun j => partition_of N ov j records) dat SM mn mx (length records) eq_refl HN (proj1 HP) Hall Hget Hread Hload Hstd Hf HcS g s s' I S). }
  split.
  - intros k s Hr. destruct (Hinv k s Hr) as (g & I & L).
    split; [|split; [lia|split]].
    + exact (inv_no_abort parse fmax p peers width records N (fun j => partition_of N ov j records) dat SM mn mx (length records) eq_refl HN (proj1 HP) Hall Hget Hread Hload Hstd Hf HcS g s I).
    + exists (gsd g). intros h Hh. rewrite rows_length. fold ov. fold (dat h).
      exact (inv_started parse fmax p peers N (fun j => partition_of N ov j records) dat SM mn mx (length records) eq_refl HN (proj1 HP) Hall Hget Hload Hstd Hf HcS g s I h Hh).
    + intros Hn h Hh. apply (inv_rest parse fmax p peers N (fun j => partition_of N ov j records) dat SM mn mx (length records) eq_refl HN (proj1 HP) Hall Hget Hload Hstd g s I); [|exact Hh]. exact (rest_empty parse fmax p peers width records N (fun j => partition_of N ov j records) dat SM mn mx (length records) eq_refl HN (proj1 HP) Hall Hget Hread Hload Hstd Hf HcS g s I Hn).
  - assert (R : forall b g k s, runs parse fmax p peers width records k (file_start p) s -> II g s -> phi N g s < b ->
        exists k' s', runs parse fmax p peers width records k' (file_start p) s' /\ parcels s' = []).
    { induction b as [|b IH]; intros g k s Hr I L; [lia|].
      destruct (parcels s) as [|x t] eqn:Ep; [eauto|].
      assert (Ex : exists s', step parse fmax p peers width records s s').
      { destruct (Forall_Exists_dec (fun x : @parcel cell => fst (fst x) = true) (fun x => bool_dec (fst (fst x)) true) (parcels s)) as [HF|HE].
        - destruct x as [[f h] m]. rewrite Ep in HF. apply Forall_inv in HF. cbn in HF. subst f.
          assert (Nx : next_in_mailbox (parcels s) [] h m t) by (split; [exact Ep|constructor]).
          assert (Ga : h < N /\ good_act parse fmax p peers width records N (fun j => partition_of N ov j records) dat SM mn mx (length records) g h (hosts s h) m).
          { exact (acts_well parse fmax p peers width records N (fun j => partition_of N ov j records) dat SM mn mx (length records) eq_refl HN (proj1 HP) Hall Hget Hread Hload Hstd Hf HcS g s [] h m t I Nx). }
          destruct Ga as (_ & s2 & out2 & g' & rest & Eh2 & _). eexists. eapply act; eauto.
        - apply Exists_exists in HE. destruct HE as ([[f h] m] & Hx' & Hf'). cbn in Hf'. apply not_true_is_false in Hf'. subst f.
          apply in_split in Hx'. destruct Hx' as (b' & a' & E). eexists. eapply arrive. exact E. }
      destruct Ex as (s' & St). destruct (Hstep g s s' I St) as (g' & I' & L').
      apply (IH g' (S k) s'); [eapply runs_step; eauto|exact I'|lia]. }
    destruct (Hinv 0 (file_start p) (runs_refl _ _ _ _ _ _ _)) as (g & I & _).
    destruct (R (S (phi N g (file_start p))) g 0 (file_start p) (runs_refl _ _ _ _ _ _ _) I (Nat.lt_succ_diag_r _)) as (k & s & Hr & E).
    exists k, s. split; [exact Hr|]. intros s' S. inversion S as [w0 before h m after E'|w0 before h m after s2 out [E' _] _]; subst;
      rewrite E in E'; destruct before; discriminate.
Qed.
End Main.
