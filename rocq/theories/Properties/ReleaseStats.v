(** C111, statistics. *)
From Coq Require Import List Arith Bool Lia Reals Lra.
From Verif.Base Require Import Res Params ListX Release.
From Verif.Topology Require Import Model.
From Verif.Stats Require Import Model Release.
From Verif.Properties Require Import Release.
Import ListNotations.

(** A host whose rows cover the overlap with the next one, or the last host: the same statistics. *)
Theorem C111_statistics_partial : forall addr source word p (c : cluster_nodes addr) own w data (src : source),
  get_own_idx c = Ok own -> 1 <= pattern_length p -> own = length c \/ pattern_length p - 1 <= length data -> 2 * length data + 2 < word ->
  calculate_std_release word p c w data src = calculate_std p c w data src.
Proof.
  intros addr source word p c own w data src Ho Hp Hl Hw. unfold calculate_std_release, calculate_std. rewrite Ho. cbn [bind]. pose proof (half word).
  assert (E : forall e, e <= length data -> slice_end word (length data) e = Ok e).
  { intros e He. unfold slice_end. destruct (Nat.ltb_spec e (word / 2)); [|lia]. destruct (Nat.leb_spec e (length data)); [reflexivity|lia]. }
  destruct (Nat.eqb_spec own (length c)) as [L|L]; cbn [bind].
  - rewrite rsub_ok by lia. rewrite usub_ok by lia. rewrite E by lia. reflexivity.
  - destruct Hl as [Hl|Hl]; [contradiction|]. rewrite (rsub_ok word (pattern_length p) 1) by lia. rewrite usub_ok by lia. cbn [bind]. rewrite rsub_ok by lia. rewrite usub_ok by lia. rewrite E by lia. reflexivity.
Qed.
Print Assumptions C111_statistics_partial.

(** A host with fewer rows than the overlap, but more than half of it: the checked build aborts.  The release build takes the negative end for one that counts from the end of the rows and reports
    the statistics of some of its first rows, without an error. *)
Theorem C111_statistics_refuted : forall addr source word p (c : cluster_nodes addr) own w data (src : source),
  get_own_idx c = Ok own -> own <> length c -> length data < pattern_length p - 1 < 2 * length data -> 2 * pattern_length p < word ->
  (exists q, calculate_std p c w data src = Panic q)
  /\ exists m k, calculate_std_release word p c w data src = Ok m /\ sm_n m = k /\ k = 2 * length data - (pattern_length p - 1) /\ 1 <= k < length data
       /\ mean_axis w (firstn k data) = Ok (sm_mean m).
Proof.
  intros addr source word p c own w data src Ho Hn Hl Hw. unfold calculate_std_release, calculate_std. rewrite Ho. cbn [bind]. pose proof (half word).
  destruct (Nat.eqb_spec own (length c)) as [L|L]; [contradiction|]. split.
  - rewrite usub_ok by lia. cbn [bind]. unfold usub. destruct (Nat.ltb_spec (length data) (pattern_length p - 1)); [|lia]. eexists; reflexivity.
  - rewrite (rsub_ok word (pattern_length p) 1) by lia. rewrite rsub_low by lia. unfold slice_end.
    destruct (Nat.ltb_spec (length data + word - (pattern_length p - 1)) (word / 2)); [lia|].
    destruct (Nat.leb_spec (word - (length data + word - (pattern_length p - 1))) (length data)); [|lia]. cbn [bind].
    replace (length data - (word - (length data + word - (pattern_length p - 1)))) with (2 * length data - (pattern_length p - 1)) by lia.
    set (k := 2 * length data - (pattern_length p - 1)). assert (Lk : length (firstn k data) = k) by (rewrite firstn_length; unfold k; lia).
    unfold mean_axis at 1. rewrite Lk. destruct (Nat.eqb_spec k 0); [unfold k in *; lia|]. cbn [bind]. eexists. exists k. split; [reflexivity|]. cbn [sm_n sm_mean]. rewrite ?Lk. split; [reflexivity|].
    split; [reflexivity|]. split; [unfold k in *; lia|]. unfold mean_axis. rewrite Lk. destruct (Nat.eqb_spec k 0); [contradiction|reflexivity].
Qed.
Print Assumptions C111_statistics_refuted.

(** The first of two hosts with six rows and a pattern length of nine: four rows are counted. *)
Example C111_statistics_case : let c := [(1, 5)] in
  get_own_idx c = Ok 0 /\ 0 <> length c /\ 6 < pattern_length (c111_params 9 1) - 1 < 2 * 6.
Proof. cbn. repeat split; try lia; reflexivity. Qed.
