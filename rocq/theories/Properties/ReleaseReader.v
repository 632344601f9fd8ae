(** C111, reading the file. *)
From Coq Require Import List Arith ZArith Bool Lia.
From Verif.Base Require Import Res Params ListX Assoc Release.
From Verif.Topology Require Import Model Spec Proofs.
From Verif.Reader Require Import Model Spec Proofs Release.
From Verif.Properties Require Import Release.
Import ListNotations.

Lemma same_bind_ok : forall A B (r : res A) (f f' : A -> res B), (forall x, r = Ok x -> same_outcome (f x) (f' x)) -> same_outcome (bind r f) (bind r f').
Proof. intros A B [x|q] f f' H; cbn [bind]; [now apply H|exact I]. Qed.
Lemma mapM_map_nil : forall A B C (f : A -> list B) (g : B -> res C) l, (forall x, In x l -> f x = []) -> mapM (fun x => mapM g (f x)) l = Ok (map (fun _ => []) l).
Proof. intros A B C f g. induction l as [|x l IH]; intros H; [reflexivity|]. cbn [mapM map]. rewrite (H x) by now left. cbn [mapM bind]. rewrite IH by (intros; apply H; now right). reflexivity. Qed.

(** A file with a header line and a pattern length: every partition is the same. *)
Theorem C111_reader : forall addr cell word p (c : cluster_nodes addr) n_file_lines width (rows : list (list cell)),
  1 <= pattern_length p -> 1 <= n_file_lines ->
  read_csv_release word p c n_file_lines width rows = read_csv p c n_file_lines width rows.
Proof.
  intros addr cell word p c n width rows Hp Hn. unfold read_csv_release, read_csv. rewrite !usub_ok by lia. cbn [bind]. rewrite !rsub_ok by lia.
  unfold udiv. destruct (Nat.eqb_spec (len_incl_own c) 0) as [E|E]; [reflexivity|]. cbn [bind].
  assert (B : (n - 1) / len_incl_own c * len_incl_own c <= n - 1) by (rewrite Nat.mul_comm; apply Nat.mul_div_le; exact E).
  rewrite usub_ok by exact B. rewrite rsub_ok by exact B. reflexivity.
Qed.
Print Assumptions C111_reader.

(** Pattern length 0 on a cluster: a checked build aborts; a release build sends the whole series to the first host and nothing to any other, which waits for its partition for ever. *)
Theorem C111_pattern_zero_refuted : forall addr cell word p (c : cluster_nodes addr) width (rows : list (list cell)),
  pattern_length p = 0 -> 2 <= len_incl_own c -> length rows + 2 <= word -> (forall r, In r rows -> length r = width) ->
  (exists q, read_csv p c (S (length rows)) width rows = Panic q)
  /\ read_csv_release word p c (S (length rows)) width rows = Ok [(address_of c 0, rows)].
Proof.
  intros addr cell word p c width rows Hp HN Hw Hr. split; [unfold read_csv; rewrite Hp; eexists; reflexivity|].
  unfold read_csv_release. rewrite Hp. rewrite (rsub_low word 0 1), (rsub_ok word (S (length rows)) 1) by lia. cbn [Nat.sub]. rewrite Nat.sub_0_r.
  unfold udiv. destruct (Nat.eqb_spec (len_incl_own c) 0) as [E|E]; [lia|]. cbn [bind]. set (w := length rows / len_incl_own c). set (lo := rsub word (length rows) (w * len_incl_own c)).
  destruct (foldM_prefix _ _ (read_step c width w lo (0 + word - 1))
    (fun m s => position s = 0 /\ sent s = [] /\ buffer s ++ overlap_buffer s = firstn m rows /\ (length (buffer s) < w -> overlap_buffer s = [])) rows
    {| buffer := []; overlap_buffer := []; position := 0; sent := [] |}) as (s & Es & Ps & Ss & Bs & _).
  - cbn. auto.
  - intros m s r Hm (P & S0 & B & O). assert (Lm : m < length rows) by (apply nth_error_Some; congruence).
    assert (F : firstn (Datatypes.S m) rows = firstn m rows ++ [r]).
    { clear -Hm. revert m Hm. induction rows as [|x l IH]; intros [|m] Hm; cbn in *; try discriminate; [now injection Hm as ->|]. now rewrite (IH m Hm). }
    unfold read_step. rewrite (Hr r) by (eapply nth_error_In; eauto). rewrite Nat.eqb_refl. cbn [negb].
    destruct (Nat.ltb_spec (length (buffer s)) w) as [L|L].
    + eexists. split; [reflexivity|]. cbn [position sent buffer overlap_buffer]. rewrite (O L) in *. rewrite app_nil_r in *. repeat split; auto. rewrite F, <- B. reflexivity.
    + destruct (Nat.ltb_spec 1 (len_incl_own c)); [|lia]. unfold last_position. rewrite P. destruct (Nat.leb_spec (len_incl_own c) 0); [lia|].
      assert (Lo : length (overlap_buffer s) <= m).
      { apply (f_equal (@length _)) in B. rewrite app_length, firstn_length in B. lia. }
      destruct (Nat.ltb_spec (length (overlap_buffer s)) (0 + word - 1)); [|lia]. cbn [andb orb negb].
      eexists. split; [reflexivity|]. cbn [position sent buffer overlap_buffer]. repeat split; auto; [rewrite F, <- B, app_assoc; reflexivity|lia].
  - rewrite Es. cbn [bind]. rewrite send_next_ok by lia. cbn [bind sent]. rewrite Ps, Ss, Bs, firstn_all. reflexivity.
Qed.
Print Assumptions C111_pattern_zero_refuted.

(** The choice of columns: the same matrix, or both abort, also if the first column comes after the last one. *)
Theorem C111_columns : forall cell num (parse : cell -> option num) p data, data <> [] ->
  (Z.of_nat (column_start p) < 2 ^ 64)%Z -> (column_end p < 2 ^ 64)%Z -> (forall r, In r data -> (Z.of_nat (length r) < 2 ^ 64)%Z) ->
  same_outcome (load_partition parse p data) (load_partition_release parse p data).
Proof.
  intros cell num parse p data Hd Hs He Hr. unfold load_partition, load_partition_release. cbv zeta. apply same_bind_ok.
  intros upto Hu.
  assert (U : (0 <= upto < 2 ^ 64)%Z).
  { unfold until_column in Hu. destruct data as [|r data]; [contradiction|]. specialize (Hr r (or_introl eq_refl)). destruct (column_end p) as [|z|z]; injection Hu as <-; [lia|lia|].
    apply Z.mod_pos_bound. lia. }
  destruct (Z.ltb_spec upto (Z.of_nat (column_start p))) as [L|L]; cbn [bind].
  - rewrite mapM_map_nil.
    2:{ intros r _. unfold fromto. destruct (skipn (column_start p) r); [reflexivity|]. cbn [fromto_loop]. destruct (Z.ltb_spec (Z.of_nat (0 + column_start p)) upto); [lia|reflexivity]. }
    cbn [bind]. replace (concat (map (fun _ => []) data)) with (@nil num) by (clear; induction data; auto).
    unfold into_shape2. cbn [length].
    replace ((upto - Z.of_nat (column_start p)) mod 2 ^ 64)%Z with (upto - Z.of_nat (column_start p) + 2 ^ 64)%Z.
    2:{ apply (Z.mod_unique _ _ (-1)); [left|]; lia. }
    destruct (Z.eqb_spec (Z.of_nat 0) (Z.of_nat (length data) * (upto - Z.of_nat (column_start p) + 2 ^ 64))) as [Z0|Z0]; [|exact I].
    symmetry in Z0. cbn [Z.of_nat] in Z0. apply Z.mul_eq_0 in Z0. destruct Z0 as [Z0|Z0]; [|lia]. destruct data; [contradiction|cbn in Z0; lia].
  - rewrite Z.mod_small by lia. apply same_refl.
Qed.
Print Assumptions C111_columns.

Example C111_reader_case : let p := c111_params 0 1 in
  read_csv_release 1000 p [(1, 5)] 7 1 [[10]; [20]; [30]; [40]; [50]; [60]] = Ok [(Local, [[10]; [20]; [30]; [40]; [50]; [60]])].
Proof. vm_compute. reflexivity. Qed.
