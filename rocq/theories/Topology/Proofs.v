From Coq Require Import List Arith ZArith Lia Bool Permutation ZifyBool ZifyNat.
From Verif.Base Require Import Res Params Assoc.
From Verif.Topology Require Import Model Spec.
Import ListNotations.

(** ** Segment ownership *)

Definition border_of (p : params) (k : nat) : nat :=
  if k =? n_cluster_nodes p then rate p else k * (rate p / n_cluster_nodes p).

Lemma spn_pos : forall p, 1 <= n_cluster_nodes p <= rate p -> 1 <= rate p / n_cluster_nodes p.
Proof. intros p H. pose proof (Nat.div_le_mono (n_cluster_nodes p) (rate p) (n_cluster_nodes p)) as Hd.
  rewrite Nat.div_same in Hd; lia. Qed.

Lemma spn_ok : forall p, 1 <= n_cluster_nodes p <= rate p ->
  segments_per_node p = Ok (rate p / n_cluster_nodes p).
Proof. intros p H. unfold segments_per_node. apply udiv_ok. lia. Qed.

Lemma assignment_ok : forall p s, 1 <= n_cluster_nodes p <= rate p ->
  segment_id_to_assignment p s
  = Ok (Nat.min (s / (rate p / n_cluster_nodes p)) (n_cluster_nodes p - 1)).
Proof.
  intros p s H. unfold segment_id_to_assignment. rewrite spn_ok by exact H. cbn [bind].
  pose proof (spn_pos p H). rewrite udiv_ok by lia. cbn [bind].
  destruct (Nat.leb_spec (n_cluster_nodes p) (s / (rate p / n_cluster_nodes p))).
  - rewrite usub_ok by lia. f_equal. lia.
  - f_equal. lia.
Qed.

Lemma assignment_lt : forall p s k, 1 <= n_cluster_nodes p <= rate p ->
  segment_id_to_assignment p s = Ok k -> k < n_cluster_nodes p.
Proof. intros p s k H E. rewrite assignment_ok in E by exact H. injection E as <-. lia. Qed.

Lemma assignment_iff : forall p s k, 1 <= n_cluster_nodes p <= rate p -> s < rate p ->
  (segment_id_to_assignment p s = Ok k
   <-> k < n_cluster_nodes p /\ border_of p k <= s < border_of p (S k)).
Proof.
  intros p s k H Hs. rewrite assignment_ok by exact H. pose proof (spn_pos p H) as Hp.
  set (w := rate p / n_cluster_nodes p) in *. set (n := n_cluster_nodes p) in *.
  assert (Hwn : n * w <= rate p) by (subst w n; apply Nat.mul_div_le; lia).
  pose proof (Nat.div_mod s w ltac:(lia)) as Hdm. pose proof (Nat.mod_upper_bound s w ltac:(lia)) as Hm.
  unfold border_of; fold n; fold w.
  split.
  - intros E. injection E as <-. split; [lia|].
    destruct (Nat.le_gt_cases (n - 1) (s / w)) as [Hge|Hlt].
    + rewrite Nat.min_r by lia. replace (S (n - 1)) with n by lia. rewrite Nat.eqb_refl.
      destruct (Nat.eqb_spec (n - 1) n); [lia|]. split; [|lia].
      apply (Nat.mul_le_mono_r _ _ w) in Hge. lia.
    + rewrite Nat.min_l by lia.
      destruct (Nat.eqb_spec (s / w) n); [lia|]. destruct (Nat.eqb_spec (S (s / w)) n); lia.
  - intros [Hk [Hlo Hhi]]. f_equal.
    destruct (Nat.eqb_spec k n); [lia|].
    destruct (Nat.eqb_spec (S k) n).
    + assert (k <= s / w) by (apply Nat.div_le_lower_bound; lia). lia.
    + assert (s / w = k); [|lia].
      symmetry. apply (Nat.div_unique s w k (s - k * w)); lia.
Qed.

Lemma border_cuts : forall p, 1 <= n_cluster_nodes p <= rate p -> cuts (border_of p) (n_cluster_nodes p) (rate p).
Proof.
  intros p H. pose proof (spn_pos p H) as Hp. unfold cuts, border_of.
  assert (Hwn : n_cluster_nodes p * (rate p / n_cluster_nodes p) <= rate p) by (apply Nat.mul_div_le; lia).
  set (w := rate p / n_cluster_nodes p) in *. set (n := n_cluster_nodes p) in *.
  repeat split.
  - destruct (Nat.eqb_spec 0 n); lia.
  - now rewrite Nat.eqb_refl.
  - intros k Hk. destruct (Nat.eqb_spec k n); [lia|]. destruct (Nat.eqb_spec (S k) n); [|lia].
    subst n. assert (S k * w <= rate p) by lia. lia.
Qed.

Lemma segment_ownership : forall p, 1 <= n_cluster_nodes p <= rate p ->
  exists border : nat -> nat,
    cuts border (n_cluster_nodes p) (rate p)
    /\ (forall k, S k < n_cluster_nodes p -> border (S k) - border k = rate p / n_cluster_nodes p)
    /\ rate p / n_cluster_nodes p <= rate p - border (n_cluster_nodes p - 1)
    /\ (forall s, s < rate p -> exists k, segment_id_to_assignment p s = Ok k)
    /\ (forall s k, s < rate p ->
          (segment_id_to_assignment p s = Ok k <-> k < n_cluster_nodes p /\ border k <= s < border (S k)))
    /\ (forall s i k, s < rate p -> segment_id_to_assignment p s = Ok k ->
          first_segment_of_i_next_cluster_node p s i = Ok (border ((k + i) mod n_cluster_nodes p))).
Proof.
  intros p H. exists (border_of p). pose proof (spn_pos p H) as Hp.
  split; [now apply border_cuts|]. split; [|split; [|split; [|split]]].
  - intros k Hk. unfold border_of. destruct (Nat.eqb_spec k (n_cluster_nodes p)); [lia|].
    destruct (Nat.eqb_spec (S k) (n_cluster_nodes p)); lia.
  - unfold border_of. destruct (Nat.eqb_spec (n_cluster_nodes p - 1) (n_cluster_nodes p)); [lia|].
    assert (n_cluster_nodes p * (rate p / n_cluster_nodes p) <= rate p) by (apply Nat.mul_div_le; lia).
    set (w := rate p / n_cluster_nodes p) in *.
    assert (E : (n_cluster_nodes p - 1) * w = n_cluster_nodes p * w - w)
      by (destruct (n_cluster_nodes p); [lia|cbn; rewrite Nat.sub_0_r; lia]).
    rewrite E. assert (w <= n_cluster_nodes p * w) by (destruct (n_cluster_nodes p); [lia|cbn; lia]). lia.
  - intros s Hs. rewrite assignment_ok by exact H. eauto.
  - intros s k Hs. now apply assignment_iff.
  - intros s i k Hs E. unfold first_segment_of_i_next_cluster_node. rewrite E. cbn [bind].
    rewrite umod_ok by lia. cbn [bind]. rewrite spn_ok by exact H. cbn [bind]. f_equal.
    unfold border_of. pose proof (Nat.mod_upper_bound (k + i) (n_cluster_nodes p) ltac:(lia)).
    destruct (Nat.eqb_spec ((k + i) mod n_cluster_nodes p) (n_cluster_nodes p)); lia.
Qed.

Lemma owner_lookup_aborts : forall p s, rate p < n_cluster_nodes p ->
  segment_id_to_assignment p s = Panic DivByZero.
Proof.
  intros p s H. unfold segment_id_to_assignment, segments_per_node.
  rewrite udiv_ok by lia. cbn [bind]. rewrite Nat.div_small by exact H. reflexivity.
Qed.

Lemma first_segment_is_first : forall p s i k, 1 <= n_cluster_nodes p <= rate p -> s < rate p ->
  segment_id_to_assignment p s = Ok k ->
  exists f, first_segment_of_i_next_cluster_node p s i = Ok f /\ f < rate p
    /\ segment_id_to_assignment p f = Ok ((k + i) mod n_cluster_nodes p)
    /\ forall t, t < rate p -> segment_id_to_assignment p t = Ok ((k + i) mod n_cluster_nodes p) -> f <= t.
Proof.
  intros p s i k H Hs E. destruct (segment_ownership p H) as (b & Hc & _ & _ & _ & Hiff & Hf).
  pose proof (Nat.mod_upper_bound (k + i) (n_cluster_nodes p) ltac:(lia)) as Hm.
  set (m := (k + i) mod n_cluster_nodes p) in *.
  exists (b m). split; [now apply Hf|].
  destruct Hc as (Hb0 & Hbn & Hinc).
  assert (Hle : forall d j, j + d = n_cluster_nodes p -> b j <= rate p).
  { induction d as [|d IH]; intros j Hj.
    - replace j with (n_cluster_nodes p) by lia. lia.
    - specialize (IH (S j) ltac:(lia)). specialize (Hinc j ltac:(lia)). lia. }
  pose proof (Hinc m Hm) as Hinc'.
  pose proof (Hle (n_cluster_nodes p - S m) (S m) ltac:(lia)) as Hle'.
  assert (Hlt : b m < rate p) by lia.
  split; [exact Hlt|]. split.
  - apply Hiff; [exact Hlt|]. lia.
  - intros t Ht Et. apply Hiff in Et; [|exact Ht]. lia.
Qed.

(** ** Cyclic node distance *)
Lemma node_diff : forall p a b, a < n_cluster_nodes p -> b < n_cluster_nodes p ->
  exists d, cluster_node_diff p a b = Ok d /\ d < n_cluster_nodes p /\ (a + d) mod n_cluster_nodes p = b.
Proof.
  intros p a b Ha Hb. unfold cluster_node_diff. destruct (Nat.eqb_spec (n_cluster_nodes p) 0) as [E0|E0]; [lia|].
  eexists; split; [reflexivity|].
  set (n := n_cluster_nodes p) in *.
  assert (0 <= (Z.of_nat b - Z.of_nat a) mod Z.of_nat n < Z.of_nat n)%Z by (apply Z.mod_pos_bound; lia).
  split; [lia|].
  apply Nat2Z.inj. rewrite Nat2Z.inj_mod, Nat2Z.inj_add, Z2Nat.id by lia.
  rewrite Zplus_mod_idemp_r. replace (Z.of_nat a + (Z.of_nat b - Z.of_nat a))%Z with (Z.of_nat b) by lia.
  apply Z.mod_small. lia.
Qed.

(** ** Peer table *)
Lemma sum_list_perm : forall l l', Permutation l l' -> sum_list l = sum_list l'.
Proof. intros l l' P. induction P; unfold sum_list in *; cbn in *; lia. Qed.

Lemma all_but_perm : forall own n ks, all_but own n ks -> Permutation (own :: ks) (seq 0 n).
Proof.
  intros own n ks (Hown & ND & Hin). apply NoDup_Permutation.
  - constructor; [rewrite Hin; tauto|exact ND].
  - apply seq_NoDup.
  - intros x. rewrite in_seq. cbn. rewrite Hin. destruct (Nat.eq_dec own x); split; intuition lia.
Qed.

Lemma all_but_len : forall own n ks, all_but own n ks -> length ks + 1 = n.
Proof.
  intros own n ks H. pose proof (Permutation_length (all_but_perm _ _ _ H)) as HL. cbn in HL.
  rewrite seq_length in HL. lia.
Qed.

Section Peer.
Context {addr : Type}.
Implicit Types c : cluster_nodes addr.

Lemma len_keys : forall c, len c = length (keys c).
Proof. intros c. unfold len, keys. now rewrite map_length. Qed.

Lemma own_idx : forall c own n, all_but own n (keys c) -> get_own_idx c = Ok own.
Proof.
  intros c own n H. pose proof (all_but_perm _ _ _ H) as P. pose proof (all_but_len _ _ _ H) as L.
  unfold get_own_idx. apply sum_list_perm in P. cbn [sum_list fold_right] in P. fold (sum_list (keys c)) in P.
  unfold len_incl_own. rewrite len_keys, L. rewrite usub_ok by lia. f_equal. lia.
Qed.

Lemma next_idx : forall c own n, all_but own n (keys c) -> 2 <= n ->
  get_next_idx c = Ok (Some ((own + 1) mod n)).
Proof.
  intros c own n H Hn. unfold get_next_idx, get_shifted_idx. rewrite (own_idx _ _ _ H). cbn [bind].
  pose proof (all_but_len _ _ _ H) as L. unfold len_incl_own. rewrite len_keys, L.
  destruct (Nat.ltb_spec 0 (length (keys c))); [|lia]. f_equal. f_equal.
  apply Nat2Z.inj. rewrite Z2Nat.id by (apply Z.mod_pos_bound; lia). rewrite Nat2Z.inj_mod. f_equal. lia.
Qed.

Lemma prev_idx : forall c own n, all_but own n (keys c) -> 2 <= n ->
  get_previous_idx c = Ok (Some ((own + (n - 1)) mod n)).
Proof.
  intros c own n H Hn. unfold get_previous_idx, get_shifted_idx. rewrite (own_idx _ _ _ H). cbn [bind].
  pose proof (all_but_len _ _ _ H) as L. unfold len_incl_own. rewrite len_keys, L.
  destruct (Nat.ltb_spec 0 (length (keys c))); [|lia]. f_equal. f_equal.
  apply Nat2Z.inj. rewrite Z2Nat.id by (apply Z.mod_pos_bound; lia). rewrite Nat2Z.inj_mod.
  replace (Z.of_nat (own + (n - 1))) with ((Z.of_nat own + -1) + 1 * Z.of_nat n)%Z by lia.
  rewrite Z_mod_plus_full. reflexivity.
Qed.

Lemma no_neighbour_alone : forall c, all_but 0 1 (keys c) -> get_next_idx c = Ok None /\ get_previous_idx c = Ok None.
Proof.
  intros c H. pose proof (all_but_len _ _ _ H) as L.
  unfold get_next_idx, get_previous_idx, get_shifted_idx. rewrite (own_idx _ _ _ H). cbn [bind].
  rewrite len_keys. destruct (Nat.ltb_spec 0 (length (keys c))); [lia|]. auto.
Qed.

Lemma get_remote_iff : forall c own n j, all_but own n (keys c) ->
  ((exists a, get c j = Some a) <-> (j < n /\ j <> own)).
Proof.
  intros c own n j (Hown & ND & Hin). rewrite <- Hin. unfold get.
  destruct (lookup Nat.eqb j c) as [a|] eqn:E.
  - split; [|eauto]. intros _. apply lookup_In in E; [|exact Nat.eqb_spec].
    apply in_map with (f := fst) in E. exact E.
  - apply lookup_None in E; [|exact Nat.eqb_spec]. split; [intros [a Ha]; discriminate|tauto].
Qed.

Definition address_of (c : cluster_nodes addr) (j : nat) : any_addr addr :=
  match get c j with Some a => Remote a | None => Local end.

Lemma iter_take_spec : forall fuel c pos,
  iter_take c pos fuel = map (address_of c) (seq pos (Nat.min fuel (len_incl_own c - pos))).
Proof.
  induction fuel as [|f IH]; intros c pos; [reflexivity|].
  cbn [iter_take]. unfold iter_next.
  destruct (Nat.leb_spec (len_incl_own c) pos) as [Hle|Hgt].
  - replace (len_incl_own c - pos) with 0 by lia. rewrite Nat.min_0_r. reflexivity.
  - replace (len_incl_own c - pos) with (S (len_incl_own c - (pos + 1))) by lia.
    rewrite <- Nat.succ_min_distr. cbn [seq map]. unfold address_of at 1. f_equal.
    rewrite IH. now replace (S pos) with (pos + 1) by lia.
Qed.

Lemma iter_all : forall c own n fuel, all_but own n (keys c) -> n <= fuel ->
  let l := iter_take c 0 fuel in
  length l = n
  /\ (forall j, j < n -> nth_error l j = Some Local <-> j = own)
  /\ (forall j, j < n -> j <> own -> exists a, get c j = Some a /\ nth_error l j = Some (Remote a)).
Proof.
  intros c own n fuel H Hf l. pose proof (all_but_len _ _ _ H) as L.
  assert (El : l = map (address_of c) (seq 0 n)).
  { unfold l. rewrite iter_take_spec. f_equal. f_equal. unfold len_incl_own. rewrite len_keys. lia. }
  assert (Hnth : forall j, j < n -> nth_error l j = Some (address_of c j)).
  { intros j Hj. rewrite El. apply map_nth_error.
    rewrite (nth_error_nth' (seq 0 n) 0) by (rewrite seq_length; lia). f_equal. rewrite seq_nth; lia. }
  split; [|split].
  - rewrite El, map_length, seq_length. reflexivity.
  - intros j Hj. rewrite Hnth by exact Hj. unfold address_of.
    pose proof (get_remote_iff c own n j H) as G. destruct (get c j) as [a|].
    + split; [discriminate|]. intros ->. exfalso. destruct G as [G _]. specialize (G (ex_intro _ a eq_refl)). lia.
    + split; [|auto]. intros _. destruct (Nat.eq_dec j own); [assumption|]. exfalso.
      destruct G as [_ G]. destruct (G (conj Hj n0)). discriminate.
  - intros j Hj Hne. pose proof (get_remote_iff c own n j H) as [_ G]. destruct (G (conj Hj Hne)) as [a Ha].
    exists a. split; [exact Ha|]. rewrite Hnth by exact Hj. unfold address_of. now rewrite Ha.
Qed.
End Peer.

(** Following [get_next_idx] around the ring. *)
Definition hop {addr} (tbl : nat -> cluster_nodes addr) (k : nat) : nat :=
  match get_next_idx (tbl k) with Ok (Some k') => k' | Ok None => k | Panic _ => k end.

Lemma ring_covers : forall addr (tbl : nat -> cluster_nodes addr) n, 2 <= n ->
  (forall k, k < n -> all_but k n (keys (tbl k))) ->
  forall k j, k < n -> j < n -> exists i, i < n /\ Nat.iter i (hop tbl) k = j.
Proof.
  intros addr tbl n Hn Ht k j Hk Hj.
  assert (It : forall i, Nat.iter i (hop tbl) k = (k + i) mod n).
  { induction i as [|i IH].
    - change (k = (k + 0) mod n). rewrite Nat.add_0_r, Nat.mod_small; lia.
    - change (hop tbl (Nat.iter i (hop tbl) k) = (k + S i) mod n). rewrite IH. unfold hop. pose proof (Nat.mod_upper_bound (k + i) n ltac:(lia)).
      rewrite (next_idx _ _ n (Ht _ H) Hn). rewrite Nat.add_mod_idemp_l by lia. f_equal. lia. }
  exists ((j + (n - k)) mod n). split; [apply Nat.mod_upper_bound; lia|].
  rewrite It. rewrite Nat.add_mod_idemp_r by lia. replace (k + (j + (n - k))) with (j + 1 * n) by lia.
  rewrite Nat.mod_add by lia. now apply Nat.mod_small.
Qed.

Lemma next_prev_inverse : forall addr (a b : cluster_nodes addr) n i j, 2 <= n ->
  all_but i n (keys a) -> all_but j n (keys b) ->
  (get_next_idx a = Ok (Some j) <-> get_previous_idx b = Ok (Some i)).
Proof.
  intros addr a b n i j Hn Ha Hb. rewrite (next_idx a i n Ha Hn), (prev_idx b j n Hb Hn).
  destruct Ha as [Hi _]. destruct Hb as [Hj _].
  split; intros E; injection E as E; f_equal; f_equal; subst.
  - rewrite Nat.add_mod_idemp_l by lia. replace (i + 1 + (n - 1)) with (i + 1 * n) by lia.
    rewrite Nat.mod_add by lia. now apply Nat.mod_small.
  - rewrite Nat.add_mod_idemp_l by lia. replace (j + (n - 1) + 1) with (j + 1 * n) by lia.
    rewrite Nat.mod_add by lia. now apply Nat.mod_small.
Qed.
