(** C47-C50, C69: density peaks, nearest peaks, labels, threads. *)
From Coq Require Import List Arith Lia Bool ZArith Reals Lra Permutation Sorted.
From Flocq Require Import IEEE754.BinarySingleNaN Core.
From Verif.Base Require Import Res ListX Float32 Float32Proofs.
From Verif.Normalize Require Import Proofs.
From Verif.Protocol Require Import Model Pool.
From Verif.Kde Require Import Model Spec System Float PeakProofs SystemProofs FloatProofs.
Import ListNotations.
Local Open Scope nat_scope.

(** ** C47 *)
(** The positions reported for a density vector are, in ascending order, exactly the strict peaks; for order 1 (the order the engine uses, see [C47_order_1]) these are
    the positions between two smaller neighbours. *)
Theorem C47_peaks : forall A (gt : A -> A -> bool) order density, (forall x, gt x x = false) -> 1 <= order <= length density ->
  exists positions, find_peak_index gt order density = Ok positions /\ StronglySorted lt positions /\ forall i, In i positions <-> is_peak gt order density i.
Proof. intros A gt order density irr Ho. now apply peaks. Qed.
Theorem C47_order_1 : forall density, density <> [] ->
  exists positions, find_peak_index f_gt 1 density = Ok positions /\ StronglySorted lt positions /\
    forall i, In i positions <-> exists a b c, 1 <= i /\ nth_error density (i - 1) = Some a /\ nth_error density i = Some b /\ nth_error density (i + 1) = Some c /\ f_gt b a = true /\ f_gt b c = true.
Proof.
  intros density Hne. assert (1 <= length density) by (destruct density; [congruence|cbn; lia]). destruct (peaks f_gt f_gt_irrefl 1 density) as (is & E & HS & H1); [lia|].
  exists is. ssplit; auto. intros i. rewrite H1. unfold is_peak. split.
  - intros (H0 & H2 & x & Ex & Hx). destruct (nth_error density (i - 1)) as [a|] eqn:Ea; [|apply nth_error_None in Ea; lia].
    destruct (nth_error density (i + 1)) as [c|] eqn:Ec; [|apply nth_error_None in Ec; lia]. exists a, x, c. ssplit; auto; [apply (Hx (i - 1))|apply (Hx (i + 1))]; auto; lia.
  - intros (a & b & c & H0 & Ea & Eb & Ec & G1 & G2). ssplit; [lia| |].
    + assert (i + 1 < length density) by (apply nth_error_Some; congruence). lia.
    + exists b. split; [assumption|]. intros j y Ej Hne' H2 H3. destruct (Nat.lt_ge_cases j i).
      * replace j with (i - 1) in Ej by lia. congruence.
      * replace j with (i + 1) in Ej by lia. congruence.
Qed.
Theorem C47_empty_aborts : forall A (gt : A -> A -> bool) order, 1 <= order -> find_peak_index gt order [] = Panic Underflow.
Proof. intros A gt [|order] H; [lia|]. reflexivity. Qed.
Example C47_case : find_peak_index (fun a b => b <? a) 1 [3; 1; 4; 1; 5; 5; 2; 7; 6] = Ok [2; 7] /\ find_peak_index (fun a b => b <? a) 2 [3; 1; 4; 1; 5; 5; 2; 7; 6] = Ok [7].
Proof. split; reflexivity. Qed.
Example C47_case_f32 : let d := map (fun z => f_of z 0) [1; 3; 2; 2; 5; 4]%Z in find_peak_index f_gt 1 d = Ok [1; 4].
Proof. vm_compute. reflexivity. Qed.
Print Assumptions C47_peaks. Print Assumptions C47_order_1.

(** ** C48 *)
(** In single precision, for finite values and centres: every value gets a centre whose (rounded) distance is smallest, the first of these; no abort.  Centres that are
    really nearer have the same rounded distance. *)
Theorem C48_nearest : forall points centers, centers <> [] -> Forall (fun c => f_finite c = true) centers -> Forall (fun x => f_finite x = true) points ->
  exists assigned, assign_closest f_cmp f_dist points centers = Ok assigned /\
    Forall2 (fun x c => exists j, nth_error centers j = Some c /\
      (forall p, In p centers -> f_gt (f_abs (f_sub c x)) (f_abs (f_sub p x)) = false) /\
      (forall m p, m < j -> nth_error centers m = Some p -> f_gt (f_abs (f_sub p x)) (f_abs (f_sub c x)) = true) /\
      (forall p, In p centers -> (Rabs (f_real p - f_real x) < Rabs (f_real c - f_real x))%R -> f_eq (f_abs (f_sub p x)) (f_abs (f_sub c x)) = true)) points assigned.
Proof.
  intros points centers Hne Hc Hx. rewrite Forall_forall in Hc, Hx. unfold assign_closest. apply mapM_total. intros x Ix. specialize (Hx x Ix).
  assert (N : forall p, In p centers -> f_nan (f_dist p x) = false) by (intros p Ip; apply f_dist_ok; auto).
  destruct (closest_ok f_cmp f_dist f_ext centers x Hne) as (c & j & E & Ej & Hmin & Hfirst); [intros p q Ip Iq; apply f_cmp_ext; auto|].
  assert (Ic : In c centers) by (eapply nth_error_In; eauto). exists c. split; [exact E|]. exists j. fold (f_dist c x). ssplit; auto.
  - intros p Ip. fold (f_dist p x). specialize (Hmin p Ip). destruct (f_gt (f_dist c x) (f_dist p x)) eqn:G; [|reflexivity]. apply f_gt_ext in G; auto. lra.
  - intros m p Hm Ep. fold (f_dist p x). specialize (Hfirst m p Hm Ep). apply f_gt_ext; auto. apply N. eapply nth_error_In; eauto.
  - intros p Ip HR. fold (f_dist p x). apply f_eq_ext; auto. apply Rle_antisym; [apply f_dist_mono; auto; lra|now apply Hmin].
Qed.
(** Over the real numbers: a nearest centre, the first of these. *)
Theorem C48_nearest_exact : forall (points centers : list R), centers <> [] ->
  exists assigned, assign_closest (fun a b => Some (Rcompare a b)) (fun p x => Rabs (p - x)) points centers = Ok assigned /\
    Forall2 (fun x c => exists j, nth_error centers j = Some c /\ (forall p, In p centers -> (Rabs (c - x) <= Rabs (p - x))%R) /\
      forall m p, m < j -> nth_error centers m = Some p -> (Rabs (c - x) < Rabs (p - x))%R) points assigned.
Proof.
  intros points centers Hne. unfold assign_closest. apply mapM_total. intros x _.
  destruct (closest_ok (fun a b => Some (Rcompare a b)) (fun p x => Rabs (p - x)) (fun d => d) centers x Hne) as (c & j & E & Ej & H); [reflexivity|]. exists c. split; [exact E|]. exists j. tauto.
Qed.
(** A value that is not a number aborts the clustering. *)
Theorem C48_nan_aborts : forall before after centers, centers <> [] -> Forall (fun c => f_finite c = true) centers -> Forall (fun x => f_finite x = true) before ->
  assign_closest f_cmp f_dist (before ++ B754_nan :: after) centers = Panic UnwrapNone.
Proof.
  intros before after centers Hne Hc Hb. destruct (C48_nearest before centers Hne Hc Hb) as (a & E & _). unfold assign_closest in *.
  assert (G : forall l, mapM (closest_peak f_cmp f_dist centers) l = Ok a -> mapM (closest_peak f_cmp f_dist centers) (l ++ B754_nan :: after) = Panic UnwrapNone).
  { clear - Hne. revert a. intros a l; revert a; induction l as [|x l IH]; intros a E; cbn [mapM app] in *.
    - destruct centers as [|c cs]; [congruence|]. unfold closest_peak. cbn [map argmin]. assert (f_dist c B754_nan = B754_nan) as -> by (destruct c; reflexivity). reflexivity.
    - apply bind_ok_inv in E. destruct E as (b & -> & E). apply bind_ok_inv in E. destruct E as (bs & E & _). cbn [bind]. rewrite (IH bs E). reflexivity. }
  now apply G.
Qed.
(** A really nearest centre in single precision: refuted, two distances can be rounded to the same number. *)
Lemma closest_two : forall A D (cmp : D -> D -> option comparison) (dist : A -> A -> D) c p x, cmp (dist c x) (dist c x) = Some Datatypes.Eq -> cmp (dist p x) (dist c x) = Some Datatypes.Eq ->
  closest_peak cmp dist [c; p] x = Ok c.
Proof. intros A D cmp dist c p x H1 H2. unfold closest_peak, argmin, argmin_step. cbn [map length seq combine foldM snd]. rewrite H1. cbn [bind foldM snd]. rewrite H2. reflexivity. Qed.
Lemma f_of_exact : forall m e, (Z.abs m <= 2 ^ 24)%Z -> (-149 <= e <= 0)%Z -> f_finite (f_of m e) = true /\ f_real (f_of m e) = (IZR m * bpow radix2 e)%R.
Proof.
  intros m e Hm He. assert (G : format (IZR m * bpow radix2 e)%R) by (apply ScoreProofs.format_int; lia). destruct (f_of_ok m e) as (F & R).
  - unfold F2R. cbn [Fnum Fexp]. rewrite rnd_format by exact G. rewrite Rabs_mult, (Rabs_pos_eq (bpow radix2 e)), <- abs_IZR by apply bpow_ge_0.
    apply Rle_lt_trans with (IZR (2 ^ 24) * 1)%R; [apply Rmult_le_compat; [apply IZR_le; lia|apply bpow_ge_0|now apply IZR_le|change 1%R with (bpow radix2 0); apply bpow_le; lia]|].
    rewrite Rmult_1_r. change (IZR (2 ^ 24)) with (bpow radix2 24). now apply bpow_lt.
  - split; [exact F|]. rewrite R. unfold F2R. cbn [Fnum Fexp]. now rewrite rnd_format.
Qed.
Theorem C48_really_nearest_refuted : exists x c p, f_finite x = true /\ f_finite c = true /\ f_finite p = true /\
  closest_peak f_cmp f_dist [c; p] x = Ok c /\ (Rabs (f_real p - f_real x) < Rabs (f_real c - f_real x))%R.
Proof.
  destruct (f_of_exact 1 (-25)) as (F1 & E1); [lia..|]. destruct (f_of_exact (-8388609) (-23)) as (F2 & E2); [lia..|]. destruct (f_of_exact 8388609 (-23)) as (F3 & E3); [lia..|].
  exists (f_of 1 (-25)), (f_of (-8388609) (-23)), (f_of 8388609 (-23)). do 3 (split; [assumption|]). split.
  - apply closest_two; vm_compute; reflexivity.
  - rewrite E1, E2, E3. cbn -[IZR]. rewrite (Rabs_pos_eq (_ - _)) by lra. rewrite Rabs_left by lra. lra.
Qed.
Example C48_case : (let! r := assign_closest f_cmp f_dist (map (fun z => f_of z 0) [0; 3; 4; 9]%Z) (map (fun z => f_of z 0) [1; 5; 7]%Z) in Ok (map (@B2SF 24 128) r))
  = Ok (map (fun z => B2SF (f_of z 0)) [1; 1; 5; 7]%Z).
Proof. vm_compute. reflexivity. Qed.
Print Assumptions C48_nearest. Print Assumptions C48_nearest_exact. Print Assumptions C48_nan_aborts. Print Assumptions C48_really_nearest_refuted.

(** ** C49 *)
Lemma same_center_eqb : forall A (eqb : A -> A -> bool) a b, center_eqb eqb a b = true <-> same_center eqb a b.
Proof.
  intros A eqb a; induction a as [|x a IH]; intros [|y b]; cbn; split; intros H; try discriminate; try (now inversion H); try constructor.
  - apply andb_prop in H. apply H.
  - apply andb_prop in H. apply IH, H.
  - inversion H; subst. apply andb_true_intro. split; [assumption|]. now apply IH.
Qed.
(** Labels of a matrix of centres whose entries can be converted to an integer ([80 x] in the range of [isize]). *)
Theorem C49_labels : forall centers, centers <> [] -> Forall (Forall (fun x => f_hashable x = true)) centers ->
  exists labels stored, extract_labels f_eq f_hashable centers = Ok (labels, stored) /\ length labels = length centers /\
    (* equal labels exactly for equal centres *)
    (forall i j a b l m, nth_error centers i = Some a -> nth_error centers j = Some b -> nth_error labels i = Some l -> nth_error labels j = Some m -> l = m <-> same_center f_eq a b) /\
    (* the stored centre of a label is that of its rows *)
    (forall i a l, nth_error centers i = Some a -> nth_error labels i = Some l -> exists r, nth_error stored l = Some r /\ same_center f_eq a r) /\
    (* labels are numbered in the order of first occurrence, and each is used *)
    (forall l r, nth_error stored l = Some r -> exists i, nth_error centers i = Some r /\ nth_error labels i = Some l /\ forall j m, j < i -> nth_error labels j = Some m -> m < l).
Proof.
  intros centers Hne Hh. destruct (labels_ok f_eq f_hashable (fun x => f_nan x = false) f_eq_refl f_eq_sym centers Hne) as (labels & stored & E & L & H1 & H2 & H3).
  - eapply Forall_impl; [|exact Hh]. intros a Ha. eapply Forall_impl; [|exact Ha]. apply f_hashable_nan.
  - eapply Forall_impl; [|exact Hh]. intros a Ha. apply forallb_forall. now apply Forall_forall.
  - exists labels, stored. ssplit; auto.
    + intros i j a b l m Ea Eb El Em. destruct (H1 _ _ _ Ea El) as (r & Er & Har), (H1 _ _ _ Eb Em) as (r' & Er' & Hbr). rewrite <- same_center_eqb. split.
      * intros <-. rewrite Er in Er'. injection Er' as <-. apply (ceq_trans _ f_eq_trans _ r); [assumption|]. now apply (ceq_sym _ f_eq_sym).
      * intros Hab. apply (H3 _ _ _ _ Er Er'). apply (ceq_trans _ f_eq_trans _ a); [now apply (ceq_sym _ f_eq_sym)|]. now apply (ceq_trans _ f_eq_trans _ b).
    + intros i a l Ea El. destruct (H1 _ _ _ Ea El) as (r & Er & Har). exists r. rewrite <- same_center_eqb. auto.
Qed.
(** An entry that cannot be converted (not finite, or [80 x] beyond 2^63) aborts. *)
Theorem C49_not_hashable_aborts : forall before c after, Forall (Forall (fun x => f_hashable x = true)) before -> Exists (fun x => f_hashable x = false) c ->
  extract_labels f_eq f_hashable (before ++ c :: after) = Panic UnwrapNone.
Proof.
  intros before c after Hb Hc. unfold extract_labels. rewrite foldM_app. destruct (labels_fold f_eq f_hashable (fun x => f_nan x = false) f_eq_refl f_eq_sym before [] [] [] 0) as (k & l & n & -> & _ & _).
  - eapply Forall_impl; [|exact Hb]. intros a Ha. eapply Forall_impl; [|exact Ha]. apply f_hashable_nan.
  - eapply Forall_impl; [|exact Hb]. intros a Ha. apply forallb_forall. now apply Forall_forall.
  - unfold labelled. ssplit; auto; [intros [|i] ? ? H|intros [|i] ? H|intros [|i] ? ? ? H]; discriminate.
  - cbn [bind foldM label_step]. assert (forallb f_hashable c = false) as ->; [|reflexivity]. apply Exists_exists in Hc. destruct Hc as (x & Ix & Hx).
    destruct (forallb f_hashable c) eqn:E; [|reflexivity]. rewrite forallb_forall in E. rewrite (E x Ix) in Hx. discriminate.
Qed.
Example C49_case : (let c := map (map (fun z => f_of z 0)) [[1; 2]; [3; 2]; [1; 2]; [0; 0]; [3; 2]]%Z in let! (l, s) := extract_labels f_eq f_hashable c in Ok (l, map (map (@B2SF 24 128)) s))
  = Ok ([0; 1; 0; 2; 1], map (map (fun z => B2SF (f_of z 0))) [[1; 2]; [3; 2]; [0; 0]]%Z).
Proof. vm_compute. reflexivity. Qed.
Example C49_hashable_case : f_hashable (f_of 1 56) = true /\ f_hashable (f_of 1 57) = false /\ f_hashable B754_nan = false /\ f_hashable (f_neg (f_of 3 40)) = true.
Proof. vm_compute. auto. Qed.
Print Assumptions C49_labels. Print Assumptions C49_not_hashable_aborts.

(** One label for every row, each with a stored centre: what the creation of nodes (C68) relies on. *)
Lemma label_fold_length : forall A (eqb : A -> A -> bool) hashable cs known labels key known' labels' key',
  foldM (label_step eqb hashable) cs (known, labels, key) = Ok (known', labels', key') -> length labels' = length labels + length cs.
Proof.
  intros A eqb hashable cs; induction cs as [|c cs IH]; intros known labels key known' labels' key' H; cbn [foldM] in H.
  - injection H as <- <- <-. cbn. lia.
  - apply bind_ok_inv in H. destruct H as ([[k l] n] & E & H). apply IH in H. unfold label_step in E. destruct (negb (forallb hashable c)); [discriminate|].
    destruct (Assoc.lookup (center_eqb eqb) c known); injection E as <- <- <-; rewrite app_length in H; cbn in *; lia.
Qed.
Theorem C49_one_label_per_row : forall A D gt (cmp : D -> D -> option comparison) dist eqb hashable (zero : A) add grid order parts n columns labels stored, Forall (fun c => length c = n) columns ->
  sequential gt cmp dist eqb hashable zero add grid order parts columns = Ok (labels, stored) -> length labels = n.
Proof.
  intros A D gt cmp dist eqb hashable zero add grid order parts n columns labels stored Hn H. unfold sequential in H. apply bind_ok_inv in H. destruct H as (cs & Hcs & H).
  apply mapM_ok in Hcs. unfold finish in H. destruct cs as [|c cs]; [discriminate|]. destruct (forallb _ (c :: cs)); [|discriminate].
  unfold extract_labels in H. apply bind_ok_inv in H. destruct H as ([[known ls] key] & E & H). apply label_fold_length in E. unfold rows_of in E. rewrite map_length, seq_length in E. cbn in E.
  destruct known as [|k known]; [discriminate|]. injection H as <- <-. rewrite E. inversion Hcs as [|col ? cols ? Hc _]; subst. inversion Hn as [|? ? Hl _]; subst.
  apply bind_ok_inv in Hc. destruct Hc as (e & _ & Hc). unfold column_centers in Hc. apply bind_ok_inv in Hc. destruct Hc as (g & _ & Hc). apply bind_ok_inv in Hc. destruct Hc as (ps & _ & Hc).
  destruct ps as [|p ps]; [injection Hc as <-; apply repeat_length|]. unfold assign_closest in Hc. apply mapM_ok in Hc. clear - Hc. induction Hc; cbn; lia.
Qed.
Print Assumptions C49_one_label_per_row.

(** ** C50 *)
(** The ranges of the threads cover every point exactly once, in order. *)
Theorem C50_ranges : forall threads n, 1 <= threads -> exists ranges, kde_ranges threads n = Ok ranges /\ length ranges = threads /\
  Forall (fun r => fst r <= snd r <= n) ranges /\ flat_map (fun r => seq (fst r) (snd r - fst r)) ranges = seq 0 n.
Proof. intros threads n H. destruct (kde_ranges_ok threads n H) as (rs & E & L & F & B). exists rs. ssplit; auto. Qed.
Theorem C50_no_threads_aborts : forall n, kde_range n 0 0 = Panic DivByZero.
Proof. reflexivity. Qed.
(** In exact arithmetic (a commutative monoid) the sum of the answers, in whatever order they arrive and for whatever number of threads, is the sum over all points. *)
Theorem C50_sum : forall A (zero : A) add kernel resolution threads n ranges arrivals, (forall x y, add x y = add y x) -> (forall x y z, add (add x y) z = add x (add y z)) -> (forall x, add zero x = x) ->
  1 <= threads -> (forall i, length (kernel i) = resolution) -> kde_ranges threads n = Ok ranges -> Permutation arrivals (map (part_estimate zero add kernel resolution) ranges) ->
  exists density, foldM (add_response add) arrivals None = Ok (Some density) /\ length density = resolution /\
    forall j, j < resolution -> nth j density zero = fold_left add (map (fun i => nth j (kernel i) zero) (seq 0 n)) zero.
Proof. intros. now apply (parts_sum zero add H H0 H1 kernel resolution threads n arrivals ranges). Qed.
(** The messages of the clustering actors in any order of delivery: no abort, the answer is sent exactly when nothing is under way any more, and it is the one of the sequential
    computation; every run ends after (threads + 2) deliveries per column. *)
Theorem C50_any_schedule : forall A D gt (cmp : D -> D -> option comparison) dist eqb hashable (zero : A) add grid order parts threads resolution columns answer,
  (forall x y, add x y = add y x) -> (forall x y z, add (add x y) z = add x (add y z)) -> 1 <= threads ->
  (forall c ps, In c columns -> parts c = Ok ps -> length ps = threads /\ Forall (fun p => length p = resolution) ps) ->
  sequential gt cmp dist eqb hashable zero add grid order parts columns = Ok answer ->
  forall schedule, exists s, run gt cmp dist eqb hashable zero add grid order parts columns schedule = Ok s /\ (mail s = [] -> result s = Some answer) /\ (mail s <> [] -> result s = None) /\
    ((forall done i rest t, schedule = done ++ i :: rest -> run gt cmp dist eqb hashable zero add grid order parts columns done = Ok t -> i < length (mail t)) ->
     length schedule <= length columns * (threads + 2) /\ (length schedule = length columns * (threads + 2) <-> mail s = [])).
Proof.
  intros A D gt cmp dist eqb hashable zero add grid order parts threads resolution columns answer comm assoc Ht Hp Hs schedule. unfold sequential in Hs. apply bind_ok_inv in Hs. destruct Hs as (cs & Hcs & Hf).
  assert (HP : forall c ps, In c columns -> parts c = Ok ps -> length ps = threads /\ forall ps', Permutation ps ps' -> foldM (add_response add) ps' None = foldM (add_response add) ps None).
  { intros c ps Ic Ec. destruct (Hp c ps Ic Ec) as (L & F). split; [exact L|]. intros ps'. now apply (order_any add comm assoc resolution). }
  destruct (any_schedule gt cmp dist eqb hashable zero add grid order parts threads columns cs answer Hcs Hf HP Ht schedule) as (s & E & H1 & H2). exists s. ssplit; auto.
  intros Hv. now apply (delivery_count gt cmp dist eqb hashable zero add grid order parts threads columns cs answer Hcs Hf HP Ht schedule s E).
Qed.
(** ** C73 *)
(** In single precision this holds for one and two threads. *)
Theorem C73_two_threads : forall exp powf resolution threads columns answer, 1 <= threads <= 2 -> f_sequential exp powf resolution threads columns = Ok answer ->
  forall schedule, exists s, f_run exp powf resolution threads columns schedule = Ok s /\ (mail s = [] -> result s = Some answer) /\ (mail s <> [] -> result s = None).
Proof.
  intros exp powf resolution threads columns answer Ht Hs schedule. unfold f_sequential, sequential in Hs. apply bind_ok_inv in Hs. destruct Hs as (cs & Hcs & Hf). unfold f_run.
  eapply any_schedule with (threads := threads); eauto; [|lia]. intros c ps _ Ec. unfold f_parts in Ec. apply bind_ok_inv in Ec. destruct Ec as (g & Eg & Ec).
  apply bind_ok_inv in Ec. destruct Ec as (p & _ & Ec). apply bind_ok_inv in Ec. destruct Ec as (w & _ & Ec). apply bind_ok_inv in Ec. destruct Ec as (rs & Er & Ec). injection Ec as <-.
  destruct (C50_ranges threads (length c)) as (rs' & Er' & L & _); [lia|]. rewrite Er in Er'. injection Er' as <-. split; [now rewrite map_length|].
  intros ps'. apply (order_two f_add f_add_comm resolution); [rewrite map_length; lia|]. apply Forall_map, Forall_forall. intros r _. apply part_length. intros i.
  assert (Lg : length g = resolution). { unfold f_grid in Eg. apply bind_ok_inv in Eg. destruct Eg as (lo & _ & Eg). apply bind_ok_inv in Eg. destruct Eg as (hi & _ & Eg). injection Eg as <-. unfold linspace. now rewrite map_length, seq_length. }
  destruct (nth_error c i); [unfold f_kernel; now rewrite map_length|apply repeat_length].
Qed.
(** For three threads it is refuted: the order of the answers decides whether a peak - and with it a cluster - exists. *)
Definition answers_3 : list (list f32) := [[f_of 1 0; f_of 1 0; f_of 1 0]; [f_zero; f_of 1 (-24); f_zero]; [f_zero; f_of 1 (-24); f_zero]].
Definition clusters_after (schedule : list nat) : res (option (list nat * list (list _))) :=
  let! s := run f_gt f_cmp f_dist f_eq f_hashable f_zero f_add (f_grid 3) 1 (fun _ => Ok answers_3) [[f_of 1 0; f_of 3 0]] schedule in
  Ok (match result s with Some (l, c) => Some (l, map (map (@B2SF 24 128)) c) | None => None end).
Theorem C73_three_threads_refuted : exists schedule schedule' labels labels' centers centers',
  clusters_after schedule = Ok (Some (labels, centers)) /\ clusters_after schedule' = Ok (Some (labels', centers')) /\ centers <> centers'.
Proof.
  exists [0; 0; 0; 0; 0], [0; 1; 1; 0; 0], [0; 0], [0; 0], [[B2SF f_zero]], [[B2SF (f_of 2 0)]]. split; [vm_compute; reflexivity|]. split; [vm_compute; reflexivity|]. vm_compute. discriminate.
Qed.
(** A complete run on two columns with exact arithmetic, two threads, in two orders. *)
Definition ex_parts (column : list nat) : res (list (list nat)) :=
  let! rs := kde_ranges 2 (length column) in
  Ok (map (part_estimate 0 Nat.add (fun i => map (fun g => if nth i column 0 =? g then 2 else if (nth i column 0 =? g + 1) || (g =? nth i column 0 + 1) then 1 else 0) (seq 0 10)) 10) rs).
Definition ex_run := run (fun a b => b <? a) (fun a b => Some (a ?= b)) (fun p x => (p - x) + (x - p)) Nat.eqb (fun _ => true) 0 Nat.add (fun _ => Ok (seq 0 10)) 1 ex_parts [[2; 7; 2; 6; 7]; [1; 1; 8; 1; 8]].
Example C50_case : let answer := ([0; 1; 2; 1; 3], [[2; 1]; [7; 1]; [2; 8]; [7; 8]]) in
  (let! s := ex_run [0; 0; 0; 0; 0; 0; 0; 0] in Ok (mail s, result s)) = Ok ([], Some answer) /\ (let! s := ex_run [0; 1; 0; 0; 0; 1; 0; 0] in Ok (mail s, result s)) = Ok ([], Some answer) /\
  (let! s := ex_run [0; 1; 0; 0; 0; 1; 0] in Ok (result s)) = Ok None.
Proof. vm_compute. auto. Qed.
Print Assumptions C50_ranges. Print Assumptions C50_sum. Print Assumptions C50_any_schedule. Print Assumptions C73_two_threads. Print Assumptions C73_three_threads_refuted.

(** ** C69 *)
Lemma f_extreme_same : forall c x n, f_finite x = true -> f_extreme c (repeat x (S n)) = Ok x.
Proof.
  intros c x n Hx. unfold f_extreme. cbn [repeat]. assert (E : f_cmp x x = Some Datatypes.Eq) by (rewrite f_cmp_ok by assumption; now rewrite Rcompare_Eq).
  change (x :: repeat x n) with (repeat x (S n)). generalize (S n). clear n. intros n; induction n as [|n IH]; cbn [repeat foldM]; [reflexivity|]. rewrite E. cbn [bind]. exact IH.
Qed.
(** Clustering finite crossings never aborts: refuted.  Two crossings of a segment with an equal coordinate, ... *)
Theorem C69_two_equal_abort_refuted : forall exp powf resolution threads x others schedule, f_finite x = true -> f_finite (f_add x x) = true ->
  f_run exp powf resolution threads ([x; x] :: others) (0 :: schedule) = Panic UnwrapNone.
Proof.
  intros exp powf resolution threads x others schedule Hx Hs. destruct (cov_two_equal x Hx Hs) as (c & Ec & Ez). unfold f_run, run, begin, cluster_next_dim. cbn [data next_dim nth_error bind mail app foldM deliver].
  unfold deliver. cbn [mail nth_error handle]. unfold on_column, f_parts, f_grid, f_min, f_max. rewrite !(f_extreme_same _ x 1 Hx). cbn [bind]. unfold f_precision. rewrite Ec. cbn [bind].
  unfold f_inv. rewrite Ez. reflexivity.
Qed.
(** ... and any number of crossings with the same coordinate [k * 2^e], as long as their sum is exact. *)
Theorem C69_constant_aborts_refuted : forall exp powf resolution threads x k e n others schedule, f_finite x = true -> f_real x = (IZR k * bpow radix2 e)%R -> (-149 <= e <= 103)%Z ->
  2 <= n -> (Z.of_nat n * Z.max 1 (Z.abs k) <= 2 ^ 24)%Z -> f_run exp powf resolution threads (repeat x n :: others) (0 :: schedule) = Panic UnwrapNone.
Proof.
  intros exp powf resolution threads x k e n others schedule Hx Rx He Hn Hk. destruct (cov_constant x k e n Hx Rx He Hn Hk) as (c & Ec & Ez). unfold f_run, run, begin, cluster_next_dim. cbn [data next_dim nth_error bind mail app foldM].
  unfold deliver. cbn [mail nth_error handle]. unfold on_column, f_parts, f_grid, f_min, f_max. destruct n as [|n]; [lia|]. rewrite !(f_extreme_same _ x n Hx). cbn [bind]. unfold f_precision. rewrite Ec. cbn [bind].
  unfold f_inv. rewrite Ez. reflexivity.
Qed.
(** Instances: coordinate 1.5, twice; coordinate 0, five times. *)
Example C69_case : f_run (fun x => x) (fun x _ => x) 250 1 [[f_of 3 (-1); f_of 3 (-1)]] [0] = Panic UnwrapNone /\ f_run (fun x => x) (fun x _ => x) 250 4 [repeat f_zero 5] [0] = Panic UnwrapNone.
Proof. split; vm_compute; reflexivity. Qed.
Print Assumptions C69_two_equal_abort_refuted. Print Assumptions C69_constant_aborts_refuted.
