(** The statistics stage of the array interface: one host, all messages to itself. *)
From Coq Require Import List Arith ZArith Lia Bool Reals Lra Permutation.
From Verif.Base Require Import Res Params Assoc ListX.
From Verif.Topology Require Import Model Spec Proofs.
From Verif.Reader Require Import Model Spec Proofs.
From Verif.Stats Require Import Model Spec Proofs.
From Verif.Manager Require Import Collect CollectSpec.
Import ListNotations.
Local Open Scope nat_scope.

Lemma alone_table : all_but 0 1 (keys ([] : cluster_nodes nat)).
Proof. unfold all_but. cbn. split; [lia|]. split; [constructor|]. intros j; lia. Qed.

Section Array.
Context {cell : Type}.
Variables (parse : cell -> option R) (fmax : R) (p : params) (peers : nat -> cluster_nodes nat) (width : nat) (records : list (list cell)).
Notation go := (step parse fmax p peers width records).

Definition own (l : list (@parcel cell)) : Prop := Forall (fun x => fst x = (true, 0)) l.

Lemma own_step : forall (w w' : world cell), own (parcels w) -> go w w' ->
  exists m t s' out, parcels w = (true, 0, m) :: t /\ handle parse fmax p peers width records 0 (hosts w 0) m = Ok (s', out)
    /\ w' = {| hosts := set_host (hosts w) 0 s'; parcels := t ++ out |}.
Proof.
  intros w w' O S. inversion S as [w0 before h m after E|w0 before h m after s' out [E Fb] Eh]; subst.
  - exfalso. rewrite E in O. apply Forall_app in O. destruct O as (_ & O). apply Forall_inv in O. discriminate.
  - rewrite E in O. apply Forall_app in O. destruct O as (O1 & O2). apply Forall_inv in O2. cbn in O2. injection O2 as ->.
    destruct before as [|x b].
    + exists m, after, s', out. auto.
    + apply Forall_inv in O1. apply Forall_inv in Fb. congruence.
Qed.

Lemma own_abort : forall (w : world cell), own (parcels w) -> aborts parse fmax p peers width records w ->
  exists m t q, parcels w = (true, 0, m) :: t /\ handle parse fmax p peers width records 0 (hosts w 0) m = Panic q.
Proof.
  intros w O (before & h & m & after & q & [E Fb] & Eh).
  rewrite E in O. apply Forall_app in O. destruct O as (O1 & O2). apply Forall_inv in O2. cbn in O2. injection O2 as ->.
  destruct before as [|x b].
  - exists m, after, q. auto.
  - apply Forall_inv in O1. apply Forall_inv in Fb. congruence.
Qed.

(** A list of worlds that follow one another. *)
Fixpoint path (w : world cell) (l : list (world cell)) : Prop :=
  own (parcels w) /\
  match l with
  | [] => parcels w = []
  | w' :: l' => (exists m t s' out, parcels w = (true, 0, m) :: t /\ handle parse fmax p peers width records 0 (hosts w 0) m = Ok (s', out)
                   /\ w' = {| hosts := set_host (hosts w) 0 s'; parcels := t ++ out |}) /\ path w' l'
  end.

Lemma path_step : forall w l w', path w l -> go w w' -> exists l', l = w' :: l' /\ path w' l'.
Proof.
  intros w l w' P S. destruct l as [|w1 l']; cbn in P; destruct P as (O & P).
  - destruct (own_step w w' O S) as (m & t & s' & out & E & _). congruence.
  - destruct P as ((m & t & s' & out & E & Eh & ->) & P). destruct (own_step w w' O S) as (m2 & t2 & s2 & out2 & E2 & Eh2 & ->).
    rewrite E in E2. injection E2 as <- <-. rewrite Eh in Eh2. injection Eh2 as <- <-. eauto.
Qed.
Lemma path_runs : forall k w0 w, runs parse fmax p peers width records k w0 w -> forall l, path w0 l ->
  exists l', path w l' /\ k + length l' = length l /\ nth_error (w0 :: l) k = Some w /\ skipn k l = l'.
Proof.
  intros k w0 w H. induction H as [w|k w w' w'' H IH S]; intros l P.
  - exists l. auto.
  - destruct (IH l P) as (l' & P' & L & E & Sk). destruct (path_step w' l' w'' P' S) as (l2 & -> & P2). exists l2. split; [exact P2|].
    cbn [length] in L. split; [lia|]. assert (En : nth_error l k = Some w'').
    { rewrite <- (Nat.add_0_r k), <- nth_error_skipn, Sk. reflexivity. }
    split; [exact En|]. clear - Sk. revert l Sk. induction k as [|k IHk]; intros l Sk.
    + cbn in Sk. subst l. reflexivity.
    + destruct l as [|x l]; [discriminate|]. cbn in *. now apply IHk.
Qed.
Lemma path_no_abort : forall w l, path w l -> ~ aborts parse fmax p peers width records w.
Proof.
  intros w l P A. destruct l as [|w' l']; cbn in P; destruct P as (O & P); destruct (own_abort w O A) as (m & t & q & E & Eh).
  - congruence.
  - destruct P as ((m2 & t2 & s' & out & E2 & Eh2 & _) & _). congruence.
Qed.
Lemma path_rest : forall w l, path w l -> (forall w', ~ go w w') -> l = [].
Proof.
  intros w [|w' l'] P Hr; [reflexivity|]. exfalso. cbn in P. destruct P as (_ & (m & t & s' & out & E & Eh & _) & _).
  eapply Hr. eapply (act _ _ _ _ _ _ w [] 0 m t s' out); [|exact Eh]. split; [exact E|constructor].
Qed.

Variables (d : list (list R)) (w : nat).
Hypothesis HW : Forall (fun r => length r = w) d.
Hypothesis H2 : 2 <= length d.
Hypothesis Hb : forall j x, entry d j x -> (- fmax <= x <= fmax)%R.

Lemma array_columns : columns d = w.
Proof using HW H2. clear Hb parse fmax p peers width records. destruct d as [|r t]; [cbn in H2; lia|]. apply Forall_inv in HW. exact HW. Qed.

Lemma array_message : exists m, calculate_std p ([] : cluster_nodes nat) w d 0 = Ok m /\ sm_source m = 0 /\ std_good w d m.
Proof using HW H2.
  clear Hb parse fmax peers width records. set (p1 := {| rate := 1; n_threads := 1; n_cluster_nodes := 1; pattern_length := 1; latent := 1; query_length := 1;
     column_start := 0; column_end := 0%Z; self_correction := false |}).
  assert (E1 : calculate_std p ([] : cluster_nodes nat) w d 0 = calculate_std p1 ([] : cluster_nodes nat) w d 0) by reflexivity.
  destruct (@calculate_std_ok nat nat p1 [] 0 1 w d 0 alone_table HW) as (m & E & Es & G); [cbn; lia|unfold counted; cbn; lia|].
  unfold counted in G. cbn [Nat.eqb Nat.sub] in G. rewrite Nat.sub_0_r, firstn_all in G.
  exists m. rewrite E1. auto.
Qed.

Lemma array_stats :
  exists mn mx std c1 c2 m, column_extremes d w mn mx /\ length std = w
  /\ (forall j, j < w -> nth_error std j = Some (sample_std (column j d)))
  /\ calculate_std p ([] : cluster_nodes nat) w d 0 = Ok m
  /\ handle_minmax 1 (Some minmax_init) (calculate_minmax fmax w d 0) = Ok (c1, [(0, (mn, mx))])
  /\ handle_std 1 (Some std_init) m = Ok (c2, [(0, (std, length d))]).
Proof.
  destruct (minmax_global 1 0 fmax w d [(0, d)]) as ((mn & mx & c1 & E & L1 & L2 & H) & _); auto.
  - intros E. rewrite E in H2. cbn in H2. lia.
  - cbn [map snd seq]. unfold partition_of. cbn [Nat.eqb Nat.mul]. rewrite slice_full by lia. reflexivity.
  - cbn [mm_msgs map collect fst snd] in E. destruct (handle_minmax 1 (Some minmax_init) (calculate_minmax fmax w d 0)) as [[c o]|] eqn:Eh; [|discriminate].
    cbn [bind fst snd] in E. rewrite app_nil_r in E. injection E as -> ->.
    destruct array_message as (m & Em & Es & G).
    destruct (std_equal_means w (fun j => mean (column j d)) [(d, m)]) as (c2 & std & Ec & L & Hs).
    + discriminate.
    + constructor; [|constructor]. cbn [fst snd]. split; [exact G|]. split; [exact HW|].
      split; [intros E; rewrite E in H2; cbn in H2; lia|]. reflexivity.
    + cbn. rewrite app_nil_r. exact H2.
    + cbn [map fst snd concat length collect] in *. rewrite app_nil_r in *. rewrite Es in Ec.
      destruct (handle_std 1 (Some std_init) m) as [[c o]|] eqn:Eh2; [|discriminate]. cbn [bind fst snd] in Ec. rewrite app_nil_r in Ec.
      injection Ec as -> ->. exists mn, mx, std, c1, c2, m. repeat split; auto.
Qed.

Theorem array_alone : n_cluster_nodes p = 1 ->
  exists mn mx std, column_extremes d w mn mx /\ length std = w
  /\ (forall j, j < w -> nth_error std j = Some (sample_std (column j d)))
  /\ (forall k s, runs parse fmax p peers width records k (array_start d) s ->
        ~ aborts parse fmax p peers width records s /\ k <= 5 /\ preps (hosts s 0) <= 1
        /\ (preps (hosts s 0) = 1 -> hdata (hosts s 0) = Some d /\ minmax (hosts s 0) = Some (mn, mx)
              /\ dev (hosts s 0) = Some (std, length d))
        /\ ((forall s', ~ go s s') -> preps (hosts s 0) = 1))
  /\ (exists s, runs parse fmax p peers width records 5 (array_start d) s).
Proof.
  intros HN. destruct array_stats as (mn & mx & std & c1 & c2 & m & Hx & Ls & Hs & Em & E1 & E2).
  exists mn, mx, std. split; [exact Hx|]. split; [exact Ls|]. split; [exact Hs|].
  set (h1 := @mkHost cell [] [] (Some d) (Some minmax_init) (Some std_init) None None 0).
  set (h2 := @mkHost cell [] [] (Some d) c1 (Some std_init) None None 0).
  set (h3 := @mkHost cell [] [] (Some d) c1 c2 None None 0).
  set (h4 := @mkHost cell [] [] (Some d) c1 c2 (Some (mn, mx)) None 0).
  set (h5 := @mkHost cell [] [] (Some d) c1 c2 (Some (mn, mx)) (Some (std, length d)) 1).
  set (w0 := @array_start cell d).
  set (w1 := {| hosts := set_host (hosts w0) 0 h1; parcels := [(true, 0, DMinMax (calculate_minmax fmax w d 0)); (true, 0, DStd m)] |}).
  set (w2 := {| hosts := set_host (hosts w1) 0 h2; parcels := [(true, 0, DStd m); (true, 0, DMinMaxDone mn mx)] |}).
  set (w3 := {| hosts := set_host (hosts w2) 0 h3; parcels := [(true, 0, DMinMaxDone mn mx); (true, 0, DStdDone std (length d))] |}).
  set (w4 := {| hosts := set_host (hosts w3) 0 h4; parcels := [(true, 0, DStdDone std (length d))] |}).
  set (w5 := {| hosts := set_host (hosts w4) 0 h5; parcels := [] |}).
  assert (P : path w0 [w1; w2; w3; w4; w5]).
  { cbn [path]. repeat split; try (repeat constructor).
    - do 4 eexists. split; [reflexivity|]. split.
      + cbn [handle hosts w0 array_start]. unfold datastats. rewrite array_columns. cbn [table new_host]. rewrite Em. cbn [bind]. reflexivity.
      + reflexivity.
    - do 4 eexists. split; [reflexivity|]. split.
      + cbn [handle hosts w1]. unfold set_host at 1. cbn [Nat.eqb mcalc h1]. rewrite HN, E1. cbn [bind fst snd]. reflexivity.
      + reflexivity.
    - do 4 eexists. split; [reflexivity|]. split.
      + cbn [handle hosts w2]. unfold set_host at 1. cbn [Nat.eqb scalc h2]. rewrite HN, E2. cbn [bind fst snd]. reflexivity.
      + reflexivity.
    - do 4 eexists. split; [reflexivity|]. split.
      + cbn [handle hosts w3]. unfold set_host at 1. reflexivity.
      + reflexivity.
    - do 4 eexists. split; [reflexivity|]. split.
      + cbn [handle hosts w4]. unfold set_host at 1. reflexivity.
      + reflexivity. }
  split.
  - intros k s Hr. destruct (path_runs k _ s Hr _ P) as (l' & P' & L & En & Sk). cbn [length] in L.
    split; [eapply path_no_abort; eauto|]. split; [lia|].
    assert (Hk : s = w0 \/ s = w1 \/ s = w2 \/ s = w3 \/ s = w4 \/ s = w5 /\ k = 5).
    { destruct k as [|[|[|[|[|[|k]]]]]]; cbn in En; try injection En as <-; tauto || lia. }
    assert (Hrest : (forall s', ~ go s s') -> s = w5).
    { intros Hn. apply (path_rest s l' P') in Hn. subst l'. rewrite Hn in *. cbn in L. replace k with 5 in En by lia. cbn in En. injection En as <-. reflexivity. }
    split; [|split].
    + destruct Hk as [->|[->|[->|[->|[->|[-> _]]]]]]; cbn; lia.
    + destruct Hk as [->|[->|[->|[->|[->|[-> _]]]]]]; cbn; try discriminate. auto.
    + intros Hn. rewrite (Hrest Hn). reflexivity.
  - exists w5.
    assert (St : forall a b l, path a (b :: l) -> go a b).
    { intros a b l Pa. cbn in Pa. destruct Pa as (_ & (m0 & t & s' & out & E & Eh & ->) & _).
      apply (act _ _ _ _ _ _ a [] 0 m0 t s' out); [|exact Eh]. split; [exact E|constructor]. }
    assert (P1 : path w1 [w2; w3; w4; w5]) by apply P. assert (P2 : path w2 [w3; w4; w5]) by apply P1.
    assert (P3 : path w3 [w4; w5]) by apply P2. assert (P4 : path w4 [w5]) by apply P3.
    do 5 (eapply runs_step; [|eapply St; eassumption]). apply runs_refl.
Qed.

(** With more than one host configured the array interface waits for statistics nobody sends. *)
Theorem array_waits : 2 <= n_cluster_nodes p ->
  forall k s, runs parse fmax p peers width records k (array_start d) s ->
    ~ aborts parse fmax p peers width records s /\ k <= 3 /\ preps (hosts s 0) = 0
    /\ ((forall s', ~ go s s') -> parcels s = [] /\ minmax (hosts s 0) = None /\ dev (hosts s 0) = None).
Proof using HW H2.
  clear Hb. intros HN. destruct array_message as (m & Em & Es & _).
  set (c1 := {| mc_nodes := [0]; mc_min := Some (mm_min (calculate_minmax fmax w d 0)); mc_max := Some (mm_max (calculate_minmax fmax w d 0)) |}).
  set (c2 := {| sc_nodes := [sm_source m]; sc_n := Some (sm_n m); sc_mean := Some (sm_mean m); sc_m2 := Some (sm_m2 m) |}).
  assert (E1 : handle_minmax (n_cluster_nodes p) (Some minmax_init) (calculate_minmax fmax w d 0) = Ok (Some c1, [])).
  { unfold handle_minmax. cbn [mc_nodes minmax_init app length mc_min mc_max]. destruct (Nat.eqb_spec 1 (n_cluster_nodes p)); [lia|]. reflexivity. }
  assert (E2 : handle_std (n_cluster_nodes p) (Some std_init) m = Ok (Some c2, [])).
  { unfold handle_std. cbn [sc_nodes std_init app length sc_n sc_mean sc_m2]. destruct (Nat.ltb_spec 1 (n_cluster_nodes p)); [|lia]. reflexivity. }
  set (h1 := @mkHost cell [] [] (Some d) (Some minmax_init) (Some std_init) None None 0).
  set (h2 := @mkHost cell [] [] (Some d) (Some c1) (Some std_init) None None 0).
  set (h3 := @mkHost cell [] [] (Some d) (Some c1) (Some c2) None None 0).
  set (w0 := @array_start cell d).
  set (w1 := {| hosts := set_host (hosts w0) 0 h1; parcels := [(true, 0, DMinMax (calculate_minmax fmax w d 0)); (true, 0, DStd m)] |}).
  set (w2 := {| hosts := set_host (hosts w1) 0 h2; parcels := [(true, 0, DStd m)] |}).
  set (w3 := {| hosts := set_host (hosts w2) 0 h3; parcels := [] |}).
  assert (P : path w0 [w1; w2; w3]).
  { cbn [path]. repeat split; try (repeat constructor).
    - do 4 eexists. split; [reflexivity|]. split.
      + cbn [handle hosts w0 array_start]. unfold datastats. rewrite array_columns. cbn [table new_host]. rewrite Em. cbn [bind]. reflexivity.
      + reflexivity.
    - do 4 eexists. split; [reflexivity|]. split.
      + cbn [handle hosts w1]. unfold set_host at 1. cbn [Nat.eqb mcalc h1]. rewrite E1. cbn [bind fst snd]. reflexivity.
      + reflexivity.
    - do 4 eexists. split; [reflexivity|]. split.
      + cbn [handle hosts w2]. unfold set_host at 1. cbn [Nat.eqb scalc h2]. rewrite E2. cbn [bind fst snd]. reflexivity.
      + reflexivity. }
  intros k s Hr. destruct (path_runs k _ s Hr _ P) as (l' & P' & L & En & Sk). cbn [length] in L.
  split; [eapply path_no_abort; eauto|]. split; [lia|].
  assert (Hk : s = w0 \/ s = w1 \/ s = w2 \/ s = w3).
  { destruct k as [|[|[|[|k]]]]; cbn in En; try injection En as <-; tauto || lia. }
  split.
  - destruct Hk as [->|[->|[->| ->]]]; reflexivity.
  - intros Hn. apply (path_rest s l' P') in Hn. subst l'. rewrite Hn in *. cbn in L. replace k with 3 in En by lia. cbn in En. injection En as <-.
    auto.
Qed.
End Array.
