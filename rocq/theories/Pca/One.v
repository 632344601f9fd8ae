(** One host: all channels are reduced, one after the other. *)
From Coq Require Import List Arith Bool Lia.
From Verif.Base Require Import ListX.
From Verif.Pca Require Import Model Spec Proofs Order Lost.
Import ListNotations.

Section One.
Variables (mt ord : bool) (k : nat).
Hypothesis Hk : 1 <= k.
Notation cf := (hosts 1 mt ord k).

(** How many PCAs of [k] are done or running after message [m], and how many are finished. *)
Definition phase (s : pstate) : Prop :=
  panicked s = false
  /\ Forall (fun o => o = ([0], Own 0)) (finals s)
  /\ exists m, map dm (net s) ++ map (pair 0) (mail (nodes s 0)) = map (pair 0) m
  /\ let nd := nodes s 0 in
     (m = [Start] /\ started nd = false /\ n_reduced nd = 0 /\ finals s = [] /\ rotated nd = 0 /\ buffer nd = [] /\ means_buffer nd = [])
     \/ (m = [Setup] /\ mt = true /\ local nd = None /\ r_count nd = 0 /\ buffer nd = [] /\ means_buffer nd = [] /\ 1 <= n_reduced nd <= k /\ S (length (finals s)) = n_reduced nd /\ rotated nd = 0)
     \/ (((exists ms t, m = [Components ms t]) \/ m = [Done]) /\ buffer nd = [] /\ means_buffer nd = [] /\ 1 <= n_reduced nd <= k /\ length (finals s) = n_reduced nd /\ rotated nd = 0)
     \/ (m = [] /\ length (finals s) = k /\ rotated nd = 1).

Lemma setup_one : forall nd, r_count nd = 0 -> buffer nd = [] -> means_buffer nd = [] ->
  let e := on_setup cf 0 nd in
  e_sends e = [(0, Components [0] (Own 0))] /\ e_finals e = [([0], Own 0)] /\ e_panic e = false
  /\ buffer (e_node e) = [] /\ means_buffer (e_node e) = [] /\ n_reduced (e_node e) = n_reduced nd /\ rotated (e_node e) = rotated nd /\ mail (e_node e) = mail nd.
Proof.
  intros nd Hr Hb Hmb. cbn zeta. unfold on_setup. cbn [helpers hosts multi orb Nat.eqb app].
  assert (Es : send_or_finalize cf 0 (with_means nd (Some [0])) (Own 0)
    = {| e_node := with_factor (with_means nd (Some [0])) (Some (Own 0)) 0; e_sends := [(0, Components [0] (Own 0))]; e_finals := [([0], Own 0)]; e_panic := false |}).
  { unfold send_or_finalize. cbn [with_means r_count n_nodes hosts]. rewrite Hr. reflexivity. }
  rewrite Es. destruct mt; cbn [e_node e_sends e_finals e_panic with_buffers with_factor with_means buffer means_buffer n_reduced rotated mail].
  - rewrite Hb, Hmb. cbn. ssplit; reflexivity.
  - ssplit; auto.
Qed.

Lemma one_inbox : forall s m, map dm (net s) ++ map (pair 0) (mail (nodes s 0)) = map (pair 0) m -> Forall (fun x => fst (dm x) = 0) (net s).
Proof.
  intros s m E. apply Forall_forall. intros x Hx. assert (Hi : In (dm x) (map (pair 0) m)) by (rewrite <- E; apply in_app_iff; left; now apply in_map).
  apply in_map_iff in Hi. destruct Hi as (y & Ey & _). now rewrite <- Ey.
Qed.

Lemma phase_step : forall s s', phase s -> step cf s s' -> phase s'.
Proof.
  intros s s' (Hp & Hf & m & Em & HC) Hs. destruct Hs as [s before src d x after Hn _|s p x rest Hlt Hm].
  - pose proof (one_inbox s m Em) as H0. rewrite Hn, Forall_app in H0. destruct H0 as (_ & H0). inversion H0 as [|? ? Hd]; subst. cbn in Hd. subst d.
    assert (Hlen : length m <= 1) by (cbn zeta in HC; destruct HC as [(-> & _)|[(-> & _)|[([(? & ? & ->)| ->] & _)|(-> & _)]]]; cbn; lia).
    assert (HL : length (map dm (net s) ++ map (pair 0) (mail (nodes s 0))) = length m) by (rewrite Em; apply map_length).
    rewrite Hn, app_length, !map_length, app_length in HL. cbn [length] in HL.
    assert (before = []) as -> by (destruct before; [reflexivity|cbn in HL; lia]). assert (after = []) as -> by (destruct after; [reflexivity|cbn in HL; lia]).
    assert (Hm0 : mail (nodes s 0) = []) by (destruct (mail (nodes s 0)); [reflexivity|cbn in HL; lia]).
    rewrite Hn, Hm0 in Em. cbn in Em. split; [exact Hp|]. split; [exact Hf|]. exists m. cbn [net nodes app map finals].
    rewrite upd_eq. cbn [with_mail mail started local r_count means buffer means_buffer n_reduced rotated]. rewrite Hm0. split; [exact Em|exact HC].
  - cbn [n_nodes hosts] in Hlt. assert (p = 0) as -> by lia.
    assert (Hlen : length m <= 1) by (cbn zeta in HC; destruct HC as [(-> & _)|[(-> & _)|[([(? & ? & ->)| ->] & _)|(-> & _)]]]; cbn; lia).
    assert (HL : length (map dm (net s) ++ map (pair 0) (mail (nodes s 0))) = length m) by (rewrite Em; apply map_length).
    rewrite Hm, app_length, !map_length in HL. cbn [length] in HL.
    assert (Hnet : net s = []) by (destruct (net s); [reflexivity|cbn in HL; lia]). assert (rest = []) as -> by (destruct rest; [reflexivity|cbn in HL; lia]).
    rewrite Hnet, Hm in Em. cbn in Em. assert (m = [x]) as ->.
    { destruct m as [|y [|? ?]]; cbn in Em; try discriminate. injection Em as ->. reflexivity. }
    set (nd := with_mail (nodes s 0) []). set (e := handle cf 0 nd x).
    assert (Eres : forall ms, e_sends e = map (pair 0) ms -> e_panic e = false -> Forall (fun o => o = ([0], Own 0)) (e_finals e) ->
      panicked (process cf 0 s x []) = false /\ Forall (fun o => o = ([0], Own 0)) (finals (process cf 0 s x [])) /\
      finals (process cf 0 s x []) = finals s ++ e_finals e /\
      map dm (net (process cf 0 s x [])) ++ map (pair 0) (mail (nodes (process cf 0 s x []) 0)) = map dm (helper_answer cf 0 nd x) ++ map (pair 0) ms /\
      buffer (nodes (process cf 0 s x []) 0) = buffer (e_node e) /\ means_buffer (nodes (process cf 0 s x []) 0) = means_buffer (e_node e) /\
      n_reduced (nodes (process cf 0 s x []) 0) = n_reduced (e_node e) /\ rotated (nodes (process cf 0 s x []) 0) = rotated (e_node e) /\
      local (nodes (process cf 0 s x []) 0) = local (e_node e) /\ r_count (nodes (process cf 0 s x []) 0) = r_count (e_node e)).
    { intros ms Es Epa Efi. unfold process. fold nd. fold e.
      match goal with |- context[fold_left _ _ ?A] => set (A0 := A) end.
      destruct (fold_rest cf 0 (e_sends e) A0) as (F1 & P1). rewrite F1, P1, fold_net_hosts, fold_nodes by reflexivity. cbn [Nat.eqb net nodes finals panicked A0].
      rewrite upd_eq, Hnet, Hp, Epa. cbn [orb app with_mail mail buffer means_buffer n_reduced rotated local r_count].
      assert (Eo : own 0 (map (pair 0) ms) = ms) by (clear; unfold own; induction ms as [|y l IH]; [reflexivity|cbn; now rewrite IH]).
      assert (Eu : outgoing 0 (map (pair 0) ms) = []) by (clear; unfold outgoing; induction ms as [|y l IH]; [reflexivity|exact IH]).
      assert (Email : mail (e_node e) = []) by (unfold e; rewrite handle_mail; reflexivity).
      rewrite Es, Eo, Eu, Email, app_nil_r. cbn [app]. ssplit; auto. apply Forall_app. auto. }
    cbn zeta in HC. destruct HC as [(E & H1 & H2 & H3 & H4 & H5 & H6)|[(E & H1 & H2 & H3 & H4 & H5 & H6 & H7 & H8)|[(E & H1 & H2 & H3 & H4 & H5)|(E & _)]]]; [| | |discriminate].
    + injection E as ->. set (nd1 := {| started := true; local := None; r_count := 0; means := None; buffer := []; means_buffer := []; n_reduced := n_reduced nd + 1; rotated := rotated nd; mail := mail nd |}).
      assert (Ee : e = if mt then no_effect nd1 else on_setup cf 0 nd1) by reflexivity. destruct mt eqn:Et.
      * destruct (Eres []) as (A1 & A2 & A3 & A4 & A5 & A6 & A7 & A8 & A9 & A10); try (rewrite Ee; first [reflexivity|constructor]).
        rewrite Ee in *. split; [exact A1|]. split; [exact A2|]. exists [Setup]. split; [exact A4|]. right. left. cbn zeta.
        rewrite A3, A5, A6, A7, A8, A9, A10. cbn [no_effect e_node nd1 nd with_mail buffer means_buffer n_reduced rotated local r_count e_finals]. rewrite H2, H3, H4. cbn. ssplit; auto; lia.
      * destruct (setup_one nd1 eq_refl eq_refl eq_refl) as (B1 & B2 & B3 & B4 & B5 & B6 & B7 & _). rewrite <- Et in Ee. rewrite <- Ee in *.
        destruct (Eres [Components [0] (Own 0)]) as (A1 & A2 & A3 & A4 & A5 & A6 & A7 & A8 & A9 & A10); [exact B1|exact B3|rewrite B2; repeat constructor|].
        split; [exact A1|]. split; [exact A2|]. exists [Components [0] (Own 0)]. split; [rewrite A4; reflexivity|]. right. right. left. cbn zeta.
        rewrite A3, A5, A6, A7, A8, B2, B4, B5, B6, B7, H3. cbn [nd1 nd with_mail n_reduced rotated]. rewrite H2, H4. cbn. ssplit; eauto; lia.
    + injection E as ->. destruct (setup_one nd H3 H4 H5) as (B1 & B2 & B3 & B4 & B5 & B6 & B7 & _).
      change (on_setup cf 0 nd) with e in *.
      destruct (Eres [Components [0] (Own 0)]) as (A1 & A2 & A3 & A4 & A5 & A6 & A7 & A8 & A9 & A10); [exact B1|exact B3|rewrite B2; repeat constructor|].
      split; [exact A1|]. split; [exact A2|]. exists [Components [0] (Own 0)]. split; [rewrite A4; reflexivity|]. right. right. left. cbn zeta.
      rewrite A3, A5, A6, A7, A8, B2, B4, B5, B6, B7, app_length. cbn [nd with_mail n_reduced rotated length]. ssplit; eauto; lia.
    + destruct E as [(ms & t & E)|E]; injection E as ->.
      * destruct (Eres [Done]) as (A1 & A2 & A3 & A4 & A5 & A6 & A7 & A8 & A9 & A10); [reflexivity|reflexivity|constructor|].
        split; [exact A1|]. split; [exact A2|]. exists [Done]. split; [exact A4|]. right. right. left. cbn zeta.
        rewrite A3, A5, A6, A7, A8. cbn [e handle e_node e_finals nd with_mail buffer means_buffer n_reduced rotated]. rewrite app_nil_r. ssplit; auto; lia.
      * destruct (Nat.ltb_spec (n_reduced (nodes s 0)) k) as [Hlt2|Hge].
        -- set (nd1 := {| started := true; local := None; r_count := 0; means := None; buffer := []; means_buffer := []; n_reduced := n_reduced nd + 1; rotated := rotated nd; mail := mail nd |}).
           assert (Ee : e = if mt then no_effect nd1 else on_setup cf 0 nd1).
           { unfold e. cbn [handle channels hosts]. change (n_reduced nd) with (n_reduced (nodes s 0)). apply Nat.ltb_lt in Hlt2. rewrite Hlt2. reflexivity. }
           assert (Ea : helper_answer cf 0 nd Done = if mt then [(0, 0, Setup)] else []).
           { cbn [helper_answer multi hosts channels]. change (n_reduced nd) with (n_reduced (nodes s 0)). apply Nat.ltb_lt in Hlt2. rewrite Hlt2. now destruct mt. }
           destruct mt eqn:Et.
           ++ destruct (Eres []) as (A1 & A2 & A3 & A4 & A5 & A6 & A7 & A8 & A9 & A10); try (rewrite Ee; first [reflexivity|constructor]).
              rewrite Ee, Ea in *. split; [exact A1|]. split; [exact A2|]. exists [Setup]. split; [exact A4|]. right. left. cbn zeta.
              rewrite A3, A5, A6, A7, A8, A9, A10. cbn [no_effect e_node nd1 nd with_mail buffer means_buffer n_reduced rotated local r_count e_finals]. rewrite app_nil_r. ssplit; auto; lia.
           ++ destruct (setup_one nd1 eq_refl eq_refl eq_refl) as (B1 & B2 & B3 & B4 & B5 & B6 & B7 & _). rewrite <- Et in Ee. rewrite <- Ee in *.
              destruct (Eres [Components [0] (Own 0)]) as (A1 & A2 & A3 & A4 & A5 & A6 & A7 & A8 & A9 & A10); [exact B1|exact B3|rewrite B2; repeat constructor|].
              split; [exact A1|]. split; [exact A2|]. exists [Components [0] (Own 0)]. split; [rewrite A4, Ea; reflexivity|]. right. right. left. cbn zeta.
              rewrite A3, A5, A6, A7, A8, B2, B4, B5, B6, B7, app_length. cbn [nd1 nd with_mail n_reduced rotated length]. ssplit; eauto; lia.
        -- assert (Ee : e = no_effect {| started := started nd; local := local nd; r_count := r_count nd; means := means nd; buffer := buffer nd;
                        means_buffer := means_buffer nd; n_reduced := n_reduced nd; rotated := rotated nd + 1; mail := mail nd |}).
           { unfold e. cbn [handle channels hosts]. change (n_reduced nd) with (n_reduced (nodes s 0)). apply Nat.ltb_ge in Hge. rewrite Hge. reflexivity. }
           assert (Ea : helper_answer cf 0 nd Done = []).
           { cbn [helper_answer multi hosts channels]. change (n_reduced nd) with (n_reduced (nodes s 0)). apply Nat.ltb_ge in Hge. rewrite Hge. now rewrite andb_false_r. }
           destruct (Eres []) as (A1 & A2 & A3 & A4 & A5 & A6 & A7 & A8 & A9 & A10); try (rewrite Ee; first [reflexivity|constructor]).
           rewrite Ee, Ea in *. split; [exact A1|]. split; [exact A2|]. exists []. split; [exact A4|]. right. right. right. cbn zeta.
           rewrite A3, A8. cbn [no_effect e_node e_finals nd with_mail rotated]. rewrite app_nil_r, H5. ssplit; auto; lia.
Qed.

Lemma one_host : forall s, reachable cf any_run s ->
  panicked s = false /\ length (finals s) <= k /\ Forall (fun o => o = ([0], Own 0)) (finals s)
  /\ (quiescent cf s -> length (finals s) = k /\ rotated (nodes s 0) = 1).
Proof.
  intros s Hr. assert (HP : phase s).
  { induction Hr as [|s s' Hr IH Hs _]; [|eapply phase_step; eauto]. split; [reflexivity|]. split; [constructor|]. exists [Start]. split; [reflexivity|].
    left. cbn. ssplit; reflexivity. }
  destruct HP as (Hp & Hf & m & Em & HC). split; [exact Hp|]. cbn zeta in HC. split; [|split; [exact Hf|]].
  - destruct HC as [(_ & _ & _ & E & _)|[(_ & _ & _ & _ & _ & _ & H1 & H2 & _)|[(_ & _ & _ & H1 & H2 & _)|(_ & E & _)]]]; [rewrite E; cbn; lia|lia|lia|lia].
  - intros (Qn & Qm). rewrite Qn, (Qm 0) in Em by (cbn; lia). destruct m; [|discriminate].
    destruct HC as [(E & _)|[(E & _)|[([(? & ? & E)|E] & _)|(_ & E & E2)]]]; try discriminate. auto.
Qed.
End One.
