(** Every schedule of the statistics stage ends with the same data and extremes on every host. *)
From Coq Require Import List Arith ZArith Lia Bool Reals Lra Permutation.
From Verif.Base Require Import Res Params Assoc ListX.
From Verif.Topology Require Import Model Spec Proofs.
From Verif.Reader Require Import Model Spec Proofs.
From Verif.Stats Require Import Model Spec Proofs.
From Verif.Manager Require Import Collect.
Import ListNotations.
Local Open Scope nat_scope.

(** ** Permutations of concatenations *)
Lemma pull_here : forall A (x r : list A), Permutation (x ++ r) (x ++ r).
Proof. reflexivity. Qed.
Lemma pull_end : forall A (x : list A), Permutation x (x ++ []).
Proof. intros. now rewrite app_nil_r. Qed.
Lemma pull_next : forall A (x y r r' : list A), Permutation r (x ++ r') -> Permutation (y ++ r) (x ++ y ++ r').
Proof. intros A x y r r' H. rewrite H. rewrite !app_assoc. apply Permutation_app_tail, Permutation_app_comm. Qed.
Ltac pull x r :=
  lazymatch r with
  | ?y ++ ?t => tryif constr_eq x y then exact (pull_here _ x t) else (apply pull_next; pull x t)
  | ?y => constr_eq x y; exact (pull_end _ x)
  end.
Ltac perm := rewrite ?app_nil_r, <- ?app_assoc;
  lazymatch goal with
  | |- Permutation ?r ?r => reflexivity
  | |- Permutation (?x ++ ?l) ?r =>
      eapply (@Permutation_trans _ _ (x ++ _)); [|apply Permutation_sym; pull x r]; apply Permutation_app_head; perm
  end.

Lemma nodup_full : forall N r, NoDup r -> (forall x, In x r -> x < N) -> length r = N -> Permutation r (seq 0 N).
Proof.
  intros N r ND Hlt L. apply NoDup_Permutation_bis; auto.
  - rewrite seq_length. lia.
  - intros x Hx. apply in_seq. specialize (Hlt x Hx). lia.
Qed.
Lemma nodup_room : forall N r h, NoDup r -> (forall x, In x r -> x < N) -> h < N -> ~ In h r -> length r < N.
Proof.
  intros N r h ND Hlt Hh Hn.
  assert (L : length (h :: r) <= length (seq 0 N)).
  { apply NoDup_incl_length; [constructor; assumption|]. intros x [<-|Hx]; apply in_seq; [lia|]. specialize (Hlt x Hx). lia. }
  rewrite seq_length in L. cbn in L. lia.
Qed.

Lemma collect_snoc : forall S M O (f : option S -> M -> res (option S * list O)) l s m s1 o1 a b,
  collect f s l = Ok (s1, o1) -> collect f s (l ++ [m]) = Ok (a, b) -> exists o2, f s1 m = Ok (a, o2) /\ b = o1 ++ o2.
Proof.
  intros S M O f l. induction l as [|x t IH]; intros s m s1 o1 a b E1 E2; cbn [app collect] in *.
  - injection E1 as <- <-. destruct (f s m) as [[q o]|]; [|discriminate]. cbn in E2. rewrite app_nil_r in E2.
    injection E2 as <- <-. exists o. auto.
  - destruct (f s x) as [[q o]|]; [|discriminate]. cbn [bind fst snd] in *.
    destruct (collect f q t) as [[q1 p1]|] eqn:E; [|discriminate]. cbn [bind fst snd] in E1. injection E1 as <- <-.
    destruct (collect f q (t ++ [m])) as [[q2 p2]|] eqn:E'; [|discriminate]. cbn [bind fst snd] in E2. injection E2 as <- <-.
    destruct (IH _ _ _ _ _ _ E E') as (o2 & Ef & ->). exists o2. split; [exact Ef|]. apply app_assoc.
Qed.




Section Pick.
Variable N : nat.
Context {A : Type}.
Definition pick (b : nat -> bool) (f : nat -> A) : list A := flat_map (fun h => if b h then [f h] else []) (seq 0 N).

Lemma pick_ext : forall b b' f, (forall j, j < N -> b j = b' j) -> pick b f = pick b' f.
Proof.
  intros b b' f H. unfold pick. apply flat_map_ext_in'. intros j Hj. apply in_seq in Hj. rewrite H by lia. reflexivity.
Qed.
Lemma pick_all : forall b f, (forall j, j < N -> b j = true) -> pick b f = map f (seq 0 N).
Proof.
  intros b f H. rewrite (pick_ext b (fun _ => true)) by auto. unfold pick. induction (seq 0 N) as [|x t IH]; cbn; [reflexivity|].
  now rewrite IH.
Qed.
Lemma pick_none : forall b f, (forall j, j < N -> b j = false) -> pick b f = [].
Proof.
  intros b f H. rewrite (pick_ext b (fun _ => false)) by auto. unfold pick. induction (seq 0 N) as [|x t IH]; cbn; auto.
Qed.
Lemma pick_set : forall b b' f h, h < N -> b h = true -> b' h = false -> (forall j, j < N -> j <> h -> b' j = b j) ->
  Permutation (pick b f) ([f h] ++ pick b' f).
Proof.
  intros b b' f h Hh E E' H. unfold pick.
  assert (Hs : seq 0 N = seq 0 h ++ h :: seq (S h) (N - S h)).
  { replace N with (h + S (N - S h)) at 1 by lia. rewrite seq_app. reflexivity. }
  rewrite Hs, !flat_map_app. cbn [flat_map]. rewrite E, E'.
  assert (H1 : flat_map (fun h0 => if b h0 then [f h0] else []) (seq 0 h) = flat_map (fun h0 => if b' h0 then [f h0] else []) (seq 0 h)).
  { apply flat_map_ext_in'. intros j Hj. apply in_seq in Hj. rewrite H by lia. reflexivity. }
  assert (H2 : flat_map (fun h0 => if b h0 then [f h0] else []) (seq (S h) (N - S h))
             = flat_map (fun h0 => if b' h0 then [f h0] else []) (seq (S h) (N - S h))).
  { apply flat_map_ext_in'. intros j Hj. apply in_seq in Hj. rewrite H by lia. reflexivity. }
  rewrite H1, H2. cbn [app]. apply Permutation_sym, Permutation_middle.
Qed.
Lemma pick_In : forall b f x, In x (pick b f) -> exists h, h < N /\ b h = true /\ x = f h.
Proof.
  intros b f x H. unfold pick in H. apply in_flat_map in H. destruct H as (h & Hh & Hx). apply in_seq in Hh.
  destruct (b h) eqn:E; [|contradiction]. destruct Hx as [<-|[]]. exists h. repeat split; auto. lia.
Qed.
Lemma pick_nil : forall b f, pick b f = [] -> forall h, h < N -> b h = false.
Proof.
  intros b f H h Hh. destruct (b h) eqn:E; [|reflexivity]. exfalso.
  assert (In (f h) (pick b f)) as Hx.
  { unfold pick. apply in_flat_map. exists h. split; [apply in_seq; lia|]. rewrite E. now left. }
  rewrite H in Hx. contradiction.
Qed.

Definition total (f : nat -> nat) : nat := list_sum (map f (seq 0 N)).
Lemma total_drop : forall f f' h, h < N -> f' h < f h -> (forall j, j < N -> j <> h -> f' j = f j) -> total f' < total f.
Proof.
  intros f f' h Hh E H. unfold total.
  assert (Hs : seq 0 N = seq 0 h ++ h :: seq (S h) (N - S h)).
  { replace N with (h + S (N - S h)) at 1 by lia. rewrite seq_app. reflexivity. }
  rewrite Hs, !map_app, !list_sum_app. cbn [map list_sum fold_right].
  rewrite (map_ext_in f' f (seq 0 h)) by (intros j Hj; apply in_seq in Hj; apply H; lia).
  rewrite (map_ext_in f' f (seq (S h) (N - S h))) by (intros j Hj; apply in_seq in Hj; apply H; lia).
  unfold list_sum. cbn [fold_right]. lia.
Qed.
End Pick.

Opaque pick.

Definition upd (f : nat -> bool) (h : nat) (b : bool) : nat -> bool := fun j => if j =? h then b else f j.
Lemma upd_eq : forall f h b, upd f h b h = b.
Proof. intros. unfold upd. now rewrite Nat.eqb_refl. Qed.
Lemma upd_neq : forall f h b j, j <> h -> upd f h b j = f j.
Proof. intros. unfold upd. destruct (Nat.eqb_spec j h); congruence. Qed.

Section Core.
Context {cell : Type}.
Variables (parse : cell -> option R) (fmax : R) (p : params) (peers : nat -> cluster_nodes nat) (width : nat) (records : list (list cell)).
Variables (N : nat) (raw : nat -> list (list cell)) (dat : nat -> list (list R)) (SM : nat -> std_msg nat) (mn mx : list R) (n : nat).
Let MM h := calculate_minmax fmax (columns (dat h)) (dat h) h.
Hypothesis HN : n_cluster_nodes p = N.
Hypothesis HN1 : 1 <= N.
Hypothesis HP1 : 1 <= pattern_length p.
Hypothesis Hall : forall h, h < N -> all_but h N (keys (peers h)).
Hypothesis Hget : forall h j, h < N -> j < N -> j <> h -> get (peers h) j = Some j.
Hypothesis Hread : read_csv p (peers 0) (S (length records)) width records
  = Ok (map (fun j => (if j =? 0 then Local else Remote j, raw j)) (seq 0 N)).
Hypothesis Hload : forall h, h < N -> load_partition parse p (raw h) = Ok (dat h).
Hypothesis Hstd : forall h, h < N -> calculate_std p (peers h) (columns (dat h)) (dat h) h = Ok (SM h).
Hypothesis HcM : forall r, NoDup r -> (forall x, In x r -> x < N) -> exists c,
  collect (handle_minmax N) (Some minmax_init) (map MM r) = Ok (Some c, if length r =? N then map (fun s => (s, (mn, mx))) r else []).
Hypothesis HcS : forall r, NoDup r -> (forall x, In x r -> x < N) -> exists c sd,
  collect (handle_std N) (Some std_init) (map SM r) = Ok (Some c, if length r =? N then map (fun s => (s, (sd, n))) r else []).

Record ghost := mkG { ld : nat -> bool; st : nat -> bool; bf : nat -> bool; mc : nat -> bool; sc : nat -> bool;
  md : nat -> bool; sdn : nat -> bool; rM : list nat; rS : list nat; gsd : list R }.

Notation F := (pick N).
Definition expected (g : ghost) : list (nat * dmsg cell) :=
  F (fun h => negb (ld g h)) (fun h => (h, DLoad))
  ++ F (fun h => ld g 0 && negb (st g h) && negb (bf g h)) (fun h => (h, DPart (raw h)))
  ++ F (fun h => st g h && negb (mc g h)) (fun h => (0, DMinMax (MM h)))
  ++ F (fun h => st g h && negb (sc g h)) (fun h => (0, DStd (SM h)))
  ++ F (fun h => (length (rM g) =? N) && negb (md g h)) (fun h => (h, DMinMaxDone mn mx))
  ++ F (fun h => (length (rS g) =? N) && negb (sdn g h)) (fun h => (h, DStdDone (gsd g) n)).

Definition strip (l : list (@parcel cell)) : list (nat * dmsg cell) := map (fun x => (snd (fst x), snd x)) l.

Definition host_ok (g : ghost) (h : nat) (s : host cell) : Prop :=
  table s = (if ld g h then peers h else [])
  /\ buffered s = (if bf g h then [raw h] else [])
  /\ hdata s = (if st g h then Some (dat h) else None)
  /\ (h = 0 -> st g 0 = true ->
        (exists o, collect (handle_minmax N) (Some minmax_init) (map MM (rM g)) = Ok (mcalc s, o) /\ (length (rM g) < N -> o = []))
        /\ (exists o, collect (handle_std N) (Some std_init) (map SM (rS g)) = Ok (scalc s, o) /\ (length (rS g) < N -> o = [])))
  /\ minmax s = (if md g h then Some (mn, mx) else None)
  /\ dev s = (if sdn g h then Some (gsd g, n) else None)
  /\ preps s = (if md g h && sdn g h then 1 else 0).

Record sane (g : ghost) : Prop := {
  s_st : forall h, h < N -> st g h = true -> ld g h = true /\ ld g 0 = true /\ bf g h = false;
  s_bf : forall h, h < N -> bf g h = true -> ld g h = false /\ ld g 0 = true /\ st g h = false;
  s_mc : forall h, h < N -> mc g h = true -> st g h = true /\ st g 0 = true;
  s_sc : forall h, h < N -> sc g h = true -> st g h = true /\ st g 0 = true;
  s_rM : NoDup (rM g) /\ forall h, In h (rM g) <-> h < N /\ mc g h = true;
  s_rS : NoDup (rS g) /\ forall h, In h (rS g) <-> h < N /\ sc g h = true;
  s_md : forall h, h < N -> md g h = true -> length (rM g) = N;
  s_sdn : forall h, h < N -> sdn g h = true -> length (rS g) = N
}.

Definition first_part (g : ghost) (l : list (@parcel cell)) : Prop :=
  ld g 0 = true -> st g 0 = false -> exists before after, next_in_mailbox l before 0 (DPart (raw 0)) after.

Definition Inv (g : ghost) (w : world cell) : Prop :=
  sane g /\ Permutation (strip (parcels w)) (expected g) /\ (forall h, h < N -> host_ok g h (hosts w h)) /\ first_part g (parcels w).

(** ** The measure *)
Definition bit (b : bool) (k : nat) : nat := if b then 0 else k.
Definition weight (g : ghost) (h : nat) : nat :=
  bit (ld g h) 2 + bit (st g h) (if bf g h then 1 else 2) + bit (mc g h) 1 + bit (sc g h) 1 + bit (md g h) 1 + bit (sdn g h) 1.
Definition flying (l : list (@parcel cell)) : nat := length (filter (fun x => negb (fst (fst x))) l).
Definition phi (g : ghost) (w : world cell) : nat := (N + 3) * total N (weight g) + flying (parcels w).

Lemma flying_app : forall a b, flying (a ++ b) = flying a + flying b.
Proof. intros. unfold flying. rewrite filter_app, app_length. reflexivity. Qed.
Lemma flying_le : forall l, flying l <= length l.
Proof. intros l. unfold flying. induction l as [|x t IH]; cbn; [lia|]. destruct (negb _); cbn; lia. Qed.

(** ** Mailboxes *)
Lemma next_unique : forall (l : list (@parcel cell)) h b1 m1 a1 b2 m2 a2, next_in_mailbox l b1 h m1 a1 -> next_in_mailbox l b2 h m2 a2 -> m1 = m2.
Proof.
  intros l h b1. revert l. induction b1 as [|x t IH]; intros l m1 a1 b2 m2 a2 [E1 F1] [E2 F2].
  - subst l. destruct b2 as [|y b2]; cbn in E2; injection E2 as E2; [congruence|]. subst y. inversion F2; subst. cbn in *. congruence.
  - subst l. destruct b2 as [|y b2]; cbn in E2; injection E2 as Ex E2.
    + subst x. inversion F1; subst. cbn in *. congruence.
    + inversion F1; inversion F2; subst. eapply (IH (t ++ (true, h, m1) :: a1)); split; eauto.
Qed.

Lemma next_snoc : forall (l o : list (@parcel cell)) h b m a, next_in_mailbox l b h m a -> next_in_mailbox (l ++ o) b h m (a ++ o).
Proof. intros l o h b m a [-> HF]. split; [|exact HF]. now rewrite <- app_assoc. Qed.

(** Removing an element that is not for [h]'s mailbox. *)
Lemma next_remove : forall x (l1 l2 : list (@parcel cell)) h b m a, fst x <> (true, h) ->
  next_in_mailbox (l1 ++ x :: l2) b h m a -> exists b' a', next_in_mailbox (l1 ++ l2) b' h m a'.
Proof.
  intros x l1. induction l1 as [|y t IH]; intros l2 h b m a Hx [E HF]; cbn [app] in *.
  - destruct b as [|z b]; cbn in E; injection E as -> E; [cbn in Hx; congruence|]. inversion HF; subst. exists b, a. split; auto.
  - destruct b as [|z b]; cbn in E; injection E as -> E.
    + exists [], (t ++ l2). split; [reflexivity|constructor].
    + inversion HF; subst. destruct (IH l2 h b m a Hx) as (b' & a' & E' & F'); [split; auto|].
      exists (z :: b'), a'. split; [cbn; now rewrite E'|]. constructor; auto.
Qed.

(** ** A step of a host *)
Definition good_act (g : ghost) (h : nat) (s : host cell) (m : dmsg cell) : Prop :=
  exists s' out g' rest,
    handle parse fmax p peers width records h s m = Ok (s', out)
    /\ sane g'
    /\ Permutation (expected g) ([(h, m)] ++ rest)
    /\ Permutation (expected g') (strip out ++ rest)
    /\ host_ok g' h s'
    /\ (forall j s0, j < N -> j <> h -> host_ok g j s0 -> host_ok g' j s0)
    /\ total N (weight g') < total N (weight g)
    /\ length out <= N + 2
    /\ (ld g' 0 = true -> st g' 0 = false ->
          (ld g 0 = true /\ st g 0 = false /\ (h <> 0 \/ m <> DPart (raw 0)))
          \/ (st g 0 = false /\ ld g 0 = false /\ exists o, out = (true, 0, DPart (raw 0)) :: o)).

Lemma len_peers : forall h, h < N -> len_incl_own (peers h) = N.
Proof.
  intros h Hh. pose proof (all_but_len _ _ _ (Hall h Hh)) as L. unfold len_incl_own, len, keys in *. rewrite map_length in L. exact L.
Qed.
Lemma main_get : forall h, h < N -> h <> 0 -> main_of (peers h) = Remote 0.
Proof. intros h Hh Hz. unfold main_of. rewrite (Hget h 0) by lia. reflexivity. Qed.
Lemma main_own : main_of (peers 0) = Local.
Proof.
  unfold main_of. destruct (get (peers 0) 0) as [a|] eqn:E; [|reflexivity].
  assert (0 < N /\ 0 <> 0) by (apply (get_remote_iff (peers 0) 0 N 0 (Hall 0 HN1)); eauto). lia.
Qed.
Lemma strip_main : forall h m, h < N -> strip [send h (main_of (peers h)) m] = [(0, m)].
Proof.
  intros h m Hh. destruct (Nat.eq_dec h 0) as [->|Hz].
  - now rewrite main_own.
  - now rewrite main_get.
Qed.
Lemma strip_app : forall a b, strip (a ++ b) = strip a ++ strip b.
Proof. intros. apply map_app. Qed.
Lemma strip_answers : forall (r : list nat) (f : nat -> dmsg cell), strip (map (fun s => answer 0 s (f s)) r) = map (fun s => (s, f s)) r.
Proof.
  intros r f. unfold strip. rewrite map_map. apply map_ext. intros s. unfold answer.
  destruct (Nat.eqb_spec s 0) as [->|]; reflexivity.
Qed.

Lemma strip_parts : forall l,
  strip (map (fun ad => send 0 (fst ad) (DPart (snd ad))) (map (fun j => (if j =? 0 then Local else Remote j, raw j)) l))
  = map (fun j => (j, DPart (raw j))) l.
Proof.
  intros l. unfold strip. rewrite !map_map. apply map_ext. intros j. destruct (Nat.eqb_spec j 0) as [->|]; reflexivity.
Qed.

Ltac flip h j := destruct (Nat.eq_dec j h) as [->|]; [rewrite ?upd_eq in *|rewrite ?upd_neq in * by assumption].

Lemma act_load : forall g h s, sane g -> (forall j, j < N -> j = h -> host_ok g j s) -> h < N -> ld g h = false -> good_act g h s DLoad.
Proof.
  intros g h s Sg Hs Hh El. specialize (Hs h Hh eq_refl). destruct Hs as (Tb & Bu & Da & Cm & Mi & De & Pr).
  assert (Est : st g h = false). { destruct (st g h) eqn:E; [|reflexivity]. apply (s_st g Sg) in E; [|exact Hh]. destruct E. congruence. }
  set (g' := mkG (upd (ld g) h true) (st g) (upd (bf g) h false) (mc g) (sc g) (md g) (sdn g) (rM g) (rS g) (gsd g)).
  destruct (Nat.eq_dec h 0) as [->|Hz].
  - (* the main host reads *)
    assert (Hst : forall j, j < N -> st g j = false).
    { intros j Hj. destruct (st g j) eqn:E; [|reflexivity]. apply (s_st g Sg) in E; [|exact Hj]. destruct E as (_ & E & _). congruence. }
    assert (Hbf : forall j, j < N -> bf g j = false).
    { intros j Hj. destruct (bf g j) eqn:E; [|reflexivity]. apply (s_bf g Sg) in E; [|exact Hj]. destruct E as (_ & E & _). congruence. }
    do 2 eexists. exists g'. eexists.
    split. { cbn [handle]. rewrite Nat.eqb_refl, Hread. cbn [bind]. reflexivity. }
    split.
    { constructor; cbn [ld st bf mc sc md sdn rM rS g'].
      - intros j Hj E. rewrite Hst in E by exact Hj. discriminate.
      - intros j Hj E. flip 0 j; [discriminate|]. rewrite Hbf in E by exact Hj. discriminate.
      - intros j Hj E. apply (s_mc g Sg); auto.
      - intros j Hj E. apply (s_sc g Sg); auto.
      - apply Sg. - apply Sg. - apply Sg. - apply Sg. }
    split.
    { unfold expected.
      rewrite (pick_set N (fun h => negb (ld g h)) (fun h => negb (ld g' h)) _ 0); [rewrite <- app_assoc; reflexivity|exact Hh|now rewrite El| |].
      - cbn [ld g']. now rewrite upd_eq.
      - intros j Hj Hne. cbn [ld g']. now rewrite upd_neq. }
    split.
    { unfold expected. cbn [ld st bf mc sc md sdn rM rS gsd g'].
      rewrite (pick_all N (fun h => upd (ld g) 0 true 0 && negb (st g h) && negb (upd (bf g) 0 false h))).
      2:{ intros j Hj. rewrite upd_eq, Hst by exact Hj. flip 0 j; [reflexivity|]. now rewrite Hbf. }
      rewrite (pick_none N (fun h => ld g 0 && negb (st g h) && negb (bf g h))) by (intros; now rewrite El).
      rewrite strip_parts. cbn [app]. perm. }
    split.
    { unfold host_ok. cbn [table buffered hdata mcalc scalc minmax dev preps ld st bf mc sc md sdn rM rS gsd g'].
      rewrite !upd_eq, Hbf in * by exact Hh. repeat split; auto; try (intros; apply Cm; auto). }
    split.
    { intros j s0 Hj Hne H0. unfold host_ok in *. cbn [ld st bf mc sc md sdn rM rS gsd g']. now rewrite !upd_neq. }
    split.
    { apply (total_drop N _ _ 0 Hh).
      - unfold weight. cbn [ld st bf mc sc md sdn g']. rewrite !upd_eq, El, Hst, Hbf by exact Hh. cbn. lia.
      - intros j Hj Hne. unfold weight. cbn [ld st bf mc sc md sdn g']. now rewrite !upd_neq. }
    split. { rewrite !map_length, seq_length. lia. }
    intros _ _. right. split; [now apply Hst|]. split; [exact El|].
    destruct N as [|N']; [lia|]. cbn [seq map]. eexists. reflexivity.
  - (* a sub host is told its peers *)
    do 2 eexists. exists g'. eexists.
    split. { cbn [handle]. destruct (Nat.eqb_spec h 0); [contradiction|]. rewrite usub_ok by exact HP1. cbn [bind]. reflexivity. }
    assert (E0 : upd (ld g) h true 0 = ld g 0) by (now apply upd_neq; auto).
    split.
    { constructor; cbn [ld st bf mc sc md sdn rM rS g'].
      - intros j Hj E. rewrite E0. destruct (s_st g Sg j Hj E) as (A & B & C). flip h j; auto.
      - intros j Hj E. rewrite E0. flip h j; [discriminate|]. apply (s_bf g Sg); auto.
      - apply Sg. - apply Sg. - apply Sg. - apply Sg. - apply Sg. - apply Sg. }
    split.
    { unfold expected.
      rewrite (pick_set N (fun h => negb (ld g h)) (fun h => negb (ld g' h)) _ h); [rewrite <- app_assoc; reflexivity|exact Hh|now rewrite El| |].
      - cbn [ld g']. now rewrite upd_eq.
      - intros j Hj Hne. cbn [ld g']. now rewrite upd_neq. }
    split.
    { unfold expected. cbn [ld st bf mc sc md sdn rM rS gsd g']. rewrite E0, Bu.
      destruct (bf g h) eqn:Ebf.
      - destruct (s_bf g Sg h Hh Ebf) as (_ & L0 & _).
        rewrite (pick_set N (fun h0 => ld g 0 && negb (st g h0) && negb (upd (bf g) h false h0))
                            (fun h0 => ld g 0 && negb (st g h0) && negb (bf g h0)) _ h Hh).
        + cbn [rev app map strip fst snd].
          change ((h, DPart (raw h)) :: ?l) with ([(h, DPart (raw h))] ++ l). perm.
        + now rewrite upd_eq, L0, Est.
        + now rewrite Ebf, andb_false_r.
        + intros j Hj Hne. now rewrite upd_neq.
      - cbn [rev map strip app].
        rewrite (pick_ext N (fun h0 => ld g 0 && negb (st g h0) && negb (upd (bf g) h false h0))
                            (fun h0 => ld g 0 && negb (st g h0) && negb (bf g h0))); [reflexivity|].
        intros j Hj. flip h j; [now rewrite Ebf|reflexivity]. }
    split.
    { unfold host_ok. cbn [table buffered hdata mcalc scalc minmax dev preps ld st bf mc sc md sdn rM rS gsd g'].
      rewrite !upd_eq. repeat split; auto; intros; contradiction. }
    split.
    { intros j s0 Hj Hne H0. unfold host_ok in *. cbn [ld st bf mc sc md sdn rM rS gsd g']. now rewrite !upd_neq. }
    split.
    { apply (total_drop N _ _ h Hh).
      - unfold weight. cbn [ld st bf mc sc md sdn g']. rewrite !upd_eq, El, Est. unfold bit. destruct (bf g h); lia.
      - intros j Hj Hne. unfold weight. cbn [ld st bf mc sc md sdn g']. now rewrite !upd_neq. }
    split. { rewrite map_length, rev_length, Bu. destruct (bf g h); cbn; lia. }
    cbn [ld st g']. rewrite E0. intros A B. left. repeat split; auto.
Qed.

Lemma act_part : forall g h s, sane g -> host_ok g h s -> h < N -> ld g 0 = true -> st g h = false -> bf g h = false ->
  good_act g h s (DPart (raw h)).
Proof.
  intros g h s Sg (Tb & Bu & Da & Cm & Mi & De & Pr) Hh L0 Est Ebf.
  assert (Emc : mc g h = false). { destruct (mc g h) eqn:E; [|reflexivity]. apply (s_mc g Sg) in E; [|exact Hh]. destruct E. congruence. }
  assert (Esc : sc g h = false). { destruct (sc g h) eqn:E; [|reflexivity]. apply (s_sc g Sg) in E; [|exact Hh]. destruct E. congruence. }
  assert (Hempty : h = 0 -> rM g = [] /\ rS g = []).
  { intros ->. split.
    - destruct (rM g) as [|x t] eqn:E; [reflexivity|]. destruct (proj1 (proj2 (s_rM g Sg) x)) as (Hx & Ex); [rewrite E; now left|].
      destruct (s_mc g Sg x Hx Ex). congruence.
    - destruct (rS g) as [|x t] eqn:E; [reflexivity|]. destruct (proj1 (proj2 (s_rS g Sg) x)) as (Hx & Ex); [rewrite E; now left|].
      destruct (s_sc g Sg x Hx Ex). congruence. }
  destruct (ld g h) eqn:El.
  - set (g' := mkG (ld g) (upd (st g) h true) (bf g) (mc g) (sc g) (md g) (sdn g) (rM g) (rS g) (gsd g)).
    do 2 eexists. exists g'. eexists.
    split. { cbn [handle]. unfold all_connected. rewrite Tb, len_peers, HN, Nat.eqb_refl by exact Hh.
             rewrite (Hload h Hh). cbn [bind]. unfold datastats. rewrite Tb, (Hstd h Hh). cbn [bind]. reflexivity. }
    split.
    { constructor; cbn [ld st bf mc sc md sdn rM rS g'].
      - intros j Hj E. flip h j; [auto|]. apply (s_st g Sg); auto.
      - intros j Hj E. flip h j; [congruence|]. apply (s_bf g Sg); auto.
      - intros j Hj E. destruct (s_mc g Sg j Hj E) as (A & B). split; [flip h j; auto|].
        destruct (Nat.eq_dec h 0) as [->|]; [apply upd_eq|rewrite upd_neq by auto; exact B].
      - intros j Hj E. destruct (s_sc g Sg j Hj E) as (A & B). split; [flip h j; auto|].
        destruct (Nat.eq_dec h 0) as [->|]; [apply upd_eq|rewrite upd_neq by auto; exact B].
      - apply Sg. - apply Sg. - apply Sg. - apply Sg. }
    split.
    { unfold expected.
      rewrite (pick_set N (fun h => ld g 0 && negb (st g h) && negb (bf g h)) (fun h => ld g 0 && negb (st g' h) && negb (bf g h)) _ h Hh).
      - rewrite <- app_assoc. apply pull_next, pull_here.
      - now rewrite L0, Est, Ebf.
      - cbn [st g']. now rewrite upd_eq, andb_false_r.
      - intros j Hj Hne. cbn [st g']. now rewrite upd_neq. }
    split.
    { unfold expected. cbn [ld st bf mc sc md sdn rM rS gsd g'].
      rewrite (pick_set N (fun h0 => upd (st g) h true h0 && negb (mc g h0)) (fun h0 => st g h0 && negb (mc g h0)) _ h Hh).
      2:{ now rewrite upd_eq, Emc. } 2:{ now rewrite Est. } 2:{ intros j Hj Hne. now rewrite upd_neq. }
      rewrite (pick_set N (fun h0 => upd (st g) h true h0 && negb (sc g h0)) (fun h0 => st g h0 && negb (sc g h0)) _ h Hh).
      2:{ now rewrite upd_eq, Esc. } 2:{ now rewrite Est. } 2:{ intros j Hj Hne. now rewrite upd_neq. }
      change [?a; ?b] with ([a] ++ [b]). rewrite strip_app, !strip_main by exact Hh. fold (MM h). perm. }
    split.
    { unfold host_ok. cbn [table buffered hdata mcalc scalc minmax dev preps ld st bf mc sc md sdn rM rS gsd g'].
      rewrite !upd_eq, El. split; [reflexivity|]. split; [exact Bu|]. split; [reflexivity|]. split; [|auto].
      intros -> _. destruct (Hempty eq_refl) as (-> & ->). cbn. split; eexists; split; reflexivity || auto. }
    split.
    { intros j s0 Hj Hne (A & B & C & D & E). unfold host_ok. cbn [ld st bf mc sc md sdn rM rS gsd g']. rewrite (upd_neq _ _ _ j) by exact Hne.
      split; [exact A|]. split; [exact B|]. split; [exact C|]. split; [|exact E].
      intros ->. rewrite upd_neq by auto. apply D. reflexivity. }
    split.
    { apply (total_drop N _ _ h Hh).
      - unfold weight. cbn [ld st bf mc sc md sdn g']. rewrite !upd_eq, Est, Ebf. unfold bit. lia.
      - intros j Hj Hne. unfold weight. cbn [ld st bf mc sc md sdn g']. now rewrite !upd_neq. }
    split. { cbn. lia. }
    cbn [ld st g']. intros A B. left. destruct (Nat.eq_dec h 0) as [->|]; [rewrite upd_eq in B; discriminate|].
    rewrite upd_neq in B by auto. auto.
  - (* not connected yet: buffered *)
    assert (Hz : h <> 0) by congruence.
    set (g' := mkG (ld g) (st g) (upd (bf g) h true) (mc g) (sc g) (md g) (sdn g) (rM g) (rS g) (gsd g)).
    do 2 eexists. exists g'. eexists.
    split. { cbn [handle]. unfold all_connected. rewrite Tb, HN. cbn [len_incl_own len length Nat.add].
             destruct (Nat.eqb_spec 1 N); [lia|]. reflexivity. }
    split.
    { constructor; cbn [ld st bf mc sc md sdn rM rS g'].
      - intros j Hj E. destruct (s_st g Sg j Hj E) as (A & B & C). flip h j; [congruence|]. auto.
      - intros j Hj E. flip h j; [auto|]. apply (s_bf g Sg); auto.
      - apply Sg. - apply Sg. - apply Sg. - apply Sg. - apply Sg. - apply Sg. }
    split.
    { unfold expected.
      rewrite (pick_set N (fun h => ld g 0 && negb (st g h) && negb (bf g h)) (fun h => ld g 0 && negb (st g h) && negb (bf g' h)) _ h Hh).
      - rewrite <- app_assoc. apply pull_next, pull_here.
      - now rewrite L0, Est, Ebf.
      - cbn [bf g']. now rewrite upd_eq, andb_false_r.
      - intros j Hj Hne. cbn [bf g']. now rewrite upd_neq. }
    split. { unfold expected. cbn [ld st bf mc sc md sdn rM rS gsd g' strip map app]. perm. }
    split.
    { unfold host_ok. cbn [table buffered hdata mcalc scalc minmax dev preps ld st bf mc sc md sdn rM rS gsd g'].
      rewrite !upd_eq, El, Bu, Ebf. split; [reflexivity|]. repeat split; auto; intros; contradiction. }
    split.
    { intros j s0 Hj Hne H0. unfold host_ok in *. cbn [ld st bf mc sc md sdn rM rS gsd g']. now rewrite !upd_neq. }
    split.
    { apply (total_drop N _ _ h Hh).
      - unfold weight. cbn [ld st bf mc sc md sdn g']. rewrite !upd_eq, Est, Ebf. unfold bit. lia.
      - intros j Hj Hne. unfold weight. cbn [ld st bf mc sc md sdn g']. now rewrite !upd_neq. }
    split. { cbn. lia. }
    cbn [ld st g']. auto.
Qed.

Lemma below : forall r (b : nat -> bool), (forall h, In h r <-> h < N /\ b h = true) -> forall x, In x r -> x < N.
Proof. intros r b H x Hx. apply H in Hx. tauto. Qed.

Lemma extend : forall r (b : nat -> bool) j, NoDup r -> (forall h, In h r <-> h < N /\ b h = true) -> j < N -> b j = false ->
  NoDup (r ++ [j]) /\ (forall h, In h (r ++ [j]) <-> h < N /\ upd b j true h = true) /\ length r < N /\ length (r ++ [j]) = S (length r).
Proof.
  intros r b j ND H Hj E. assert (Hn : ~ In j r) by (rewrite H; intros [_ A]; congruence).
  split.
  { apply (Permutation_NoDup (l := j :: r)); [apply Permutation_cons_append|]. now constructor. }
  split.
  - intros h. rewrite in_app_iff. cbn [In]. rewrite H. flip j h.
    + split; [intros _; auto|]. intros _. right. now left.
    + split; [intros [A|[A|[]]]; [exact A|congruence]|]. intros A. now left.
  - split; [eapply nodup_room; eauto; eapply below; eauto|]. rewrite app_length. cbn. lia.
Qed.

Lemma act_minmax : forall g j s, sane g -> host_ok g 0 s -> j < N -> st g j = true -> mc g j = false -> st g 0 = true ->
  good_act g 0 s (DMinMax (MM j)).
Proof.
  intros g j s Sg (Tb & Bu & Da & Cm & Mi & De & Pr) Hj Est Emc E0.
  destruct (Cm eq_refl E0) as ((o & EM & Eo) & HS). destruct (s_rM g Sg) as (ND & Hr).
  destruct (extend (rM g) (mc g) j ND Hr Hj Emc) as (ND' & Hr' & Hlt & Lr). specialize (Eo Hlt). subst o.
  destruct (HcM (rM g ++ [j]) ND' (below _ _ Hr')) as (c & Ec). rewrite map_app in Ec. cbn [map] in Ec.
  destruct (collect_snoc _ _ _ _ _ _ _ _ _ _ _ EM Ec) as (o2 & Eh & Eo2). cbn [app] in Eo2. subst o2.
  set (g' := mkG (ld g) (st g) (bf g) (upd (mc g) j true) (sc g) (md g) (sdn g) (rM g ++ [j]) (rS g) (gsd g)).
  assert (Hmd : forall h, h < N -> md g h = false).
  { intros h Hh. destruct (md g h) eqn:E; [|reflexivity]. apply (s_md g Sg) in E; [|exact Hh]. lia. }
  do 2 eexists. exists g'. eexists.
  split. { cbn [handle]. rewrite HN, Eh. cbn [bind fst snd]. reflexivity. }
  split.
  { constructor; cbn [ld st bf mc sc md sdn rM rS g']; try apply Sg.
    - intros h Hh E. flip j h; [auto|]. apply (s_mc g Sg); auto.
    - split; assumption.
    - intros h Hh E. rewrite Hmd in E by exact Hh. discriminate. }
  split.
  { unfold expected.
    rewrite (pick_set N (fun h => st g h && negb (mc g h)) (fun h => st g' h && negb (mc g' h)) _ j Hj).
    - rewrite <- app_assoc. apply pull_next, pull_next, pull_here.
    - now rewrite Est, Emc.
    - cbn [mc st g']. now rewrite upd_eq, andb_false_r.
    - intros h Hh Hne. cbn [st mc g']. now rewrite upd_neq. }
  split.
  { unfold expected. cbn [ld st bf mc sc md sdn rM rS gsd g'].
    rewrite (pick_none N (fun h => (length (rM g) =? N) && negb (md g h))).
    2:{ intros h Hh. destruct (Nat.eqb_spec (length (rM g)) N); [lia|reflexivity]. }
    destruct (Nat.eqb_spec (length (rM g ++ [j])) N) as [EN|EN].
    - rewrite (pick_all N (fun h => true && negb (md g h))) by (intros h Hh; now rewrite Hmd).
      rewrite map_map. cbn [fst snd].
      rewrite (strip_answers (rM g ++ [j]) (fun _ => DMinMaxDone mn mx)).
      rewrite (Permutation_map (fun s => (s, DMinMaxDone mn mx)) (nodup_full N _ ND' (below _ _ Hr') EN)). cbn [app]. perm.
    - rewrite (pick_none N (fun h => false && negb (md g h))) by reflexivity. cbn [map strip app]. perm. }
  split.
  { unfold host_ok. cbn [table buffered hdata mcalc scalc minmax dev preps ld st bf mc sc md sdn rM rS gsd g'].
    split; [exact Tb|]. split; [exact Bu|]. split; [exact Da|]. split; [|auto]. intros _ _. split; [|exact HS].
    rewrite map_app. cbn [map]. eexists. split; [exact Ec|]. intros L.
    destruct (Nat.eqb_spec (length (rM g ++ [j])) N); [lia|reflexivity]. }
  split.
  { intros h s0 Hh Hne (A & B & C & D & E). unfold host_ok. cbn [ld st bf mc sc md sdn rM rS gsd g'].
    split; [exact A|]. split; [exact B|]. split; [exact C|]. split; [|exact E]. intros ->. contradiction. }
  split.
  { apply (total_drop N _ _ j Hj).
    - unfold weight. cbn [ld st bf mc sc md sdn g']. rewrite !upd_eq, Emc. unfold bit. lia.
    - intros h Hh Hne. unfold weight. cbn [ld st bf mc sc md sdn g']. now rewrite !upd_neq. }
  split. { rewrite map_length. destruct (_ =? _); [rewrite map_length|cbn]; lia. }
  cbn [ld st g']. intros A B. congruence.
Qed.

Lemma act_std : forall g j s, sane g -> host_ok g 0 s -> j < N -> st g j = true -> sc g j = false -> st g 0 = true ->
  good_act g 0 s (DStd (SM j)).
Proof.
  intros g j s Sg (Tb & Bu & Da & Cm & Mi & De & Pr) Hj Est Esc E0.
  destruct (Cm eq_refl E0) as (HS & (o & EM & Eo)). destruct (s_rS g Sg) as (ND & Hr).
  destruct (extend (rS g) (sc g) j ND Hr Hj Esc) as (ND' & Hr' & Hlt & Lr). specialize (Eo Hlt). subst o.
  destruct (HcS (rS g ++ [j]) ND' (below _ _ Hr')) as (c & sd & Ec). rewrite map_app in Ec. cbn [map] in Ec.
  destruct (collect_snoc _ _ _ _ _ _ _ _ _ _ _ EM Ec) as (o2 & Eh & Eo2). cbn [app] in Eo2. subst o2.
  set (g' := mkG (ld g) (st g) (bf g) (mc g) (upd (sc g) j true) (md g) (sdn g) (rM g) (rS g ++ [j]) sd).
  assert (Hmd : forall h, h < N -> sdn g h = false).
  { intros h Hh. destruct (sdn g h) eqn:E; [|reflexivity]. apply (s_sdn g Sg) in E; [|exact Hh]. lia. }
  do 2 eexists. exists g'. eexists.
  split. { cbn [handle]. rewrite HN, Eh. cbn [bind fst snd]. reflexivity. }
  split.
  { constructor; cbn [ld st bf mc sc md sdn rM rS g']; try apply Sg.
    - intros h Hh E. flip j h; [auto|]. apply (s_sc g Sg); auto.
    - split; assumption.
    - intros h Hh E. rewrite Hmd in E by exact Hh. discriminate. }
  split.
  { unfold expected.
    rewrite (pick_set N (fun h => st g h && negb (sc g h)) (fun h => st g' h && negb (sc g' h)) _ j Hj).
    - rewrite <- app_assoc. apply pull_next, pull_next, pull_next, pull_here.
    - now rewrite Est, Esc.
    - cbn [sc st g']. now rewrite upd_eq, andb_false_r.
    - intros h Hh Hne. cbn [st sc g']. now rewrite upd_neq. }
  split.
  { unfold expected. cbn [ld st bf mc sc md sdn rM rS gsd g'].
    rewrite (pick_none N (fun h => (length (rS g) =? N) && negb (sdn g h))).
    2:{ intros h Hh. destruct (Nat.eqb_spec (length (rS g)) N); [lia|reflexivity]. }
    destruct (Nat.eqb_spec (length (rS g ++ [j])) N) as [EN|EN].
    - rewrite (pick_all N (fun h => true && negb (sdn g h))) by (intros h Hh; now rewrite Hmd).
      rewrite map_map. cbn [fst snd].
      rewrite (strip_answers (rS g ++ [j]) (fun _ => DStdDone sd n)).
      rewrite (Permutation_map (fun s => (s, DStdDone sd n)) (nodup_full N _ ND' (below _ _ Hr') EN)). perm.
    - rewrite (pick_none N (fun h => false && negb (sdn g h))) by reflexivity. cbn [map strip app]. perm. }
  split.
  { unfold host_ok. cbn [table buffered hdata mcalc scalc minmax dev preps ld st bf mc sc md sdn rM rS gsd g'].
    rewrite De, Hmd by lia.
    split; [exact Tb|]. split; [exact Bu|]. split; [exact Da|]. split; [|rewrite Hmd in Pr by lia; auto]. intros _ _. split; [exact HS|].
    rewrite map_app. cbn [map]. eexists. split; [exact Ec|]. intros L.
    destruct (Nat.eqb_spec (length (rS g ++ [j])) N); [lia|reflexivity]. }
  split.
  { intros h s0 Hh Hne (A & B & C & D & E & E' & E''). unfold host_ok. cbn [ld st bf mc sc md sdn rM rS gsd g']. rewrite Hmd in * by exact Hh.
    split; [exact A|]. split; [exact B|]. split; [exact C|]. split; [|auto]. intros ->. contradiction. }
  split.
  { apply (total_drop N _ _ j Hj).
    - unfold weight. cbn [ld st bf mc sc md sdn g']. rewrite !upd_eq, Esc. unfold bit. lia.
    - intros h Hh Hne. unfold weight. cbn [ld st bf mc sc md sdn g']. now rewrite !upd_neq. }
  split. { rewrite map_length. destruct (_ =? _); [rewrite map_length|cbn]; lia. }
  cbn [ld st g']. intros A B. congruence.
Qed.

Lemma all_in : forall r (b : nat -> bool), NoDup r -> (forall h, In h r <-> h < N /\ b h = true) -> length r = N -> forall h, h < N -> b h = true.
Proof.
  intros r b ND H L h Hh. apply H. apply (Permutation_in h (Permutation_sym (nodup_full N r ND (below _ _ H) L))). apply in_seq. lia.
Qed.

Lemma act_minmax_done : forall g h s, sane g -> host_ok g h s -> h < N -> length (rM g) = N -> md g h = false ->
  good_act g h s (DMinMaxDone mn mx).
Proof.
  intros g h s Sg (Tb & Bu & Da & Cm & Mi & De & Pr) Hh EN Emd.
  destruct (s_rM g Sg) as (ND & Hr).
  assert (Emc : mc g h = true) by (eapply all_in; eauto).
  destruct (s_mc g Sg h Hh Emc) as (Est & E0).
  set (g' := mkG (ld g) (st g) (bf g) (mc g) (sc g) (upd (md g) h true) (sdn g) (rM g) (rS g) (gsd g)).
  set (s1 := {| table := table s; buffered := buffered s; hdata := hdata s; mcalc := mcalc s; scalc := scalc s;
                minmax := Some (mn, mx); dev := dev s; preps := preps s |}).
  assert (Hf : exists s', finished s1 = Ok (s', []) /\ host_ok g' h s').
  { unfold finished. cbn [minmax dev hdata s1]. rewrite De, Da, Est. unfold s1 in *. rewrite Emd in *. cbn [andb] in Pr.
    destruct (sdn g h) eqn:Ed; eexists; (split; [reflexivity|]); unfold host_ok;
      cbn [table buffered hdata mcalc scalc minmax dev preps ld st bf mc sc md sdn rM rS gsd g']; rewrite !upd_eq, ?Ed, ?Est;
      (split; [exact Tb|]); (split; [exact Bu|]); (split; [rewrite ?Da, ?Est; reflexivity|]); (split; [exact Cm|]); rewrite ?Pr; auto. }
  destruct Hf as (s' & Ef & Ho).
  exists s', [], g'. eexists.
  split. { cbn [handle]. exact Ef. }
  split.
  { constructor; cbn [ld st bf mc sc md sdn rM rS g']; try apply Sg. intros j Hj _. exact EN. }
  split.
  { unfold expected.
    rewrite (pick_set N (fun h => (length (rM g) =? N) && negb (md g h)) (fun h => (length (rM g') =? N) && negb (md g' h)) _ h Hh).
    - rewrite <- app_assoc. apply pull_next, pull_next, pull_next, pull_next, pull_here.
    - now rewrite EN, Nat.eqb_refl, Emd.
    - cbn [md g']. now rewrite upd_eq, andb_false_r.
    - intros j Hj Hne. cbn [rM md g']. now rewrite upd_neq. }
  split. { unfold expected. cbn [ld st bf mc sc md sdn rM rS gsd g' strip map app]. perm. }
  split; [exact Ho|].
  split.
  { intros j s0 Hj Hne H0. unfold host_ok in *. cbn [ld st bf mc sc md sdn rM rS gsd g']. now rewrite !upd_neq. }
  split.
  { apply (total_drop N _ _ h Hh).
    - unfold weight. cbn [ld st bf mc sc md sdn g']. rewrite !upd_eq, Emd. unfold bit. lia.
    - intros j Hj Hne. unfold weight. cbn [ld st bf mc sc md sdn g']. now rewrite !upd_neq. }
  split. { cbn. lia. }
  cbn [ld st g']. intros A B. congruence.
Qed.

Lemma act_std_done : forall g h s, sane g -> host_ok g h s -> h < N -> length (rS g) = N -> sdn g h = false ->
  good_act g h s (DStdDone (gsd g) n).
Proof.
  intros g h s Sg (Tb & Bu & Da & Cm & Mi & De & Pr) Hh EN Emd.
  destruct (s_rS g Sg) as (ND & Hr).
  assert (Emc : sc g h = true) by (eapply all_in; eauto).
  destruct (s_sc g Sg h Hh Emc) as (Est & E0).
  set (g' := mkG (ld g) (st g) (bf g) (mc g) (sc g) (md g) (upd (sdn g) h true) (rM g) (rS g) (gsd g)).
  set (s1 := {| table := table s; buffered := buffered s; hdata := hdata s; mcalc := mcalc s; scalc := scalc s;
                minmax := minmax s; dev := Some (gsd g, n); preps := preps s |}).
  assert (Hf : exists s', finished s1 = Ok (s', []) /\ host_ok g' h s').
  { unfold finished. cbn [minmax dev hdata s1]. rewrite Mi, Da, Est. unfold s1 in *. rewrite Emd, andb_false_r in *.
    destruct (md g h) eqn:Ed; eexists; (split; [reflexivity|]); unfold host_ok;
      cbn [table buffered hdata mcalc scalc minmax dev preps ld st bf mc sc md sdn rM rS gsd g']; rewrite !upd_eq, ?Ed, ?Est;
      (split; [exact Tb|]); (split; [exact Bu|]); (split; [rewrite ?Da, ?Est; reflexivity|]); (split; [exact Cm|]); rewrite ?Pr; auto. }
  destruct Hf as (s' & Ef & Ho).
  exists s', [], g'. eexists.
  split. { cbn [handle]. exact Ef. }
  split.
  { constructor; cbn [ld st bf mc sc md sdn rM rS g']; try apply Sg. intros j Hj _. exact EN. }
  split.
  { unfold expected.
    rewrite (pick_set N (fun h => (length (rS g) =? N) && negb (sdn g h)) (fun h => (length (rS g') =? N) && negb (sdn g' h)) _ h Hh).
    - apply pull_next, pull_next, pull_next, pull_next, pull_next, pull_here.
    - now rewrite EN, Nat.eqb_refl, Emd.
    - cbn [sdn g']. now rewrite upd_eq, andb_false_r.
    - intros j Hj Hne. cbn [rS sdn g']. now rewrite upd_neq. }
  split. { unfold expected. cbn [ld st bf mc sc md sdn rM rS gsd g' strip map app]. perm. }
  split; [exact Ho|].
  split.
  { intros j s0 Hj Hne H0. unfold host_ok in *. cbn [ld st bf mc sc md sdn rM rS gsd g']. now rewrite !upd_neq. }
  split.
  { apply (total_drop N _ _ h Hh).
    - unfold weight. cbn [ld st bf mc sc md sdn g']. rewrite !upd_eq, Emd. unfold bit. lia.
    - intros j Hj Hne. unfold weight. cbn [ld st bf mc sc md sdn g']. now rewrite !upd_neq. }
  split. { cbn. lia. }
  cbn [ld st g']. intros A B. congruence.
Qed.

(** ** All steps *)
Lemma acts_well : forall g w before h m after, Inv g w -> next_in_mailbox (parcels w) before h m after ->
  h < N /\ good_act g h (hosts w h) m.
Proof.
  intros g w before h m after (Sg & Pm & Ho & Fp) Nx.
  assert (Hin : In (h, m) (expected g)).
  { eapply Permutation_in; [exact Pm|]. destruct Nx as [-> _]. rewrite strip_app. apply in_or_app. right. now left. }
  assert (Main : forall j, j < N -> st g j = true -> h = 0 -> (forall d, m <> DPart d) -> st g 0 = true).
  { intros j Hj Ej -> Hm. destruct (st g 0) eqn:E0; [reflexivity|]. exfalso.
    destruct (s_st g Sg j Hj Ej) as (_ & L0 & _). destruct (Fp L0 E0) as (b & a & Nx').
    apply (Hm (raw 0)). eapply next_unique; eauto. }
  unfold expected in Hin. rewrite !in_app_iff in Hin.
  destruct Hin as [Hin|[Hin|[Hin|[Hin|[Hin|Hin]]]]]; apply pick_In in Hin; destruct Hin as (j & Hj & Eb & E); injection E as -> ->;
    rewrite ?andb_true_iff, ?negb_true_iff in Eb.
  - split; [exact Hj|]. apply act_load; auto. intros j' Hj' ->. now apply Ho.
  - split; [exact Hj|]. destruct Eb as ((A & B) & C). apply act_part; auto.
  - split; [exact HN1|]. destruct Eb as (A & B). apply act_minmax; auto. apply (Main j); auto. discriminate.
  - split; [exact HN1|]. destruct Eb as (A & B). apply act_std; auto. apply (Main j); auto. discriminate.
  - split; [exact Hj|]. destruct Eb as (A & B). apply Nat.eqb_eq in A. apply act_minmax_done; auto.
  - split; [exact Hj|]. destruct Eb as (A & B). apply Nat.eqb_eq in A. apply act_std_done; auto.
Qed.

Lemma nobody_before_reading : forall g l, sane g -> Permutation (strip l) (expected g) -> ld g 0 = false ->
  forall x, In x l -> snd (fst x) = 0 -> snd x = DLoad.
Proof.
  intros g l Sg Pm L0 x Hx Ez.
  assert (Hin : In (snd (fst x), snd x) (expected g)).
  { eapply Permutation_in; [exact Pm|]. unfold strip. apply in_map_iff. exists x. auto. }
  assert (Hst : forall j, j < N -> st g j = false).
  { intros j Hj. destruct (st g j) eqn:E; [|reflexivity]. apply (s_st g Sg) in E; [|exact Hj]. destruct E as (_ & E & _). congruence. }
  unfold expected in Hin. rewrite !in_app_iff in Hin.
  destruct Hin as [Hin|[Hin|[Hin|[Hin|[Hin|Hin]]]]]; apply pick_In in Hin; destruct Hin as (j & Hj & Eb & E);
    apply (f_equal snd) in E as E2; apply (f_equal fst) in E; cbn [fst snd] in E, E2;
    rewrite ?andb_true_iff, ?negb_true_iff in Eb.
  - exact E2.
  - destruct Eb as ((A & _) & _). congruence.
  - rewrite Hst in Eb by exact Hj. destruct Eb; congruence.
  - rewrite Hst in Eb by exact Hj. destruct Eb; congruence.
  - destruct Eb as (A & _). apply Nat.eqb_eq in A. destruct (s_rM g Sg) as (ND & Hr).
    assert (M : mc g j = true) by (eapply all_in; eauto). destruct (s_mc g Sg j Hj M) as (S & _). rewrite Hst in S by exact Hj. discriminate.
  - destruct Eb as (A & _). apply Nat.eqb_eq in A. destruct (s_rS g Sg) as (ND & Hr).
    assert (M : sc g j = true) by (eapply all_in; eauto). destruct (s_sc g Sg j Hj M) as (S & _). rewrite Hst in S by exact Hj. discriminate.
Qed.

Lemma no_second_load : forall g l h before after f, sane g -> Permutation (strip l) (expected g) -> h < N ->
  l = before ++ (f, h, DLoad) :: after -> forall x, In x (before ++ after) -> snd (fst x) = h -> snd x <> DLoad.
Proof.
  intros g l h before after f Sg Pm Hh -> x Hx Ex E.
  assert (El : ld g h = false).
  { assert (Hin : In (h, DLoad) (expected g)).
    { eapply Permutation_in; [exact Pm|]. rewrite strip_app. apply in_or_app. right. now left. }
    unfold expected in Hin. rewrite !in_app_iff in Hin.
    destruct Hin as [Hin|[Hin|[Hin|[Hin|[Hin|Hin]]]]]; apply pick_In in Hin; destruct Hin as (j & Hj & Eb & E'); try discriminate.
    injection E' as ->. now apply negb_true_iff. }
  set (P := fun y : nat * dmsg cell => match y with (k, DLoad) => k =? h | _ => false end).
  assert (C : forall a b : list (nat * dmsg cell), Permutation a b -> length (filter P a) = length (filter P b)).
  { intros a b H. induction H; cbn; auto.
    - destruct (P x0); cbn; congruence.
    - destruct (P x0), (P y); reflexivity.
    - congruence. }
  apply C in Pm.
  assert (C1 : length (filter P (expected g)) <= 1).
  { unfold expected. rewrite !filter_app.
    assert (Z : forall b (k : nat -> nat * dmsg cell), (forall j, P (k j) = false) -> filter P (pick N b k) = []).
    { intros b k Hk. destruct (filter P (pick N b k)) as [|y t] eqn:Ey; [reflexivity|].
      assert (In y (filter P (pick N b k))) as Hy by (rewrite Ey; now left). apply filter_In in Hy. destruct Hy as (Hy & Py).
      apply pick_In in Hy. destruct Hy as (j & _ & _ & ->). now rewrite Hk in Py. }
    rewrite (Z _ (fun h0 => (h0, DPart (raw h0)))), (Z _ (fun h0 => (0, DMinMax (MM h0)))), (Z _ (fun h0 => (0, DStd (SM h0)))),
      (Z _ (fun h0 => (h0, DMinMaxDone mn mx))), (Z _ (fun h0 => (h0, DStdDone (gsd g) n))) by reflexivity. rewrite !app_nil_r.
    pose proof (C _ _ (pick_set N (fun h0 => negb (ld g h0)) (upd (fun h0 => negb (ld g h0)) h false) (fun h0 => (h0, DLoad)) h Hh
      (eq_trans (f_equal negb El) eq_refl) (upd_eq _ _ _) (fun j _ Hne => upd_neq _ _ _ _ Hne))) as C2.
    rewrite C2. cbn [app filter P]. rewrite Nat.eqb_refl. cbn [length].
    destruct (filter P (pick N (upd (fun h0 => negb (ld g h0)) h false) (fun h0 => (h0, DLoad)))) as [|y t] eqn:Ey; [cbn; lia|].
    exfalso. assert (In y (y :: t)) as Hy by now left. rewrite <- Ey in Hy. apply filter_In in Hy. destruct Hy as (Hy & Py).
    apply pick_In in Hy. destruct Hy as (j & _ & Ej & ->). cbn in Py. apply Nat.eqb_eq in Py. subst j. rewrite upd_eq in Ej. discriminate. }
  rewrite <- Pm, strip_app, filter_app, app_length in C1. cbn [strip map fst snd filter P] in C1. rewrite Nat.eqb_refl in C1. cbn [length] in C1.
  assert (Hp : P (snd (fst x), snd x) = true) by (rewrite Ex, E; cbn; apply Nat.eqb_refl).
  assert (L : forall l0, In x l0 -> 1 <= length (filter P (strip l0))).
  { intros l0 H0. assert (In (snd (fst x), snd x) (filter P (strip l0))) as H1.
    { apply filter_In. split; [|exact Hp]. unfold strip. apply in_map_iff. eauto. }
    destruct (filter P (strip l0)); [contradiction|cbn; lia]. }
  apply in_app_iff in Hx. destruct Hx as [Hx|Hx]; apply L in Hx; unfold strip in *; lia.
Qed.

Lemma inv_step : forall g w w', Inv g w -> step parse fmax p peers width records w w' -> exists g', Inv g' w' /\ phi g' w' < phi g w.
Proof.
  intros g w w' I Hs. inversion Hs as [w0 before h m after E|w0 before h m after s' out Nx Eh]; subst.
  - exists g. destruct I as (Sg & Pm & Ho & Fp). split.
    + split; [exact Sg|]. split; [|split; [exact Ho|]].
      * cbn [parcels]. etransitivity; [|exact Pm]. rewrite E, !strip_app. cbn [strip map fst snd].
        change ((h, m) :: ?l) with ([(h, m)] ++ l). apply Permutation_app_head, Permutation_app_comm.
      * intros L0 E0. destruct (Fp L0 E0) as (b & a & Nx). rewrite E in Nx. cbn [parcels].
        destruct (next_remove (false, h, m) before after 0 _ _ _ ltac:(cbn; congruence) Nx) as (b' & a' & Nx').
        rewrite app_assoc. eexists. eexists. apply next_snoc. exact Nx'.
    + unfold phi. cbn [parcels]. rewrite E, !flying_app.
      replace (flying ((false, h, m) :: after)) with (S (flying after)) by reflexivity.
      replace (flying [(true, h, m)]) with 0 by reflexivity. lia.
  - destruct (acts_well g w before h m after I Nx) as (Hh & s2 & out2 & g' & rest & Eh2 & Sg' & P1 & P2 & Hho & Hoth & Hw & Lo & Hfp).
    rewrite Eh in Eh2. injection Eh2 as <- <-. exists g'. destruct I as (Sg & Pm & Ho & Fp). destruct Nx as [El Fb].
    assert (Prest : Permutation (strip (before ++ after)) rest).
    { apply (Permutation_cons_inv (a := (h, m))). cbn [app] in P1. rewrite <- P1, <- Pm, El, !strip_app. cbn [strip map fst snd].
      apply Permutation_middle. }
    split.
    + split; [exact Sg'|]. split; [|split].
      * cbn [parcels]. rewrite P2, <- Prest, app_assoc, strip_app. apply Permutation_app_comm.
      * intros j Hj. cbn [hosts]. unfold set_host. destruct (Nat.eqb_spec j h) as [->|]; auto.
      * intros L0 E0. cbn [parcels]. destruct (Hfp L0 E0) as [(A & B & C)|(A & B & o & ->)].
        -- destruct (Fp A B) as (b & a & Nx'). destruct (Nat.eq_dec h 0) as [->|Hz].
           { exfalso. destruct C as [C|C]; [congruence|]. apply C. eapply next_unique; [split; [exact El|exact Fb]|exact Nx']. }
           rewrite El in Nx'. destruct (next_remove (true, h, m) before after 0 _ _ _ ltac:(cbn; congruence) Nx') as (b' & a' & Nx2).
           rewrite app_assoc. eexists. eexists. apply next_snoc. exact Nx2.
        -- assert (h = 0 /\ m = DLoad) as [-> ->].
           { destruct (Nat.eq_dec h 0) as [->|Hz]; [split; [reflexivity|]|].
             - apply (nobody_before_reading g (parcels w) Sg Pm B (true, 0, m)); [|reflexivity]. rewrite El. apply in_or_app. right. now left.
             - exfalso. assert (N0 : forall y, In y [(true, 0, DPart (raw 0))] -> In y ((true, 0, DPart (raw 0)) :: o)) by (intros y [<-|[]]; now left).
               clear N0. destruct m; cbn [handle] in Eh.
               + destruct (Nat.eqb_spec h 0); [contradiction|]. rewrite usub_ok in Eh by exact HP1. cbn [bind] in Eh. injection Eh as _ E. destruct (rev _); cbn in E; [discriminate|]. injection E as E. congruence.
               + destruct (all_connected _ _); [|injection Eh as _ E; discriminate]. destruct (load_partition _ _ _); [|discriminate].
                 cbn [bind] in Eh. unfold datastats in Eh. destruct (calculate_std _ _ _ _ _); [|discriminate]. cbn [bind] in Eh.
                 injection Eh as _ E. unfold send in E. destruct (main_of _); injection E as E; discriminate.
               + unfold datastats in Eh. destruct (calculate_std _ _ _ _ _); [|discriminate]. cbn [bind] in Eh.
                 injection Eh as _ E. unfold send in E. destruct (main_of _); injection E as E; discriminate.
               + destruct (handle_minmax _ _ _) as [[q z]|]; [|discriminate]. cbn [bind fst snd] in Eh. injection Eh as _ E.
                 destruct z; cbn in E; [discriminate|]. unfold answer in E. destruct (_ =? _); discriminate.
               + destruct (handle_std _ _ _) as [[q z]|]; [|discriminate]. cbn [bind fst snd] in Eh. injection Eh as _ E.
                 destruct z; cbn in E; [discriminate|]. unfold answer in E. destruct (_ =? _); discriminate.
               + unfold finished in Eh. cbn [minmax dev hdata] in Eh. destruct (dev _); [destruct (hdata _); [|discriminate]|]; injection Eh as _ E; discriminate.
               + unfold finished in Eh. cbn [minmax dev hdata] in Eh. destruct (minmax _); [destruct (hdata _); [|discriminate]|]; injection Eh as _ E; discriminate. }
           exists (before ++ after), o. split; [now rewrite <- app_assoc|].
           apply Forall_forall. intros x Hx Ex.
           assert (Hs0 : snd (fst x) = 0) by (now rewrite Ex).
           apply (no_second_load g (parcels w) 0 before after true Sg Pm HN1 El x Hx Hs0).
           apply (nobody_before_reading g (parcels w) Sg Pm B x); [|exact Hs0]. rewrite El. apply in_app_iff in Hx. apply in_or_app.
           destruct Hx; [now left|right; now right].
    + unfold phi. cbn [parcels]. rewrite El, app_assoc, !flying_app. pose proof (flying_le out) as Lf.
      cbn [flying]. replace (flying ((true, h, m) :: after)) with (flying after) by reflexivity.
      assert ((N + 3) * S (total N (weight g')) <= (N + 3) * total N (weight g)) by (apply Nat.mul_le_mono_l; lia).
      rewrite Nat.mul_succ_r in H. lia.
Qed.

Definition g0 : ghost :=
  mkG (fun _ => false) (fun _ => false) (fun _ => false) (fun _ => false) (fun _ => false) (fun _ => false) (fun _ => false) [] [] [].

Lemma inv_start : Inv g0 (file_start p).
Proof.
  split; [|split; [|split]].
  - constructor; cbn; try discriminate; split; try constructor; intros H; try contradiction; destruct H; discriminate.
  - unfold expected. cbn [ld st bf mc sc md sdn rM rS gsd g0 parcels file_start].
    rewrite (pick_all N (fun _ => negb false)) by reflexivity. rewrite !(pick_none N) by reflexivity.
    assert (E0 : (length (@nil nat) =? N) = false) by (apply Nat.eqb_neq; cbn; lia). rewrite E0.
    rewrite !(pick_none N) by reflexivity. rewrite !app_nil_r, HN. unfold strip. rewrite map_map. reflexivity.
  - intros h Hh. unfold host_ok. cbn. repeat split; discriminate.
  - intros L. discriminate.
Qed.

Lemma weight_start : total N (weight g0) = 8 * N.
Proof.
  unfold total. rewrite (map_ext (weight g0) (fun _ => 8)) by reflexivity.
  assert (E : forall l : list nat, list_sum (map (fun _ => 8) l) = 8 * length l).
  { intros l. induction l as [|x t IH]; [reflexivity|]. cbn [map length]. unfold list_sum in *. cbn [fold_right]. lia. }
  now rewrite E, seq_length.
Qed.

Lemma phi_start : phi g0 (file_start p) = (N + 3) * (8 * N) + N.
Proof.
  unfold phi. rewrite weight_start. f_equal. cbn [parcels file_start]. rewrite HN.
  assert (E : forall l : list nat, flying (map (fun h => (false, h, @DLoad cell)) l) = length l).
  { intros l. induction l as [|x t IH]; [reflexivity|]. cbn. f_equal. exact IH. }
  now rewrite E, seq_length.
Qed.

Lemma inv_runs : forall k w, runs parse fmax p peers width records k (file_start p) w ->
  exists g, Inv g w /\ k + phi g w <= (N + 3) * (8 * N) + N.
Proof.
  intros k w H. remember (file_start p) as w0 eqn:E. induction H as [w|k w w' w'' H IH S]; subst.
  - exists g0. split; [apply inv_start|]. rewrite phi_start. lia.
  - destruct (IH eq_refl) as (g & I & L). destruct (inv_step g w' w'' I S) as (g' & I' & L'). exists g'. split; [exact I'|]. lia.
Qed.

Lemma inv_no_abort : forall g w, Inv g w -> ~ aborts parse fmax p peers width records w.
Proof.
  intros g w I (before & h & m & after & q & Nx & E).
  destruct (acts_well g w before h m after I Nx) as (_ & s2 & out2 & g' & rest & Eh2 & _). congruence.
Qed.

Lemma first_next : forall l : list (@parcel cell), l <> [] -> Forall (fun x => fst (fst x) = true) l ->
  exists h m after, next_in_mailbox l [] h m after.
Proof.
  intros [|[[f h] m] t] Hne HF; [congruence|]. inversion HF; subst. cbn in *. subst f. exists h, m, t. split; [reflexivity|constructor].
Qed.

Lemma rest_empty : forall g w, Inv g w -> (forall w', ~ step parse fmax p peers width records w w') -> parcels w = [].
Proof.
  intros g w I Hr. destruct (Forall_Exists_dec (fun x : @parcel cell => fst (fst x) = true)
    (fun x => bool_dec (fst (fst x)) true) (parcels w)) as [HF|HE].
  - destruct (parcels w) as [|x t] eqn:E; [reflexivity|]. exfalso.
    destruct (first_next (x :: t)) as (h & m & after & Nx); [discriminate|exact HF|]. rewrite <- E in Nx.
    destruct (acts_well g w [] h m after I Nx) as (_ & s2 & out2 & g' & rest & Eh2 & _).
    eapply Hr. eapply act; eauto.
  - exfalso. apply Exists_exists in HE. destruct HE as ([[f h] m] & Hin & Hf). cbn in Hf. apply not_true_is_false in Hf. subst f.
    apply in_split in Hin. destruct Hin as (b & a & E). eapply Hr. eapply arrive. exact E.
Qed.

Lemma inv_rest : forall g w, Inv g w -> parcels w = [] -> forall h, h < N ->
  hdata (hosts w h) = Some (dat h) /\ minmax (hosts w h) = Some (mn, mx) /\ dev (hosts w h) = Some (gsd g, n)
  /\ preps (hosts w h) = 1.
Proof.
  intros g w (Sg & Pm & Ho & Fp) E h Hh. rewrite E in Pm. apply Permutation_nil in Pm. unfold expected in Pm.
  apply app_eq_nil in Pm. destruct Pm as (P1 & Pm). apply app_eq_nil in Pm. destruct Pm as (P2 & Pm).
  apply app_eq_nil in Pm. destruct Pm as (P3 & Pm). apply app_eq_nil in Pm. destruct Pm as (P4 & Pm).
  apply app_eq_nil in Pm. destruct Pm as (P5 & P6).
  pose proof (pick_nil N _ _ P1) as Q1. pose proof (pick_nil N _ _ P2) as Q2. pose proof (pick_nil N _ _ P3) as Q3.
  pose proof (pick_nil N _ _ P4) as Q4. pose proof (pick_nil N _ _ P5) as Q5. pose proof (pick_nil N _ _ P6) as Q6. cbv beta in *.
  assert (L : forall j, j < N -> ld g j = true) by (intros j Hj; specialize (Q1 j Hj); now apply negb_false_iff in Q1).
  assert (S : forall j, j < N -> st g j = true).
  { intros j Hj. specialize (Q2 j Hj). destruct (bf g j) eqn:Eb.
    - destruct (s_bf g Sg j Hj Eb) as (A & _). rewrite L in A by exact Hj. discriminate.
    - rewrite (L 0 HN1) in Q2. destruct (st g j); [reflexivity|discriminate]. }
  assert (M : length (rM g) = N).
  { destruct (s_rM g Sg) as (ND & Hr). rewrite <- (seq_length N 0). apply Permutation_length. apply NoDup_Permutation; [exact ND|apply seq_NoDup|].
    intros x. rewrite Hr, in_seq. split; [lia|]. intros Hx. split; [lia|]. assert (Hj : x < N) by lia.
    specialize (Q3 x Hj). rewrite S in Q3 by exact Hj. now apply negb_false_iff in Q3. }
  assert (M' : length (rS g) = N).
  { destruct (s_rS g Sg) as (ND & Hr). rewrite <- (seq_length N 0). apply Permutation_length. apply NoDup_Permutation; [exact ND|apply seq_NoDup|].
    intros x. rewrite Hr, in_seq. split; [lia|]. intros Hx. split; [lia|]. assert (Hj : x < N) by lia.
    specialize (Q4 x Hj). rewrite S in Q4 by exact Hj. now apply negb_false_iff in Q4. }
  specialize (Q5 h Hh). specialize (Q6 h Hh). rewrite M, Nat.eqb_refl in Q5. rewrite M', Nat.eqb_refl in Q6.
  apply negb_false_iff in Q5, Q6. destruct (Ho h Hh) as (_ & _ & D & _ & Mi & De & Pr). rewrite S in D by exact Hh. rewrite Q5, Q6 in *. auto.
Qed.

(** Whenever a host has started preprocessing, it did so once, with all its data and the final statistics. *)
Lemma inv_started : forall g w, Inv g w -> forall h, h < N ->
  preps (hosts w h) <= 1
  /\ (preps (hosts w h) = 1 -> hdata (hosts w h) = Some (dat h) /\ minmax (hosts w h) = Some (mn, mx) /\ dev (hosts w h) = Some (gsd g, n)).
Proof.
  intros g w (Sg & Pm & Ho & Fp) h Hh. destruct (Ho h Hh) as (_ & _ & D & _ & Mi & De & Pr).
  destruct (md g h) eqn:Em, (sdn g h) eqn:Es; cbn [andb] in Pr; (split; [lia|]); intros E; try (rewrite E in Pr; discriminate).
  assert (Emc : mc g h = true). { destruct (s_rM g Sg). eapply all_in; eauto. eapply s_md; eauto. }
  destruct (s_mc g Sg h Hh Emc) as (Est & _). rewrite Est in D. auto.
Qed.
End Core.
