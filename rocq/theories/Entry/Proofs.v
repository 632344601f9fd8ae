(** Proofs about the start of an analysis. *)
From Coq Require Import List Arith ZArith Reals Bool Lia.
From Verif.Base Require Import Res Params ListX.
From Verif.Topology Require Import Model.
From Verif.Reader Require Import Model Spec Proofs.
From Verif.Manager Require Import Collect.
From Verif.Entry Require Import Model.
Import ListNotations.

Section Entry.
Context {addr path cell : Type}.
Variables (parse : cell -> option R) (fmax : R) (p : params) (roles : nat -> role addr path).
Variables (peers : nat -> cluster_nodes nat) (width : nat) (records : list (list cell)).
Notation handle_as := (handle_as parse fmax p roles peers width records).
Notation step_as := (step_as parse fmax p roles peers width records).
Notation runs_as := (runs_as parse fmax p roles peers width records).
Notation aborts_as := (aborts_as parse fmax p roles peers width records).

(** Nobody has a file. *)
Definition pending (l : list (parcel (cell := cell))) : nat := fold_right (fun (x : parcel (cell := cell)) n => (if fst (fst x) then 1 else 2) + n) 0 l.
Definition idle (w : world cell) : Prop :=
  Forall (fun x => snd x = DLoad) (parcels w) /\ forall h, buffered (hosts w h) = [] /\ hdata (hosts w h) = None /\ preps (hosts w h) = 0.

Lemma pending_app : forall a b, pending (a ++ b) = pending a + pending b.
Proof. induction a as [|x a IH]; intros b; [reflexivity|]. unfold pending in *. cbn. rewrite IH. lia. Qed.

Lemma pending_cons : forall b h m l, pending ((b, h, m) :: l) = (if b then 1 else 2) + pending l.
Proof. reflexivity. Qed.

Lemma idle_load : forall h (s : host cell), 1 <= pattern_length p -> reads_file (roles h) = false -> buffered s = [] ->
  on_load p roles peers width records h s = Ok ({| table := peers h; buffered := []; hdata := hdata s; mcalc := mcalc s; scalc := scalc s; minmax := minmax s; dev := dev s; preps := preps s |}, []).
Proof.
  intros h s Hp Hr Hb. unfold on_load. rewrite Hr, Hb. unfold usub. destruct (Nat.ltb_spec (pattern_length p) 1); [lia|]. reflexivity.
Qed.

Lemma idle_step : forall w w', 1 <= pattern_length p -> (forall h m, In (true, h, m) (parcels w) -> reads_file (roles h) = false) -> idle w -> step_as w w' -> idle w' /\ pending (parcels w') < pending (parcels w).
Proof.
  intros w w' Hp Hr (HF & HH) Hs. destruct Hs as [w before h m after E|w before h m after s' out (E & Hb) Eh].
  - rewrite E in HF. apply Forall_app in HF. destruct HF as (F1 & F2). inversion F2 as [|x l F3 F4 Ex]; subst. split.
    + split; [cbn; rewrite !Forall_app; auto|exact HH].
    + rewrite E. cbn [parcels]. rewrite !pending_app, !pending_cons. change (pending []) with 0. lia.
  - specialize (Hr h m). rewrite E in HF, Hr. specialize (Hr ltac:(apply in_app_iff; right; now left)). apply Forall_app in HF. destruct HF as (F1 & F2). inversion F2 as [|x l F3 F4 Ex]; subst.
    cbn in F3. subst m. cbn [Model.handle_as] in Eh. destruct (HH h) as (B1 & B2 & B3). rewrite idle_load in Eh by assumption. injection Eh as <- <-. split.
    + split; [cbn; rewrite app_nil_r, Forall_app; auto|]. intros h'. cbn [hosts]. unfold set_host. destruct (h' =? h); [cbn; auto|apply HH].
    + rewrite E. cbn [parcels]. rewrite app_nil_r, !pending_app, pending_cons. lia.
Qed.
Lemma idle_no_abort : forall w, 1 <= pattern_length p -> (forall h m, In (true, h, m) (parcels w) -> reads_file (roles h) = false) -> idle w -> ~ aborts_as w.
Proof.
  intros w Hp Hr (HF & HH) (before & h & m & after & q & (E & _) & Eh). specialize (Hr h m). rewrite E in HF, Hr. specialize (Hr ltac:(apply in_app_iff; right; now left)).
  apply Forall_app in HF. destruct HF as (_ & F2). inversion F2 as [|x l F3 F4 Ex]; subst. cbn in F3. subst m. cbn [Model.handle_as] in Eh. rewrite idle_load in Eh; [discriminate|assumption|assumption|apply HH].
Qed.

Definition within (N : nat) (w : world cell) : Prop := Forall (fun x : parcel (cell := cell) => snd (fst x) < N) (parcels w).
Lemma within_step : forall N w w', 1 <= pattern_length p -> (forall h, h < N -> reads_file (roles h) = false) -> idle w -> within N w -> step_as w w' -> within N w'.
Proof.
  intros N w w' Hp Hr HI HW Hs. unfold within in *. destruct Hs as [w before h m after E|w before h m after s' out (E & Hb) Eh]; rewrite E in HW; apply Forall_app in HW; destruct HW as (W1 & W2);
    inversion W2 as [|x l W3 W4 Ex]; subst; cbn [parcels]; rewrite !Forall_app; (split; [exact W1|split; [exact W4|]]).
  - repeat constructor. exact W3.
  - destruct HI as (HF & HH). rewrite E in HF. apply Forall_app in HF. destruct HF as (_ & F2). inversion F2 as [|x l F3 F4 Ex]; subst. cbn in F3. subst m. cbn [Model.handle_as] in Eh.
    rewrite idle_load in Eh; [injection Eh as <- <-; constructor|assumption|apply Hr; exact W3|apply HH].
Qed.

Lemma nobody_reads : forall N w, 1 <= pattern_length p -> (forall h, h < N -> reads_file (roles h) = false) -> idle w -> within N w ->
  forall k s, runs_as k w s -> ~ aborts_as s /\ k + pending (parcels s) <= pending (parcels w) /\ forall h, hdata (hosts s h) = None /\ preps (hosts s h) = 0.
Proof.
  intros N w Hp Hr HI HW k s Hrun. assert (G : idle s /\ within N s /\ k + pending (parcels s) <= pending (parcels w)).
  { induction Hrun as [w|k w w' w'' Hrun IH Hs]; [auto|]. destruct (IH HI HW) as (I1 & I2 & I3).
    assert (Hin : forall h m, In (true, h, m) (parcels w') -> reads_file (roles h) = false).
    { intros h m Hi. apply Hr. unfold within in I2. rewrite Forall_forall in I2. exact (I2 _ Hi). }
    destruct (idle_step w' w'' Hp Hin I1 Hs) as (J1 & J2). split; [exact J1|]. split; [exact (within_step N w' w'' Hp Hr I1 I2 Hs)|lia]. }
  destruct G as (I1 & I2 & I3). split; [|split; [exact I3|]].
  - apply idle_no_abort; auto. intros h m Hi. apply Hr. unfold within in I2. rewrite Forall_forall in I2. exact (I2 _ Hi).
  - intros h. destruct I1 as (_ & H). destruct (H h) as (_ & A & B). auto.
Qed.

(** The handlers by roles are those of Manager/Collect.v if the reader is host 0. *)
Lemma handle_as_eq : forall h s m, reads_file (roles h) = (h =? 0) -> handle_as h s m = handle parse fmax p peers width records h s m.
Proof. intros h s m Hr. destruct m; try reflexivity. cbn [Model.handle_as]. unfold on_load. rewrite Hr. reflexivity. Qed.
Lemma step_as_iff : forall w w', (forall h, reads_file (roles h) = (h =? 0)) -> step_as w w' <-> step parse fmax p peers width records w w'.
Proof.
  intros w w' Hr. split; intros H.
  - destruct H as [w before h m after E|w before h m after s' out E Eh]; [now constructor|]. rewrite handle_as_eq in Eh by auto. econstructor; eauto.
  - destruct H as [w before h m after E|w before h m after s' out E Eh]; [now constructor|]. rewrite <- handle_as_eq in Eh by auto. econstructor; eauto.
Qed.
Lemma runs_as_iff : forall k w w', (forall h, reads_file (roles h) = (h =? 0)) -> runs_as k w w' <-> runs parse fmax p peers width records k w w'.
Proof.
  intros k w w' Hr. split; intros H.
  - induction H as [|k w w' w'' H IH Hs]; [constructor|]. econstructor; [exact IH|now apply step_as_iff].
  - induction H as [|k w w' w'' H IH Hs]; [constructor|]. econstructor; [exact IH|now apply step_as_iff].
Qed.
Lemma aborts_as_iff : forall w, (forall h, reads_file (roles h) = (h =? 0)) -> aborts_as w <-> aborts parse fmax p peers width records w.
Proof.
  intros w Hr. split; intros (before & h & m & after & q & H1 & H2); exists before, h, m, after, q; (split; [exact H1|]); [rewrite handle_as_eq in H2 by auto|rewrite handle_as_eq by auto]; exact H2.
Qed.
End Entry.
