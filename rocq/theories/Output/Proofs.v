(** What the csv writer has written after a number of bytes. *)
From Coq Require Import List Arith Bool Ascii Lia.
From Verif.Base Require Import Res.
From Verif.Interface Require Import Model.
From Verif.Output Require Import Model.
Import ListNotations.

Lemma firstn_parts : forall A (l : list A) p r, p <= r -> firstn p l ++ firstn (r - p) (skipn p l) = firstn r l.
Proof.
  intros A l. induction l as [|x l IH]; intros p r H; [now rewrite skipn_nil, !firstn_nil|].
  destruct p as [|p]; [cbn; now rewrite Nat.sub_0_r|]. destruct r as [|r]; [lia|]. cbn. f_equal. apply IH. lia.
Qed.

Section Writer.
Variable cap : nat.
Hypothesis Hcap : 1 <= cap.

(** How many of [n] bytes have been passed on to the file before the writer is dropped. *)
Definition passed_on (n : nat) : nat := cap * ((n - 1) / cap).

Lemma passed_le : forall n, passed_on n <= n /\ n - passed_on n <= cap.
Proof.
  intros n. unfold passed_on. pose proof (Nat.div_mod (n - 1) cap ltac:(lia)). pose proof (Nat.mod_upper_bound (n - 1) cap ltac:(lia)). lia.
Qed.
Lemma passed_next : forall n, n - passed_on n < cap -> passed_on (S n) = passed_on n.
Proof.
  intros n H. destruct n as [|n]; [unfold passed_on; cbn [Nat.sub]; rewrite Nat.div_0_l by lia; lia|].
  unfold passed_on in *. replace (S (S n) - 1) with (S n) by lia. replace (S n - 1) with n in * by lia.
  pose proof (Nat.div_mod n cap ltac:(lia)) as D. pose proof (Nat.mod_upper_bound n cap ltac:(lia)). f_equal. symmetry. apply Nat.div_unique with (r := S (n mod cap)); lia.
Qed.
Lemma passed_flush : forall n, n - passed_on n = cap -> passed_on (S n) = n.
Proof.
  intros n H. destruct n as [|n]; [unfold passed_on in H; lia|].
  unfold passed_on in *. replace (S (S n) - 1) with (S n) by lia. replace (S n - 1) with n in * by lia.
  assert (E : S n = cap * (n / cap) + cap) by lia. assert (Ed : S n / cap = S (n / cap)).
  { symmetry. apply Nat.div_unique with (r := 0); [lia|]. nia. }
  rewrite Ed. nia.
Qed.

Lemma serialize_app : forall a b w, serialize cap w (a ++ b) = let (w', ok) := serialize cap w a in if ok then serialize cap w' b else (w', false).
Proof.
  induction a as [|x a IH]; intros b w; [reflexivity|]. cbn [app serialize]. destruct (put_byte cap w x) as (w', ok). destruct ok; [apply IH|reflexivity].
Qed.
Lemma records_bytes : forall ls w, write_records cap w ls = serialize cap w (concat ls).
Proof.
  induction ls as [|l ls IH]; intros w; [reflexivity|]. cbn [write_records concat]. rewrite serialize_app. destruct (serialize cap w l) as (w', ok). destruct ok; [apply IH|reflexivity].
Qed.

Definition fresh (r : nat) : writer := {| pending := []; out := {| content := []; room := r |} |}.
Lemma serialized : forall r bs,
  if passed_on (length bs) <=? r
  then serialize cap (fresh r) bs = ({| pending := skipn (passed_on (length bs)) bs; out := {| content := firstn (passed_on (length bs)) bs; room := r - passed_on (length bs) |} |}, true)
  else exists w, serialize cap (fresh r) bs = (w, false) /\ content (out w) = firstn r bs /\ room (out w) = 0.
Proof.
  intros r bs. induction bs as [|b bs IH] using rev_ind.
  { unfold passed_on. cbn [length Nat.sub]. rewrite Nat.div_0_l, Nat.mul_0_r by lia. cbn. now rewrite Nat.sub_0_r. }
  rewrite app_length. cbn [length]. rewrite Nat.add_1_r, serialize_app. pose proof (passed_le (length bs)) as (P1 & P2).
  destruct (Nat.leb_spec (passed_on (length bs)) r) as [Hle|Hgt].
  - rewrite IH. cbn [serialize]. unfold put_byte. cbn [pending out]. rewrite skipn_length.
    destruct (Nat.ltb_spec (length bs - passed_on (length bs)) cap) as [Hlt|Hfull].
    + rewrite (passed_next _ Hlt). assert (E : passed_on (length bs) <=? r = true) by now apply Nat.leb_le. rewrite E.
      rewrite skipn_app, firstn_app. replace (passed_on (length bs) - length bs) with 0 by lia. cbn [skipn firstn]. now rewrite app_nil_r.
    + assert (Ec : length bs - passed_on (length bs) = cap) by lia. rewrite (passed_flush _ Ec). unfold flush, write_all. cbn [out pending room content]. rewrite skipn_length.
      destruct (Nat.leb_spec (length bs - passed_on (length bs)) (r - passed_on (length bs))) as [Hok|Hno].
      * assert (E : length bs <=? r = true) by (apply Nat.leb_le; lia). rewrite E. cbn [out]. rewrite firstn_skipn, skipn_app, firstn_app, skipn_all, firstn_all, Nat.sub_diag. cbn [skipn firstn app].
        rewrite app_nil_r. replace (r - passed_on (length bs) - (length bs - passed_on (length bs))) with (r - length bs) by lia. reflexivity.
      * assert (E : length bs <=? r = false) by (apply Nat.leb_gt; lia). rewrite E. eexists. split; [reflexivity|]. cbn [out content room]. split; [|reflexivity].
        rewrite firstn_app. replace (r - length bs) with 0 by lia. cbn [firstn]. rewrite app_nil_r. now apply firstn_parts.
  - destruct IH as (w & E & Ew & Er). rewrite E. assert (G : passed_on (S (length bs)) <=? r = false).
    { apply Nat.leb_gt. destruct (Nat.lt_ge_cases (length bs - passed_on (length bs)) cap) as [H|H]; [rewrite (passed_next _ H); lia|]. rewrite passed_flush by lia. lia. }
    rewrite G. exists w. split; [reflexivity|]. split; [|exact Er]. rewrite Ew, firstn_app. replace (r - length bs) with 0 by lia. cbn [firstn]. now rewrite app_nil_r.
Qed.

Section Names.
Context {path : Type} (path_eqb : path -> path -> bool).
Hypothesis path_eqb_ok : forall a b, path_eqb a b = true <-> a = b.
Notation bytes ls := (length (concat ls)).

(** What a file holds and what is reported. *)
Lemma written : forall (d : disk path) p ls r, space d p = Some r ->
  write_file cap path_eqb d p ls = (store path_eqb d p (firstn r (concat ls)), passed_on (bytes ls) <=? r).
Proof.
  intros d p ls r E. unfold write_file. rewrite E, records_bytes. pose proof (serialized r (concat ls)) as S. change {| pending := []; out := {| content := []; room := r |} |} with (fresh r).
  pose proof (passed_le (bytes ls)) as (P1 & P2). destruct (Nat.leb_spec (passed_on (bytes ls)) r) as [Hle|Hgt].
  - rewrite S. unfold flush, write_all. cbn [pending out room content]. rewrite skipn_length.
    destruct (Nat.leb_spec (bytes ls - passed_on (bytes ls)) (r - passed_on (bytes ls))) as [H|H]; cbn [out content].
    + rewrite firstn_skipn. rewrite (firstn_all2 (n := r)) by lia. reflexivity.
    + rewrite firstn_parts by lia. reflexivity.
  - destruct S as (w & -> & Ew & Er). unfold flush, write_all. rewrite Er. destruct (length (pending w) <=? 0) eqn:El; cbn [out content].
    + apply Nat.leb_le in El. destruct (pending w); [|cbn in El; lia]. now rewrite app_nil_r, Ew.
    + cbn [firstn]. now rewrite app_nil_r, Ew.
Qed.
Lemma not_created : forall (d : disk path) p ls, space d p = None -> write_file cap path_eqb d p ls = (d, false).
Proof. intros d p ls E. unfold write_file. now rewrite E. Qed.
Lemma store_same : forall (d : disk path) p c, stored (store path_eqb d p c) p = Some c.
Proof. intros d p c. cbn. assert (E : path_eqb p p = true) by now apply path_eqb_ok. now rewrite E. Qed.
Lemma store_other : forall (d : disk path) p c q, q <> p -> stored (store path_eqb d p c) q = stored d q.
Proof. intros d p c q H. cbn. destruct (path_eqb q p) eqn:E; [apply path_eqb_ok in E; contradiction|reflexivity]. Qed.
End Names.
End Writer.
