From Coq Require Import Ascii String List Arith Bool Lia.
From Verif.Base Require Import Res ListX.
From Verif.Interface Require Import Model.
From Verif.Output Require Import Model Proofs.
Import ListNotations.
Local Open Scope nat_scope.
Local Open Scope list_scope.

(** [show] is the text of a number; one line per score, in order; one line of texts separated by commas per row of the table. *)
Definition all_scores {T} (show : T -> list ascii) (newline : ascii) (score : list T) : list ascii := flat_map (fun x => show x ++ [newline]) score.
Fixpoint separated {T} (show : T -> list ascii) (comma : ascii) (xs : list T) : list ascii :=
  match xs with [] => [] | [x] => show x | x :: r => show x ++ comma :: separated show comma r end.
Definition all_rows {T} (show : T -> list ascii) (newline comma : ascii) (rows : list (list T)) : list ascii := flat_map (fun r => separated show comma r ++ [newline]) rows.

Lemma all_scores_eq : forall T (show : T -> list ascii) nl score, concat (map (score_line show nl) score) = all_scores show nl score.
Proof. intros. unfold all_scores. now rewrite flat_map_concat_map. Qed.
Lemma all_rows_eq : forall T (show : T -> list ascii) nl c rows, concat (map (table_line show nl c) rows) = all_rows show nl c rows.
Proof.
  intros. unfold all_rows. rewrite flat_map_concat_map. f_equal. apply map_ext. intros r. unfold table_line. f_equal. induction r as [|x r IH]; [reflexivity|].
  cbn [separated fields]. rewrite IH. reflexivity.
Qed.

Section C95.
Context {path T : Type} (path_eqb : path -> path -> bool) (path_eqb_ok : forall a b, path_eqb a b = true <-> a = b)
  (show : T -> list ascii) (newline comma : ascii) (capacity : nat) (Hcap : 1 <= capacity).
Notation finish := (finish capacity path_eqb show newline comma).

(** C95: if the file can be created and takes all scores, it holds one line per score, in order, no other file is touched, a caller who waits gets the same scores, and the
    process ends. *)
Theorem C95_score_file : forall (o : options path) d score queries rows p r,
  explain o = false -> score_path o = Some p -> space d p = Some r -> length (all_scores show newline score) <= r ->
  let e := finish o d score queries rows in
  stored (on_disk e) p = Some (all_scores show newline score) /\ (forall q, q <> p -> stored (on_disk e) q = stored d q)
  /\ answer e = (if has_sink o then Some score else None) /\ stopped e = true.
Proof.
  intros o d score queries rows p r Ho Hp Hs Hr. unfold Model.finish. rewrite Hp, (written capacity Hcap path_eqb d p _ r Hs), all_scores_eq, Ho.
  pose proof (passed_le capacity Hcap (length (all_scores show newline score))) as (P & _).
  assert (E : passed_on capacity (length (all_scores show newline score)) <=? r = true) by (apply Nat.leb_le; lia). rewrite E. cbn [negb].
  rewrite firstn_all2 by exact Hr. unfold done, scoring_done. destruct (has_sink o); cbn [on_disk answer stopped]; ssplit; auto; try (apply store_same; exact path_eqb_ok); intros q Hq; now apply store_other.
Qed.

(** Without a file name nothing is written. *)
Theorem C95_no_file : forall (o : options path) d score queries rows, explain o = false -> score_path o = None ->
  let e := finish o d score queries rows in
  on_disk e = d /\ answer e = (if has_sink o then Some score else None) /\ stopped e = true.
Proof. intros o d score queries rows Ho Hp. unfold Model.finish. rewrite Hp, Ho. cbn. unfold done, scoring_done. destruct (has_sink o); ssplit; reflexivity. Qed.

(** A file that cannot be created: nobody gets an answer. *)
Theorem C95_not_creatable : forall (o : options path) d score queries rows p, score_path o = Some p -> space d p = None ->
  let e := finish o d score queries rows in on_disk e = d /\ answer e = None /\ stopped e = false.
Proof. intros o d score queries rows p Hp Hs. unfold Model.finish. rewrite Hp, not_created by exact Hs. cbn. ssplit; reflexivity. Qed.

(** Exactly when an incomplete file is reported: if what is missing is not only the last buffer. *)
Theorem C95_reported_exactly : forall (o : options path) d score queries rows p r,
  explain o = false -> score_path o = Some p -> space d p = Some r ->
  let e := finish o d score queries rows in
  stored (on_disk e) p = Some (firstn r (all_scores show newline score))
  /\ (stopped e = true <-> capacity * ((length (all_scores show newline score) - 1) / capacity) <= r)
  /\ (stopped e = false -> answer e = None).
Proof.
  intros o d score queries rows p r Ho Hp Hs. unfold Model.finish. rewrite Hp, (written capacity Hcap path_eqb d p _ r Hs), all_scores_eq, Ho. unfold passed_on.
  destruct (Nat.leb_spec (capacity * ((length (all_scores show newline score) - 1) / capacity)) r) as [H|H]; cbn [negb].
  - unfold done, scoring_done. destruct (has_sink o); cbn [on_disk answer stopped]; (split; [apply store_same; exact path_eqb_ok|]); (split; [split; auto|discriminate]).
  - unfold aborted. cbn [on_disk answer stopped]. (split; [apply store_same; exact path_eqb_ok|]); (split; [split; [discriminate|lia]|reflexivity]).
Qed.

(** C95 is false as stated: whenever the scores fit into the buffer of the csv writer and not onto the disk, the process ends as if everything was written. *)
Theorem C95_success_means_complete_refuted : forall (o : options path) d score queries rows p r,
  explain o = false -> score_path o = Some p -> space d p = Some r -> r < length (all_scores show newline score) <= capacity ->
  let e := finish o d score queries rows in
  stopped e = true /\ answer e = (if has_sink o then Some score else None)
  /\ exists c, stored (on_disk e) p = Some c /\ length c = r /\ c <> all_scores show newline score.
Proof.
  intros o d score queries rows p r Ho Hp Hs (H1 & H2). unfold Model.finish. rewrite Hp, (written capacity Hcap path_eqb d p _ r Hs), all_scores_eq, Ho.
  assert (E : passed_on capacity (length (all_scores show newline score)) = 0) by (unfold passed_on; rewrite Nat.div_small by lia; lia). rewrite E. cbn [Nat.leb negb].
  assert (L : length (firstn r (all_scores show newline score)) = r) by (rewrite firstn_length; lia).
  unfold done, scoring_done. destruct (has_sink o); cbn [on_disk answer stopped]; ssplit; auto; exists (firstn r (all_scores show newline score)); split; try (apply store_same; exact path_eqb_ok); split; auto; intros C; rewrite C in L; lia.
Qed.

(** With the table of contributions: the score file is complete whatever becomes of the table; the answer comes after both files, and not without them. *)
Theorem C95_with_table : forall (o : options path) d score queries rows p r,
  explain o = true -> score_path o = Some p -> p <> table_path o -> space d p = Some r -> length (all_scores show newline score) <= r ->
  let e := finish o d score queries rows in
  stored (on_disk e) p = Some (all_scores show newline score)
  /\ (forall q, q <> p -> q <> table_path o -> stored (on_disk e) q = stored d q)
  /\ (forall qs rs t, queries = Ok qs -> rows qs = Ok rs -> space d (table_path o) = Some t -> length (all_rows show newline comma rs) <= t ->
       stored (on_disk e) (table_path o) = Some (all_rows show newline comma rs) /\ answer e = (if has_sink o then Some score else None) /\ stopped e = true)
  /\ ((exists x, queries = Panic x) \/ (exists qs x, queries = Ok qs /\ rows qs = Panic x) \/ space d (table_path o) = None -> answer e = None /\ stopped e = false).
Proof.
  intros o d score queries rows p r Ho Hp Hne Hs Hr. unfold Model.finish. rewrite Hp, (written capacity Hcap path_eqb d p _ r Hs), all_scores_eq, Ho.
  pose proof (passed_le capacity Hcap (length (all_scores show newline score))) as (P & _).
  assert (E : passed_on capacity (length (all_scores show newline score)) <=? r = true) by (apply Nat.leb_le; lia). rewrite E. cbn [negb].
  rewrite firstn_all2 by exact Hr. set (d1 := store path_eqb d p (all_scores show newline score)).
  assert (S1 : stored d1 p = Some (all_scores show newline score)) by (apply store_same; exact path_eqb_ok).
  assert (S2 : forall q, q <> p -> stored d1 q = stored d q) by (intros q Hq; now apply store_other).
  assert (Hsp : space d1 (table_path o) = space d (table_path o)) by reflexivity.
  assert (Hdone : forall dd, on_disk (done o dd score) = dd /\ answer (done o dd score) = (if has_sink o then Some score else None) /\ stopped (done o dd score) = true).
  { intros dd. unfold done, scoring_done. destruct (has_sink o); ssplit; reflexivity. }
  unfold write_table. rewrite Hsp. destruct queries as [qs|x].
  2:{ unfold aborted. cbn [on_disk answer stopped]. ssplit; auto. intros qs rs t C. discriminate. }
  destruct (space d (table_path o)) as [t|] eqn:Et.
  2:{ unfold aborted. cbn [on_disk answer stopped]. ssplit; auto. intros qs' rs t _ _ C. discriminate. }
  destruct (rows qs) as [rs|x] eqn:Er.
  2:{ unfold aborted. cbn [on_disk answer stopped]. ssplit; auto.
    - rewrite store_other; auto.
    - intros q Hq Hq2. rewrite store_other by auto. now apply S2.
    - intros qs' rs t' C1 C2. injection C1 as <-. congruence. }
  rewrite (written capacity Hcap path_eqb d1 (table_path o) _ t) by exact Hsp. rewrite all_rows_eq. set (d2 := store path_eqb d1 (table_path o) (firstn t (all_rows show newline comma rs))).
  assert (Q1 : stored d2 p = Some (all_scores show newline score)) by (unfold d2; rewrite store_other; auto).
  assert (Q2 : forall q, q <> p -> q <> table_path o -> stored d2 q = stored d q) by (intros q Hq Hq2; unfold d2; rewrite store_other by auto; now apply S2).
  assert (No : (exists x, Ok qs = Panic x) \/ (exists qs' x, Ok qs = Ok qs' /\ rows qs' = Panic x) \/ Some t = None -> False).
  { intros [(x & C)|[(qs' & x & C1 & C2)|C]]; try discriminate. injection C1 as <-. congruence. }
  destruct (passed_on capacity (length (all_rows show newline comma rs)) <=? t) eqn:El.
  - destruct (Hdone d2) as (D1 & D2 & D3). rewrite D1, D2, D3. ssplit; auto; [|intros C; destruct (No C)].
    intros qs' rs' t' C1 C2 C3 Hl. injection C1 as <-. injection C3 as <-. rewrite Er in C2. injection C2 as <-. ssplit; auto. unfold d2. rewrite store_same by exact path_eqb_ok. now rewrite firstn_all2.
  - unfold aborted. cbn [on_disk answer stopped]. ssplit; auto. intros qs' rs' t' C1 C2 C3 Hl. exfalso. injection C1 as <-. injection C3 as <-. rewrite Er in C2. injection C2 as <-.
    pose proof (passed_le capacity Hcap (length (all_rows show newline comma rs))) as (P' & _). apply Nat.leb_gt in El. lia.
Qed.

(** C95 is false as stated in a second way: if both files have the same name, the scores are gone although the process ends as usual. *)
Theorem C95_same_name_refuted : forall (o : options path) d score qs rs rows p r,
  explain o = true -> score_path o = Some p -> table_path o = p -> space d p = Some r -> length (all_scores show newline score) <= r ->
  rows qs = Ok rs -> length (all_rows show newline comma rs) <= r ->
  let e := finish o d score (Ok qs) rows in
  stored (on_disk e) p = Some (all_rows show newline comma rs) /\ stopped e = true.
Proof.
  intros o d score qs rs rows p r Ho Hp Ht Hs Hr Er Hr2. unfold Model.finish. rewrite Hp, (written capacity Hcap path_eqb d p _ r Hs), all_scores_eq, Ho.
  pose proof (passed_le capacity Hcap (length (all_scores show newline score))) as (P & _).
  assert (E : passed_on capacity (length (all_scores show newline score)) <=? r = true) by (apply Nat.leb_le; lia). rewrite E. cbn [negb].
  unfold write_table. rewrite Ht. cbn [store space]. rewrite Hs, Er. rewrite (written capacity Hcap path_eqb _ p _ r) by exact Hs. rewrite all_rows_eq.
  pose proof (passed_le capacity Hcap (length (all_rows show newline comma rs))) as (P2 & _).
  assert (E2 : passed_on capacity (length (all_rows show newline comma rs)) <=? r = true) by (apply Nat.leb_le; lia). rewrite E2.
  unfold done, scoring_done. destruct (has_sink o); cbn [on_disk stopped]; (split; [|reflexivity]); rewrite store_same by exact path_eqb_ok; now rewrite firstn_all2.
Qed.
End C95.
Print Assumptions C95_score_file.
Print Assumptions C95_no_file.
Print Assumptions C95_not_creatable.
Print Assumptions C95_reported_exactly.
Print Assumptions C95_success_means_complete_refuted.
Print Assumptions C95_with_table.
Print Assumptions C95_same_name_refuted.

(** Numbers 0 to 9 as scores, a buffer of four bytes: six lines on a disk with room for all, for ten bytes (the last buffer is lost without notice) and for seven (reported). *)
Definition digit (n : nat) : list ascii := [ascii_of_nat (48 + n)].
Definition eol : ascii := ascii_of_nat 10.
Definition csv_comma : ascii := ascii_of_nat 44.
Definition disk_with (r : nat) : disk string := {| stored := fun _ => None; space := fun p => if String.eqb p "scores.csv"%string then Some r else Some 100 |}.
Definition to_file : options string := {| score_path := Some "scores.csv"%string; explain := false; table_path := "table.csv"%string; has_sink := true |}.
Definition six : list nat := [3; 1; 4; 1; 5; 9].
Definition ends r := Model.finish 4 String.eqb digit eol csv_comma to_file (disk_with r) six (Ok [[]]) Ok.
Example C95_cases : (exists c, stored (on_disk (ends 12)) "scores.csv"%string = Some c /\ string_of_list_ascii (filter (fun x => negb (Ascii.eqb x eol)) c) = "314159"%string)
  /\ stopped (ends 12) = true /\ answer (ends 12) = Some six
  /\ stopped (ends 10) = true /\ option_map (@length ascii) (stored (on_disk (ends 10)) "scores.csv"%string) = Some 10
  /\ stopped (ends 7) = false /\ answer (ends 7) = None.
Proof. ssplit; try (vm_compute; reflexivity). eexists. split; vm_compute; reflexivity. Qed.
(** Two rows of a table after the scores; and the same name for both. *)
Definition with_table (t : string) : options string := {| score_path := Some "scores.csv"%string; explain := true; table_path := t; has_sink := true |}.
Definition ends_table t := Model.finish 4 String.eqb digit eol csv_comma (with_table t) (disk_with 12) six (Ok [[1; 2]; [3; 4]]) Ok.
Example C95_table_cases :
  option_map (@length ascii) (stored (on_disk (ends_table "table.csv"%string)) "scores.csv"%string) = Some 12
  /\ option_map string_of_list_ascii (stored (on_disk (ends_table "scores.csv"%string)) "scores.csv"%string) = Some (String "1" (String "," (String "2" (String eol (String "3" (String "," (String "4" (String eol EmptyString))))))))
  /\ answer (ends_table "scores.csv"%string) = Some six.
Proof. ssplit; vm_compute; reflexivity. Qed.
