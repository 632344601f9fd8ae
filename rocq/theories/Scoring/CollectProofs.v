From Coq Require Import List Arith Bool Lia Permutation.
From Verif.Base Require Import Res Assoc ListX.
From Verif.Protocol Require Import Model.
From Verif.Segmentation Require Import Proofs.
From Verif.Scoring Require Import Model Spec.
Import ListNotations.

Lemma iter_sent : forall k t s r, Nat.iter k h_sent_one {| h_total := t; h_sent := s; h_received := r |} = {| h_total := t; h_sent := k + s; h_received := r |}.
Proof. induction k as [|k IH]; intros; [reflexivity|]. change (Nat.iter (S k) h_sent_one ?x) with (h_sent_one (Nat.iter k h_sent_one x)). rewrite IH. reflexivity. Qed.

Lemma nodup_right : forall A (l m : list A), NoDup (l ++ m) -> NoDup m.
Proof. induction l as [|x l IH]; intros m H; [exact H|]. apply IH. now inversion H. Qed.

Lemma last_nth : forall A (l : list A) d, l <> [] -> nth_error l (length l - 1) = Some (last l d).
Proof.
  intros A l d H. destruct (exists_last H) as (l' & x & ->). rewrite app_length, last_last. cbn [length]. replace (length l' + 1 - 1) with (length l') by lia.
  rewrite nth_error_app2 by lia. now rewrite Nat.sub_diag.
Qed.

Section Carry.
Context {F : Type} (zero : F) (is_zero : F -> bool) (value : list nat -> F).
Hypothesis Hzero : is_zero zero = true.
Notation carry := (carry value).

Definition head_empty (ws : list (list nat)) : bool := match ws with [] :: _ => true | _ => false end.
(** After a window without edges there are no more edges. *)
Definition empty_tail (ws : list (list nat)) : Prop := forall a b, ws = a ++ [] :: b -> forall w, In w b -> w = [].

Lemma carry_length : forall ws v, length (carry v ws) = length ws.
Proof. induction ws as [|w ws IH]; intros v; [reflexivity|]. cbn [Spec.carry length]. now rewrite IH. Qed.
Lemma carry_app : forall a b v, carry v (a ++ b) = carry v a ++ carry (last (carry v a) v) b.
Proof.
  induction a as [|w a IH]; intros b v; [reflexivity|]. cbn [app Spec.carry]. f_equal. rewrite IH. f_equal. set (x := match w with [] => v | _ => value w end).
  destruct a as [|w' a]; [reflexivity|]. f_equal. cbn [Spec.carry]. remember (match w' with [] => x | _ => value w' end) as y. clear.
  change (last (y :: carry y a) x = last (y :: carry y a) v). revert y. generalize (carry). intros c y. generalize (c y a). intros l. revert y. induction l as [|z l IH]; intros y; [reflexivity|]. cbn. apply (IH z).
Qed.
Lemma carry_nonempty : forall ws v v', head_empty ws = false -> carry v ws = carry v' ws.
Proof. intros [|[|x w] ws] v v' H; [reflexivity|discriminate|reflexivity]. Qed.
Lemma carry_empty : forall ws v, (forall w, In w ws -> w = []) -> carry v ws = repeat v (length ws).
Proof. induction ws as [|w ws IH]; intros v H; [reflexivity|]. cbn [Spec.carry length repeat]. rewrite (H w) by now left. f_equal. apply IH. intros x Hx. apply H. now right. Qed.
Lemma empty_tail_app : forall a b, empty_tail (a ++ b) -> empty_tail b.
Proof. intros a b H c d E w Hw. apply (H (a ++ c) d); [|exact Hw]. now rewrite E, app_assoc. Qed.
Lemma empty_tail_prefix : forall a b, empty_tail (a ++ b) -> empty_tail a.
Proof. intros a b H c d E w Hw. apply (H c (d ++ b)); [|apply in_or_app; now left]. now rewrite E, <- app_assoc. Qed.
Lemma head_empty_all : forall ws, empty_tail ws -> head_empty ws = true -> forall w, In w ws -> w = [].
Proof. intros [|[|x w] ws] H E; try discriminate. intros w [<-|Hw]; [reflexivity|]. now apply (H [] ws). Qed.
Lemma fill_up_zeros : forall n v, fill_up is_zero v (repeat zero n) = repeat v n.
Proof. induction n as [|n IH]; intros v; [reflexivity|]. cbn [repeat fill_up]. rewrite Hzero. f_equal. apply IH. Qed.

(** Joining a chunk to what was collected so far. *)
Lemma join_chunk : forall a b, empty_tail (a ++ b) -> a <> [] ->
  carry zero (a ++ b) = carry zero a ++ (if head_empty b then fill_up is_zero (last (carry zero a) zero) (carry zero b) else carry zero b).
Proof.
  intros a b H Ha. rewrite carry_app. f_equal. destruct (head_empty b) eqn:E.
  - pose proof (head_empty_all b (empty_tail_app _ _ H) E) as Hb. rewrite !(carry_empty b) by exact Hb. now rewrite fill_up_zeros.
  - now apply carry_nonempty.
Qed.

Variable g : graph.
Variable ws : list (list nat).
Notation L := (length ws).
Hypothesis Hws : forall i w, nth_error ws i = Some w -> summands g i = Ok w.
Hypothesis Htail : empty_tail ws.

Lemma score_steps : forall k s, s + k <= L -> foldM (score_step zero value g) (seq s k) ([], false) = Ok (carry zero (slice s (s + k) ws), head_empty (slice s (s + k) ws)).
Proof.
  induction k as [|k IH]; intros s Hs; [now rewrite Nat.add_0_r, slice_nil|]. rewrite seq_S, foldM_app, IH by lia. cbn [bind foldM].
  destruct (nth_error ws (s + k)) as [w|] eqn:E; [|apply nth_error_None in E; lia]. cbn [score_step]. rewrite (Hws _ _ E). cbn [bind].
  replace (s + S k) with (S (s + k)) by lia. rewrite (slice_snoc _ ws s (s + k) w) by (lia || exact E). rewrite carry_app. cbn [Spec.carry].
  set (a := slice s (s + k) ws). assert (La : length a = k) by (unfold a; rewrite slice_length; lia).
  assert (HE : k = 0 -> a = []) by (intros ->; now apply length_zero_iff_nil). destruct w as [|x w].
  - destruct a as [|w0 a'] eqn:Ea.
    + cbn [Spec.carry length nth_error Nat.sub bind app]. reflexivity.
    + rewrite (last_nth _ (carry zero (w0 :: a')) zero) by discriminate. reflexivity.
  - cbn [bind]. f_equal. f_equal. destruct a as [|[|] ?]; reflexivity.
Qed.
Definition chunk_response (a b : nat) : response F := {| r_start := a; r_scores := carry zero (slice a b ws); r_first_empty := head_empty (slice a b ws) |}.
Lemma respond_spec : forall s k, s + k <= L -> respond zero value g (s, k) = Ok (chunk_response s (s + k)).
Proof. intros s k H. unfold respond. rewrite score_steps by exact H. reflexivity. Qed.

(** ** The chunks *)
Variable T : nat.
Hypothesis HT : 1 <= T <= L.
Notation per := (L / T).
Definition bound (i : nat) : nat := if i <? T then i * per else L.
Lemma per_pos : 1 <= per.
Proof. apply Nat.div_str_pos. lia. Qed.
Lemma bound_lt : forall i, i < T -> bound i = i * per.
Proof. intros i H. unfold bound. now rewrite (proj2 (Nat.ltb_lt i T) H). Qed.
Lemma bound_T : bound T = L.
Proof. unfold bound. now rewrite Nat.ltb_irrefl. Qed.
Lemma T_per : T * per <= L.
Proof. apply Nat.mul_div_le. lia. Qed.
Lemma bound_S : forall i, i < T -> bound i < bound (S i) <= L.
Proof.
  intros i H. pose proof per_pos. pose proof T_per. rewrite bound_lt by exact H. unfold bound. destruct (Nat.ltb_spec (S i) T); nia.
Qed.
Lemma bound_inj : forall i j, i < T -> j < T -> bound i = bound j -> i = j.
Proof. intros i j Hi Hj E. rewrite !bound_lt in E by assumption. pose proof per_pos. nia. Qed.
Lemma bound_le : forall i, i <= T -> bound i <= L.
Proof. intros i H. destruct (Nat.eq_dec i T) as [->|]; [rewrite bound_T; lia|]. pose proof (bound_S i ltac:(lia)). lia. Qed.

Definition resp (i : nat) : response F := chunk_response (bound i) (bound (S i)).
Lemma all_responses : (let! is := instructions T L in mapM (respond zero value g) is) = Ok (map resp (seq 0 T)).
Proof.
  unfold instructions. rewrite udiv_ok, umod_ok by lia. cbn [bind].
  assert (G : forall l, (forall i, In i l -> i < T) -> mapM (respond zero value g) (map (fun i => (i * per, per + (if i =? T - 1 then L mod T else 0))) l) = Ok (map resp l)).
  { induction l as [|i l IH]; intros Hl; [reflexivity|]. cbn [map mapM]. assert (Hi : i < T) by (apply Hl; now left).
    assert (E : i * per + (per + (if i =? T - 1 then L mod T else 0)) = bound (S i)).
    { pose proof (Nat.div_mod L T ltac:(lia)). unfold bound. destruct (Nat.eqb_spec i (T - 1)); destruct (Nat.ltb_spec (S i) T); try lia; nia. }
    rewrite respond_spec; [|rewrite E; apply bound_le; lia]. cbn [bind]. rewrite IH by (intros; apply Hl; now right). cbn [bind]. rewrite E. unfold resp. now rewrite (bound_lt i Hi). }
  apply G. intros i Hi. apply in_seq in Hi. lia.
Qed.

Definition cinv (j : nat) (w : scoring_world F) : Prop :=
  exists ns bs, flying w = map resp ns /\ c_buffer (collecting w) = map (fun i => (bound i, resp i)) bs /\ Permutation (ns ++ bs) (seq j (T - j)) /\ ~ In j bs /\ j <= T
    /\ c_pool (collecting w) = {| h_total := T; h_sent := T - j; h_received := j |} /\ c_first_empty (collecting w) = (0 <? j) && head_empty ws
    /\ (if j <? T then c_scores (collecting w) = carry zero (slice 0 (bound j) ws) /\ c_delivered (collecting w) = []
        else c_scores (collecting w) = [] /\ c_delivered (collecting w) = [(carry zero ws, head_empty ws)]).

Lemma slice_join : forall j, j < T -> slice 0 (bound j) ws ++ slice (bound j) (bound (S j)) ws = slice 0 (bound (S j)) ws.
Proof. intros j H. apply slice_app; [lia|]. pose proof (bound_S j H). lia. Qed.
Lemma prefix_tail : forall b, b <= L -> empty_tail (slice 0 b ws).
Proof. intros b Hb. apply (empty_tail_prefix _ (slice b L ws)). rewrite slice_app by lia. now rewrite slice_full. Qed.
Lemma prefix_head : forall b, 0 < b -> head_empty (slice 0 b ws) = head_empty ws.
Proof. intros [|b] H; [lia|]. unfold slice. cbn [skipn Nat.sub]. now destruct ws as [|[|] ?]. Qed.

Lemma lookup_resp : forall bs i, (forall x, In x bs -> x < T) -> i < T -> 
  lookup Nat.eqb (bound i) (map (fun i => (bound i, resp i)) bs) = if existsb (Nat.eqb i) bs then Some (resp i) else None.
Proof.
  intros bs i Hb Hi. induction bs as [|x bs IH]; [reflexivity|]. cbn [map lookup existsb]. assert (Hx : x < T) by (apply Hb; now left).
  destruct (Nat.eqb_spec i x) as [->|Hne]; [now rewrite Nat.eqb_refl|]. replace (bound i =? bound x) with false; [apply IH; intros; apply Hb; now right|].
  symmetry. apply Nat.eqb_neq. intros E. apply Hne. now apply bound_inj.
Qed.
Lemma remove_resp : forall bs i, (forall x, In x bs -> x < T) -> i < T -> In i bs ->
  exists bs', remove_key Nat.eqb (bound i) (map (fun i => (bound i, resp i)) bs) = map (fun i => (bound i, resp i)) bs' /\ Permutation bs (i :: bs').
Proof.
  intros bs i Hb Hi H. induction bs as [|x bs IH]; [easy|]. cbn [map remove_key]. assert (Hx : x < T) by (apply Hb; now left).
  destruct (Nat.eq_dec i x) as [->|Hne]; [rewrite Nat.eqb_refl; exists bs; now split|].
  replace (bound i =? bound x) with false by (symmetry; apply Nat.eqb_neq; intros E; apply Hne; now apply bound_inj).
  destruct IH as (bs' & E & P); [intros; apply Hb; now right|destruct H; [congruence|assumption]|]. exists (x :: bs'). rewrite E. split; [reflexivity|]. rewrite P. apply perm_swap.
Qed.

Lemma map_split : forall A B (f : A -> B) l a x b, map f l = a ++ x :: b -> exists l1 y l2, l = l1 ++ y :: l2 /\ map f l1 = a /\ f y = x /\ map f l2 = b.
Proof.
  intros A B f l a. revert l. induction a as [|z a IH]; intros [|y l] x b E; cbn in E; try discriminate.
  - injection E as E1 E2. exists [], y, l. auto.
  - injection E as E1 E2. destruct (IH l x b E2) as (l1 & y' & l2 & -> & <- & <- & <-). exists (y :: l1), y', l2. subst. auto.
Qed.

Lemma cinv_collect : forall j w l r rest, cinv j w -> flying w = l ++ r :: rest ->
  exists c again j', collect is_zero r (collecting w) = Ok (c, again) /\ cinv j' {| collecting := c; flying := l ++ rest ++ again |}
    /\ 2 * length again + length (c_buffer c) < 2 + length (c_buffer (collecting w)).
Proof.
  intros j w l r rest (ns & bs & Hf & Hbuf & HP & Hj & HjT & Hpool & Hfe & Hs) E. rewrite Hf in E. apply map_split in E.
  destruct E as (n1 & i & n2 & -> & <- & <- & <-).
  assert (Hall : forall x, In x ((n1 ++ i :: n2) ++ bs) -> j <= x < T).
  { intros x Hx. pose proof (Permutation_in _ HP Hx) as Hx'. apply in_seq in Hx'. lia. }
  assert (Hi : j <= i < T) by (apply Hall; apply in_or_app; left; apply in_or_app; right; now left).
  assert (HjT' : j < T) by lia. rewrite (proj2 (Nat.ltb_lt j T) HjT') in Hs. destruct Hs as (Hsc & Hdel).
  assert (Hlen : length (c_scores (collecting w)) = bound j).
  { rewrite Hsc, carry_length, slice_length. pose proof (bound_le j HjT). lia. }
  assert (Hbs : forall x, In x bs -> x < T) by (intros x Hx; apply Hall; apply in_or_app; now right).
  assert (ND : NoDup ((n1 ++ i :: n2) ++ bs)) by (eapply Permutation_NoDup; [apply Permutation_sym, HP|apply seq_NoDup]).
  unfold collect. cbn [r_start resp chunk_response]. rewrite Hlen. destruct (Nat.eq_dec i j) as [->|Hne].
  - rewrite Nat.eqb_refl. cbn [negb]. rewrite Hpool. unfold h_received_one. cbn [h_sent h_total h_received]. rewrite usub_ok by lia. cbn [bind].
    set (chunk := slice (bound j) (bound (S j)) ws). set (before := slice 0 (bound j) ws).
    assert (Hj0 : j = 0 -> before = []) by (intros ->; unfold before; rewrite bound_lt by lia; apply slice_nil).
    assert (Hjoin : carry zero (slice 0 (bound (S j)) ws) = c_scores (collecting w) ++
       fst (if r_first_empty (resp j) then match last_of (c_scores (collecting w)) with Some l => (fill_up is_zero l (r_scores (resp j)), c_first_empty (collecting w)) | None => (r_scores (resp j), true) end
            else (r_scores (resp j), c_first_empty (collecting w)))).
    { rewrite <- slice_join by exact HjT'. fold chunk before. rewrite Hsc. fold before. cbn [resp chunk_response r_first_empty r_scores]. fold chunk. unfold last_of. destruct (Nat.eq_dec j 0) as [H0|H0].
      - rewrite (Hj0 H0). cbn [app Spec.carry length nth_error Nat.sub]. now destruct (head_empty chunk).
      - assert (Hne : before <> []). { intros Eb. pose proof (f_equal (@length _) Eb) as El. unfold before in El. rewrite slice_length in El. pose proof (bound_le j HjT). pose proof (bound_lt j HjT'). pose proof per_pos. cbn in El. nia. }
        rewrite join_chunk; [|unfold before, chunk; rewrite slice_join by exact HjT'; apply prefix_tail; apply bound_le; lia|exact Hne]. f_equal.
        rewrite (last_nth _ _ zero) by (intros Ec; apply Hne; apply length_zero_iff_nil; rewrite <- (carry_length before zero), Ec; reflexivity).
        now destruct (head_empty chunk). }
    assert (Hfe' : snd (if r_first_empty (resp j) then match last_of (c_scores (collecting w)) with Some l => (fill_up is_zero l (r_scores (resp j)), c_first_empty (collecting w)) | None => (r_scores (resp j), true) end
            else (r_scores (resp j), c_first_empty (collecting w))) = head_empty ws).
    { rewrite Hsc, Hfe. fold before. cbn [resp chunk_response r_first_empty r_scores]. fold chunk. unfold last_of. destruct (Nat.eq_dec j 0) as [H0|H0].
      - rewrite (Hj0 H0). cbn [Spec.carry length nth_error Nat.sub]. assert (Ech : chunk = slice 0 (bound (S j)) ws). { unfold chunk. f_equal. rewrite bound_lt by lia. subst j. reflexivity. }
        rewrite Ech, prefix_head by (pose proof (bound_S j HjT'); lia). subst j. cbn. now destruct (head_empty ws).
      - replace (0 <? j) with true by (symmetry; apply Nat.ltb_lt; lia). cbn [andb].
        assert (Hne : before <> []). { intros Eb. pose proof (f_equal (@length _) Eb) as El. unfold before in El. rewrite slice_length in El. pose proof (bound_le j HjT). pose proof (bound_lt j HjT'). pose proof per_pos. cbn in El. nia. }
        rewrite (last_nth _ _ zero) by (intros Ec; apply Hne; apply length_zero_iff_nil; rewrite <- (carry_length before zero), Ec; reflexivity).
        now destruct (head_empty chunk). }
    destruct (if r_first_empty (resp j) then _ else _) as [scores fe] eqn:Epair. cbn [fst snd] in Hjoin, Hfe'. cbn [r_first_empty resp chunk_response r_scores] in Epair. fold chunk in Epair.
    rewrite <- Hjoin. rewrite Hfe'. rewrite carry_length, slice_length.
    assert (Hrem : Permutation (n1 ++ n2 ++ bs) (seq (S j) (T - S j))).
    { assert (Hp : Permutation (j :: n1 ++ n2 ++ bs) (j :: seq (S j) (T - S j))).
      { change (j :: seq (S j) (T - S j)) with (seq j (S (T - S j))). replace (S (T - S j)) with (T - j) by lia. rewrite <- HP, <- app_assoc. cbn [app]. apply Permutation_middle. }
      now apply Permutation_cons_inv in Hp. }
    cbn [h_running h_received h_total]. unfold h_running. cbn [h_received h_total]. destruct (Nat.ltb_spec (S j) T) as [Hrun|Hrun]; cbn [negb].
    + replace (Nat.min (bound (S j) - 0) (L - 0)) with (bound (S j)) by (pose proof (bound_le (S j) ltac:(lia)); lia).
      rewrite Hbuf, lookup_resp by (auto; lia). destruct (existsb (Nat.eqb (S j)) bs) eqn:Ex.
      * apply existsb_exists in Ex. destruct Ex as (x & Hx & Ex). apply Nat.eqb_eq in Ex. subst x. destruct (remove_resp bs (S j) Hbs Hrun Hx) as (bs' & Er & Pr). rewrite Er.
        eexists _, _, (S j). split; [reflexivity|]. split.
        -- exists (n1 ++ n2 ++ [S j]), bs'. cbn [flying collecting c_buffer c_pool c_first_empty c_scores c_delivered].
           ssplit; [now rewrite !map_app|reflexivity| | |lia|f_equal; lia|reflexivity|].
           ++ etransitivity; [|exact Hrem]. rewrite Pr, <- !app_assoc. reflexivity.
           ++ intros Hin. assert (ND' : NoDup bs) by (exact (nodup_right _ _ _ ND)). apply (Permutation_NoDup Pr) in ND'. inversion ND'; tauto.
           ++ rewrite (proj2 (Nat.ltb_lt (S j) T) Hrun). auto.
        -- cbn [c_buffer length]. rewrite ?Hbuf, !map_length. pose proof (Permutation_length Pr) as Lp. cbn in Lp. lia.
      * eexists _, _, (S j). split; [reflexivity|]. split.
        -- exists (n1 ++ n2), bs. cbn [flying collecting c_buffer c_pool c_first_empty c_scores c_delivered].
           ssplit; [now rewrite app_nil_r, !map_app|reflexivity| | |lia|f_equal; lia|reflexivity|].
           ++ now rewrite <- app_assoc.
           ++ intros Hin. assert (C : existsb (Nat.eqb (S j)) bs = true) by (apply existsb_exists; exists (S j); split; [exact Hin|apply Nat.eqb_refl]). congruence.
           ++ rewrite (proj2 (Nat.ltb_lt (S j) T) Hrun). auto.
        -- cbn [c_buffer length]. rewrite ?Hbuf, ?map_length. lia.
    + assert (EjT : S j = T) by lia. eexists _, _, (S j). split; [reflexivity|]. split.
      * exists (n1 ++ n2), bs. cbn [flying collecting c_buffer c_pool c_first_empty c_scores c_delivered].
        ssplit; [now rewrite app_nil_r, !map_app|exact Hbuf| | |lia|f_equal; lia|reflexivity|].
        -- now rewrite <- app_assoc.
        -- intros Hin. specialize (Hbs _ Hin). lia.
        -- replace (S j <? T) with false by (symmetry; apply Nat.ltb_ge; lia). split; [reflexivity|]. rewrite Hdel, EjT, bound_T. cbn [app]. now rewrite slice_full.
      * cbn [c_buffer length]. rewrite ?Hbuf, ?map_length. lia.
  - replace (bound i =? bound j) with false by (symmetry; apply Nat.eqb_neq; intros Ec; apply Hne; apply bound_inj; [lia|lia|exact Ec]). cbn [negb].
    assert (Hib : ~ In i bs). { intros Hin. rewrite <- app_assoc in ND. cbn [app] in ND. apply NoDup_remove_2 in ND. apply ND. apply in_or_app. right. apply in_or_app. now right. }
    rewrite Hbuf, insert_new; [|exact Nat.eqb_spec|].
    2: { unfold keys. rewrite map_map. cbn [fst]. intros Hin. apply in_map_iff in Hin. destruct Hin as (x & Ex & Hx). apply bound_inj in Ex; [subst; tauto|now apply Hbs|lia]. }
    eexists _, _, j. split; [reflexivity|]. split.
    + exists (n1 ++ n2), (bs ++ [i]). cbn [flying collecting c_buffer c_pool c_first_empty c_scores c_delivered].
      ssplit; [now rewrite app_nil_r, !map_app|now rewrite map_app| | |exact HjT|exact Hpool|exact Hfe|].
      * rewrite <- HP, <- !app_assoc. cbn [app]. apply Permutation_app_head. rewrite app_assoc. symmetry. etransitivity; [|apply Permutation_cons_append]. reflexivity.
      * intros Hin. apply in_app_or in Hin. destruct Hin as [Hin|[Hin|[]]]; [tauto|congruence].
      * rewrite (proj2 (Nat.ltb_lt j T) HjT'). auto.
    + cbn [c_buffer length]. rewrite app_length, !map_length. cbn. lia.
Qed.

Lemma cinv_start : cinv 0 {| collecting := new_collector T; flying := map resp (seq 0 T) |}.
Proof.
  exists (seq 0 T), []. cbn [flying collecting new_collector c_buffer c_pool c_first_empty c_scores c_delivered]. ssplit; [reflexivity|reflexivity|rewrite app_nil_r, Nat.sub_0_r; reflexivity|easy|lia| |reflexivity|].
  - rewrite iter_sent. f_equal. lia.
  - rewrite (proj2 (Nat.ltb_lt 0 T)) by lia. rewrite bound_lt by lia. cbn [Nat.mul]. rewrite slice_nil. auto.
Qed.
Lemma cinv_run : forall w, scoring_run is_zero {| collecting := new_collector T; flying := map resp (seq 0 T) |} w -> exists j, cinv j w.
Proof.
  intros w H. induction H as [|w w' H IH Hs]; [exists 0; apply cinv_start|]. destruct IH as (j & IH). destruct Hs as [w l r rest c again Hf Hc].
  destruct (cinv_collect j w l r rest IH Hf) as (c' & again' & j' & Hc' & IH' & _). rewrite Hc in Hc'. injection Hc' as -> ->. eauto.
Qed.
Lemma cinv_done : forall j w, cinv j w -> flying w = [] -> c_delivered (collecting w) = [(carry zero ws, head_empty ws)].
Proof.
  intros j w (ns & bs & Hf & Hbuf & HP & Hj & HjT & Hpool & Hfe & Hs) E. rewrite E in Hf. destruct ns; [|discriminate]. cbn [app] in HP.
  destruct (Nat.ltb_spec j T) as [H|H]; [|tauto]. exfalso. apply Hj. apply (Permutation_in _ (Permutation_sym HP)). apply in_seq. lia.
Qed.
Lemma cinv_never_twice : forall j w, cinv j w -> c_delivered (collecting w) = [] \/ c_delivered (collecting w) = [(carry zero ws, head_empty ws)].
Proof. intros j w (ns & bs & Hf & Hbuf & HP & Hj & HjT & Hpool & Hfe & Hs). destruct (j <? T); tauto. Qed.
End Carry.
