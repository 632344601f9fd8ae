From Coq Require Import List Arith Bool Lia.
From Verif.Transition Require Import Model Spec Proofs.
Import ListNotations.

(** C24. *)
Theorem C24_usable_iff_forward_at_most_half : forall rate from to, from < rate -> to < rate ->
  (crosses_segments from to = true /\ has_valid_direction rate from to = true <-> 1 <= ccw rate from to <= rate / 2).
Proof. exact usable_iff. Qed.
Print Assumptions C24_usable_iff_forward_at_most_half.

Theorem C24_transition_or_reverse_usable : forall rate from to, from < rate -> to < rate -> from <> to ->
  (has_valid_direction rate from to = true \/ has_valid_direction rate to from = true)
  /\ (has_valid_direction rate from to = true /\ has_valid_direction rate to from = true <-> 2 * ccw rate from to = rate).
Proof.
  intros rate from to Hf Ht Hn. rewrite !valid_iff by assumption. pose proof (ccw_reverse rate from to Hf Ht Hn). pose proof (half_bounds rate).
  split; [|split]; lia.
Qed.
Print Assumptions C24_transition_or_reverse_usable.

Example C24_example : has_valid_direction 100 98 2 = true /\ has_valid_direction 100 2 98 = false /\ has_valid_direction 7 0 3 = true /\ has_valid_direction 7 0 4 = false.
Proof. repeat split. Qed.

(** C25. *)
Theorem C25_crossed_borders : forall rate from to, from < rate -> to < rate -> has_valid_direction rate from to = true ->
  crossed_segments rate from to = map (fun lag => (from + lag) mod rate) (seq 1 (ccw rate from to))
  /\ NoDup (crossed_segments rate from to)
  /\ (from <> to -> hd_error (crossed_segments rate from to) = Some (first_intersection_segment rate from)
                    /\ hd_error (rev (crossed_segments rate from to)) = Some to).
Proof.
  intros rate from to Hf Ht Hv. apply valid_iff in Hv; [|assumption..].
  split; [now apply crossed_eq|]. split; [now apply crossed_nodup|]. intros Hn.
  rewrite crossed_eq by assumption. pose proof (ccw_to rate from to Hf Ht) as E.
  destruct (ccw rate from to) as [|c] eqn:Ec.
  - rewrite Nat.add_0_r, Nat.mod_small in E by exact Hf. congruence.
  - split; [reflexivity|]. rewrite seq_S, map_app, rev_app_distr. cbn [map rev app hd_error]. f_equal. exact E.
Qed.
Print Assumptions C25_crossed_borders.

Example C25_example : has_valid_direction 10 8 2 = true /\ crossed_segments 10 8 2 = [9; 0; 1; 2].
Proof. split; reflexivity. Qed.
