(** Property theorems C01 - C07 (containers, packed types, time conversions). *)
From Coq Require Import ZArith List Bool Lia.
From Verif Require Import Base Pareto_Model Pareto_Proofs Time_Model Time_Proofs.
Import ListNotations.

(** * C01  Pareto sets stay minimal and complete *)
Section C01.
  Variable T : Type.
  Variable dominates : T -> T -> bool.
  Definition reflexive := forall x, dominates x x = true.
  Definition transitive := forall x y z, dominates x y = true -> dominates y z = true -> dominates x z = true.

  (** Contents of the set after any history [xs] of additions. *)
  Theorem C01_pareto_history : reflexive -> transitive -> forall xs : list T,
    let s := add_all T dominates xs in
    (forall i j x y, nth_error s i = Some x -> nth_error s j = Some y -> i <> j -> dominates x y = false)
    /\ (forall x, In x s -> In x xs)
    /\ (forall y, In y xs -> exists x, In x s /\ dominates x y = true).
  Proof.
    intros R Tr xs s. split; [|split].
    - exact (add_all_antichain T dominates Tr xs).
    - exact (add_all_sound T dominates Tr xs).
    - exact (add_all_covers T dominates R Tr xs).
  Qed.

  (** Return value of one more [add]: success iff not dominated, and then the new element sits at the
      reported position; a rejected add leaves the set exactly as it was. *)
  Theorem C01_pareto_add_result : transitive -> forall (xs : list T) (x : T),
    let s := add_all T dominates xs in
    match snd (add T dominates s x) with
    | Added pos => is_dominated T dominates s x = false /\ nth_error (fst (add T dominates s x)) pos = Some x
    | Rejected pos => fst (add T dominates s x) = s
                      /\ exists y, nth_error s pos = Some y /\ dominates y x = true
    end.
  Proof.
    intros Tr xs x. cbv zeta.
    destruct (add_all_result T dominates Tr xs x) as [(p & -> & H & Hn)|(j & y & -> & H & Hy & Hd)].
    - split; auto. unfold is_dominated.
      destruct (existsb _ _) eqn:E; auto. apply existsb_exists in E.
      destruct E as (z & Hz & Hd). now rewrite Hn in Hd.
    - split; eauto.
  Qed.
End C01.

(** Non-vacuity: component-wise order on pairs is a preorder; a dominated middle element is evicted. *)
Definition pair_dom (a b : nat * nat) : bool := Nat.leb (fst a) (fst b) && Nat.leb (snd a) (snd b).
Example C01_nonvacuous :
  reflexive _ pair_dom /\ transitive _ pair_dom /\
  add_all _ pair_dom [(5,1);(1,5);(4,4);(6,6);(3,3);(3,3)] = [(5,1);(1,5);(3,3)].
Proof.
  split; [|split]; [| |reflexivity].
  - intros [a b]. unfold pair_dom. now rewrite !Nat.leb_refl.
  - intros [a b] [c d] [e f]. unfold pair_dom; simpl. rewrite !andb_true_iff, !Nat.leb_le. lia.
Qed.
(** Without transitivity the early return corrupts the set: an element is lost and another duplicated. *)
Example C01_transitivity_needed :
  let dom (a b : nat) := match a, b with 9, 1 => true | 3, 9 => true | _, _ => Nat.eqb a b end in
  add_all _ dom [1;2;3;9] = [2;2;3].
Proof. reflexivity. Qed.

Local Open Scope Z_scope.

(** * C02  Journey dominance *)
(** Meaning of dominance for two results of the same search direction: no more transfers, departure not
    earlier, arrival not later. *)
Definition as_good_as (a b : journey) : Prop :=
  j_transfers a <= j_transfers b /\ journey_departure b <= journey_departure a
  /\ journey_arrival a <= journey_arrival b.
Definition forward_result (j : journey) : Prop := j_start j <= j_dest j.
Definition backward_result (j : journey) : Prop := j_dest j < j_start j.

Theorem C02_dominance_meaning : forall a b,
  (forward_result a /\ forward_result b) \/ (backward_result a /\ backward_result b) ->
  (journey_dominates a b = true <-> as_good_as a b).
Proof.
  intros a b [[Ha Hb]|[Ha Hb]]; [apply journey_dom_fwd|apply journey_dom_bwd]; auto.
Qed.

(** Dominance is a preorder on ALL journeys (also when forward, backward and zero-length ones are mixed). *)
Theorem C02_dominance_preorder :
  (forall a, journey_dominates a a = true) /\
  (forall a b c, journey_dominates a b = true -> journey_dominates b c = true -> journey_dominates a c = true).
Proof. split; [apply journey_dom_refl|apply journey_dom_trans]. Qed.

(** Hence every result set built with [pareto_set<journey>::add] is minimal and complete. *)
Theorem C02_journey_result_set : forall js : list journey,
  let s := add_all journey journey_dominates js in
  (forall i j x y, nth_error s i = Some x -> nth_error s j = Some y -> i <> j -> journey_dominates x y = false)
  /\ (forall x, In x s -> In x js)
  /\ (forall y, In y js -> exists x, In x s /\ journey_dominates x y = true).
Proof.
  exact (C01_pareto_history journey journey_dominates journey_dom_refl journey_dom_trans).
Qed.

(** The full claim "dominance means as good as for all results of a backward search" is false: a zero-length
    journey (start = destination time) is compared with the forward rule, so it does not evict a strictly
    worse backward result. *)
Theorem C02_zero_length_backward_refuted : exists a b,
  j_start a = j_dest a /\ backward_result b /\ as_good_as a b /\ journey_dominates a b = false.
Proof.
  exists (mk_journey 100 100 0), (mk_journey 130 100 0).
  unfold as_good_as, backward_result, journey_departure, journey_arrival; simpl. repeat split; lia || reflexivity.
Qed.

Example C02_nonvacuous :
  forward_result (mk_journey 100 200 1) /\ forward_result (mk_journey 90 200 1) /\
  journey_dominates (mk_journey 100 200 1) (mk_journey 90 200 1) = true /\
  journey_dominates (mk_journey 90 200 1) (mk_journey 100 200 1) = false /\
  backward_result (mk_journey 200 100 1) /\
  journey_dominates (mk_journey 200 100 1) (mk_journey 210 100 2) = true.
Proof. repeat split; try reflexivity; unfold forward_result; simpl; lia. Qed.

(** * C03  Interval algebra *)
Theorem C03_overlaps : forall i o, iv_from i < iv_to i -> iv_from o < iv_to o ->
  (iv_overlaps i o = true <-> exists t, iv_from i <= t < iv_to i /\ iv_from o <= t < iv_to o).
Proof.
  intros i o Hi Ho. rewrite iv_overlaps_spec by auto. setoid_rewrite iv_contains_spec. tauto.
Qed.
Theorem C03_intersect : forall i o t,
  iv_from (iv_intersect i o) <= t < iv_to (iv_intersect i o) <->
  (iv_from i <= t < iv_to i /\ iv_from o <= t < iv_to o).
Proof. intros. rewrite <- !iv_contains_spec. apply iv_intersect_spec. Qed.
Theorem C03_contains : forall i t, iv_contains i t = true <-> iv_from i <= t < iv_to i.
Proof. exact iv_contains_spec. Qed.
Theorem C03_contains_interval : forall i o, iv_from o < iv_to o ->
  (iv_contains_iv i o = true <-> forall t, iv_from o <= t < iv_to o -> iv_from i <= t < iv_to i).
Proof. intros. rewrite iv_contains_iv_spec by auto. setoid_rewrite iv_contains_spec. tauto. Qed.
Theorem C03_clamp_nearest : forall i x, iv_from i <= iv_to i ->
  iv_from i <= iv_clamp i x <= iv_to i /\
  (forall y, iv_from i <= y <= iv_to i -> Z.abs (x - iv_clamp i x) <= Z.abs (x - y)).
Proof. exact iv_clamp_spec. Qed.
Theorem C03_shift : forall i x t,
  iv_contains (iv_shift_right i x) (t + x) = iv_contains i t /\
  iv_contains (iv_shift_left i x) (t - x) = iv_contains i t.
Proof. exact iv_shift_spec. Qed.
(** For empty intervals [overlaps] is not "there is a common point". *)
Theorem C03_overlaps_empty_refuted : exists i o,
  iv_from i = iv_to i /\ iv_overlaps i o = true /\ ~ exists t, iv_contains i t = true /\ iv_contains o t = true.
Proof.
  exists (mk_iv 5 5), (mk_iv 0 10). repeat split. intros (t & H & _). apply iv_contains_spec in H. simpl in H. lia.
Qed.
Example C03_nonvacuous :
  iv_overlaps (mk_iv 0 5) (mk_iv 4 9) = true /\ iv_overlaps (mk_iv 0 5) (mk_iv 5 9) = false /\
  iv_intersect (mk_iv 0 5) (mk_iv 3 9) = mk_iv 3 5.
Proof. repeat split. Qed.

(** * C04  Compact event times *)
Theorem C04_roundtrip : forall m, 0 <= m <= 32767 ->
  delta_count (delta_of_minutes m) = m /\ delta_as_duration (delta_of_minutes m) = m.
Proof. intros m H. split; [|unfold delta_as_duration]; now apply delta_roundtrip. Qed.
Theorem C04_parts : forall m, 0 <= m < 32 * 1440 ->
  0 <= d_mam (delta_of_minutes m) < 1440 /\ 0 <= d_days (delta_of_minutes m) < 32 /\
  d_days (delta_of_minutes m) * 1440 + d_mam (delta_of_minutes m) = m.
Proof. intros m H. destruct (delta_of_minutes_parts m) as [-> ->]; lia. Qed.
Theorem C04_equality : forall a b, 0 <= a < 32 * 1440 -> 0 <= b < 32 * 1440 ->
  (delta_eqb (delta_of_minutes a) (delta_of_minutes b) = true <-> a = b).
Proof. exact delta_inj. Qed.
Theorem C04_same_day_order : forall a b, 0 <= a < 32 * 1440 -> 0 <= b < 32 * 1440 -> a / 1440 = b / 1440 ->
  delta_lt (delta_of_minutes a) (delta_of_minutes b) = (a <? b).
Proof. exact delta_same_day_order. Qed.
(** In general the order is minutes-after-midnight first ... *)
Theorem C04_order : forall a b, 0 <= a < 32 * 1440 -> 0 <= b < 32 * 1440 ->
  (delta_lt (delta_of_minutes a) (delta_of_minutes b) = true <->
   (a mod 1440 < b mod 1440 \/ (a mod 1440 = b mod 1440 /\ a / 1440 < b / 1440))).
Proof. exact delta_lt_mam_first. Qed.
(** ... hence not chronological: 00:10 on the next day sorts before 23:50 on the same day. *)
Theorem C04_chronological_order_refuted : exists a b, 0 <= a <= 32767 /\ 0 <= b <= 32767 /\ a < b /\
  delta_lt (delta_of_minutes b) (delta_of_minutes a) = true.
Proof. exists 1430, 1450. repeat split; lia || reflexivity. Qed.
(** First departure offsets (day and minute shift of a vehicle against its trip). *)
Theorem C04_offset_roundtrip : forall d m, -1 <= d < 30 -> -720 <= m < 1320 ->
  delta_to_offset (delta_of_offset d m) = (d, m).
Proof. exact delta_offset_roundtrip. Qed.
Example C04_nonvacuous : delta_of_minutes 3000 = mk_delta 2 120 /\ delta_count (mk_delta 2 120) = 3000.
Proof. split; reflexivity. Qed.

(** * C05  Stop and footpath words *)
Theorem C05_stop_roundtrip : forall l i o wi wo, 0 <= l < 2 ^ 28 ->
  0 <= stop_value (stop_make l i o wi wo) < 2 ^ 32 /\
  stop_of_value (stop_value (stop_make l i o wi wo)) = mk_stop l i o wi wo.
Proof. intros. split; [apply stop_value_range|apply stop_roundtrip]; auto. Qed.
Theorem C05_stop_distinct : forall l i o wi wo l' i' o' wi' wo', 0 <= l < 2 ^ 28 -> 0 <= l' < 2 ^ 28 ->
  stop_value (stop_make l i o wi wo) = stop_value (stop_make l' i' o' wi' wo') ->
  (l, i, o, wi, wo) = (l', i', o', wi', wo').
Proof.
  intros l i o wi wo l' i' o' wi' wo' Hl Hl' H.
  pose proof (stop_roundtrip l i o wi wo Hl) as E. rewrite H, stop_roundtrip in E by auto.
  now injection E as -> -> -> -> ->.
Qed.
(** A stop counts as cancelled exactly if nobody may board or alight; wheelchair users need their own permission. *)
Theorem C05_cancelled : forall l i o wi wo, 0 <= l < 2 ^ 28 ->
  let s := stop_of_value (stop_value (stop_make l i o wi wo)) in
  (stop_is_cancelled s = true <-> i = false /\ o = false) /\
  (can_start true false s = i /\ can_start false false s = o /\ can_start true true s = wi /\ can_start false true s = wo) /\
  (can_finish true false s = o /\ can_finish false false s = i /\ can_finish true true s = wo /\ can_finish false true s = wi).
Proof.
  intros l i o wi wo Hl. cbv zeta. rewrite stop_roundtrip by auto. unfold stop_is_cancelled. cbn.
  split; [destruct i, o; cbn; split; intuition discriminate|]. auto 10.
Qed.
Theorem C05_footpath : forall t d, 0 <= t -> 0 <= d ->
  (t < 2 ^ 23 - 1 -> exists f, footpath_make t d = Some f /\ fp_target f = t /\ fp_duration f = Z.min d 511
                              /\ footpath_of_value (footpath_value f) = f) /\
  (2 ^ 23 - 1 <= t -> footpath_make t d = None).
Proof.
  intros t d Ht Hd. split; intros H.
  - exists (mk_fp t (Z.min d 511)). pose proof (footpath_accept t d) as E.
    assert (E' : footpath_make t d = Some (mk_fp t (Z.min d 511))) by (apply E; auto; simpl in H; lia).
    repeat split; auto. exact (footpath_value_roundtrip t d _ Ht Hd E').
  - apply footpath_reject. simpl in H. lia.
Qed.
Theorem C05_footpath_order : forall a b,
  footpath_lt a b = true <->
  (fp_target a < fp_target b \/ (fp_target a = fp_target b /\ fp_duration a < fp_duration b)).
Proof.
  intros. unfold footpath_lt. rewrite orb_true_iff, andb_true_iff, !Z.ltb_lt, Z.eqb_eq. tauto.
Qed.
(** A location index that the registry accepts (<= 2^23-1) but that no footpath can address. *)
Theorem C05_last_location_refuted : exists t, t <= fp_max_target /\ footpath_make t 1 = None.
Proof. exists 8388607. split; [unfold fp_max_target; lia|reflexivity]. Qed.
Example C05_nonvacuous :
  stop_value (stop_make 7 true false true false) = 7 + 5 * 2 ^ 28 /\
  footpath_make 12 600 = Some (mk_fp 12 511) /\ footpath_make 12 5 = Some (mk_fp 12 5).
Proof. repeat split; reflexivity. Qed.

(** * C06  Search-relative and absolute time *)
Theorem C06_roundtrip : forall base t, base * 1440 - 32768 <= t <= base * 1440 + 32767 ->
  delta_to_unix base (unix_to_delta base t) = t.
Proof. intros. apply unix_delta_roundtrip. unfold i16_min, i16_max. lia. Qed.
Theorem C06_roundtrip_back : forall base d, -32768 <= d <= 32767 ->
  unix_to_delta base (delta_to_unix base d) = d.
Proof. intros. unfold unix_to_delta, delta_to_unix, clamp16, i16_min, i16_max. lia. Qed.
Theorem C06_saturation : forall base t,
  -32768 <= unix_to_delta base t <= 32767 /\
  (forall y, -32768 <= y <= 32767 -> Z.abs (t - base * 1440 - unix_to_delta base t) <= Z.abs (t - base * 1440 - y)).
Proof. intros. apply clamp16_spec. Qed.
Theorem C06_monotone : forall base t u, t <= u -> unix_to_delta base t <= unix_to_delta base u.
Proof. exact unix_to_delta_mono. Qed.
Theorem C06_day_minutes_agree : forall first base day m,
  tt_to_delta base day m = unix_to_delta (first + base) ((first + day) * 1440 + m).
Proof. exact tt_delta_agree. Qed.
Theorem C06_split : forall base x, 0 <= base * 1440 + x < 2 ^ 16 * 1440 ->
  let (d, m) := split_day_mam base x in 0 <= m < 1440 /\ d * 1440 + m = base * 1440 + x /\ 0 <= d.
Proof. exact split_day_mam_spec. Qed.
Theorem C06_day_idx_mam : forall first t, 0 <= t - first * 1440 < 2 ^ 16 * 1440 ->
  let (d, m) := tt_day_idx_mam first t in 0 <= m < 1440 /\ tt_to_unixtime first d m = t.
Proof. exact day_idx_mam_spec. Qed.
(** Before the first timetable day the split is wrong (truncating division, unsigned day). *)
Theorem C06_split_negative_refuted : exists base x, let (d, m) := split_day_mam base x in m < 0.
Proof. exists 0, (-1). vm_compute. reflexivity. Qed.
Example C06_nonvacuous : split_day_mam 5 (-10) = (4, 1430) /\ unix_to_delta 3 5000 = 680 /\ unix_to_delta 0 99999 = 32767.
Proof. repeat split; reflexivity. Qed.

(** * C07  Circular minute distance *)
Theorem C07_mam_dist : forall a b, 0 <= a < 1440 -> 0 <= b < 1440 ->
  let (dist, k) := mam_dist a b in
  dist = Z.abs (a - b - 1440 * k) /\ forall k', dist <= Z.abs (a - b - 1440 * k').
Proof. exact mam_dist_min. Qed.
Example C07_nonvacuous : mam_dist 1430 10 = (20, 1) /\ mam_dist 10 1430 = (20, -1) /\ mam_dist 700 10 = (690, 0).
Proof. repeat split; reflexivity. Qed.

Print Assumptions C01_pareto_history.
Print Assumptions C01_pareto_add_result.
Print Assumptions C02_journey_result_set.
Print Assumptions C03_overlaps.
Print Assumptions C04_roundtrip.
Print Assumptions C05_footpath.
Print Assumptions C06_roundtrip.
Print Assumptions C07_mam_dist.
