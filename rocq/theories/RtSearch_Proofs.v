From Coq Require Import List ZArith Bool Arith Lia.
From Verif Require Import Base Time_Model Raptor_Model Raptor_Spec Raptor_Base Rt_Model RtSearch_Model RtSearch_Spec.
Import ListNotations.
Local Open Scope Z_scope.

Section Facts.
  Variable St : stt.
  Variable rt : rtt.
  Variable X : rt_extra.
  Variable number : nat -> nat -> nat.
  Variable P : params.
  Variable lb : nat -> Z.
  Hypothesis HR : rt_data_ok St rt X number P.
  Hypothesis Hstat : static_only P.
  Notation tt := (p_tt P).
  Notation Q := (now St rt X number P lb).
  Notation N := (length (tt_routes tt)).

  Lemma combine_seq {A} (l : list A) : forall k n, nth_error (combine (seq k (length l)) l) n =
    match nth_error l n with Some a => Some ((k + n)%nat, a) | None => None end.
  Proof using.
    induction l as [|a l IH]; intros k n; cbn [length seq combine]; [destruct n; reflexivity|].
    destruct n as [|n]; cbn [nth_error]; [now rewrite Nat.add_0_r|]. rewrite IH. destruct (nth_error l n); auto. do 2 f_equal. lia.
  Qed.

  (** ** The routes the search sees *)
  Lemma routes_static ri : (ri < N)%nat -> nth_error (tt_routes (p_tt Q)) ri =
    match nth_error (tt_routes tt) ri with Some r => Some (scheduled_route St rt number ri r) | None => None end.
  Proof using.
    intros H. cbn [now p_tt with_rt tt_routes]. rewrite nth_error_app1 by (rewrite map_length, combine_length, seq_length; lia).
    rewrite nth_error_map, combine_seq. destruct (nth_error (tt_routes tt) ri); reflexivity.
  Qed.
  Lemma routes_rt ri : (N <= ri)%nat -> nth_error (tt_routes (p_tt Q)) ri =
    if (ri - N <? n_rt rt)%nat then Some (rt_route rt X (ri - N)) else None.
  Proof using.
    intros H. cbn [now p_tt with_rt tt_routes].
    assert (E : length (map (fun p => scheduled_route St rt number (fst p) (snd p)) (combine (seq 0 N) (tt_routes tt))) = N).
    { rewrite map_length, combine_length, seq_length. lia. }
    rewrite nth_error_app2 by lia. rewrite E, nth_error_map.
    destruct (Nat.ltb_spec (ri - N) (n_rt rt)).
    - rewrite (nth_error_nth' _ 0%nat) by now rewrite seq_length. rewrite seq_nth by auto. reflexivity.
    - destruct (nth_error (seq 0 (n_rt rt)) (ri - N)) eqn:E2; auto.
      assert (E3 : (ri - N < length (seq 0 (n_rt rt)))%nat) by (apply nth_error_Some; congruence). rewrite seq_length in E3. lia.
  Qed.
  Lemma routes_cases ri r : nth_error (tt_routes (p_tt Q)) ri = Some r ->
    (exists r0, (ri < N)%nat /\ nth_error (tt_routes tt) ri = Some r0 /\ r = scheduled_route St rt number ri r0) \/
    (exists x, (x < n_rt rt)%nat /\ ri = (N + x)%nat /\ r = rt_route rt X x).
  Proof using.
    intros H. destruct (Nat.lt_ge_cases ri N) as [L|L].
    - rewrite routes_static in H by auto. destruct (nth_error (tt_routes tt) ri) as [r0|] eqn:E; [|discriminate].
      left. exists r0. split; auto. split; auto. congruence.
    - rewrite routes_rt in H by auto. destruct (Nat.ltb_spec (ri - N) (n_rt rt)); [|discriminate].
      right. exists (ri - N)%nat. split; auto. split; [lia|congruence].
  Qed.
  Lemma sched_vehicles ri r0 j v : nth_error (r_vehicles (scheduled_route St rt number ri r0)) j = Some v ->
    exists v0, nth_error (r_vehicles r0) j = Some v0 /\ v = day_filter St rt number ri v0 j.
  Proof using.
    cbn [scheduled_route r_vehicles]. rewrite nth_error_map, combine_seq. destruct (nth_error (r_vehicles r0) j) as [v0|]; [|discriminate].
    cbn [option_map fst snd]. rewrite Nat.add_0_l. intros [= <-]. eauto.
  Qed.
  Lemma sched_vehicles_in ri r0 v : In v (r_vehicles (scheduled_route St rt number ri r0)) ->
    exists j v0, nth_error (r_vehicles r0) j = Some v0 /\ v = day_filter St rt number ri v0 j.
  Proof using. intros H. apply In_nth_error in H as [j H]. exists j. now apply sched_vehicles. Qed.

  (** ** Times of a real-time vehicle *)
  Definition tm (x i : nat) : Z := nth i (nth x (rt_times rt) []) 0.
  Lemma rt_minutes_idx x s e : (x < n_rt rt)%nat -> (s < rt_n_stops rt x)%nat ->
    exists i, (i < length (nth x (rt_times rt) []))%nat /\ rt_minutes rt x s e = tm x i /\
      (2 * s - 1 <= i <= 2 * s)%nat /\ (e = kArr -> i = (2 * s - 1)%nat) /\ (e = kDep -> (S s < rt_n_stops rt x)%nat -> i = (2 * s)%nat) /\
      (e = kDep -> (rt_n_stops rt x <= S s)%nat -> i = (2 * s - 1)%nat).
  Proof using HR.
    intros Hx Hs. pose proof (rd_stops _ _ _ _ _ HR x Hx) as H2. pose proof (rd_times _ _ _ _ _ HR x) as HL. unfold rt_n_stops in *.
    unfold rt_minutes, tm, Rt_Model.event_time, ev_idx, rt_n_stops. destruct e.
    - exists (2 * s - 1)%nat. replace (s * 2 - 1)%nat with (2 * s - 1)%nat by lia. repeat split; try lia; discriminate.
    - destruct (Nat.leb_spec (length (nth x (rt_stops rt) [])) (S s)).
      + exists (2 * s - 1)%nat. replace (s * 2 - 1)%nat with (2 * s - 1)%nat by lia. repeat split; try lia; discriminate.
      + exists (2 * s)%nat. replace (s * 2 - 0)%nat with (2 * s)%nat by lia. repeat split; try lia; discriminate.
  Qed.
  Lemma tm_in x i : (i < length (nth x (rt_times rt) []))%nat -> In (tm x i) (nth x (rt_times rt) []).
  Proof using. intros H. now apply nth_In. Qed.
  Lemma rt_ev_minutes x s e : event_minutes (rt_vehicle rt X x) s e = rt_minutes rt x s e - 1440 * rt_first_day rt x.
  Proof using. unfold event_minutes, rt_vehicle. cbn [v_ev d_days d_mam]. pose proof (Z.div_mod (rt_minutes rt x s e - 1440 * rt_first_day rt x) 1440 ltac:(lia)). lia. Qed.
  Lemma rt_minutes_ge x s e : (x < n_rt rt)%nat -> (s < rt_n_stops rt x)%nat ->
    0 <= rt_minutes rt x s e - 1440 * rt_first_day rt x <= 32767 /\ 0 <= x_base X + rt_minutes rt x s e / 1440 < 512.
  Proof using HR.
    intros Hx Hs. destruct (rt_minutes_idx x s e Hx Hs) as (i & Hi & -> & _).
    pose proof (rd_sorted _ _ _ _ _ HR x 0%nat i ltac:(lia)) as H0. pose proof (rd_span _ _ _ _ _ HR x _ Hx (tm_in x i Hi)) as H1.
    pose proof (rd_range _ _ _ _ _ HR x _ Hx (tm_in x i Hi)) as H2. unfold rt_first_day. unfold tm in *.
    pose proof (Z.div_mod (nth 0 (nth x (rt_times rt) []) 0) 1440 ltac:(lia)). pose proof (Z.mod_pos_bound (nth 0 (nth x (rt_times rt) []) 0) 1440 ltac:(lia)). lia.
  Qed.
  Lemma rt_vehicle_wf x : (x < n_rt rt)%nat -> vehicle_wf (rt_route rt X x) (rt_vehicle rt X x).
  Proof using HR.
    intros Hx. unfold vehicle_wf. cbn [rt_route r_stops]. rewrite map_length. fold (rt_n_stops rt x). split; [|split].
    - intros s e Hs. rewrite rt_ev_minutes. destruct (rt_minutes_ge x s e Hx Hs) as [H _].
      unfold rt_vehicle. cbn [v_ev d_days d_mam]. split; [apply Z.mod_pos_bound; lia|]. split; [apply Z.div_pos; lia|lia].
    - intros s Hs. rewrite !rt_ev_minutes. destruct (rt_minutes_idx x s kArr Hx Hs) as (i & Hi & -> & _ & Ei & _).
      destruct (rt_minutes_idx x s kDep Hx Hs) as (j & Hj & -> & Ej & _). pose proof (rd_sorted _ _ _ _ _ HR x i j ltac:(rewrite Ei by auto; lia)). unfold tm. lia.
    - intros s s' Hs. rewrite !rt_ev_minutes. destruct (rt_minutes_idx x s kDep Hx ltac:(lia)) as (i & Hi & -> & Ei & _).
      destruct (rt_minutes_idx x s' kArr Hx ltac:(lia)) as (j & Hj & -> & Ej & _). pose proof (rd_sorted _ _ _ _ _ HR x i j ltac:(lia)). unfold tm. lia.
  Qed.
  Lemma rt_day_range x : (x < n_rt rt)%nat -> 0 <= x_base X + rt_first_day rt x < 512.
  Proof using HR.
    intros Hx. pose proof (rd_stops _ _ _ _ _ HR x Hx). pose proof (rd_times _ _ _ _ _ HR x).
    apply (rd_range _ _ _ _ _ HR x _ Hx). apply nth_In. lia.
  Qed.

  (** ** The timetable with real-time data is well-formed *)
  Lemma now_wf : all_vehicles_wf P -> all_vehicles_wf Q.
  Proof using HR.
    intros [H _]. split.
    - intros ri r v Hr Hv. apply routes_cases in Hr as [(r0 & _ & Hr & ->)|(x & Hx & -> & ->)].
      + apply sched_vehicles_in in Hv as (j & v0 & Hj & ->). exact (H ri r0 v0 Hr (nth_error_In _ _ Hj)).
      + destruct Hv as [<-|[]]. now apply rt_vehicle_wf.
    - intros ri r day Hr E. apply routes_cases in Hr as [(r0 & _ & Hr & ->)|(x & Hx & -> & ->)]; [discriminate|].
      cbn [rt_route r_rt] in E. injection E as <-. split; [now apply rt_day_range|].
      exists (rt_vehicle rt X x). split; auto.
  Qed.
  Lemma now_columns : columns_sorted P -> columns_sorted Q.
  Proof using.
    intros H ri r i j v w s e Hr Hij Hv Hw Hs. apply routes_cases in Hr as [(r0 & _ & Hr & ->)|(x & Hx & -> & ->)].
    - apply sched_vehicles in Hv as (v0 & Hv & ->). apply sched_vehicles in Hw as (w0 & Hw & ->). exact (H ri r0 i j v0 w0 s e Hr Hij Hv Hw Hs).
    - cbn [rt_route r_vehicles] in *. destruct i as [|i]; [|destruct i; discriminate]. destruct j as [|j]; [|destruct j; discriminate].
      injection Hv as <-. injection Hw as <-. lia.
  Qed.
  Lemma rt_stop_in x st : In st (r_stops (rt_route rt X x)) -> exists w, In w (nth x (rt_stops rt) []) /\ st = stop_of_value w.
  Proof using. cbn [rt_route r_stops]. intros H. apply in_map_iff in H as (w & <- & H). eauto. Qed.
  Lemma now_locations : locations_ok P -> locations_ok Q.
  Proof using HR.
    intros (H1 & H2 & H3). split; [|split; auto].
    intros ri r st Hr Hst. apply routes_cases in Hr as [(r0 & _ & Hr & ->)|(x & Hx & -> & ->)].
    - exact (H1 ri r0 st Hr Hst).
    - apply rt_stop_in in Hst as (w & Hw & ->). apply (rd_locations _ _ _ _ _ HR x w Hx Hw).
  Qed.
  Lemma now_durations : durations_ok P -> durations_ok Q.
  Proof using. intros H. exact H. Qed.
  Lemma now_end : end_ok P -> end_ok Q.
  Proof using HR.
    intros H Hd. destruct (H Hd) as (H1 & H2 & H3). split; [exact H1|]. split; [|exact H3].
    intros ri r st Hr Hst. apply routes_cases in Hr as [(r0 & _ & Hr & ->)|(x & Hx & -> & ->)].
    - exact (H2 ri r0 st Hr Hst).
    - apply rt_stop_in in Hst as (w & Hw & ->). now apply (rd_locations _ _ _ _ _ HR x w Hx Hw).
  Qed.
  Lemma runs_static ri r0 j v0 day : nth_error (tt_routes tt) ri = Some r0 -> nth_error (r_vehicles r0) j = Some v0 ->
    runs_on (day_filter St rt number ri v0 j) day -> runs_on v0 day.
  Proof using HR. intros Hr Hv [H1 H2]. split; auto. exact (rd_days _ _ _ _ _ HR ri r0 j v0 day Hr Hv H1 H2). Qed.
  Lemma now_index : index_ok P -> index_ok Q.
  Proof using HR.
    intros (H1 & H2). split.
    - intros ri r st Hr Hst. cbn [now p_tt with_rt tt_location_routes]. apply in_app_iff.
      apply routes_cases in Hr as [(r0 & _ & Hr & ->)|(x & Hx & -> & ->)]; [left; exact (H1 ri r0 st Hr Hst)|].
      right. apply rt_stop_in in Hst as (w & Hw & ->). apply in_map_iff. exists x. split; auto. apply (rd_locations _ _ _ _ _ HR x w Hx Hw).
    - intros ri r v day s e Hr Hv Hrun Hs. cbn [now p_tt with_rt tt_route_active].
      apply routes_cases in Hr as [(r0 & Hlt & Hr & ->)|(x & Hx & -> & ->)].
      + apply sched_vehicles_in in Hv as (j & v0 & Hj & ->). apply (runs_static ri r0 j v0 day Hr Hj) in Hrun.
        destruct (H2 ri r0 v0 day s e Hr (nth_error_In _ _ Hj) Hrun Hs) as [A B]. split; [exact A|].
        destruct (Nat.ltb_spec ri N); [exact B|lia].
      + destruct Hv as [<-|[]]. destruct Hrun as [_ Hd]. cbn [rt_vehicle v_days] in Hd. apply Z.eqb_eq in Hd. subst day.
        cbn [rt_route r_stops] in Hs. rewrite map_length in Hs. destruct (rt_minutes_ge x s e Hx Hs) as [_ H].
        destruct (Nat.ltb_spec (N + x) N); [lia|]. split; [|reflexivity]. cbn [rt_vehicle v_ev d_days].
        replace (rt_minutes rt x s e - 1440 * rt_first_day rt x) with (rt_minutes rt x s e + (- rt_first_day rt x) * 1440) by lia.
        rewrite Z.div_add by lia. lia.
  Qed.
  Lemma now_fifo : fifo P -> fifo Q.
  Proof using HR.
    intros H ri r i v day j w day' s s' Hr Hv Hw Rv Rw Hs Hs' Hlt. apply routes_cases in Hr as [(r0 & _ & Hr & ->)|(x & Hx & -> & ->)].
    - apply sched_vehicles in Hv as (v0 & Hv & ->). apply sched_vehicles in Hw as (w0 & Hw & ->).
      exact (H ri r0 i v0 day j w0 day' s s' Hr Hv Hw (runs_static _ _ _ _ _ Hr Hv Rv) (runs_static _ _ _ _ _ Hr Hw Rw) Hs Hs' Hlt).
    - cbn [rt_route r_vehicles] in *. destruct i as [|i]; [|destruct i; discriminate]. destruct j as [|j]; [|destruct j; discriminate].
      injection Hv as <-. injection Hw as <-. destruct Rv as [_ E1]. destruct Rw as [_ E2]. cbn [rt_vehicle v_days] in E1, E2.
      apply Z.eqb_eq in E1, E2. subst day day'. intros _ _. unfold no_later. destruct (p_fwd Q); lia.
  Qed.

  (** ** Rides *)
  Lemma rt_event_time x s e : Raptor_Spec.event_time Q (rt_vehicle rt X x) (x_base X + rt_first_day rt x) s e
    = (x_base X - p_base P) * 1440 + rt_minutes rt x s e.
  Proof using. unfold Raptor_Spec.event_time. cbn [now p_base]. pose proof (rt_ev_minutes x s e) as H. unfold event_minutes in H. lia. Qed.
  Lemma rides_now l tb l' ta : ride_ok Q l tb l' ta <-> possible_now St rt X number P l tb l' ta.
  Proof using HR.
    split.
    - intros [ri r vi v day s s' st st' Hr Hv Hrun Hs Hs' Hlt El El' Hon Hoff Hcl Hfl Eb Ea].
      change (p_fwd Q) with (p_fwd P) in *.
      apply routes_cases in Hr as [(r0 & _ & Hr & ->)|(x & Hx & -> & ->)].
      + apply sched_vehicles in Hv as (v0 & Hv & ->). destruct Hrun as [D1 D2].
        exact (now_scheduled St rt X number P l tb l' ta ri r0 vi v0 day s s' st st' Hr Hv D1 D2 Hs Hs' Hlt El El' Hon Hoff Hcl Hfl Eb Ea).
      + cbn [rt_route r_vehicles r_stops r_clasz] in *. destruct vi as [|vi]; [|destruct vi; discriminate]. injection Hv as <-.
        destruct Hrun as [_ E]. cbn [rt_vehicle v_days] in E. apply Z.eqb_eq in E. subst day.
        rewrite nth_error_map in Hs, Hs'. destruct (nth_error (nth x (rt_stops rt) []) s) as [w|] eqn:Ew; [|discriminate]. injection Hs as <-.
        destruct (nth_error (nth x (rt_stops rt) []) s') as [w'|] eqn:Ew'; [|discriminate]. injection Hs' as <-.
        assert (L1 : (s < rt_n_stops rt x)%nat) by (apply nth_error_Some; congruence).
        assert (L2 : (s' < rt_n_stops rt x)%nat) by (apply nth_error_Some; congruence).
        rewrite rt_event_time in Eb, Ea.
        apply (now_realtime St rt X number P l tb l' ta x s s' w w'); auto; unfold rt_time.
        * rewrite Eb. f_equal. unfold rt_minutes. destruct (p_fwd P); cbn [negb]; [|reflexivity]. destruct (Nat.leb_spec (rt_n_stops rt x) (S s)); [lia|reflexivity].
        * rewrite Ea. f_equal. unfold rt_minutes. destruct (p_fwd P); cbn [negb]; [reflexivity|]. destruct (Nat.leb_spec (rt_n_stops rt x) (S s')); [lia|reflexivity].
    - intros [ri r vi v day s s' st st' Hr Hv D1 D2 Hs Hs' Hlt El El' Hon Hoff Hcl Hfl Eb Ea|x s s' w w' Hx Hs Hs' Hlt El El' Hon Hoff Hcl Hfl Eb Ea].
      + assert (Hri : (ri < N)%nat) by (apply nth_error_Some; congruence).
        apply (ride_intro Q l tb l' ta ri (scheduled_route St rt number ri r) vi (day_filter St rt number ri v vi) day s s' st st'); auto.
        * now rewrite routes_static, Hr.
        * cbn [scheduled_route r_vehicles]. rewrite nth_error_map, combine_seq, Hv. reflexivity.
        * split; auto.
      + assert (L1 : (s < rt_n_stops rt x)%nat) by (apply nth_error_Some; congruence).
        assert (L2 : (s' < rt_n_stops rt x)%nat) by (apply nth_error_Some; congruence).
        apply (ride_intro Q l tb l' ta (N + x) (rt_route rt X x) 0 (rt_vehicle rt X x) (x_base X + rt_first_day rt x) s s' (stop_of_value w) (stop_of_value w')); auto.
        * rewrite routes_rt by lia. replace (N + x - N)%nat with x by lia. destruct (Nat.ltb_spec x (n_rt rt)); [reflexivity|unfold n_rt in *; lia].
        * split; [now apply rt_day_range|]. cbn [rt_vehicle v_days]. apply Z.eqb_refl.
        * cbn [rt_route r_stops]. now rewrite nth_error_map, Hs.
        * cbn [rt_route r_stops]. now rewrite nth_error_map, Hs'.
        * rewrite rt_event_time, Eb. unfold rt_time. change (p_fwd Q) with (p_fwd P). f_equal. unfold rt_minutes.
          destruct (p_fwd P); cbn [negb]; [|reflexivity]. destruct (Nat.leb_spec (rt_n_stops rt x) (S s)); [lia|reflexivity].
        * rewrite rt_event_time, Ea. unfold rt_time. change (p_fwd Q) with (p_fwd P). f_equal. unfold rt_minutes.
          destruct (p_fwd P); cbn [negb]; [reflexivity|]. destruct (Nat.leb_spec (rt_n_stops rt x) (S s')); [lia|reflexivity].
  Qed.

  (** The time the search reads for a real-time vehicle (raptor.h:1460-1469). *)
  Lemma rt_time_at_stop x s e : (x < n_rt rt)%nat -> (s < rt_n_stops rt x)%nat ->
    time_at_stop Q (rt_route rt X x) (0%nat, x_base X + rt_first_day rt x) s e = clamp16 ((x_base X - p_base P) * 1440 + rt_minutes rt x s e).
  Proof using HR.
    intros Hx Hs. unfold time_at_stop, vehicle_of, Raptor_Model.to_delta. cbn [fst snd rt_route r_vehicles nth now p_base].
    pose proof (rt_ev_minutes x s e) as H. destruct (rt_minutes_ge x s e Hx Hs) as [H1 _]. f_equal.
    unfold delta_count. unfold event_minutes in H. cbn [rt_vehicle v_ev] in *. unfold to_i16. rewrite Z.mod_small; lia.
  Qed.
End Facts.

(** ** Connections *)
Lemma connections_now St rt X number P lb starts tr : rt_data_ok St rt X number P ->
  forall k l t, connection (now St rt X number P lb) starts tr k l t <-> connection_now St rt X number P starts tr k l t.
Proof.
  intros HR. set (Q := now St rt X number P lb).
  assert (HR1 : forall k, (forall l t, arrived Q starts tr k l t -> arrived_now St rt X number P starts tr k l t) ->
                forall l t, ready Q starts tr k l t -> ready_now St rt X number P starts tr k l t).
  { intros k HA l t H. inversion H as [a b Hs|n a b Ha|n a b c d Ha Hw]; subst.
    - now constructor.
    - exact (rn_transfer St rt X number P starts tr _ _ _ (HA _ _ Ha)).
    - exact (rn_walk St rt X number P starts tr _ _ _ _ _ (HA _ _ Ha) Hw). }
  assert (HA1 : forall k l t, arrived Q starts tr k l t -> arrived_now St rt X number P starts tr k l t).
  { induction k as [|k IH]; intros l t H; inversion H as [n a b tb c ta Hr Hn Hride]; subst.
    apply (rides_now St rt X number P lb HR) in Hride. exact (an_ride St rt X number P starts tr _ _ _ _ _ _ (HR1 k IH _ _ Hr) Hn Hride). }
  assert (HR2 : forall k, (forall l t, arrived_now St rt X number P starts tr k l t -> arrived Q starts tr k l t) ->
                forall l t, ready_now St rt X number P starts tr k l t -> ready Q starts tr k l t).
  { intros k HA l t H. inversion H as [a b Hs|n a b Ha|n a b c d Ha Hw]; subst.
    - now constructor.
    - exact (ready_transfer Q starts tr _ _ _ (HA _ _ Ha)).
    - exact (ready_walk Q starts tr _ _ _ _ _ (HA _ _ Ha) Hw). }
  assert (HA2 : forall k l t, arrived_now St rt X number P starts tr k l t -> arrived Q starts tr k l t).
  { induction k as [|k IH]; intros l t H; inversion H as [n a b tb c ta Hr Hn Hride]; subst.
    apply (rides_now St rt X number P lb HR) in Hride. exact (arrived_ride Q starts tr _ _ _ _ _ _ (HR2 k IH _ _ Hr) Hn Hride). }
  intros k l t. split; intros [H1 H2 Ha|l0 t0 d H1 H2 Ha Hw E|off l0 t0 d H1 H2 H3 Ha Ho E].
  - apply cn_station; auto.
  - exact (cn_walk St rt X number P starts tr k l t l0 t0 d H1 H2 (HA1 _ _ _ Ha) Hw E).
  - exact (cn_offset St rt X number P starts tr k l t off l0 t0 d H1 H2 H3 (HA1 _ _ _ Ha) Ho E).
  - apply conn_station; auto.
  - exact (conn_walk Q starts tr k l t l0 t0 d H1 H2 (HA2 _ _ _ Ha) Hw E).
  - exact (conn_offset Q starts tr k l t off l0 t0 d H1 H2 H3 (HA2 _ _ _ Ha) Ho E).
Qed.
