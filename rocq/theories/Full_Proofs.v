(** Composition of start labels, driver, round-based search and reconstruction. *)
From Coq Require Import List ZArith Bool Arith Lia Sorting.Sorted Permutation.
From Verif Require Import Base Time_Model Time_Proofs Pareto_Model Pareto_Proofs Seq_Model Raptor_Model Raptor_Spec Raptor_Base Raptor_Sound Raptor_Genuine
  Raptor_Final Raptor_Bound P_Raptor Rec_Model Rec_Spec P_Rec P_RecComplete Start_Model Search_Model P_Search Full_Model Full_Base Full_Spec P_LowerBounds.
From Verif Require Query_Model Dijkstra_Model P_Start.
Import ListNotations.
Local Open Scope Z_scope.

(** A connection only depends on the first vehicle being caught. *)
Lemma first_ride P St tr : forall k,
  (forall l t, arrived P St tr k l t -> exists l0 t0 tb l1 ta, St l0 t0 /\ no_later P t0 tb /\ ride_ok P l0 tb l1 ta /\
     forall (St' : nat -> Z -> Prop) (t1 : Z), St' l0 t1 -> no_later P t1 tb -> arrived P St' tr k l t) /\
  (forall l t, (1 <= k)%nat -> ready P St tr k l t -> exists l0 t0 tb l1 ta, St l0 t0 /\ no_later P t0 tb /\ ride_ok P l0 tb l1 ta /\
     forall (St' : nat -> Z -> Prop) (t1 : Z), St' l0 t1 -> no_later P t1 tb -> ready P St' tr k l t).
Proof.
  assert (HR : forall k,
    (forall l t, arrived P St tr k l t -> exists l0 t0 tb l1 ta, St l0 t0 /\ no_later P t0 tb /\ ride_ok P l0 tb l1 ta /\
       forall (St' : nat -> Z -> Prop) (t1 : Z), St' l0 t1 -> no_later P t1 tb -> arrived P St' tr k l t) ->
    (forall l t, (1 <= k)%nat -> ready P St tr k l t -> exists l0 t0 tb l1 ta, St l0 t0 /\ no_later P t0 tb /\ ride_ok P l0 tb l1 ta /\
       forall (St' : nat -> Z -> Prop) (t1 : Z), St' l0 t1 -> no_later P t1 tb -> ready P St' tr k l t)).
  { intros k HA l t Hk H. inversion H as [l0 t0 Hs|k0 l0 t0 Ha|k0 l0 t0 l1 d Ha Hw]; subst; [lia| |];
      destruct (HA _ _ Ha) as (la & ta & tb & lb & tc & H1 & H2 & H3 & H4); exists la, ta, tb, lb, tc;
      (split; [exact H1|]; split; [exact H2|]; split; [exact H3|]; intros St' t1 H5 H6).
    - apply ready_transfer. eapply H4; eauto.
    - eapply ready_walk; [eapply H4; eauto|exact Hw]. }
  induction k as [|k [IHa IHr]].
  - assert (HA : forall l t, arrived P St tr 0 l t -> exists l0 t0 tb l1 ta, St l0 t0 /\ no_later P t0 tb /\ ride_ok P l0 tb l1 ta /\
       forall (St' : nat -> Z -> Prop) (t1 : Z), St' l0 t1 -> no_later P t1 tb -> arrived P St' tr 0 l t) by (intros l t H; inversion H).
    split; [exact HA|]. intros; lia.
  - assert (HA : forall l t, arrived P St tr (S k) l t -> exists l0 t0 tb l1 ta, St l0 t0 /\ no_later P t0 tb /\ ride_ok P l0 tb l1 ta /\
       forall (St' : nat -> Z -> Prop) (t1 : Z), St' l0 t1 -> no_later P t1 tb -> arrived P St' tr (S k) l t).
    { intros l t H. inversion H as [k0 l0 t0 tb l' ta Hr Hn Hri]; subst.
      destruct k as [|k].
      - inversion Hr as [l1 t1 Hs|k1 l1 t1 Ha|k1 l1 t1 l2 d Ha Hw]; subst; try (inversion Ha; fail).
        exists l0, t0, tb, l, t. split; [exact Hs|]. split; [exact Hn|]. split; [exact Hri|]. intros St' t1 H1 H2.
        eapply arrived_ride; [apply ready_start; exact H1|exact H2|exact Hri].
      - destruct (IHr _ _ ltac:(lia) Hr) as (la & t1 & tb1 & lb & tc & H1 & H2 & H3 & H4). exists la, t1, tb1, lb, tc.
        split; [exact H1|]. split; [exact H2|]. split; [exact H3|]. intros St' t2 H5 H6. eapply arrived_ride; [eapply H4; eauto|exact Hn|exact Hri]. }
    split; [exact HA|]. exact (HR (S k) HA).
Qed.
Lemma connection_first_ride P St tr k l t : connection P St tr k l t ->
  exists l0 t0 tb l1 ta, St l0 t0 /\ no_later P t0 tb /\ ride_ok P l0 tb l1 ta /\
    forall (St' : nat -> Z -> Prop) (t1 : Z), St' l0 t1 -> no_later P t1 tb -> connection P St' tr k l t.
Proof.
  intros H. destruct (first_ride P St tr k) as [HA _].
  inversion H as [Hn Hd Ha|l0 t0 d Hn Hd Ha Hw Et|off l0 t0 d Hoff Hd El Ha Ho Et];
    destruct (HA _ _ Ha) as (la & t1 & tb & lb & tc & H1 & H2 & H3 & H4); exists la, t1, tb, lb, tc;
    (split; [exact H1|]; split; [exact H2|]; split; [exact H3|]; intros St' t2 H5 H6).
  - apply conn_station; auto. eapply H4; eauto.
  - eapply conn_walk; eauto.
  - eapply conn_offset; eauto.
Qed.

Lemma run_groups_snoc P mt gs g : forall s res,
  run_groups P mt s res (gs ++ [g]) =
  (run_group P mt (fst (run_groups P mt s res gs)) g,
   fold_left (fun rs j => fst (add journey journey_dominates rs j))
     (reported P mt g (run_group P mt (fst (run_groups P mt s res gs)) g)) (snd (run_groups P mt s res gs))).
Proof. induction gs as [|g' gs IH]; intros s res; [reflexivity|]. cbn [app run_groups]. apply IH. Qed.

Section Full.
  Variable P : params.
  Variable L : Dijkstra_Model.locations.
  Variable first_day : Z.
  Variable q : iquery.
  Variable smode : Query_Model.match_mode.
  Variable use_fp : bool.
  Variable starts : list Query_Model.offset.
  Variable dmode : Dijkstra_Model.match_mode.
  Variable dest : list (nat * Z).
  Variable mx : Z.
  Variable START : nat.
  Variable mt : nat.
  Variable fd : Z.
  Variable B : Z.
  Variable iv : interval.
  Hypothesis HT : timetable_ok P.
  Hypothesis HQ : query_is P L first_day q smode use_fp starts dmode dest mx START B iv.
  Hypothesis Hfd : 0 <= fd.
  Variable shortest : list (nat * Z).
  Hypothesis Hshort : Permutation shortest (shortest_offsets P L smode use_fp starts).
  Notation o := (o P).
  Notation Q := (rec_query L q smode starts dest START).
  Notation rel := (rel P first_day).
  Notation minute := (minute P first_day).
  Notation option_ := (start_option P L smode use_fp starts).
  Notation base := ((first_day + p_base P) * 1440).

  (** ** Times *)
  Lemma q_iv_eq : q_iv q = iv.
  Proof. unfold q_iv. now rewrite (qi_time _ _ _ _ _ _ _ _ _ _ _ _ _ HQ). Qed.
  Lemma minute_iv t : iv_from iv - 1 <= t <= iv_to iv -> -10801 <= minute t <= 10800.
  Proof.
    intros Ht. unfold Full_Spec.minute. rewrite (qi_base _ _ _ _ _ _ _ _ _ _ _ _ _ HQ). unfold base_time. rewrite q_iv_eq.
    destruct (qi_interval _ _ _ _ _ _ _ _ _ _ _ _ _ HQ) as [H1 H2].
    pose proof (round_days_spec (iv_from iv + Z.quot (iv_to iv - iv_from iv) 2)) as [R _]. pose proof (quot2_bounds (iv_to iv - iv_from iv)). lia.
  Qed.
  Lemma rel_minute t : -32768 <= minute t <= 32767 -> rel t = minute t.
  Proof. intros H. unfold Full_Model.rel, unix_to_delta, clamp16, base_day, Full_Spec.minute, i16_min, i16_max in *. lia. Qed.
  Lemma unix_rel d : unix P first_day d = base + d.
  Proof. reflexivity. Qed.

  (** ** Start offsets *)
  Lemma option_shortest l d : option_ l d -> exists d', In (l, d') shortest /\ d' <= d.
  Proof.
    intros H. destruct (P_Start.C29_shortest_offset (p_fwd P) (p_tt P) [] (start_locations L) smode use_fp (p_adjust P) starts) as (_ & H2 & H3).
    cbv zeta in H2, H3. destruct (H3 l d H) as (d' & Hd'). exists d'. split.
    - eapply Permutation_in; [apply Permutation_sym; exact Hshort|exact Hd'].
    - destruct (H2 _ _ Hd') as [_ H4]. specialize (H4 d H). cbn [first_via_stay] in H4. lia.
  Qed.
  Lemma shortest_option l d : In (l, d) shortest -> option_ l d.
  Proof.
    intros H. destruct (P_Start.C29_shortest_offset (p_fwd P) (p_tt P) [] (start_locations L) smode use_fp (p_adjust P) starts) as (_ & H2 & _).
    cbv zeta in H2. eapply Permutation_in in H; [|exact Hshort]. destruct (H2 _ _ H) as [(x & Hx & E) _]. cbn [first_via_stay] in E.
    rewrite Z.add_0_r in E. subst x. exact Hx.
  Qed.
  Lemma shortest_nodup : NoDup (map fst shortest).
  Proof.
    destruct (P_Start.C29_shortest_offset (p_fwd P) (p_tt P) [] (start_locations L) smode use_fp (p_adjust P) starts) as (H & _ & _).
    cbv zeta in H. eapply Permutation_NoDup; [|exact H]. apply Permutation_map, Permutation_sym, Hshort.
  Qed.
  Lemma shortest_range l d : In (l, d) shortest -> 0 <= d <= mx /\ d <> 511.
  Proof. intros H. apply (qi_offsets _ _ _ _ _ _ _ _ _ _ _ _ _ HQ l d). now apply shortest_option. Qed.

  Lemma events_ok : P_Start.events_ok (p_tt P).
  Proof.
    intros ri r v s e Hr Hv Hs. destruct (proj1 (to_vehicles _ HT) ri r v Hr Hv) as (H & _ & _). destruct (H s e Hs) as (H1 & H2 & H3).
    unfold event_minutes in H3. lia.
  Qed.

  (** ** Start labels *)
  Definition labels : list start := add_start_labels q (start_labels P first_day mx shortest) (Pretrip iv) true [].
  Lemma labels_in s : In s labels <-> In s (start_labels P first_day mx shortest (Pretrip iv) true []).
  Proof. unfold labels. apply (add_start_labels_in q). Qed.
  (** Every label: an offset of the query; its start time is in the interval or right behind it. *)
  Lemma label_sound s : In s labels -> exists d, In (st_loc s, d) shortest /\ st_at_stop s = P_Start.later (p_fwd P) (st_at_start s) d /\
    (iv_from iv <= st_at_start s < iv_to iv \/ st_at_start s = (if p_fwd P then iv_to iv else iv_from iv - 1)).
  Proof.
    intros H. apply labels_in in H. unfold start_labels in H.
    apply (P_Start.C29_interval_starts_sound _ _ _ _ _ _ _ _ _ _ _ events_ok) in H.
    destruct H as (x & [(d & -> & Hd)|(c & _ & [])] & H). exists d. split; [exact Hd|]. cbn [get_duration] in H.
    destruct H as [(_ & H1 & H2)|(_ & H1 & H2)].
    - split; [|left; exact H2]. unfold P_Start.before, P_Start.later in *. destruct (p_fwd P); lia.
    - split; [exact H2|right; exact H1].
  Qed.
  Lemma label_times s : In s labels -> -10801 <= minute (st_at_start s) <= 10800 /\ -18001 <= minute (st_at_stop s) <= 18000 /\
    o (minute (st_at_start s)) <= o (minute (st_at_stop s)).
  Proof.
    intros H. destruct (label_sound s H) as (d & Hd & Es & Ht). apply shortest_range in Hd.
    destruct (qi_range _ _ _ _ _ _ _ _ _ _ _ _ _ HQ) as (_ & _ & Hmx).
    assert (X : -10801 <= minute (st_at_start s) <= 10800).
    { apply minute_iv. destruct (qi_interval _ _ _ _ _ _ _ _ _ _ _ _ _ HQ). destruct (p_fwd P); lia. }
    split; [exact X|]. unfold P_Start.later in Es. unfold Raptor_Base.o, Full_Spec.minute in *. destruct (p_fwd P); lia.
  Qed.
  Lemma label_ontrip l d : In (l, d) shortest ->
    let t := if p_fwd P then iv_to iv else iv_from iv - 1 in In (mk_start t (P_Start.later (p_fwd P) t d) l) labels.
  Proof.
    intros H t. apply labels_in. unfold start_labels. unfold get_starts. cbn [fold_left].
    assert (X : forall xs acc, In (l, d) xs -> (forall x, In x xs -> 0 <= snd x /\ snd x <> 511) ->
      In (mk_start t (P_Start.later (p_fwd P) t d) l)
        (fold_left (fun starts lo => add_starts_in_interval (p_fwd P) (p_require P 2) (p_tt P) first_day (fun _ => []) iv (fst lo) (Fixed (snd lo)) mx true starts) xs acc)).
    { induction xs as [|[l' d'] xs IH]; intros acc Hin Hr; [destruct Hin|]. cbn [fold_left fst snd].
      destruct Hin as [E|Hin]; [|apply IH; auto; intros x Hx; apply Hr; now right]. injection E as -> ->.
      assert (Hd := Hr _ (or_introl eq_refl)). cbn [snd] in Hd.
      set (acc' := add_starts_in_interval _ _ _ _ _ _ _ _ _ _ acc).
      assert (Ha : In (mk_start t (P_Start.later (p_fwd P) t d) l) acc').
      { unfold acc', add_starts_in_interval. unfold ontrip_start. cbn [get_duration].
        destruct (Z.eqb_spec d fp_max_duration) as [Ed|_]; [change fp_max_duration with 511 in Ed; lia|]. left.
        unfold P_Start.later, t. destruct (p_fwd P); reflexivity. }
      revert Ha. assert (Hev := events_ok). generalize acc'. clear - Hev. induction xs as [|[l2 d2] xs IH]; intros a Ha; cbn [fold_left fst snd]; [exact Ha|].
      apply IH. apply P_Start.add_starts_incl; auto. }
    apply X; [exact H|]. intros [l' d'] Hx. apply shortest_range in Hx. cbn [snd]. lia.
  Qed.

  (** ** Groups *)
  Notation gs := (start_groups labels).
  Notation wait := (Z.min fd (iq_max_travel q) + 1).
  Definition grp (tg : Z * list start) : group := group_of P first_day (fst tg) (snd tg) (fst tg + (if p_fwd P then 1 else -1) * wait).
  Definition edge : Z := if p_fwd P then iv_to iv else iv_from iv - 1.

  Lemma group_label tg s : In tg gs -> In s (snd tg) -> In s labels /\ st_at_start s = fst tg.
  Proof. destruct tg as [t g]. intros H Hs. eapply start_groups_member; eauto. Qed.
  Lemma group_time tg : In tg gs -> (iv_from iv <= fst tg < iv_to iv \/ fst tg = edge) /\ -10801 <= minute (fst tg) <= 10800.
  Proof.
    destruct tg as [t g]. intros H. apply start_groups_in in H as (s & Hs & <-). cbn [fst].
    destruct (label_times s Hs) as (H1 & _). destruct (label_sound s Hs) as (d & _ & _ & H2). unfold edge. auto.
  Qed.
  Lemma grp_start tg : In tg gs -> g_start (grp tg) = minute (fst tg).
  Proof. intros H. apply group_time in H as [_ H]. unfold grp, group_of. cbn [g_start]. apply rel_minute. lia. Qed.
  Lemma grp_worst tg : In tg gs -> o (g_worst (grp tg)) = o (minute (fst tg)) + wait.
  Proof.
    intros H. apply group_time in H as [_ H]. destruct (qi_travel _ _ _ _ _ _ _ _ _ _ _ _ _ HQ) as [H1 H2].
    unfold grp, group_of. cbn [g_worst]. rewrite rel_minute; unfold Full_Spec.minute, Raptor_Base.o in *; destruct (p_fwd P); lia.
  Qed.
  Lemma grp_starts tg l t : In tg gs -> In (l, t) (g_starts (grp tg)) ->
    exists s, In s labels /\ st_at_start s = fst tg /\ st_loc s = l /\ t = minute (st_at_stop s).
  Proof.
    intros H Hin. unfold grp, group_of in Hin. cbn [g_starts] in Hin. apply in_map_iff in Hin as (s & E & Hs).
    destruct (group_label tg s H Hs) as [Hl Es]. injection E as E1 E2. exists s. do 3 (split; [assumption|]).
    rewrite <- E2. apply rel_minute. destruct (label_times s Hl) as (_ & X & _). lia.
  Qed.
  Lemma labels_sorted : StronglySorted (fun a b : Z * list start => o (minute (fst b)) < o (minute (fst a))) gs.
  Proof.
    assert (X : StronglySorted (searched_before (p_fwd P)) labels).
    { unfold labels, add_start_labels. rewrite (qi_fwd _ _ _ _ _ _ _ _ _ _ _ _ _ HQ). apply sort_starts_sorted. }
    apply start_groups_strict in X. revert X. generalize gs. intros l X. induction X as [|a l Hs IH Hf]; constructor; auto.
    rewrite Forall_forall in *. intros b Hb. specialize (Hf b Hb). unfold dirz, Raptor_Base.o, Full_Spec.minute in *. destruct (p_fwd P); lia.
  Qed.
  Lemma prefix_order done x rest : gs = done ++ x :: rest -> forall y, In y done -> o (minute (fst x)) < o (minute (fst y)).
  Proof. intros E y Hy. exact (sorted_split _ _ _ _ _ labels_sorted E y Hy). Qed.

  Lemma prefix_groups_ok done rest : gs = done ++ rest -> groups_ok P (map grp done).
  Proof.
    intros E. assert (Hin : forall tg, In tg done -> In tg gs) by (intros tg H; rewrite E; apply in_app_iff; auto).
    constructor.
    - intros g l t Hg Hl. apply in_map_iff in Hg as (tg & <- & Hg). apply grp_starts in Hl as (s & Hs & _ & _ & ->); auto.
      destruct (label_times s Hs) as (_ & X & _). unfold time_range. lia.
    - intros g Hg. apply in_map_iff in Hg as (tg & <- & Hg). rewrite grp_start by auto. destruct (group_time tg) as [_ X]; auto. unfold time_range. lia.
    - intros g l t Hg Hl. apply in_map_iff in Hg as (tg & <- & Hg). rewrite grp_start by auto. apply grp_starts in Hl as (s & Hs & <- & _ & ->); auto.
      apply no_later_o. apply (label_times s Hs).
    - intros gs1 g gs2 g' Eg Hg'. apply map_eq_app in Eg as (d1 & d2 & -> & <- & Eg). apply map_eq_cons in Eg as (x & d3 & -> & <- & <-).
      apply in_map_iff in Hg' as (y & <- & Hy).
      rewrite !grp_start by (apply Hin; rewrite in_app_iff; cbn; auto). apply no_later_o.
      rewrite <- app_assoc in E. cbn [app] in E. pose proof (prefix_order _ _ _ E y Hy). lia.
  Qed.

  (** ** Arrival times of reported journeys *)
  Lemma walk_bound l l' d : walk P l l' d -> 0 <= d <= B.
  Proof.
    intros (d0 & Hin & ->). pose proof (qi_walks _ _ _ _ _ _ _ _ _ _ _ _ _ HQ) as HW. unfold Raptor_Spec.walk in *.
    destruct (p_fwd P); [apply (w_footpath _ _ _ HW l l')|apply (w_footpath _ _ _ HW l' l)]; exists d0; (split; [|reflexivity]); auto.
    now apply (w_sym _ _ _ HW).
  Qed.
  Lemma reported_span done rest j : gs = done ++ rest -> In j (all_reported P mt (reset_arrivals P) (map grp done)) ->
    o (j_start j) <= o (j_dest j) <= o (j_start j) + 32767.
  Proof.
    intros E Hj. assert (Hgs := prefix_groups_ok _ _ E).
    assert (X := reported_direction P mt (to_vehicles _ HT) (to_durations _ HT) (to_end _ HT) (to_locations _ HT) (map grp done) j 0 Hgs ltac:(lia) (rides_take_zero P (to_vehicles _ HT)) Hj).
    split; [lia|]. apply in_all_reported in Hj as (gs1 & g & gs2 & Eg & Hj). apply in_reported in Hj as (k & l & Hl & Hd & Hk & Hne & ->).
    cbn [j_start j_dest] in *.
    apply map_eq_app in Eg as (d1 & d2 & -> & <- & Eg). apply map_eq_cons in Eg as (x & d3 & -> & <- & <-).
    assert (Hin : forall tg, In tg (d1 ++ [x]) -> In tg gs).
    { intros tg H. rewrite E. rewrite !in_app_iff in *. cbn in *. tauto. }
    rewrite grp_start by (apply Hin; rewrite in_app_iff; cbn; auto).
    destruct (qi_interval _ _ _ _ _ _ _ _ _ _ _ _ _ HQ) as [I1 I2]. destruct (qi_travel _ _ _ _ _ _ _ _ _ _ _ _ _ HQ) as [T1 T2].
    pose proof (qi_walks _ _ _ _ _ _ _ _ _ _ _ _ _ HQ) as HW. pose proof (qi_B _ _ _ _ _ _ _ _ _ _ _ _ _ HQ) as HB.
    assert (M := minute_iv edge ltac:(unfold edge; destruct (p_fwd P); lia)).
    assert (Y : o (s_rt (after_groups P mt (reset_arrivals P) (map grp (d1 ++ [x]))) k l) <= (o (minute edge) + 7201) + B).
    { apply (groups_bounded P (o (minute edge) + 7201) B); auto; try lia.
      - unfold OL, Raptor_Base.o. destruct (p_fwd P); lia.
      - apply (w_bound _ _ _ HW).
      - apply (w_transfer _ _ _ HW).
      - apply walk_bound.
      - intros g Hg. apply in_map_iff in Hg as (tg & <- & Hg). apply Hin in Hg. rewrite grp_worst by auto.
        destruct (group_time tg Hg) as [Ht _]. unfold edge, Raptor_Base.o, Full_Spec.minute in *. destruct (p_fwd P); lia.
      - now rewrite map_app. }
    rewrite map_app in Y. cbn [map] in Y.
    destruct (group_time x ltac:(apply Hin; rewrite in_app_iff; cbn; auto)) as [Ht _].
    unfold edge, Raptor_Base.o, Full_Spec.minute in *. destruct (p_fwd P); lia.
  Qed.
  Lemma travel_time j : o (j_start j) <= o (j_dest j) <= o (j_start j) + 32767 ->
    journey_travel_time (shift_journey base j) = o (j_dest j) - o (j_start j).
  Proof.
    intros H. unfold journey_travel_time, shift_journey. cbn [j_start j_dest].
    replace (Z.abs (base + j_dest j - (base + j_start j))) with (o (j_dest j) - o (j_start j)) by (unfold Raptor_Base.o in *; destruct (p_fwd P); lia).
    unfold to_i16. rewrite Z.mod_small; lia.
  Qed.

  (** ** Hypotheses of C48 / C49 for the groups of the query *)
  Lemma explained tg : In tg gs -> starts_explained P Q (grp tg).
  Proof.
    intros Htg l t Hin. destruct (grp_starts tg l t Htg Hin) as (s & Hs & Es & El & ->).
    destruct (label_sound s Hs) as (d & Hd & Est & _). rewrite El in Hd. apply shortest_option in Hd.
    assert (Et : minute (st_at_stop s) = after P (g_start (grp tg)) d).
    { rewrite grp_start by auto. rewrite Est, Es. unfold P_Start.later, after, Full_Spec.minute. destruct (p_fwd P); lia. }
    pose proof (qi_kind _ _ _ _ _ _ _ _ _ _ _ _ _ HQ) as Hk.
    assert (Hm : forall x y, In y (Query_Model.metas (start_locations L) smode x) -> Query_Model.matches (start_locations L) smode x y = true).
    { intros x y H. unfold Query_Model.matches. destruct smode; try (apply orb_true_iff; right; apply existsb_exists; exists y; split; [exact H|apply Nat.eqb_refl]).
      destruct H as [<-|[]]. apply Nat.eqb_refl. }
    destruct Hd as (s0 & l0 & Hs0 & Hl0 & Hd).
    assert (Hst : forall y, In y (Query_Model.metas (start_locations L) smode (Query_Model.o_target s0)) ->
       In (Query_Model.o_target s0, Query_Model.o_duration s0) (rq_start Q) /\ rq_matches Q (Query_Model.o_target s0) y = true).
    { intros y Hy. split; [cbn; apply in_map_iff; exists s0; auto|cbn [rec_query rq_matches]; now apply Hm]. }
    change (rq_intermodal_start Q) with (match smode with Query_Model.kIntermodal => true | _ => false end).
    change (match smode with Query_Model.kIntermodal => true | _ => false end) with (Query_Model.is_intermodal smode).
    destruct (Query_Model.is_intermodal smode).
    - destruct Hd as [[-> ->]|[Hu _]]; [|congruence]. exists (Query_Model.o_target s0), (Query_Model.o_duration s0).
      destruct (Hst l0 Hl0) as [X1 X2]. do 2 (split; [assumption|]). rewrite Et. apply no_later_o. lia.
    - assert (E0 := Hk s0 Hs0). destruct Hd as [[-> ->]|[_ (d0 & Hw & ->)]].
      + left. exists (Query_Model.o_target s0), (Query_Model.o_duration s0). now apply Hst.
      + right. exists l0, (p_adjust P d0). split; [exists (Query_Model.o_target s0), (Query_Model.o_duration s0); now apply Hst|].
        split; [exists d0; auto|]. rewrite Et, E0. reflexivity.
  Qed.
  Lemma offsets_ok : dest_offsets_ok P Q.
  Proof.
    destruct (qi_setup _ _ _ _ _ _ _ _ _ _ _ _ _ HQ) as (cars & bikes & S). intros off Hoff. rewrite (q_dist _ _ _ _ _ _ _ S) in Hoff.
    unfold Dijkstra_Model.collect_dist_to_dest in Hoff. destruct (Dijkstra_Model.is_intermodal dmode) eqn:Em; [|discriminate].
    assert (Edm : dmode = Dijkstra_Model.kIntermodal) by (destruct dmode; cbn in Em; congruence).
    assert (Hr : forall x d l, In (x, d) dest -> In l (Dijkstra_Model.metas L dmode x) -> 0 <= d <= 7200).
    { intros x d l Hx Hl. apply (q_offsets _ _ _ _ _ _ _ S l d). left. exists x. auto. }
    injection Hoff as <-. subst dmode.
    change (rq_dest Q) with dest. change (rq_metas Q) with (Dijkstra_Model.metas L Dijkstra_Model.kIntermodal).
    set (step := fun l acc (o0 : nat * Z) => if existsb (Nat.eqb l) (Dijkstra_Model.metas L Dijkstra_Model.kIntermodal (fst o0)) then Z.min acc (to_u16 (snd o0)) else acc).
    assert (Hex : forall l x, existsb (Nat.eqb l) (Dijkstra_Model.metas L Dijkstra_Model.kIntermodal x) = true <-> In l (Dijkstra_Model.metas L Dijkstra_Model.kIntermodal x)).
    { intros l x. rewrite existsb_exists. split; [intros (y & H1 & H2); apply Nat.eqb_eq in H2; now subst|]. intros H. exists l. split; [auto|apply Nat.eqb_refl]. }
    assert (HF : forall l xs acc, incl xs dest ->
      let d := fold_left (step l) xs acc in
      d <= acc /\ (d = acc \/ exists x, In (x, d) xs /\ In l (Dijkstra_Model.metas L Dijkstra_Model.kIntermodal x)) /\
      forall x e, In (x, e) xs -> In l (Dijkstra_Model.metas L Dijkstra_Model.kIntermodal x) -> d <= e).
    { intros l. induction xs as [|[x e] xs IH]; intros acc Hi; cbv zeta; cbn [fold_left].
      - split; [lia|]. split; [auto|]. intros x e [].
      - destruct (IH (step l acc (x, e)) ltac:(intros y Hy; apply Hi; now right)) as (A1 & A2 & A3). clear IH.
        set (dd := fold_left (step l) xs (step l acc (x, e))) in *.
        assert (Es : step l acc (x, e) = if existsb (Nat.eqb l) (Dijkstra_Model.metas L Dijkstra_Model.kIntermodal x) then Z.min acc (to_u16 e) else acc) by reflexivity.
        clearbody dd. rewrite Es in A1, A2. clear Es.
        destruct (existsb (Nat.eqb l) (Dijkstra_Model.metas L Dijkstra_Model.kIntermodal x)) eqn:Ex.
        + assert (Hl := proj1 (Hex l x) Ex). assert (Hre := Hr x e l (Hi _ (or_introl eq_refl)) Hl).
          assert (Eu : to_u16 e = e) by (unfold to_u16; rewrite Z.mod_small; lia). rewrite Eu in *.
          split; [lia|]. split.
          * destruct A2 as [A2|(y & Hy & Hy2)]; [|right; exists y; split; [now right|auto]].
            destruct (Z.le_gt_cases acc e); [left; lia|]. right. exists x. split; [left; f_equal; lia|auto].
          * intros y e' [E|Hy] Hl2; [injection E as <- <-; lia|eauto].
        + split; [lia|]. split.
          * destruct A2 as [A2|(y & Hy & Hy2)]; [left; exact A2|right; exists y; split; [now right|auto]].
          * intros y e' [E|Hy] Hl2; [injection E as -> ->; apply Hex in Hl2; congruence|eauto]. }
    change kUnreachable with 65535 in *.
    split.
    - intros l d Hd. destruct (HF l dest 65535 (incl_refl _)) as (_ & A2 & _). fold (step l) in Hd.
      destruct (Z.eqb_spec (fold_left (step l) dest 65535) 65535) as [|Hn]; [discriminate|]. injection Hd as <-.
      destruct A2 as [A2|(x & Hx & Hl)]; [congruence|]. split; [apply (qi_dest _ _ _ _ _ _ _ _ _ _ _ _ _ HQ x _ Hx)|]. exists x. auto.
    - intros x l d Hx Hl. destruct (HF l dest 65535 (incl_refl _)) as (_ & A2 & A3). specialize (A3 x d Hx Hl).
      fold (step l). assert (Hd := Hr x d l Hx Hl). destruct (Z.eqb_spec (fold_left (step l) dest 65535) 65535) as [E|Hn]; [lia|].
      exists (fold_left (step l) dest 65535). auto.
  Qed.
  Lemma prefix_starts done rest l t : gs = done ++ rest -> starts_of (map grp done) l t ->
    (exists d, option_ l d) /\ ((l < tt_n_locations (p_tt P))%nat /\ p_is_dest P l = false) /\ well_inside B t.
  Proof.
    intros E (g & Hg & Hl). apply in_map_iff in Hg as (tg & <- & Hg).
    assert (Htg : In tg gs) by (rewrite E; apply in_app_iff; auto).
    destruct (grp_starts tg l t Htg Hl) as (s & Hs & Es & El & ->). destruct (label_sound s Hs) as (d & Hd & Est & _). rewrite El in Hd.
    apply shortest_option in Hd. split; [exists d; exact Hd|]. split; [apply (qi_locations _ _ _ _ _ _ _ _ _ _ _ _ _ HQ l d Hd)|].
    destruct (label_times s Hs) as (_ & X & _). pose proof (qi_B _ _ _ _ _ _ _ _ _ _ _ _ _ HQ). unfold well_inside. lia.
  Qed.
  Lemma start_inside tg : In tg gs -> well_inside B (g_start (grp tg)).
  Proof.
    intros H. rewrite grp_start by auto. apply group_time in H as [_ H]. pose proof (qi_B _ _ _ _ _ _ _ _ _ _ _ _ _ HQ).
    unfold well_inside. lia.
  Qed.

  (** ** One start time *)
  Notation exec := (algo_execute P first_day mt).
  Notation recon := (reconstruct P L first_day q smode starts dest START).
  Notation step := (search_group q state exec recon fd).
  Definition flags_ok (r : result) : Prop :=
    (r_reconstructed r = true -> exists l legs, itinerary P Q (Z.to_nat (j_transfers (r_journey r)) + 1) (minute (j_start (r_journey r))) l (minute (j_dest (r_journey r))) legs /\ p_is_dest P l = true) /\
    (iv_contains iv (j_start (r_journey r)) = true -> journey_travel_time (r_journey r) < fd -> r_reconstructed r = true \/ r_error r = true) /\
    (iv_contains iv (j_start (r_journey r)) = true -> journey_travel_time (r_journey r) < fd -> journey_travel_time (r_journey r) <= iq_max_travel q ->
     r_reconstructed r = true).
  Definition after_run (done : list (Z * list start)) : state := after_groups P mt (reset_arrivals P) (map grp done).
  Definition inv (done : list (Z * list start)) (st : dstate state * bool) : Prop :=
    exists rs, st = (mk_dstate state (after_run done) rs iv, false) /\
      map r_journey rs = map (shift_journey base) (snd (raptor P mt (map grp done))) /\ forall r, In r rs -> flags_ok r.

  Lemma after_run_snoc done tg : after_run (done ++ [tg]) = run_group P mt (after_run done) (grp tg).
  Proof. unfold after_run. rewrite map_app. unfold after_groups. rewrite fold_left_app. reflexivity. Qed.
  Lemma raptor_state gl : fst (raptor P mt gl) = after_groups P mt (reset_arrivals P) gl.
  Proof. unfold raptor. rewrite run_groups_eq. reflexivity. Qed.
  Lemma raptor_snoc gl g : snd (raptor P mt (gl ++ [g])) =
    fold_left (fun rs j => fst (add journey journey_dominates rs j)) (reported P mt g (after_groups P mt (reset_arrivals P) (gl ++ [g]))) (snd (raptor P mt gl)).
  Proof.
    rewrite <- raptor_state. unfold raptor at 1 2. rewrite run_groups_snoc. cbn [fst snd]. reflexivity.
  Qed.
  Lemma exec_eq s tg : In tg gs ->
    exec s (fst tg) (snd tg) (fst tg + (if p_fwd P then 1 else -1) * wait) =
    (run_group P mt s (grp tg), map (shift_journey base) (reported P mt (grp tg) (run_group P mt s (grp tg)))).
  Proof.
    intros H. unfold algo_execute. fold (grp tg). f_equal. apply map_ext_in. intros j Hj. unfold shift_journey.
    apply in_reported in Hj as (k & l & _ & _ & _ & _ & ->). cbn [j_start j_dest j_transfers]. rewrite grp_start by auto.
    rewrite unix_rel. f_equal. unfold Full_Spec.minute. lia.
  Qed.
  Lemma minute_shift x : minute (base + x) = x.
  Proof. unfold Full_Spec.minute. lia. Qed.

  Lemma rel_shift x : time_range x -> rel (base + x) = x.
  Proof. intros H. rewrite rel_minute; rewrite minute_shift; auto. Qed.

  Section OneStep.
    Variable done : list (Z * list start).
    Variable tg : Z * list start.
    Variable rest : list (Z * list start).
    Hypothesis Egs : gs = done ++ tg :: rest.
    Lemma Egs' : gs = (done ++ [tg]) ++ rest.
    Proof. rewrite <- app_assoc. exact Egs. Qed.
    Lemma Htg : In tg gs.
    Proof. rewrite Egs. apply in_app_iff. right. now left. Qed.
    Lemma map_snoc : map grp (done ++ [tg]) = map grp done ++ [grp tg].
    Proof. now rewrite map_app. Qed.
    Notation st' := (after_run (done ++ [tg])).
    Lemma st_raptor : s_rt st' = s_rt (fst (raptor P mt (map grp done ++ [grp tg]))).
    Proof. unfold after_run. now rewrite raptor_state, map_snoc. Qed.

    Lemma new_range j : In j (reported P mt (grp tg) st') -> time_range (j_start j) /\ time_range (j_dest j).
    Proof.
      intros H. assert (Hg := prefix_groups_ok _ _ Egs'). apply in_reported in H as (k & l & _ & _ & _ & _ & ->). cbn [j_start j_dest]. split.
      - apply (go_start_range _ _ Hg). apply in_map. apply in_app_iff. right. now left.
      - rewrite map_snoc in Hg. destruct (prefix_gsinv P mt (to_vehicles _ HT) (to_durations _ HT) (to_end _ HT) (to_locations _ HT) _ (map grp done) (grp tg) [] Hg eq_refl) as (k0 & X).
        apply (range_o P). rewrite <- map_snoc in X. split; [apply Z.lt_le_incl|]; apply (gs_rt_range _ _ _ _ X).
    Qed.
    Lemma recon_sound j : In j (reported P mt (grp tg) st') -> recon st' (shift_journey base j) = true ->
      exists l legs, itinerary P Q (Z.to_nat (j_transfers j) + 1) (j_start j) l (j_dest j) legs /\ p_is_dest P l = true.
    Proof.
      intros Hj Hr. destruct (new_range j Hj) as [R1 R2]. assert (Hg := prefix_groups_ok _ _ Egs'). rewrite map_snoc in Hg.
      apply in_reported in Hj as (k & lj & _ & _ & Hk & Hne & Ej).
      unfold reconstruct in Hr. unfold shift_journey in Hr. cbn [j_start j_dest j_transfers] in Hr. rewrite !rel_shift in Hr by auto.
      destruct (find _ _) as [l|] eqn:Ef; [|discriminate]. apply find_some in Ef as [_ Ef]. apply andb_true_iff in Ef as [Hd Ef]. apply Z.eqb_eq in Ef.
      destruct (reconstruct_legs _ _ _ _ _ _) as [legs|] eqn:El; [|discriminate]. exists l, legs. split; [|exact Hd].
      rewrite <- Ef. rewrite st_raptor in *.
      assert (Es : j_start j = g_start (grp tg)) by (rewrite Ej; reflexivity). rewrite Es in *.
      apply (C48_reconstruction_is_an_itinerary P Q B mt (map grp done) (grp tg)); auto; try apply HT.
      - apply (qi_walks _ _ _ _ _ _ _ _ _ _ _ _ _ HQ).
      - intros l0 t0 H0. rewrite <- map_snoc in H0. apply (prefix_starts _ _ _ _ Egs' H0).
      - apply start_inside, Htg.
      - rewrite Ef. rewrite Ej. cbn [j_dest]. exact Hne.
    Qed.
    Lemma recon_complete j : In j (snd (raptor P mt (map grp done ++ [grp tg]))) -> j_start j = g_start (grp tg) ->
      o (j_dest j) <= o (j_start j) + Z.min fd (iq_max_travel q) -> recon st' (shift_journey base j) = true.
    Proof.
      intros Hj Hs Hd. assert (Hg := prefix_groups_ok _ _ Egs'). rewrite map_snoc in Hg.
      destruct (qi_setup _ _ _ _ _ _ _ _ _ _ _ _ _ HQ) as (cars & bikes & S).
      destruct (lower_bounds_ok_exists _ _ _ _ _ _ P S (to_vehicles _ HT) (to_durations _ HT) (to_end _ HT) (to_locations _ HT) (to_index _ HT)) as (D & HD).
      destruct (qi_travel _ _ _ _ _ _ _ _ _ _ _ _ _ HQ) as [T1 T2].
      assert (Hp : forall y, In y (done ++ [tg]) -> In y gs) by (intros y Hy; rewrite Egs'; apply in_app_iff; auto).
      assert (Ho : forall g', In g' (map grp done ++ [grp tg]) -> exists y, In y gs /\ g' = grp y /\ o (minute (fst tg)) <= o (minute (fst y))).
      { intros g' Hg'. rewrite <- map_snoc in Hg'. apply in_map_iff in Hg' as (y & <- & Hy). exists y. split; [auto|]. split; [reflexivity|].
        apply in_app_iff in Hy as [Hy|[<-|[]]]; [|lia]. pose proof (prefix_order _ _ _ Egs y Hy). lia. }
      destruct (C49_kept_journeys_are_reconstructed P Q B D mt (map grp done) (grp tg) j) as [(l0 & Hd0 & Hl0) Hall]; auto; try apply HT.
      - split; [|exact (proj2 (qi_reach _ _ _ _ _ _ _ _ _ _ _ _ _ HQ))].
        intros l t ri r s1 s2 st1 st2 H0. rewrite <- map_snoc in H0. destruct (prefix_starts _ _ _ _ Egs' H0) as (X & _). exact (proj1 (qi_reach _ _ _ _ _ _ _ _ _ _ _ _ _ HQ) l t ri r s1 s2 st1 st2 X).
      - intros l t H0. rewrite <- map_snoc in H0. apply (prefix_starts _ _ _ _ Egs' H0).
      - apply (qi_walks _ _ _ _ _ _ _ _ _ _ _ _ _ HQ).
      - intros l t H0. rewrite <- map_snoc in H0. apply (prefix_starts _ _ _ _ Egs' H0).
      - apply start_inside, Htg.
      - apply offsets_ok.
      - intros g' Hg'. destruct (Ho g' Hg') as (y & Hy & -> & _). now apply explained.
      - intros g' Hg'. apply in_map_iff in Hg' as (y & <- & Hy). rewrite !grp_start by (try apply Htg; apply Hp; apply in_app_iff; auto).
        pose proof (prefix_order _ _ _ Egs y Hy) as X. intros E. rewrite E in X. lia.
      - intros g' Hg'. destruct (Ho g' Hg') as (y & Hy & -> & Hy2). apply no_later_o. rewrite grp_worst by auto.
        rewrite Hs, (grp_start tg Htg) in Hd. lia.
      - apply no_later_o. rewrite o_after. rewrite <- Hs. lia.
      - unfold reconstruct. unfold shift_journey. cbn [j_start j_dest j_transfers].
        rewrite <- st_raptor in Hall, Hl0.
        assert (R1 : time_range (j_start j)). { rewrite Hs. apply (go_start_range _ _ Hg). apply in_app_iff. right. now left. }
        assert (R2 : time_range (j_dest j)).
        { rewrite <- Hl0, st_raptor. destruct (prefix_gsinv P mt (to_vehicles _ HT) (to_durations _ HT) (to_end _ HT) (to_locations _ HT) _ (map grp done) (grp tg) [] Hg eq_refl) as (k0 & X).
          apply (range_o P). rewrite raptor_state. split; [apply Z.lt_le_incl|]; apply (gs_rt_range _ _ _ _ X). }
        rewrite !rel_shift by auto.
        destruct (find _ _) as [l|] eqn:Ef.
        + apply find_some in Ef as [_ Ef]. apply andb_true_iff in Ef as [Hd1 Ef]. apply Z.eqb_eq in Ef.
          destruct (Hall l Hd1 Ef) as (legs & Hlegs & _). rewrite Hs, Hlegs. reflexivity.
        + exfalso. apply find_none with (x := l0) in Ef.
          * rewrite Hd0, Hl0, Z.eqb_refl in Ef. discriminate.
          * apply in_seq. destruct (to_locations _ HT) as (_ & _ & X). specialize (X l0 Hd0). lia.
    Qed.
    Lemma step_inv s : inv done s -> inv (done ++ [tg]) (step s tg).
    Proof.
      intros (rs & -> & Hmap & Hfl). unfold search_group. cbn [ds_algo ds_results ds_iv fst snd].
      rewrite (qi_fwd _ _ _ _ _ _ _ _ _ _ _ _ _ HQ). rewrite (exec_eq (after_run done) tg Htg). rewrite <- after_run_snoc.
      set (js := reported P mt (grp tg) st').
      set (rs1 := fold_left _ (map (shift_journey base) js) rs).
      assert (Hmap1 : map r_journey rs1 = map (shift_journey base) (snd (raptor P mt (map grp done ++ [grp tg])))).
      { assert (X : forall xs rs0, fold_left (fun rs j => fst (add result result_dominates rs (mk_result j false false))) xs rs0
                    = fold_left (fun rs r => fst (add result result_dominates rs r)) (map (fun j => mk_result j false false) xs) rs0).
        { induction xs as [|x xs IH]; intros rs0; cbn [fold_left map]; [reflexivity|apply IH]. }
        unfold rs1. rewrite X. rewrite (add_fold_map result_dominates journey_dominates r_journey ltac:(reflexivity)).
        rewrite !map_map. cbn [r_journey]. rewrite Hmap. rewrite raptor_snoc. rewrite <- map_snoc.
        change (after_groups P mt (reset_arrivals P) (map grp (done ++ [tg]))) with st'. fold js.
        rewrite <- (add_fold_map journey_dominates journey_dominates (shift_journey base) (shift_dominates base)). reflexivity. }
      assert (Hin1 : forall r, In r rs1 -> In r rs \/ exists j, In j js /\ r = mk_result (shift_journey base j) false false).
      { assert (X : forall xs rs0 r, In r (fold_left (fun rs j => fst (add result result_dominates rs (mk_result j false false))) xs rs0) ->
                    In r rs0 \/ exists j, In j xs /\ r = mk_result j false false).
        { induction xs as [|x xs IH]; intros rs0 r H; cbn [fold_left] in H; auto. apply IH in H as [H|(j & Hj & ->)]; [|right; exists j; split; [now right|auto]].
          apply add_in in H as [->|H]; [right; exists x; split; [now left|auto]|auto]. }
        intros r H. apply X in H as [H|(j & Hj & ->)]; auto. apply in_map_iff in Hj as (j0 & <- & Hj). eauto. }
      assert (Hont : is_ontrip q = false) by (unfold is_ontrip; now rewrite (qi_time _ _ _ _ _ _ _ _ _ _ _ _ _ HQ)).
      match goal with |- context [map ?f rs1] => set (mark := f) end.
      assert (Hstop : forall n, (0 <? iq_min_conn q) && n && (if p_fwd P then iq_earlier q && negb (iq_later q) else negb (iq_earlier q) && iq_later q) = false).
      { intros n. pose proof (qi_fixed _ _ _ _ _ _ _ _ _ _ _ _ _ HQ) as Hf. unfold fixed_interval in Hf. apply orb_true_iff in Hf as [Hf|Hf].
        - apply Z.eqb_eq in Hf. rewrite Hf. reflexivity.
        - apply andb_true_iff in Hf as [H1 H2]. apply negb_true_iff in H1, H2. rewrite H1, H2. destruct (p_fwd P); apply andb_false_r. }
      rewrite Hstop. exists (map mark rs1). split; [reflexivity|]. split.
      { rewrite map_map. rewrite (map_ext _ r_journey); [rewrite Hmap1, map_snoc; reflexivity|].
        intros r. unfold mark. match goal with |- r_journey (if ?b then _ else _) = _ => destruct b end; [|reflexivity].
        match goal with |- r_journey (if ?b then _ else _) = _ => destruct b end; reflexivity. }
      intros r Hr. apply in_map_iff in Hr as (r0 & <- & Hr0).
      destruct (Hin1 r0 Hr0) as [Hold|(j & Hj & ->)].
      - assert (Em : mark r0 = r0).
        { destruct (Hfl r0 Hold) as (_ & F3 & _). unfold mark. rewrite Hont. cbn [orb].
          destruct (negb (r_reconstructed r0) && negb (r_error r0) && iv_contains iv (j_start (r_journey r0)) && (journey_travel_time (r_journey r0) <? fd)) eqn:E; [|reflexivity].
          exfalso. rewrite !andb_true_iff in E. destruct E as [[[E1 E2] E3] E4]. apply negb_true_iff in E1, E2. apply Z.ltb_lt in E4.
          destruct (F3 E3 E4); congruence. }
        rewrite Em. auto.
      - assert (Hkept : In j (snd (raptor P mt (map grp done ++ [grp tg])))).
        { assert (X : In (shift_journey base j) (map r_journey rs1)) by (apply in_map_iff; exists (mk_result (shift_journey base j) false false); auto).
          rewrite Hmap1 in X. apply in_map_iff in X as (j' & E & Hj'). assert (j' = j); [|now subst].
          destruct j' as [a1 a2 a3], j as [b1 b2 b3]. unfold shift_journey in E. cbn [j_start j_dest j_transfers] in E. injection E as E1 E2 E3. f_equal; lia. }
        assert (Hs : j_start j = g_start (grp tg)) by (apply in_reported in Hj as (k & l & _ & _ & _ & _ & ->); reflexivity).
        assert (Htt : journey_travel_time (shift_journey base j) = o (j_dest j) - o (j_start j)).
        { apply travel_time. apply (reported_span _ _ _ Egs'). apply in_all_reported. exists (map grp done), (grp tg), []. split; [apply map_snoc|].
          rewrite <- map_snoc. exact Hj. }
        unfold mark. cbn [r_journey r_reconstructed r_error negb]. rewrite Hont. cbn [orb andb].
        destruct (iv_contains iv (j_start (shift_journey base j)) && (journey_travel_time (shift_journey base j) <? fd)) eqn:E.
        + apply andb_true_iff in E as [E1 E2]. apply Z.ltb_lt in E2.
          destruct (recon st' (shift_journey base j)) eqn:Er.
          * split; [|cbn [r_reconstructed]; auto]. intros _. cbn [r_journey]. unfold shift_journey. cbn [j_start j_dest j_transfers].
            rewrite !minute_shift. apply recon_sound; auto.
          * split; [discriminate|]. cbn [r_reconstructed r_error r_journey]. split; [auto|]. intros _ _ Hmt. exfalso.
            rewrite recon_complete in Er; auto; [discriminate|]. rewrite Htt in E2, Hmt. lia.
        + split; [discriminate|]. cbn [r_journey].
          assert (X : iv_contains iv (j_start (shift_journey base j)) = true -> journey_travel_time (shift_journey base j) < fd -> False).
          { intros X1 X2. apply Z.ltb_lt in X2. rewrite X1, X2 in E. discriminate. }
          split; intros; exfalso; auto.
    Qed.
  End OneStep.
  Lemma search_inv : inv gs (fold_left step gs (mk_dstate state (reset_arrivals P) [] iv, false)).
  Proof.
    assert (X : forall rest done s, gs = done ++ rest -> inv done s -> inv gs (fold_left step rest s)).
    { induction rest as [|tg rest IH]; intros done s E H; cbn [fold_left].
      - rewrite app_nil_r in E. rewrite E. exact H.
      - apply (IH (done ++ [tg])); [now rewrite <- app_assoc|]. eapply step_inv; eauto. }
    apply (X gs []); [reflexivity|]. exists []. split; [reflexivity|]. split; [reflexivity|]. intros r [].
  Qed.

  (** ** The whole query *)
  Variable timeout : nat -> bool.
  Variable slow_direct : interval -> list journey.
  Notation route := (route_query P L first_day q smode starts dest mx START mt fd shortest timeout slow_direct).
  Lemma insert_result_perm r l : Permutation (insert_result r l) (r :: l).
  Proof.
    induction l as [|x l IH]; cbn [insert_result]; [reflexivity|]. destruct (_ || _); [reflexivity|].
    rewrite IH. apply perm_swap.
  Qed.
  Lemma insert_results_perm xs : forall acc, Permutation (fold_left (fun acc r => insert_result r acc) xs acc) (xs ++ acc).
  Proof.
    induction xs as [|x xs IH]; intros acc; cbn [fold_left app]; [reflexivity|]. rewrite IH, insert_result_perm.
    apply Permutation_sym, Permutation_middle.
  Qed.
  Lemma filter_perm {T} (f : T -> bool) a b : Permutation a b -> Permutation (filter f a) (filter f b).
  Proof.
    induction 1 as [|x a b H IH|x y a|a b c H1 IH1 H2 IH2]; cbn [filter]; [reflexivity| | |etransitivity; eauto].
    - destruct (f x); [now constructor|exact IH].
    - destruct (f x), (f y); try reflexivity. apply perm_swap.
  Qed.
  Lemma route_result fuel : exists rs0 rs, route (S fuel) = Some (rs, iv) /\
    map r_journey rs0 = map (shift_journey base) (snd (raptor P mt (map grp gs))) /\ (forall r, In r rs0 -> flags_ok r) /\
    Permutation rs (filter r_reconstructed (filter (keep_result q fd iv) rs0)).
  Proof.
    destruct search_inv as (rs0 & Efold & Hmap & Hfl). exists rs0.
    destruct (qi_interval _ _ _ _ _ _ _ _ _ _ _ _ _ HQ) as [I1 I2].
    assert (Hont : is_ontrip q = false) by (unfold is_ontrip; now rewrite (qi_time _ _ _ _ _ _ _ _ _ _ _ _ _ HQ)).
    pose proof (qi_fixed _ _ _ _ _ _ _ _ _ _ _ _ _ HQ) as Hf.
    assert (Hinit : initial q (q_iv q) = iv) by (unfold initial; unfold fixed_interval in Hf; rewrite Hf; apply q_iv_eq).
    unfold route_query, execute. rewrite Hont, Hinit.
    assert (Esz : (iv_size iv =? 0) = false) by (unfold iv_size; destruct (Z.eqb_spec (iv_to iv - iv_from iv) 0); [lia|reflexivity]).
    rewrite Esz. cbn [negb]. fold labels. cbn [search_loop].
    unfold search_interval at 1. unfold search_interval. rewrite Efold. cbn [fst ds_algo ds_results ds_iv].
    set (s1 := mk_dstate state (after_run gs) rs0 iv).
    set (rs := finish q state fd slow_direct s1).
    assert (Hext : forall n, extension q iv (iq_min_conn q - n) = iv \/ (iq_min_conn q = 0)).
    { intros n. unfold fixed_interval in Hf. apply orb_true_iff in Hf as [Hf|Hf]; [right; lia|]. left. unfold extension. rewrite Hf.
      rewrite orb_true_r. reflexivity. }
    exists rs. split.
    - match goal with |- (match (if ?c then _ else _) with _ => _ end) = _ => destruct c eqn:Ec end; [reflexivity|].
      destruct (Hext (n_results_in_interval q iv rs0)) as [E|E].
      + rewrite E. rewrite !Z.eqb_refl. cbn [andb]. reflexivity.
      + exfalso. apply orb_false_iff in Ec as [Ec _]. apply orb_false_iff in Ec as [_ Ec]. apply Z.leb_gt in Ec.
        unfold n_results_in_interval in Ec. rewrite Hont in Ec. lia.
    - split; [exact Hmap|]. split; [exact Hfl|]. unfold rs, finish. rewrite Hont. cbn [ds_results ds_iv s1].
      etransitivity; [apply filter_perm, insert_results_perm|]. rewrite app_nil_r, filter_app.
      assert (E : forall xs, filter r_reconstructed (map (fun j => mk_result j false false) xs) = []) by (induction xs; cbn; auto).
      rewrite E, app_nil_r. reflexivity.
  Qed.

  Lemma kept_from_all j : In j (snd (raptor P mt (map grp gs))) -> In j (all_reported P mt (reset_arrivals P) (map grp gs)).
  Proof. intros H. rewrite raptor_results in H. exact (add_all_sound _ _ journey_dom_trans _ _ H). Qed.

  (** Every connection of the timetable that leaves inside the interval. *)
  Lemma complete t k l a : iv_from iv <= t < iv_to iv ->
    connection P (leaving P L first_day smode use_fp starts t) (transfer_time P) k l (minute a) ->
    Z.abs (a - t) < fd -> Z.abs (a - t) <= iq_max_travel q -> (k <= Nat.min mt 14 + 1)%nat ->
    (exists j, In j (snd (raptor P mt (map grp gs))) /\ iv_from iv <= base + j_start j < iv_to iv /\
       o (minute t) <= o (j_start j) /\ o (j_dest j) <= o (minute a) /\ j_transfers j <= Z.of_nat k - 1) \/
    (exists k' l' a', (k' <= k)%nat /\ o (minute a') <= o (minute a) /\
       connection P (leaving P L first_day smode use_fp starts edge) (transfer_time P) k' l' (minute a')).
  Proof.
    intros Ht Hc Hfdt Hmax Hk.
    destruct (connection_first_ride _ _ _ _ _ _ Hc) as (l0 & t0 & tb & l1 & ta & (d & Hopt & Et0) & Hno & Hride & Hchange).
    destruct (option_shortest l0 d Hopt) as (d' & Hd' & Hle). assert (Hr := shortest_range _ _ Hd').
    destruct (qi_interval _ _ _ _ _ _ _ _ _ _ _ _ _ HQ) as [I1 I2]. destruct (qi_travel _ _ _ _ _ _ _ _ _ _ _ _ _ HQ) as [T1 T2].
    set (ev := base + tb). set (t' := P_Start.before (p_fwd P) ev d').
    assert (Hlater : o (minute t) <= o (minute t')).
    { apply no_later_o in Hno. rewrite Et0, o_after in Hno. unfold t', ev, P_Start.before. unfold Raptor_Base.o, Full_Spec.minute in *. destruct (p_fwd P); lia. }
    assert (Htb : minute ev = tb) by apply minute_shift.
    destruct (Z.le_gt_cases (o (minute edge)) (o (minute t'))) as [Hout|Hin].
    - right. exists k, l, a. split; [lia|]. split; [lia|]. apply (Hchange _ (after P (minute edge) d')).
      + exists d'. split; [now apply shortest_option|reflexivity].
      + apply no_later_o. rewrite o_after. rewrite <- Htb. unfold t', P_Start.before in Hout. unfold Raptor_Base.o, Full_Spec.minute in *. destruct (p_fwd P); lia.
    - assert (Hiv : iv_from iv <= t' < iv_to iv).
      { unfold edge in Hin. unfold Raptor_Base.o, Full_Spec.minute in *. destruct (p_fwd P); lia. }
      assert (Hlab : In (mk_start t' ev l0) labels).
      { apply labels_in. unfold start_labels. destruct (qi_range _ _ _ _ _ _ _ _ _ _ _ _ _ HQ) as (R1 & R2 & R3).
        apply (P_Start.C29_interval_starts_complete _ _ _ _ _ _ _ _ _ _ d'); auto.
        - apply events_ok.
        - destruct (p_fwd P); lia.
        - destruct (p_fwd P); lia.
        - apply shortest_nodup.
        - intros l2 d2 H2. now apply shortest_range in H2.
        - destruct Hride as [ri r vi v day s1 s2 st st2 Hr1 Hv [Hrun1 Hrun2] Hs1 Hs2 Hlt El El2 Hon Hoff Hcl Hsec Etb Eta].
          eapply (P_Start.bo_static _ _ _ _ _ _ _ ri r vi v day s1 st); eauto.
          + destruct (to_index _ HT) as [Hx _]. rewrite <- El. apply (Hx ri r st Hr1). eapply nth_error_In; eauto.
          + unfold P_Start.may_board. unfold get_on_allowed, wheelchair in Hon.
            assert (L1 : (s1 < length (r_stops r))%nat) by (apply nth_error_Some; congruence).
            assert (L2 : (s2 < length (r_stops r))%nat) by (apply nth_error_Some; congruence).
            destruct (p_fwd P), (p_require P 2); (split; [lia|exact Hon]).
          + unfold ev. rewrite Etb. unfold event_time. destruct (p_fwd P); cbv zeta; lia. }
      destruct (start_groups_mem _ _ Hlab) as (ss & Hg & Hss). cbn [st_at_start] in Hg.
      set (tg := (t', ss)) in *.
      assert (Hst : In (l0, tb) (g_starts (grp tg))).
      { unfold grp, group_of. cbn [g_starts]. apply in_map_iff. exists (mk_start t' ev l0). split; [|exact Hss].
        cbn [st_loc st_at_stop]. f_equal. rewrite <- Htb. apply rel_minute. destruct (label_times _ Hlab) as (_ & X & _). cbn [st_at_stop] in X. lia. }
      assert (Hconn : connection P (fun l t => In (l, t) (g_starts (grp tg))) (transfer_time P) k l (minute a)).
      { apply (Hchange _ tb Hst). apply no_later_o. lia. }
      apply in_split in Hg as Hsp. destruct Hsp as (done & rest & Egs). assert (Egs2 := Egs' _ _ _ Egs).
      assert (Egm : map grp gs = map grp done ++ grp tg :: map grp rest) by (rewrite Egs, map_app; reflexivity).
      assert (Hgs : groups_ok P (map grp gs)) by (apply (prefix_groups_ok gs []); now rewrite app_nil_r).
      destruct (qi_setup _ _ _ _ _ _ _ _ _ _ _ _ _ HQ) as (cars & bikes & S).
      assert (Hsubset : forall l t, starts_of (map grp done ++ [grp tg]) l t -> starts_of (map grp (done ++ [tg])) l t) by (intros l2 t2 H2; rewrite map_app; exact H2).
      assert (Hspan : o (minute a) <= o (minute t) + Z.min fd (iq_max_travel q)) by (unfold Raptor_Base.o, Full_Spec.minute; destruct (p_fwd P); lia).
      assert (Mt := minute_iv t ltac:(lia)).
      destruct (C22_search_with_computed_bounds_is_optimal L dmode dest [] cars bikes P mt (map grp gs) (map grp done) (grp tg) (map grp rest) k l (minute a)) as (j & Hj & J1 & J2 & J3);
        auto; try apply HT.
      + split; [|exact (proj2 (qi_reach _ _ _ _ _ _ _ _ _ _ _ _ _ HQ))].
        intros l2 t2 ri r s1 s2 st1 st2 H0. apply Hsubset in H0. destruct (prefix_starts _ _ _ _ Egs2 H0) as (X & _). exact (proj1 (qi_reach _ _ _ _ _ _ _ _ _ _ _ _ _ HQ) l2 t2 ri r s1 s2 st1 st2 X).
      + intros l2 t2 H0. apply Hsubset in H0. apply (prefix_starts _ _ _ _ Egs2 H0).
      + intros g' Hg'. assert (Hg2 : In g' (map grp (done ++ [tg]))) by (rewrite map_app; exact Hg').
        apply in_map_iff in Hg2 as (y & <- & Hy). apply no_later_o. rewrite grp_worst by (rewrite Egs2; apply in_app_iff; auto).
        assert (o (minute t') <= o (minute (fst y))); [|lia]. apply in_app_iff in Hy as [Hy|[<-|[]]]; [|cbn; lia].
        pose proof (prefix_order _ _ _ Egs y Hy) as X. cbn [fst tg] in X. lia.
      + apply no_later_o. rewrite o_after. rewrite grp_start by auto. cbn [fst tg]. lia.
      + unfold Full_Spec.minute in *. lia.
      + apply no_later_o in J2, J3. rewrite grp_start in J3 by auto. cbn [fst tg] in J3.
        assert (Hall := kept_from_all j Hj).
        (* the start time of the journey *)
        apply in_all_reported in Hall as (gs1 & g & gs2 & Eg & Hrep).
        destruct (map_eq_app _ _ _ _ Eg) as (d1 & d2 & Ed & Eg1 & Eg2). destruct (map_eq_cons _ _ Eg2) as (y & d3 & -> & Ey & Eg3).
        assert (Hy : In y gs) by (rewrite Ed; apply in_app_iff; right; now left).
        assert (Hjs : j_start j = minute (fst y)).
        { apply in_reported in Hrep as (k2 & l2 & _ & _ & _ & _ & ->). cbn [j_start]. rewrite <- Ey. now apply grp_start. }
        destruct (group_time y Hy) as [[Hyt|Hyt] _].
        * left. exists j. split; [exact Hj|]. split; [rewrite Hjs; unfold Full_Spec.minute; lia|]. split; [lia|]. split; [lia|]. lia.
        * right.
          (* journeys of the edge come from the first group *)
          assert (d1 = []).
          { destruct d1 as [|z d1]; [reflexivity|]. exfalso.
            assert (X := prefix_order _ _ _ Ed z (or_introl eq_refl)). assert (Hz : In z gs) by (rewrite Ed; now left).
            destruct (group_time z Hz) as [[Hzt|Hzt] _]; rewrite Hyt in X; unfold edge, Raptor_Base.o, Full_Spec.minute in *; destruct (p_fwd P); lia. }
          subst d1. cbn [map] in Eg1. subst gs1. cbn [app] in Ed.
          assert (E1 : gs = [y] ++ d3) by exact Ed. assert (Hg1 := prefix_groups_ok [y] d3 E1). cbn [map] in Hg1.
          assert (Hin1 : In j (all_reported P mt (reset_arrivals P) [grp y])).
          { apply in_all_reported. exists [], (grp y), []. split; [reflexivity|]. rewrite Ey. exact Hrep. }
          destruct (add_all_covers _ _ journey_dom_refl journey_dom_trans _ _ Hin1) as (x & Hx & Hdom). rewrite <- raptor_results in Hx.
          assert (Hxr : In x (all_reported P mt (reset_arrivals P) [grp y])).
          { rewrite raptor_results in Hx. exact (add_all_sound _ _ journey_dom_trans _ _ Hx). }
          assert (Sx := reported_span [y] d3 x E1 Hxr). assert (Sj := reported_span [y] d3 j E1 Hin1).
          assert (Hxs : j_start x = minute edge).
          { apply in_all_reported in Hxr as (g1 & g2 & g3 & E3 & H3). destruct g1 as [|? [|? ?]]; try discriminate. injection E3 as <- _.
            apply in_reported in H3 as (k2 & l2 & _ & _ & _ & _ & ->). cbn [j_start]. rewrite grp_start by auto. now rewrite Hyt. }
          rewrite Hyt in Hjs.
          assert (Hdx : o (j_dest x) <= o (j_dest j) /\ j_transfers x <= j_transfers j).
          { unfold journey_dominates in Hdom. destruct (Z.leb_spec (j_start x) (j_dest x)) as [C|C]; rewrite !andb_true_iff, !Z.leb_le in Hdom;
              unfold Raptor_Base.o in *; destruct (p_fwd P); lia. }
          destruct (C17_reported_journeys_are_feasible P mt [grp y] x) as (l2 & k2 & K1 & K2 & Hcx); auto; try apply HT.
          exists k2, l2, (base + j_dest x). rewrite minute_shift. split; [lia|]. split; [lia|].
          eapply (connection_mono P); [|exact Hcx].
          intros l3 t3 ((g3 & [<-|[]] & H3) & _). destruct (grp_starts y l3 t3 Hy H3) as (s & Hs & Es & El & ->).
          destruct (label_sound s Hs) as (d3' & Hd3 & Est & _). rewrite El in Hd3. exists d3'. split; [now apply shortest_option|].
          rewrite Est, Es, Hyt. unfold P_Start.later, after, Full_Spec.minute. destruct (p_fwd P); lia.
  Qed.
End Full.
