(** Direction-independent reasoning: [o] maps times so that "better" is always "smaller"; correctness of the
    earliest transport look-up. *)
From Coq Require Import List ZArith Bool Arith Lia Sorting.Sorted.
From Verif Require Import Base Time_Model Raptor_Model Raptor_Spec.
Import ListNotations.
Local Open Scope Z_scope.

Section RB.
  Variable P : params.
  Notation fwd := (p_fwd P).
  Notation tt := (p_tt P).

  Definition o (x : Z) : Z := if fwd then x else - x.
  Definition OI : Z := if fwd then 32767 else 32768.
  Definition OL : Z := if fwd then -32768 else -32767.

  Lemma o_inj a b : o a = o b -> a = b.
  Proof. unfold o; destruct fwd; lia. Qed.
  Lemma o_kInvalid : o (kInvalid P) = OI.
  Proof. unfold o, kInvalid, OI, i16_max, i16_min; destruct fwd; lia. Qed.
  Lemma o_after t d : o (after P t d) = o t + d.
  Proof. unfold o, after; destruct fwd; lia. Qed.
  Lemma o_dir t d : o (t + dir P d) = o t + d.
  Proof. unfold o, dir; destruct fwd; lia. Qed.
  Lemma after_dir t d : after P t d = t + dir P d.
  Proof. unfold after, dir; destruct fwd; lia. Qed.
  Lemma no_later_o a b : no_later P a b <-> o a <= o b.
  Proof. unfold no_later, o; destruct fwd; lia. Qed.
  Lemma is_better_o a b : is_better P a b = true <-> o a < o b.
  Proof. unfold is_better, o; destruct fwd; rewrite Z.ltb_lt; lia. Qed.
  Lemma is_better_o_false a b : is_better P a b = false <-> o b <= o a.
  Proof. unfold is_better, o; destruct fwd; rewrite Z.ltb_ge; lia. Qed.
  Lemma is_better_or_eq_o a b : is_better_or_eq P a b = true <-> o a <= o b.
  Proof. unfold is_better_or_eq, o; destruct fwd; rewrite Z.leb_le; lia. Qed.
  Lemma is_better_or_eq_o_false a b : is_better_or_eq P a b = false <-> o b < o a.
  Proof. unfold is_better_or_eq, o; destruct fwd; rewrite Z.leb_gt; lia. Qed.
  Lemma o_get_best a b : o (get_best P a b) = Z.min (o a) (o b).
  Proof.
    unfold get_best. destruct (is_better P a b) eqn:E.
    - apply is_better_o in E; lia.
    - apply is_better_o_false in E; lia.
  Qed.
  Lemma get_best_cases a b : get_best P a b = a \/ get_best P a b = b.
  Proof. unfold get_best; destruct (is_better P a b); auto. Qed.
  Lemma get_best_comm a b : get_best P a b = get_best P b a.
  Proof. apply o_inj; rewrite !o_get_best; lia. Qed.
  Lemma o_clamp x : o (clamp16 x) = Z.max OL (Z.min OI (o x)).
  Proof. unfold o, clamp16, OL, OI, i16_max, i16_min; destruct fwd; lia. Qed.
  Lemma OL_lt_OI : OL < OI.
  Proof. unfold OL, OI; destruct fwd; lia. Qed.
  Lemma clamp_cases x : OL <= o x -> clamp16 x = x \/ clamp16 x = kInvalid P.
  Proof.
    unfold OL, o, clamp16, kInvalid, i16_max, i16_min; destruct fwd; intros; lia.
  Qed.
  Lemma clamp_id x : OL <= o x -> o x <= OI -> clamp16 x = x.
  Proof. intros. apply o_inj. rewrite o_clamp. lia. Qed.

  Lemma is_transport_active_iff v day : is_transport_active v day = true <-> runs_on v day.
  Proof.
    unfold is_transport_active, runs_on, kMaxDays. rewrite !andb_true_iff, Z.leb_le, Z.ltb_lt. tauto.
  Qed.
  Lemma is_route_active_iff r day :
    is_route_active tt r day = true <-> 0 <= day < 512 /\ tt_route_active tt r day = true.
  Proof. unfold is_route_active, kMaxDays. rewrite !andb_true_iff, Z.leb_le, Z.ltb_lt. tauto. Qed.

  Lemma vehicle_of_nth r t v : nth_error (r_vehicles r) t = Some v -> vehicle_of r t = v.
  Proof. unfold vehicle_of. intros. erewrite nth_error_nth; eauto. Qed.

  (** ** Event columns *)
  Definition le_mam (a b : nat * delta) : Prop := o (d_mam (snd a)) <= o (d_mam (snd b)) /\ ahead P (fst a) (fst b).
  Lemma ahead_refl i : ahead P i i.
  Proof. unfold ahead. destruct fwd; lia. Qed.

  Lemma scan_events_sound r l tad first day mam evs t d :
    scan_events P r l tad first day mam evs = Found (t, d) ->
    exists ev, In (t, ev) evs /\ d = day - d_days ev /\
      is_transport_active (vehicle_of r t) d = true /\
      (first = true -> o mam <= o (d_mam ev)) /\
      o (to_delta P day (d_mam ev)) + p_lb P l <= o tad.
  Proof.
    induction evs as [|[t0 ev0] evs IH]; simpl; [discriminate|].
    destruct (is_better_or_eq P (to_delta P day (d_mam ev0) + dir P (p_lb P l)) tad) eqn:E1; simpl; [|discriminate].
    destruct (first && negb (is_better_or_eq P mam (d_mam ev0))) eqn:E2.
    { intros H. destruct (IH H) as (ev & ? & ?). eauto. }
    destruct (is_transport_active (vehicle_of r t0) (day - d_days ev0)) eqn:E3; simpl.
    - intros [= <- <-]. exists ev0. repeat split; auto.
      + intros ->. simpl in E2. apply negb_false_iff in E2. now apply is_better_or_eq_o.
      + apply is_better_or_eq_o in E1. now rewrite o_dir in E1.
    - intros H. destruct (IH H) as (ev & ? & ?). eauto.
  Qed.

  Lemma to_delta_mono day a b : o a <= o b -> o (to_delta P day a) <= o (to_delta P day b).
  Proof. intros H. unfold to_delta. rewrite !o_clamp. unfold o in *; destruct fwd; lia. Qed.

  Lemma scan_events_complete r l tad first day mam evs t ev :
    StronglySorted le_mam evs -> In (t, ev) evs ->
    is_transport_active (vehicle_of r t) (day - d_days ev) = true ->
    (first = true -> o mam <= o (d_mam ev)) ->
    o (to_delta P day (d_mam ev)) + p_lb P l <= o tad ->
    exists t' ev', scan_events P r l tad first day mam evs = Found (t', day - d_days ev') /\
       In (t', ev') evs /\ o (d_mam ev') <= o (d_mam ev) /\ ahead P t' t.
  Proof.
    intros Hs Hin Ha Hf Hp. induction Hs as [|[t0 ev0] evs Hs IH Hall]; [inversion Hin|].
    assert (Hle2 : o (d_mam ev0) <= o (d_mam ev) /\ ahead P t0 t).
    { destruct Hin as [[= <- <-]|Hin]; [split; [lia|apply ahead_refl]|]. rewrite Forall_forall in Hall. now apply (Hall (t, ev)). }
    destruct Hle2 as [Hle Hah]. simpl.
    assert (E1 : is_better_or_eq P (to_delta P day (d_mam ev0) + dir P (p_lb P l)) tad = true).
    { apply is_better_or_eq_o. rewrite o_dir. pose proof (to_delta_mono day _ _ Hle). lia. }
    rewrite E1; simpl.
    destruct (first && negb (is_better_or_eq P mam (d_mam ev0))) eqn:E2.
    { destruct Hin as [[= <- <-]|Hin].
      - exfalso. apply andb_true_iff in E2 as [-> E2]. apply negb_true_iff, is_better_or_eq_o_false in E2.
        specialize (Hf eq_refl). lia.
      - destruct (IH Hin) as (t' & ev' & ? & ? & ?). eauto 6. }
    destruct (is_transport_active (vehicle_of r t0) (day - d_days ev0)) eqn:E3; simpl.
    - exists t0, ev0. split; auto.
    - destruct Hin as [[= <- <-]|Hin]; [congruence|].
      destruct (IH Hin) as (t' & ev' & ? & ? & ?). eauto 6.
  Qed.

  (** Cannot be pruned while a good enough event lies ahead. *)
  Lemma scan_events_not_pruned r l tad first day mam evs :
    (forall t ev, In (t, ev) evs -> o (to_delta P day (d_mam ev)) + p_lb P l <= o tad) ->
    scan_events P r l tad first day mam evs <> Pruned.
  Proof.
    induction evs as [|[t0 ev0] evs IH]; simpl; [discriminate|]. intros H.
    assert (E1 : is_better_or_eq P (to_delta P day (d_mam ev0) + dir P (p_lb P l)) tad = true).
    { apply is_better_or_eq_o. rewrite o_dir. eapply H; eauto. }
    rewrite E1; simpl. destruct (first && _); [apply IH; eauto|].
    destruct (is_transport_active _ _); simpl; [discriminate|apply IH; eauto].
  Qed.

  Lemma seek_first_day_incl mam evs x : In x (seek_first_day P mam evs) -> In x evs.
  Proof.
    induction evs as [|[t ev] evs IH]; simpl; auto. destruct (is_better P (d_mam ev) mam); auto.
  Qed.
  Lemma seek_first_day_sorted mam evs : StronglySorted le_mam evs -> StronglySorted le_mam (seek_first_day P mam evs).
  Proof.
    induction 1 as [|[t ev] evs Hs IH Hall]; simpl; [constructor|]. destruct (is_better P (d_mam ev) mam); auto.
    now constructor.
  Qed.
  Lemma seek_first_day_keeps mam evs t ev :
    In (t, ev) evs -> o mam <= o (d_mam ev) -> In (t, ev) (seek_first_day P mam evs).
  Proof.
    induction evs as [|[t0 ev0] evs IH]; simpl; auto. intros Hin Hle.
    destruct (is_better P (d_mam ev0) mam) eqn:E; [|exact Hin].
    apply is_better_o in E. destruct Hin as [[= <- <-]|Hin]; [lia|auto].
  Qed.

  (** ** The six day look-ahead *)
  Definition true_time (day mam : Z) : Z := (day - p_base P) * 1440 + mam.

  Lemma scan_days_sound r_idx r l tad evs d0 mam n i t d :
    scan_days P r_idx r l tad evs d0 mam i n = Some (t, d) ->
    exists i' ev, (i <= i' < i + n)%nat /\ In (t, ev) evs /\ d + d_days ev = d0 + dir P (Z.of_nat i') /\
      0 <= d + d_days ev /\
      is_transport_active (vehicle_of r t) d = true /\
      (i' = 0%nat -> o mam <= o (d_mam ev)) /\
      o (to_delta P (d + d_days ev) (d_mam ev)) + p_lb P l <= o tad.
  Proof.
    revert i; induction n as [|n IH]; intros i; simpl; [discriminate|].
    assert (Hrec : scan_days P r_idx r l tad evs d0 mam (S i) n = Some (t, d) ->
      exists i' ev, (i <= i' < i + S n)%nat /\ In (t, ev) evs /\ d + d_days ev = d0 + dir P (Z.of_nat i') /\
      0 <= d + d_days ev /\ is_transport_active (vehicle_of r t) d = true /\
      (i' = 0%nat -> o mam <= o (d_mam ev)) /\ o (to_delta P (d + d_days ev) (d_mam ev)) + p_lb P l <= o tad).
    { intros H. destruct (IH _ H) as (i' & ev & ? & ?). exists i', ev. split; [lia|auto]. }
    destruct (is_route_active tt r_idx (d0 + dir P (Z.of_nat i))) eqn:Era; simpl; auto.
    apply is_route_active_iff in Era as [Hday _].
    destruct (scan_events _ _ _ _ _ _ _ _) as [x| |] eqn:E; auto; [|discriminate].
    intros [= ->]. apply scan_events_sound in E as (ev & Hin & -> & Hact & Hfirst & Hp).
    exists i, ev. replace (d0 + dir P (Z.of_nat i) - d_days ev + d_days ev) with (d0 + dir P (Z.of_nat i)) by lia.
    repeat split; auto; try lia.
    - destruct (Nat.eqb_spec i 0); auto. eapply seek_first_day_incl; eauto.
    - intros ->. apply Hfirst. reflexivity.
  Qed.

  Lemma scan_days_complete r_idx r l tad evs d0 mam n i i0 t ev :
    StronglySorted le_mam evs ->
    (forall t' ev', In (t', ev') evs -> 0 <= d_mam ev' < 1440) ->
    (i <= i0 < i + n)%nat -> In (t, ev) evs ->
    is_route_active tt r_idx (d0 + dir P (Z.of_nat i0)) = true ->
    is_transport_active (vehicle_of r t) (d0 + dir P (Z.of_nat i0) - d_days ev) = true ->
    (i0 = 0%nat -> o mam <= o (d_mam ev)) ->
    o (to_delta P (d0 + dir P (Z.of_nat i0)) (d_mam ev)) + p_lb P l <= o tad ->
    exists t' d' i' ev', scan_days P r_idx r l tad evs d0 mam i n = Some (t', d') /\
      (i <= i' <= i0)%nat /\ In (t', ev') evs /\ d' + d_days ev' = d0 + dir P (Z.of_nat i') /\
      (o (true_time (d' + d_days ev') (d_mam ev')) < o (true_time (d0 + dir P (Z.of_nat i0)) (d_mam ev)) \/
       (o (true_time (d' + d_days ev') (d_mam ev')) <= o (true_time (d0 + dir P (Z.of_nat i0)) (d_mam ev)) /\ ahead P t' t)).
  Proof.
    intros Hs Hm Hi Hin Hra Ha Hf Hp.
    revert i Hi; induction n as [|n IH]; intros i Hi; [lia|]. simpl.
    destruct (Nat.eq_dec i i0) as [->|Hne].
    - rewrite Hra; simpl.
      set (range := if Nat.eqb i0 0 then seek_first_day P mam evs else evs).
      assert (Hsr : StronglySorted le_mam range).
      { unfold range; destruct (Nat.eqb i0 0); auto using seek_first_day_sorted. }
      assert (Hinr : In (t, ev) range).
      { unfold range; destruct (Nat.eqb_spec i0 0); auto. apply seek_first_day_keeps; auto. }
      destruct (scan_events_complete r l tad (Nat.eqb i0 0) _ mam range t ev Hsr Hinr Ha) as (t' & ev' & E & Hin' & Hle & Hah); auto.
      { intros Hz. apply Hf. now apply Nat.eqb_eq. }
      rewrite E. exists t', (d0 + dir P (Z.of_nat i0) - d_days ev'), i0, ev'.
      repeat split; try lia; auto.
      + unfold range in Hin'. destruct (Nat.eqb i0 0); auto. eapply seek_first_day_incl; eauto.
      + replace (d0 + dir P (Z.of_nat i0) - d_days ev' + d_days ev') with (d0 + dir P (Z.of_nat i0)) by lia.
        right. split; [|exact Hah]. unfold true_time, o in *. destruct fwd; lia.
    - assert (Hrec : exists t' d' i' ev', scan_days P r_idx r l tad evs d0 mam (S i) n = Some (t', d') /\
      (i <= i' <= i0)%nat /\ In (t', ev') evs /\ d' + d_days ev' = d0 + dir P (Z.of_nat i') /\
      (o (true_time (d' + d_days ev') (d_mam ev')) < o (true_time (d0 + dir P (Z.of_nat i0)) (d_mam ev)) \/
       (o (true_time (d' + d_days ev') (d_mam ev')) <= o (true_time (d0 + dir P (Z.of_nat i0)) (d_mam ev)) /\ ahead P t' t))).
      { destruct (IH (S i)) as (t' & d' & i' & ev' & ? & ? & ?); [lia|].
        exists t', d', i', ev'. repeat split; try tauto; lia. }
      assert (Hearlier : forall ev', 0 <= d_mam ev' < 1440 ->
         o (true_time (d0 + dir P (Z.of_nat i)) (d_mam ev')) < o (true_time (d0 + dir P (Z.of_nat i0)) (d_mam ev))).
      { intros ev' Hr. specialize (Hm _ _ Hin). unfold true_time, o, dir. destruct fwd; lia. }
      destruct (is_route_active tt r_idx (d0 + dir P (Z.of_nat i))) eqn:Era; simpl; auto.
      destruct (scan_events _ _ _ _ _ _ _ _) as [x| |] eqn:E; auto.
      + destruct x as [t' d']. apply scan_events_sound in E as (ev' & Hin' & -> & _).
        assert (Hin'' : In (t', ev') evs) by (destruct (Nat.eqb i 0); auto; eapply seek_first_day_incl; eauto).
        exists t', (d0 + dir P (Z.of_nat i) - d_days ev'), i, ev'.
        replace (d0 + dir P (Z.of_nat i) - d_days ev' + d_days ev') with (d0 + dir P (Z.of_nat i)) by lia.
        repeat split; auto; try lia. left. apply Hearlier. eauto.
      + exfalso. revert E. apply scan_events_not_pruned. intros t' ev' Hin'.
        assert (Hin'' : In (t', ev') evs) by (destruct (Nat.eqb i 0); auto; eapply seek_first_day_incl; eauto).
        specialize (Hearlier ev' (Hm _ _ Hin'')). unfold to_delta in *. rewrite o_clamp in *.
        unfold true_time in Hearlier. lia.
  Qed.

  (** ** Events of a route at a stop *)
  Lemma in_combine_seq {A} (l : list A) k i x :
    In (i, x) (combine (seq k (length l)) l) <-> (k <= i)%nat /\ nth_error l (i - k) = Some x.
  Proof.
    revert k; induction l as [|y l IH]; intros k; simpl.
    - split; [tauto|]. intros [_ H]. now destruct (i - k)%nat.
    - rewrite IH. split.
      + intros [[= <- <-]|[? ?]]; [rewrite Nat.sub_diag; auto|]. split; [lia|].
        replace (i - k)%nat with (S (i - S k)) by lia. auto.
      + intros [Hk Hn]. destruct (Nat.eq_dec i k) as [->|].
        * rewrite Nat.sub_diag in Hn. left; simpl in *; congruence.
        * right. split; [lia|]. replace (i - k)%nat with (S (i - S k)) in Hn by lia. auto.
  Qed.

  Lemma in_events_at_stop r s t ev :
    In (t, ev) (events_at_stop P r s) <->
    exists v, nth_error (r_vehicles r) t = Some v /\ ev = v_ev v s (board_ev P).
  Proof.
    unfold events_at_stop.
    assert (H : In (t, ev) (combine (seq 0 (length (r_vehicles r)))
                              (map (fun v => v_ev v s (board_ev P)) (r_vehicles r))) <->
                exists v, nth_error (r_vehicles r) t = Some v /\ ev = v_ev v s (board_ev P)).
    { rewrite <- (map_length (fun v => v_ev v s (board_ev P)) (r_vehicles r)), in_combine_seq, Nat.sub_0_r, nth_error_map.
      destruct (nth_error (r_vehicles r) t) as [v|]; simpl.
      - split; [intros [_ [= <-]]; eauto|intros (v' & [= <-] & ->); split; auto; lia].
      - split; [intros [_ ?]; discriminate|intros (v' & ? & _); discriminate]. }
    destruct fwd; auto. rewrite <- in_rev. auto.
  Qed.

  Lemma StronglySorted_app {A} (R : A -> A -> Prop) l1 l2 :
    StronglySorted R l1 -> StronglySorted R l2 -> (forall a b, In a l1 -> In b l2 -> R a b) ->
    StronglySorted R (l1 ++ l2).
  Proof.
    induction 1 as [|a l1 Hs IH Hall]; simpl; auto. intros H2 Hx. constructor.
    - apply IH; eauto.
    - apply Forall_app; split; auto. apply Forall_forall. intros; apply Hx; auto.
  Qed.
  Lemma StronglySorted_rev {A} (R : A -> A -> Prop) l :
    StronglySorted R l -> StronglySorted (fun a b => R b a) (rev l).
  Proof.
    induction 1 as [|a l Hs IH Hall]; simpl; [constructor|]. apply StronglySorted_app; auto.
    - repeat constructor.
    - rewrite Forall_forall in Hall. intros x b Hx [<-|[]]. apply Hall. now apply in_rev.
  Qed.
  Lemma StronglySorted_combine_seq (l : list delta) k :
    (forall i j x y, (i <= j)%nat -> nth_error l i = Some x -> nth_error l j = Some y -> d_mam x <= d_mam y) ->
    StronglySorted (fun a b => d_mam (snd a) <= d_mam (snd b) /\ (fst a <= fst b)%nat) (combine (seq k (length l)) l).
  Proof.
    revert k; induction l as [|x l IH]; intros k H; simpl; constructor.
    - apply IH. intros i j a b Hij Hi Hj. eapply (H (S i) (S j)); eauto. lia.
    - apply Forall_forall. intros [i y] Hin. apply in_combine_seq in Hin as [Hk Hn]. simpl. split; [|lia].
      eapply (H 0%nat (S (i - S k))); eauto. lia.
  Qed.

  Lemma events_at_stop_sorted ri r s :
    columns_sorted P -> nth_error (tt_routes tt) ri = Some r -> (s < length (r_stops r))%nat ->
    StronglySorted le_mam (events_at_stop P r s).
  Proof.
    intros Hc Hr Hs. unfold events_at_stop, le_mam, o, ahead.
    assert (H : StronglySorted (fun a b => d_mam (snd a) <= d_mam (snd b) /\ (fst a <= fst b)%nat)
                  (combine (seq 0 (length (r_vehicles r))) (map (fun v => v_ev v s (board_ev P)) (r_vehicles r)))).
    { rewrite <- (map_length (fun v => v_ev v s (board_ev P)) (r_vehicles r)).
      apply StronglySorted_combine_seq. intros i j x y Hij. rewrite !nth_error_map.
      destruct (nth_error (r_vehicles r) i) eqn:E1; [|discriminate].
      destruct (nth_error (r_vehicles r) j) eqn:E2; [|discriminate].
      intros [= <-] [= <-]. eapply Hc; eauto. }
    destruct fwd; auto. apply StronglySorted_rev in H. revert H.
    generalize (rev (combine (seq 0 (length (r_vehicles r))) (map (fun v => v_ev v s (board_ev P)) (r_vehicles r)))).
    intros l0. induction 1 as [|a l0 ? IH Hall]; constructor; auto.
    eapply Forall_impl; [|exact Hall]. simpl. intros; lia.
  Qed.

  Lemma rem_bounds x : -1440 < Z.rem x 1440 < 1440 /\ (0 <= x -> 0 <= Z.rem x 1440) /\ (x <= 0 -> Z.rem x 1440 <= 0).
  Proof. Z.to_euclidean_division_equations. lia. Qed.

  (** ** Main facts about [get_earliest_transport] *)
  Definition bt (v : vehicle) (d : Z) (s : nat) : Z := event_time P v d s (if fwd then kDep else kArr).
  Definition at_ (v : vehicle) (d : Z) (s : nat) : Z := event_time P v d s (if fwd then kArr else kDep).

  Lemma event_time_true v d s e : event_time P v d s e = true_time (d + d_days (v_ev v s e)) (d_mam (v_ev v s e)).
  Proof. unfold event_time, true_time. lia. Qed.

  Lemma get_earliest_transport_sound ri r s l tad t x d :
    all_vehicles_wf P -> nth_error (tt_routes tt) ri = Some r -> (s < length (r_stops r))%nat ->
    get_earliest_transport P ri r s l tad t = Some (x, d) ->
    exists v, nth_error (r_vehicles r) x = Some v /\ runs_on v d /\ o t <= o (bt v d s) /\
              o (clamp16 (bt v d s)) + p_lb P l <= o tad.
  Proof.
    intros Hwf Hr Hs. unfold get_earliest_transport. cbn zeta.
    intros H. apply scan_days_sound in H as (i' & ev & _ & Hin & Hd & Hpos & Hact & Hfirst & Hp).
    apply in_events_at_stop in Hin as (v & Hv & ->).
    exists v. rewrite (vehicle_of_nth _ _ _ Hv) in Hact.
    assert (Hwv := proj1 Hwf _ _ _ Hr (nth_error_In _ _ Hv)).
    destruct Hwv as (Hm & _ & _). specialize (Hm s (board_ev P) Hs) as (Hm1 & Hm2 & Hm3).
    split; auto. split; [now apply is_transport_active_iff|]. split.
    - unfold bt. rewrite event_time_true. fold (board_ev P).
      assert (Hq := Z.quot_rem (p_base P * 1440 + t) 1440 ltac:(lia)).
      set (q := Z.quot (p_base P * 1440 + t) 1440) in *. set (m := Z.rem (p_base P * 1440 + t) 1440) in *.
      assert (Hrem : -1440 < m < 1440 /\ (0 <= p_base P * 1440 + t -> 0 <= m) /\ (p_base P * 1440 + t <= 0 -> m <= 0)).
      { apply rem_bounds. }
      rewrite Hd in *. unfold true_time, o, dir in *.
      destruct (Nat.eq_dec i' 0) as [->|].
      + specialize (Hfirst eq_refl). destruct fwd; lia.
      + destruct fwd; lia.
    - unfold bt. rewrite event_time_true. fold (board_ev P). unfold to_delta in Hp. exact Hp.
  Qed.

  Lemma get_earliest_transport_complete_in ri r s l tad t y v d :
    all_vehicles_wf P -> columns_sorted P -> index_ok P ->
    nth_error (tt_routes tt) ri = Some r -> (s < length (r_stops r))%nat ->
    nth_error (r_vehicles r) y = Some v -> runs_on v d ->
    o t <= o (bt v d s) ->
    (exists i0, (i0 < n_days_to_iterate)%nat /\ d + d_days (v_ev v s (board_ev P)) = Z.quot (p_base P * 1440 + t) 1440 + dir P (Z.of_nat i0)) ->
    o (clamp16 (bt v d s)) + p_lb P l <= o tad ->
    exists x w e, get_earliest_transport P ri r s l tad t = Some (x, e) /\
      nth_error (r_vehicles r) x = Some w /\ o (bt w e s) <= o (bt v d s) /\ (bt w e s = bt v d s -> ahead P x y).
  Proof.
    intros Hwf Hcol [_ Hact] Hr Hs Hy Hrun Hge Hhor Hp. unfold get_earliest_transport. cbn zeta.
    assert (Hv := nth_error_In _ _ Hy).
    destruct (Hact _ _ _ d s (board_ev P) Hr Hv Hrun Hs) as [Hday Hra].
    destruct (proj1 Hwf _ _ _ Hr Hv) as (Hm & _ & _). specialize (Hm s (board_ev P) Hs) as (Hm1 & Hm2 & Hm3).
    assert (Hq := Z.quot_rem (p_base P * 1440 + t) 1440 ltac:(lia)).
    assert (Hrem : -1440 < Z.rem (p_base P * 1440 + t) 1440 < 1440 /\ (0 <= p_base P * 1440 + t -> 0 <= Z.rem (p_base P * 1440 + t) 1440) /\ (p_base P * 1440 + t <= 0 -> Z.rem (p_base P * 1440 + t) 1440 <= 0)).
    { apply rem_bounds. }
    set (q := Z.quot (p_base P * 1440 + t) 1440) in *. set (m := Z.rem (p_base P * 1440 + t) 1440) in *.
    assert (Hbt : bt v d s = true_time (d + d_days (v_ev v s (board_ev P))) (d_mam (v_ev v s (board_ev P)))).
    { unfold bt. now rewrite event_time_true. }
    set (ev := v_ev v s (board_ev P)) in *.
    assert (Hi0 : exists i0, (0 <= i0 < 0 + n_days_to_iterate)%nat /\ d + d_days ev = q + dir P (Z.of_nat i0)).
    { destruct Hhor as (i0 & Hi0 & Hd0). exists i0. split; [lia|exact Hd0]. }
    destruct Hi0 as (i0 & Hi0 & Hdi).
    destruct (scan_days_complete ri r l tad (events_at_stop P r s) q m n_days_to_iterate 0 i0 y ev)
      as (x & e & i' & ev' & E & Hi' & Hin' & He & Hle); auto.
    - eapply events_at_stop_sorted; eauto.
    - intros t' ev' Hin. apply in_events_at_stop in Hin as (w & Hw & ->).
      destruct (proj1 Hwf _ _ _ Hr (nth_error_In _ _ Hw)) as (Hmw & _). now apply Hmw.
    - apply in_events_at_stop. eauto.
    - rewrite <- Hdi. apply is_route_active_iff. auto.
    - rewrite <- Hdi, (vehicle_of_nth _ _ _ Hy). replace (d + d_days ev - d_days ev) with d by lia.
      now apply is_transport_active_iff.
    - intros ->. rewrite Hbt in Hge. unfold true_time, o, dir in *. destruct fwd; lia.
    - rewrite <- Hdi. unfold to_delta. rewrite Hbt in Hp. exact Hp.
    - apply in_events_at_stop in Hin' as (w & Hw & ->).
      exists x, w, e. split; auto. split; auto. rewrite Hbt, Hdi.
      unfold bt. rewrite event_time_true. fold (board_ev P). destruct Hle as [Hle|[Hle Hah]]; [|split; auto].
      split; [lia|]. intros Heq. rewrite Heq in Hle. lia.
  Qed.
  Lemma get_earliest_transport_complete ri r s l tad t y v d :
    all_vehicles_wf P -> columns_sorted P -> index_ok P ->
    nth_error (tt_routes tt) ri = Some r -> (s < length (r_stops r))%nat ->
    nth_error (r_vehicles r) y = Some v -> runs_on v d ->
    o t <= o (bt v d s) -> o (bt v d s) <= o t + 7200 ->
    o (clamp16 (bt v d s)) + p_lb P l <= o tad ->
    exists x w e, get_earliest_transport P ri r s l tad t = Some (x, e) /\
      nth_error (r_vehicles r) x = Some w /\ o (bt w e s) <= o (bt v d s) /\ (bt w e s = bt v d s -> ahead P x y).
  Proof.
    intros Hwf Hcol Hidx Hr Hs Hy Hrun Hge Hhor Hp.
    apply (get_earliest_transport_complete_in ri r s l tad t y v d); auto.
    exists (Z.to_nat (dir P (d + d_days (v_ev v s (board_ev P)) - Z.quot (p_base P * 1440 + t) 1440))).
    assert (Hv := nth_error_In _ _ Hy). destruct Hidx as [_ Hact].
    destruct (Hact _ _ _ d s (board_ev P) Hr Hv Hrun Hs) as [Hday Hra].
    destruct (proj1 Hwf _ _ _ Hr Hv) as (Hm & _ & _). specialize (Hm s (board_ev P) Hs) as (Hm1 & Hm2 & Hm3).
    assert (Hq := Z.quot_rem (p_base P * 1440 + t) 1440 ltac:(lia)).
    assert (Hrem := rem_bounds (p_base P * 1440 + t)).
    set (q := Z.quot (p_base P * 1440 + t) 1440) in *. set (m := Z.rem (p_base P * 1440 + t) 1440) in *.
    assert (Hbt : bt v d s = true_time (d + d_days (v_ev v s (board_ev P))) (d_mam (v_ev v s (board_ev P)))).
    { unfold bt. now rewrite event_time_true. }
    set (ev := v_ev v s (board_ev P)) in *.
    rewrite Hbt in Hge, Hhor. unfold n_days_to_iterate, true_time, o, dir in *. destruct fwd; lia.
  Qed.

  (** Nothing catchable lies before the vehicle that is returned. *)
  Lemma get_earliest_transport_first ri r s l tad t x w e y v d :
    all_vehicles_wf P -> columns_sorted P -> index_ok P ->
    nth_error (tt_routes tt) ri = Some r -> (s < length (r_stops r))%nat ->
    get_earliest_transport P ri r s l tad t = Some (x, e) -> nth_error (r_vehicles r) x = Some w ->
    nth_error (r_vehicles r) y = Some v -> runs_on v d ->
    o t <= o (bt v d s) -> o (bt w e s) <= o (bt v d s).
  Proof.
    intros Hwf Hcol Hidx Hr Hs Eget Hw Hy Hrun Hge.
    destruct (Z.le_gt_cases (o (bt w e s)) (o (bt v d s))) as [|Hlt]; auto. exfalso.
    destruct (get_earliest_transport_sound _ _ _ _ _ _ _ _ Hwf Hr Hs Eget) as (w' & Hw' & _ & _ & Hp).
    assert (w' = w) by congruence. subst w'.
    assert (Hday : exists i', (i' < n_days_to_iterate)%nat /\ e + d_days (v_ev w s (board_ev P)) = Z.quot (p_base P * 1440 + t) 1440 + dir P (Z.of_nat i')).
    { revert Eget. unfold get_earliest_transport. cbn zeta. intros H0.
      apply scan_days_sound in H0 as (i' & ev & Hi' & Hin & Hd & _).
      apply in_events_at_stop in Hin as (w' & Hw'' & ->). assert (w' = w) by congruence. subst w'.
      exists i'. split; [unfold n_days_to_iterate in *; lia|exact Hd]. }
    destruct Hday as (i' & Hi' & Hd').
    destruct (proj2 Hidx _ _ _ d s (board_ev P) Hr (nth_error_In _ _ Hy) Hrun Hs) as [Hday Hra].
    destruct (proj1 Hwf _ _ _ Hr (nth_error_In _ _ Hy)) as (Hm & _ & _). specialize (Hm s (board_ev P) Hs) as (Hm1 & Hm2 & Hm3).
    destruct (proj1 Hwf _ _ _ Hr (nth_error_In _ _ Hw)) as (Hmw & _ & _). specialize (Hmw s (board_ev P) Hs) as (Hw1 & Hw2 & Hw3).
    assert (Hrem := rem_bounds (p_base P * 1440 + t)).
    assert (Hq := Z.quot_rem (p_base P * 1440 + t) 1440 ltac:(lia)).
    assert (Hbv : bt v d s = true_time (d + d_days (v_ev v s (board_ev P))) (d_mam (v_ev v s (board_ev P)))).
    { unfold bt. now rewrite event_time_true. }
    assert (Hbw : bt w e s = true_time (e + d_days (v_ev w s (board_ev P))) (d_mam (v_ev w s (board_ev P)))).
    { unfold bt. now rewrite event_time_true. }
    destruct (get_earliest_transport_complete_in ri r s l tad t y v d) as (x' & w' & e' & E' & Hx' & Hle' & _); auto.
    - exists (Z.to_nat (dir P (d + d_days (v_ev v s (board_ev P)) - Z.quot (p_base P * 1440 + t) 1440))).
      rewrite Hbv, Hbw in Hlt. rewrite Hbv in Hge.
      set (q := Z.quot (p_base P * 1440 + t) 1440) in *. set (m := Z.rem (p_base P * 1440 + t) 1440) in *.
      set (ev := v_ev v s (board_ev P)) in *. set (ew := v_ev w s (board_ev P)) in *.
      unfold n_days_to_iterate, true_time, o, dir in *. destruct fwd; lia.
    - assert (o (clamp16 (bt v d s)) <= o (clamp16 (bt w e s))); [|lia].
      rewrite !o_clamp. lia.
    - rewrite E' in Eget. injection Eget as -> ->. assert (w' = w) by congruence. subst w'. lia.
  Qed.
End RB.
