(** Properties C23, C24, C43, C44: local schedule to UTC vehicles, frequencies, wheelchair assistance, through-running stop sequences. *)
From Coq Require Import List ZArith Lia Bool Arith Permutation.
From Verif Require Import Base Time_Model Time_Proofs Calendar_Model Raptor_Model Routes_Model P_Routes Utc_Model Utc_Proofs.
Import ListNotations.
Local Open Scope Z_scope.

(** ** C23 *)
(** Local event times of the vehicle, minutes after midnight of its service day: dep(0), arr(1), dep(1), ... of
    every usable trip (at least two stops, all times known), shifted by the trip's frequency offset. *)
Definition local_schedule (f : freq_trip) : list Z :=
  flat_map (fun to => local_times (snd to) (gt_events (fst to))) (usable_trips f).

(** The vehicle operates on local service day [D]: its calendar says so, at least one day of its run lies in the
    published interval, and its first departure in UTC lies on one of the 512 days of the timetable. *)
Definition operates (sel : interval) (traffic : bitfield) (noon : Z -> Z) (local : list Z) (D : Z) : bool :=
  let first := hd 0 local in
  let last := last local 0 in
  (D <? 512) && traffic D
  && (iv_from sel <=? D + last / 1440) && (D + first / 1440 <? iv_to sel)
  && (0 <=? (D * 1440 + first - noon D) / 1440) && ((D * 1440 + first - noon D) / 1440 <? 512).

(** Absolute times (minutes since the first day) of all runs of a list of vehicles. *)
Definition all_runs (vs : list utc_trip) : list (list Z) :=
  flat_map (fun v => map (fun u => map (fun t => u * 1440 + t) (ut_times v)) (filter (ut_days v) day_list)) vs.

Lemma last_local_times o evs d : (2 <= length evs)%nat -> last (local_times o evs) d = match rev evs with e :: _ => se_arr e - o | [] => d end.
Proof.
  induction evs as [|e evs IH]; simpl length; intros H; [lia|].
  destruct evs as [|e' evs]; [simpl in H; lia|].
  cbn [local_times]. destruct evs as [|e'' evs].
  - reflexivity.
  - assert (IH' := IH ltac:(simpl; lia)).
    change (local_times o (e' :: e'' :: evs)) with ((se_dep e' - o) :: (se_arr e'' - o) :: local_times o (e'' :: evs)) in *.
    cbn [last] in *. rewrite IH'. simpl. 
    destruct (rev evs) as [|x l]; reflexivity.
Qed.

Lemma local_times_nonempty o evs : (2 <= length evs)%nat -> local_times o evs <> [].
Proof. destruct evs as [|e [|e' evs]]; simpl; intros; try lia; discriminate. Qed.

Lemma last_app_nonempty {A} (l l' : list A) d : l' <> [] -> last (l ++ l') d = last l' d.
Proof.
  intros H. induction l as [|x l IH]; auto. simpl.
  destruct (l ++ l') eqn:E; [apply app_eq_nil in E; tauto|exact IH].
Qed.

Lemma flat_map_filter {A B} (c : A -> bool) (g : A -> B) l :
  flat_map (fun x => if c x then [g x] else []) l = map g (filter c l).
Proof. induction l as [|x l IH]; simpl; auto. destruct (c x); simpl; congruence. Qed.

Lemma increasing_ge p l x : increasing p l -> In x l -> p <= x.
Proof.
  revert p. induction l as [|y l IH]; simpl; intros p H Hin; [tauto|].
  destruct H as [H1 H2]. destruct Hin as [<-|Hin]; [lia|]. specialize (IH _ H2 Hin). lia.
Qed.
Lemma increasing_shift p l z : increasing p l -> increasing (p - z) (map (fun t => t - z) l).
Proof. revert p. induction l as [|y l IH]; simpl; intros p H; auto. destruct H. split; [lia|auto]. Qed.
Lemma increasing_weaken p q l : (match l with [] => True | x :: _ => q <= x end) -> increasing p l -> increasing q l.
Proof. destruct l; simpl; intuition. Qed.
Lemma last_in {A} (l : list A) d : l <> [] -> In (last l d) l.
Proof. induction l as [|x [|y l] IH]; intros H; [tauto|left; auto|]. right. apply IH. discriminate. Qed.

(** C23.  For a trip (or a through-running chain of trips with a common frequency offset) whose local times are
    in chronological order, below 500 hours, and any time zone with offsets of at most 15 hours: the absolute
    times of all runs of the generated UTC vehicles are - as a multiset - exactly, for every service day on which
    the trip operates, midnight of that day plus the local times minus the day's UTC offset at noon. *)
Theorem C23_local_to_utc_exact : forall n_days noon sel traffic f,
  (forall to to', In to (usable_trips f) -> In to' (usable_trips f) -> snd to = snd to') ->
  (forall d, -900 <= noon d <= 900 /\ noon d <> -1) ->
  increasing 0 (local_schedule f) -> (forall t, In t (local_schedule f) -> t <= 30000) ->
  usable_trips f <> [] ->
  Permutation
    (all_runs (expand_local_to_utc n_days noon sel traffic f))
    (map (fun D => map (fun t => D * 1440 + t - noon D) (local_schedule f))
         (filter (operates sel traffic noon (local_schedule f)) (map Z.of_nat (seq 0 n_days)))).
Proof.
  intros n_days noon sel traffic f Hoff Hnoon Hinc Hmax Hne.
  unfold expand_local_to_utc. destruct (usable_trips f) as [|[first o] rest] eqn:Eu; [tauto|]. clear Hne.
  set (tos := (first, o) :: rest) in *.
  assert (Husable : forall to, In to tos -> (2 <= length (gt_events (fst to)))%nat).
  { intros to Hin. rewrite <- Eu in Hin. unfold usable_trips in Hin. apply filter_In in Hin. destruct Hin as [_ Hu].
    unfold usable in Hu. apply andb_true_iff in Hu. destruct Hu as [Hu _]. apply Nat.ltb_lt in Hu. lia. }
  assert (Hof : forall to, In to tos -> snd to = o) by (intros to Hin; apply (Hoff to (first, o)); auto; left; auto).
  set (local := local_schedule f) in *.
  assert (Hlocal : local = flat_map (fun to => local_times (snd to) (gt_events (fst to))) tos)
    by (unfold local, local_schedule; now rewrite Eu).
  set (back := last tos (first, 0)).
  assert (Hback : In back tos) by (apply last_in; discriminate).
  assert (Hbo : snd back = o) by auto.
  assert (Hfirst : hd 0 local = front_dep first - o /\ local <> []).
  { rewrite Hlocal. unfold tos. simpl. assert (H := Husable (first, o) ltac:(left; auto)). simpl in H.
    unfold front_dep. destruct (gt_events first) as [|e [|e' evs]]; simpl in *; try lia. split; [auto|discriminate]. }
  destruct Hfirst as [Hfirst Hlne].
  assert (Hlast : last local 0 = back_arr (fst back) - o).
  { rewrite Hlocal. unfold back.
    assert (Hgen : forall l x, (forall to, In to (x :: l) -> (2 <= length (gt_events (fst to)))%nat /\ snd to = o) ->
       last (flat_map (fun to => local_times (snd to) (gt_events (fst to))) (x :: l)) 0
       = back_arr (fst (last (x :: l) (first, 0))) - o).
    { intros l. induction l as [|y l IH]; intros x Hx.
      - simpl. rewrite app_nil_r. destruct (Hx x) as [H1 H2]; [now left|]. rewrite last_local_times by auto.
        unfold back_arr. rewrite H2. destruct (rev (gt_events (fst x))) as [|e l] eqn:E; auto.
        apply (f_equal (@length _)) in E. rewrite rev_length in E. simpl in E. lia.
      - change (last (x :: y :: l) (first, 0)) with (last (y :: l) (first, 0)).
        rewrite <- IH by (intros; apply Hx; now right).
        change (flat_map (fun to => local_times (snd to) (gt_events (fst to))) (x :: y :: l))
          with (local_times (snd x) (gt_events (fst x)) ++ flat_map (fun to => local_times (snd to) (gt_events (fst to))) (y :: l)).
        apply last_app_nonempty. simpl. intros H. apply app_eq_nil in H. destruct H as [H _].
        revert H. apply local_times_nonempty. apply (Hx y). right; now left. }
    apply Hgen. intros to Hin. split; [auto|auto]. }
  assert (Hin_first : In (hd 0 local) local) by (destruct local; [tauto|left; auto]).
  assert (Hin_last : In (last local 0) local) by (apply last_in; auto).
  assert (B1 := increasing_ge _ _ _ Hinc Hin_first). assert (B2 := Hmax _ Hin_first).
  assert (B3 := increasing_ge _ _ _ Hinc Hin_last). assert (B4 := Hmax _ Hin_last).
  cbv zeta. rewrite Hbo.
  rewrite (to_i16_id (front_dep first - o)) by lia. rewrite (to_i16_id (back_arr (fst back) - o)) by lia.
  rewrite <- Hfirst, <- Hlast.
  set (first_dep := hd 0 local) in *. set (last_arr := last local 0) in *.
  rewrite !Z.quot_div_nonneg by lia.
  (* entries *)
  set (off := fun D => (first_dep - noon D) / 1440).
  assert (Hent : forall D, 
    (if negb (iv_overlaps sel (mk_iv (D + first_dep / 1440) (D + last_arr / 1440 + 1))) then []
     else if negb ((D <? Calendar_Model.kMaxDays) && bf_test traffic D) then []
     else if (D + to_i16 (first_dep - noon D) / 1440 <? 0) || (Calendar_Model.kMaxDays <=? D + to_i16 (first_dep - noon D) / 1440) then []
          else [((to_i16 (first_dep - noon D) / 1440, noon D), D + to_i16 (first_dep - noon D) / 1440)])
    = if operates sel traffic noon local D then [((off D, noon D), D + off D)] else []).
  { intros D. destruct (Hnoon D) as [Hn _]. rewrite to_i16_id by lia. fold (off D).
    unfold operates, iv_overlaps, bf_test, Calendar_Model.kMaxDays. cbn [iv_from iv_to].
    fold first_dep last_arr.
    assert (Hdiv : (D * 1440 + first_dep - noon D) / 1440 = D + off D).
    { unfold off. replace (D * 1440 + first_dep - noon D) with (first_dep - noon D + D * 1440) by lia.
      rewrite Z.div_add by lia. lia. }
    rewrite Hdiv.
    replace (iv_from sel <? D + last_arr / 1440 + 1) with (iv_from sel <=? D + last_arr / 1440)
      by (destruct (Z.leb_spec (iv_from sel) (D + last_arr / 1440)); destruct (Z.ltb_spec (iv_from sel) (D + last_arr / 1440 + 1)); auto; lia).
    replace (D + off D <? 0) with (negb (0 <=? D + off D))
      by (destruct (Z.leb_spec 0 (D + off D)); destruct (Z.ltb_spec (D + off D) 0); auto; lia).
    replace (512 <=? D + off D) with (negb (D + off D <? 512))
      by (destruct (Z.leb_spec 512 (D + off D)); destruct (Z.ltb_spec (D + off D) 512); auto; lia).
    destruct (iv_from sel <=? D + last_arr / 1440); destruct (D + first_dep / 1440 <? iv_to sel);
      destruct (D <? 512); destruct (traffic D); destruct (0 <=? D + off D); destruct (D + off D <? 512); reflexivity. }
  erewrite flat_map_ext by (intros d; apply Hent).
  set (days := map Z.of_nat (seq 0 n_days)).
  assert (Hfm : flat_map (fun d => if operates sel traffic noon local (Z.of_nat d) then [(off (Z.of_nat d), noon (Z.of_nat d), Z.of_nat d + off (Z.of_nat d))] else []) (seq 0 n_days)
    = map (fun D => ((off D, noon D), D + off D)) (filter (operates sel traffic noon local) days)).
  { unfold days. rewrite <- flat_map_filter. rewrite flat_map_concat_map, flat_map_concat_map, map_map. reflexivity. }
  rewrite Hfm. clear Hfm Hent.
  set (ents := map _ (filter _ days)).
  assert (Hdays : NoDup days) by (apply NoDup_map_inj; [intros; lia|apply seq_NoDup]).
  assert (HP := group_permutation key_eqb key_eqb_spec ents (2, -1)).
  assert (Hp1 : NoDup ents).
  { apply NoDup_map_inj; [|now apply NoDup_filter]. intros x y _ _ H. injection H as H1 H2 H3. lia. }
  assert (Hp2 : forall k d, In (k, d) ents -> 0 <= d < 512 /\ k <> (2, -1)).
  { intros k d H. apply in_map_iff in H. destruct H as (D & H & HD). injection H as <- <-.
    apply filter_In in HD. destruct HD as [_ HD]. unfold operates in HD.
    rewrite !andb_true_iff, Z.leb_le, !Z.ltb_lt, !Z.leb_le in HD.
    assert (Hdiv : (D * 1440 + hd 0 local - noon D) / 1440 = D + off D).
    { unfold off. fold first_dep. replace (D * 1440 + first_dep - noon D) with (first_dep - noon D + D * 1440) by lia.
      rewrite Z.div_add by lia. lia. }
    split; [lia|]. destruct (Hnoon D) as [_ Hn]. congruence. }
  specialize (HP Hp1 Hp2).
  unfold all_runs. set (m := group_loop key_eqb ents (2, -1) []) in *.
  set (absv := fun kd : conversion_key * Z => map (fun t => snd kd * 1440 + t) (build_time_string tos (fst kd))).
  assert (Hl : flat_map (fun v => map (fun u => map (fun t => u * 1440 + t) (ut_times v)) (filter (ut_days v) day_list))
      (map (fun kb => mk_utc (fst (fst kb)) (snd (fst kb)) (map fst tos) (build_time_string tos (fst kb)) (snd kb) []) m)
    = map absv (flat_map (fun kb => map (pair (fst kb)) (filter (snd kb) day_list)) m)).
  { clear. induction m as [|[k b] m IH]; [reflexivity|].
    cbn [map flat_map]. rewrite IH, map_app. f_equal. cbn [ut_times ut_days fst snd]. rewrite map_map. reflexivity. }
  rewrite Hl. rewrite HP. unfold ents. rewrite map_map.
  apply Permutation_refl'. apply map_ext_in. intros D HD.
  unfold absv. cbn [fst snd].
  assert (Hb : build_time_string tos (off D, noon D) = map (fun t => t - (noon D + off D * 1440)) local).
  { unfold build_time_string. cbn [fst snd]. destruct (Hnoon D) as [Hn _].
    assert (Hoffr : off D * 1440 <= first_dep - noon D < off D * 1440 + 1440).
    { unfold off. pose proof (Z.div_mod (first_dep - noon D) 1440). pose proof (Z.mod_pos_bound (first_dep - noon D) 1440). lia. }
    assert (Hse : flat_map (fun to => section_times (snd to + noon D + off D * 1440) (gt_events (fst to))) tos
                  = map (fun t => t - (noon D + off D * 1440)) local).
    { rewrite Hlocal. assert (Hsub : forall to t, In to tos -> In t (local_times (snd to) (gt_events (fst to))) -> In t local)
        by (intros to t H1 H2; rewrite Hlocal; apply in_flat_map; eauto).
      clear - Hsub Hinc Hmax Hoffr Hn B1 B2. revert Hsub. generalize tos. intros l. induction l as [|to l IH]; intros Hsub; [reflexivity|].
      cbn [flat_map]. rewrite map_app, IH by (intros; eapply Hsub; [right|]; eauto).
      f_equal. rewrite <- Z.add_assoc. apply section_times_local.
      intros t Ht. assert (Hin : In t local) by (eapply Hsub; [now left|auto]).
      assert (T1 := Hmax _ Hin). assert (T2 := increasing_ge _ _ _ Hinc Hin). lia. }
    rewrite Hse. apply running_max_id.
    apply (increasing_weaken (0 - (noon D + off D * 1440))).
    - destruct local as [|x l]; simpl; auto. unfold first_dep in Hoffr. simpl in Hoffr. lia.
    - now apply increasing_shift. }
  rewrite Hb, map_map. apply map_ext. intros t. lia.
Qed.

(** Whatever the input, the times of every generated vehicle are non-negative, non-decreasing, fit the packed
    representation, and there is one departure and one arrival per section of its stop sequence: generated
    vehicles meet the preconditions of C14. *)
Definition sane_trip (t : gtfs_trip) : Prop := length (gt_stop_seq t) = length (gt_events t).

Lemma merge_seqs_length acc l : (1 <= length acc)%nat -> (forall s, In s l -> (1 <= length s)%nat) ->
  length (merge_seqs acc l) = (length acc + fold_right (fun s n => length s - 1 + n) 0 l)%nat.
Proof.
  revert acc. induction l as [|s l IH]; intros acc Ha Hl; simpl; [lia|].
  assert (Hs := Hl s ltac:(now left)).
  assert (Hrl : length (removelast acc) = (length acc - 1)%nat).
  { clear - Ha. induction acc as [|x [|y acc] IH]; simpl in *; auto. rewrite IH; lia. }
  assert (Htl : length (tl s) = (length s - 1)%nat) by (destruct s; simpl; lia).
  assert (H : length (removelast acc ++ merge_stop (last acc 0) (hd 0 s) :: tl s) = (length acc + (length s - 1))%nat)
    by (rewrite app_length; simpl; lia).
  rewrite IH.
  - rewrite H. lia.
  - rewrite H. lia.
  - intros; apply Hl; now right.
Qed.

Lemma utc_vehicle_shape n_days noon sel traffic f u :
  (forall t, In t (ft_trips f) -> sane_trip t) ->
  In u (expand_local_to_utc n_days noon sel traffic f) ->
  (2 <= length (get_stop_seq u))%nat /\ length (ut_times u) = (2 * (length (get_stop_seq u) - 1))%nat /\
  (forall t, In t (ut_times u) -> 0 <= t <= 32767) /\
  (forall i j, (i <= j < length (ut_times u))%nat -> nth i (ut_times u) 0 <= nth j (ut_times u) 0).
Proof.
  intros Hs Hin. unfold expand_local_to_utc in Hin.
  destruct (usable_trips f) as [|[first o] rest] eqn:Eu; [simpl in Hin; tauto|].
  cbv zeta in Hin. set (tos := (first, o) :: rest) in *. apply in_map_iff in Hin. destruct Hin as (kb & <- & _).
  cbn [ut_times].
  assert (Hu : forall to, In to tos -> sane_trip (fst to) /\ (2 <= length (gt_events (fst to)))%nat).
  { intros to Hin. rewrite <- Eu in Hin. unfold usable_trips in Hin. apply filter_In in Hin. destruct Hin as [Hc Hu].
    unfold usable in Hu. apply andb_true_iff in Hu. destruct Hu as [Hu _]. apply Nat.ltb_lt in Hu.
    destruct to as [t x]. simpl in *. split; [|lia]. apply Hs. eapply in_combine_l; eauto. }
  assert (Hlen : length (build_time_string tos (fst kb)) = fold_right (fun to n => 2 * (length (gt_events (fst to)) - 1) + n)%nat 0%nat tos).
  { unfold build_time_string. rewrite running_max_length. clear. induction tos as [|to l IH]; auto.
    cbn [flat_map fold_right]. rewrite app_length, section_times_length, IH. lia. }
  assert (Hseq : length (get_stop_seq (mk_utc (fst (fst kb)) (snd (fst kb)) (map fst tos) (build_time_string tos (fst kb)) (snd kb) []))
                 = (1 + fold_right (fun to n => length (gt_events (fst to)) - 1 + n)%nat 0%nat tos)%nat).
  { unfold get_stop_seq. cbn [ut_stop_seq ut_trips].
    unfold tos. cbn [map fst]. destruct (Hu (first, o)) as [S1 S2]; [now left|]. cbn [fst] in *. unfold sane_trip in S1.
    rewrite merge_seqs_length; [|lia|].
    - cbn [fold_right fst]. rewrite S1.
      assert (Hr : forall l : list (gtfs_trip * Z), (forall to, In to l -> sane_trip (fst to)) ->
         fold_right (fun s n => (length s - 1 + n)%nat) 0%nat (map gt_stop_seq (map fst l)) = fold_right (fun to n => (length (gt_events (fst to)) - 1 + n)%nat) 0%nat l).
      { induction l as [|x l IH]; intros Hl; auto. cbn [map fold_right]. rewrite IH by (intros; apply Hl; now right).
        assert (Hx := Hl x ltac:(now left)). unfold sane_trip in Hx. lia. }
      rewrite Hr; [lia|]. intros to Hto. apply Hu. now right.
    - intros s Hin. apply in_map_iff in Hin. destruct Hin as (t & <- & Hin). apply in_map_iff in Hin. destruct Hin as (to & <- & Hin).
      destruct (Hu to) as [S3 S4]; [now right|]. unfold sane_trip in S3. lia. }
  assert (H2 : fold_right (fun to n => (2 * (length (gt_events (fst to)) - 1) + n)%nat) 0%nat tos
             = (2 * fold_right (fun to n => (length (gt_events (fst to)) - 1 + n)%nat) 0%nat tos)%nat).
  { clear. induction tos as [|x l IH]; auto. cbn [fold_right]. lia. }
  rewrite Hseq, Hlen, H2. split; [|split; [lia|split]].
  - unfold tos. cbn [fold_right]. destruct (Hu (first, o)) as [_ S]; [now left|]. lia.
  - intros t Ht. unfold build_time_string in Ht. split; [eapply running_max_ge; eauto|].
    eapply running_max_le; [| |exact Ht]; [lia|]. intros x Hx. apply in_flat_map in Hx. destruct Hx as (to & _ & Hx).
    apply section_times_range in Hx. lia.
  - intros i j Hij. unfold build_time_string in *. apply running_max_mono.
    rewrite <- H2, <- Hlen, running_max_length in Hij. exact Hij.
Qed.

Lemma expand_frequencies_trips trips f t : In f (expand_frequencies trips) -> In t (ft_trips f) -> In t trips.
Proof.
  unfold expand_frequencies. intros Hf Ht.
  assert (Hw : forall l g, In g (expand_windows l) -> ft_trips g = l).
  { intros l g Hg. unfold expand_windows in Hg. destruct l as [|x l]; [simpl in Hg; tauto|].
    apply in_flat_map in Hg. destruct Hg as (i & _ & Hg). apply in_map_iff in Hg. destruct Hg as (it & <- & _). reflexivity. }
  destruct (existsb has_frequency trips).
  - destruct (_ || _).
    + apply Hw in Hf. congruence.
    + apply in_flat_map in Hf. destruct Hf as (x & Hx & Hf). unfold expand_single in Hf.
      destruct (has_frequency x).
      * apply Hw in Hf. rewrite Hf in Ht. destruct Ht as [<-|[]]. auto.
      * destruct Hf as [<-|[]]. destruct Ht as [<-|[]]. auto.
  - destruct Hf as [<-|[]]. exact Ht.
Qed.

(** C44 (first part).  Vehicles produced by the expansion can be inserted into routes: C14 applies to them. *)
Theorem C44_vehicles_fit_routes : forall n_days noon sel traffic trips u k id,
  (forall t, In t trips -> sane_trip t) ->
  In u (expand_trip n_days noon sel traffic None trips) -> rk_stops k = get_stop_seq u ->
  fits k (mk_service (ut_times u) (ut_days u) id) /\ chronological (mk_service (ut_times u) (ut_days u) id).
Proof.
  intros n_days noon sel traffic trips u k id Hs Hin Hk. unfold expand_trip in Hin.
  apply in_flat_map in Hin. destruct Hin as (f & Hf & Hin). apply in_flat_map in Hin. destruct Hin as (u' & Hin & [<-|[]]).
  destruct (utc_vehicle_shape _ _ _ _ _ _ (fun t Ht => Hs t (expand_frequencies_trips _ _ _ Hf Ht)) Hin) as (H1 & H2 & H3 & H4).
  unfold fits, chronological. cbn [sv_times]. rewrite Hk. split; [split; [auto|split; [auto|intros t Ht; apply H3 in Ht; lia]]|].
  split; [exact H4|intros t Ht; apply H3 in Ht; lia].
Qed.

Lemma stop_roundtrip' s : 0 <= s_loc s < 268435456 -> stop_of_value (stop_value s) = s.
Proof.
  intros H. destruct s as [l i o wi wo]. cbn [s_loc] in H. rewrite <- (stop_roundtrip l i o wi wo H) at 2.
  unfold stop_make. rewrite Z.mod_small by lia. reflexivity.
Qed.

(** C44 (second part).  Through-running: the stop sequence of a chain of trips is the concatenation with the
    shared stop taken once: its location and permission to leave come from the trip that ends there, the
    permission to enter from the trip that starts there. *)
Definition word_ok (w : Z) : Prop := 0 <= w < 4294967296.
Theorem C44_shared_stop : forall a x b y,
  word_ok x -> word_ok y ->
  exists w, merge_seqs (a ++ [x]) [y :: b] = a ++ w :: b /\
    let p := stop_of_value x in let c := stop_of_value y in let j := stop_of_value w in
    s_loc j = s_loc p /\ s_out j = s_out p /\ s_wout j = s_wout p /\ s_in j = s_in c /\ s_win j = s_win c.
Proof.
  intros a x b y Hx Hy. exists (merge_stop x y). cbn [merge_seqs hd tl].
  rewrite removelast_last, last_last. split; [reflexivity|]. cbv zeta. unfold merge_stop.
  assert (Hl : 0 <= s_loc (stop_of_value x) < 268435456) by (unfold stop_of_value; cbn [s_loc]; apply Z.mod_pos_bound; lia).
  set (s := stop_make _ _ _ _ _).
  assert (Hsv : stop_of_value (stop_value s) = s).
  { apply stop_roundtrip'. unfold s, stop_make. cbn [s_loc]. apply Z.mod_pos_bound. lia. }
  rewrite Hsv. unfold s, stop_make. cbn [s_loc s_in s_out s_win s_wout]. rewrite Z.mod_small by lia. auto.
Qed.

(** ** C24 *)
(** First departures (local time) of a list of expanded frequency trips made from the single trip [t]. *)
Definition first_departures (t : gtfs_trip) : list Z :=
  map (fun f => front_dep t - hd 0 (ft_offsets f)) (expand_frequencies [t]).
Definition window_ok (w : frequency) : Prop := 0 <= fr_start w <= fr_end w /\ fr_end w <= 30000 /\ 1 <= fr_headway w.

Lemma iterations_spec w i : window_ok w ->
  (i < Z.to_nat (number_of_iterations w))%nat <-> fr_start w + (Z.of_nat i + 1) * fr_headway w <= fr_end w.
Proof.
  intros (H1 & H2 & H3). unfold number_of_iterations, to_u32.
  rewrite Z.quot_div_nonneg by lia.
  assert (Hd : 0 <= (fr_end w - fr_start w) / fr_headway w <= 30000).
  { split; [apply Z.div_pos; lia|]. apply Z.div_le_upper_bound; nia. }
  rewrite Z.mod_small by lia.
  assert (Hle := Z.div_le_lower_bound (fr_end w - fr_start w) (fr_headway w) (Z.of_nat i + 1)).
  pose proof (Z.mul_div_le (fr_end w - fr_start w) (fr_headway w)) as Hm.
  split; intros H.
  - assert (Z.of_nat i + 1 <= (fr_end w - fr_start w) / fr_headway w) by lia. nia.
  - assert (Z.of_nat i + 1 <= (fr_end w - fr_start w) / fr_headway w) by (apply Hle; lia). lia.
Qed.

(** C24.  A trip with frequency windows departs exactly at [start + i * headway] for every window and every [i]
    such that the next departure would still not be after the end of the window; each window's departures are
    strictly increasing; every generated vehicle keeps all times relative to its first departure. *)
Theorem C24_frequency_departures : forall t ws,
  gt_freq t = Some ws -> (2 <= length (gt_events t))%nat -> 0 <= front_dep t <= 30000 ->
  (forall w, In w ws -> window_ok w) ->
  first_departures t =
    flat_map (fun w => map (fun i => fr_start w + Z.of_nat i * fr_headway w)
                           (seq 0 (Z.to_nat ((fr_end w - fr_start w) / fr_headway w)))) ws /\
  (forall x, In x (first_departures t) <->
     exists w i, In w ws /\ 0 <= i /\ x = fr_start w + i * fr_headway w /\ x + fr_headway w <= fr_end w) /\
  (forall f, In f (expand_frequencies [t]) ->
     ft_trips f = [t] /\ exists x, In x (first_departures t) /\
     flat_map (fun to => local_times (snd to) (gt_events (fst to))) (combine (ft_trips f) (ft_offsets f))
     = map (fun e => x + (e - front_dep t)) (local_times 0 (gt_events t))).
Proof.
  intros t ws Hfr Hlen Hdep Hok.
  assert (Hhf : has_frequency t = true).
  { unfold has_frequency. rewrite Hfr. destruct (gt_events t); simpl in *; [lia|reflexivity]. }
  assert (Hexp : expand_frequencies [t] = expand_windows [t]).
  { unfold expand_frequencies. cbn [existsb length Nat.eqb]. rewrite Hhf. reflexivity. }
  assert (Hval : forall i it, In (freq_at t i) ws -> (it < Z.to_nat (number_of_iterations (freq_at t i)))%nat ->
     to_i16 (front_dep t - get_iteration_start_time (freq_at t i) (Z.of_nat it))
     = front_dep t - (fr_start (freq_at t i) + Z.of_nat it * fr_headway (freq_at t i))).
  { intros i it Hin Hit. assert (Hw := Hok _ Hin). apply iterations_spec in Hit; auto. destruct Hw as (W1 & W2 & W3).
    unfold get_iteration_start_time. rewrite (to_i16_id (fr_start _ + _)) by nia. apply to_i16_id. nia. }
  assert (Hat : forall i, (i < length ws)%nat -> In (freq_at t i) ws).
  { intros i Hi. unfold freq_at. rewrite Hfr. now apply nth_In. }
  assert (Hfd : first_departures t =
    flat_map (fun w => map (fun i => fr_start w + Z.of_nat i * fr_headway w)
                           (seq 0 (Z.to_nat ((fr_end w - fr_start w) / fr_headway w)))) ws).
  { unfold first_departures. rewrite Hexp. unfold expand_windows. rewrite Hfr.
    rewrite flat_map_concat_map, concat_map, map_map.
    rewrite flat_map_concat_map. f_equal.
    transitivity (map (fun i => map (fun it => fr_start (freq_at t i) + Z.of_nat it * fr_headway (freq_at t i))
                                    (seq 0 (Z.to_nat (number_of_iterations (freq_at t i))))) (seq 0 (length ws))).
    - apply map_ext_in. intros i Hi. apply in_seq in Hi. rewrite map_map. apply map_ext_in. intros it Hit. apply in_seq in Hit.
      cbn [ft_offsets map hd]. rewrite Hval; [lia|apply Hat; lia|lia].
    - assert (Hn : forall w, In w ws -> number_of_iterations w = (fr_end w - fr_start w) / fr_headway w).
      { intros w Hw. destruct (Hok _ Hw) as (W1 & W2 & W3). unfold number_of_iterations, to_u32.
        rewrite Z.quot_div_nonneg by lia. apply Z.mod_small. split; [apply Z.div_pos; lia|].
        apply Z.le_lt_trans with 30000; [apply Z.div_le_upper_bound; nia|lia]. }
      transitivity (map (fun w => map (fun it => fr_start w + Z.of_nat it * fr_headway w) (seq 0 (Z.to_nat (number_of_iterations w))))
                        (map (freq_at t) (seq 0 (length ws)))).
      { now rewrite map_map. }
      assert (Hws : map (freq_at t) (seq 0 (length ws)) = ws).
      { unfold freq_at. rewrite Hfr. clear. induction ws as [|w ws IH]; auto. simpl. f_equal. rewrite <- seq_shift, map_map. exact IH. }
      rewrite Hws. apply map_ext_in. intros w Hw. now rewrite Hn. }
  split; [exact Hfd|]. split.
  - intros x. rewrite Hfd, in_flat_map. split.
    + intros (w & Hw & Hx). apply in_map_iff in Hx. destruct Hx as (i & <- & Hi). apply in_seq in Hi.
      exists w, (Z.of_nat i). destruct (Hok _ Hw) as (W1 & W2 & W3). split; auto. split; [lia|]. split; [lia|].
      pose proof (Z.mul_div_le (fr_end w - fr_start w) (fr_headway w)).
      assert (Z.of_nat i + 1 <= (fr_end w - fr_start w) / fr_headway w) by lia. nia.
    + intros (w & i & Hw & Hi & -> & Hle). destruct (Hok _ Hw) as (W1 & W2 & W3). exists w. split; auto.
      apply in_map_iff. exists (Z.to_nat i). split; [lia|]. apply in_seq. split; [lia|]. simpl.
      assert (i + 1 <= (fr_end w - fr_start w) / fr_headway w) by (apply Z.div_le_lower_bound; lia). lia.
  - intros f Hf. assert (Hin : In (front_dep t - hd 0 (ft_offsets f)) (first_departures t)).
    { unfold first_departures. exact (in_map (fun f => front_dep t - hd 0 (ft_offsets f)) _ _ Hf). }
    rewrite Hexp in Hf. unfold expand_windows in Hf. rewrite Hfr in Hf.
    apply in_flat_map in Hf. destruct Hf as (i & Hi & Hf). apply in_map_iff in Hf. destruct Hf as (it & <- & Hit).
    cbn [ft_trips ft_offsets map combine hd] in *. split; auto. eexists. split; [exact Hin|].
    cbn [flat_map fst snd]. rewrite app_nil_r. set (o := to_i16 _). clearbody o. clear.
    induction (gt_events t) as [|e evs IH]; auto. destruct evs as [|e' evs]; auto.
    cbn [local_times map] in *. rewrite IH. do 2 (f_equal; try lia).
Qed.

(** If the headway divides the window the departures are exactly those in [start, end). *)
Theorem C24_exact_if_divisible : forall t w x,
  gt_freq t = Some [w] -> (2 <= length (gt_events t))%nat -> 0 <= front_dep t <= 30000 -> window_ok w ->
  (fr_headway w | fr_end w - fr_start w) ->
  (In x (first_departures t) <-> exists i, 0 <= i /\ x = fr_start w + i * fr_headway w /\ fr_start w <= x < fr_end w).
Proof.
  intros t w x Hfr Hlen Hdep Hok [q Hq].
  destruct (C24_frequency_departures t [w] Hfr Hlen Hdep) as (_ & H & _).
  { intros w' [<-|[]]. exact Hok. }
  rewrite H. destruct Hok as (W1 & W2 & W3). split.
  - intros (w' & i & [<-|[]] & Hi & -> & Hle). exists i. split; [auto|]. split; [auto|]. split; nia.
  - intros (i & Hi & -> & Hlt). exists w, i. split; [left; auto|]. split; [auto|]. split; [auto|].
    assert (i < q) by nia. nia.
Qed.

(** Otherwise the last departure before the end of the window is missing: 08:00 to 08:25 every 10 minutes has no
    departure at 08:20. *)
Theorem C24_last_departure_refuted : exists t w,
  gt_freq t = Some [w] /\ window_ok w /\ (2 <= length (gt_events t))%nat /\
  fr_start w = 480 /\ fr_end w = 505 /\ fr_headway w = 10 /\
  first_departures t = [480; 490] /\ ~ In 500 (first_departures t).
Proof.
  exists (mk_trip 0 [1; 2] [mk_se 0 0; mk_se 5 5] false (Some [mk_freq 480 505 10])), (mk_freq 480 505 10).
  split; [reflexivity|]. split; [unfold window_ok; simpl; lia|]. split; [simpl; lia|].
  split; [reflexivity|]. split; [reflexivity|]. split; [reflexivity|]. split; [reflexivity|].
  vm_compute. intros [H|[H|[]]]; discriminate.
Qed.

(** Chains of trips with frequencies are never expanded as one vehicle - even if all windows are identical -
    because the comparison of headways is inverted: the through connection is lost. *)
Theorem C24_through_running_refuted : forall a b ts ws,
  gt_freq a = Some ws -> ws <> [] -> headways_match (a :: b :: ts) = false.
Proof.
  intros a b ts ws Ha Hne. unfold headways_match. cbn [forallb]. rewrite Ha. rewrite Nat.eqb_refl. cbn [negb].
  destruct ws as [|w ws]; [tauto|]. rewrite Z.eqb_refl. reflexivity.
Qed.

(** All trips of an expanded vehicle carry the same frequency offset, which is what C23 asks for. *)
Theorem C24_offsets_agree : forall trips f to to',
  In f (expand_frequencies trips) ->
  In to (combine (ft_trips f) (ft_offsets f)) -> In to' (combine (ft_trips f) (ft_offsets f)) -> snd to = snd to'.
Proof.
  intros trips f to to' Hf H1 H2. unfold expand_frequencies in Hf.
  assert (Hsingle : forall l g, In g (expand_windows l) -> (length l <= 1)%nat -> forall x y, In x (combine (ft_trips g) (ft_offsets g)) -> In y (combine (ft_trips g) (ft_offsets g)) -> snd x = snd y).
  { intros l g Hg Hl x y Hx Hy. unfold expand_windows in Hg. destruct l as [|z [|z' l]]; simpl in Hl; [simpl in Hg; tauto| |lia].
    apply in_flat_map in Hg. destruct Hg as (i & _ & Hg). apply in_map_iff in Hg. destruct Hg as (it & <- & _).
    simpl in Hx, Hy. destruct Hx as [<-|[]]. destruct Hy as [<-|[]]. reflexivity. }
  assert (Hrep : forall n x, In x (combine trips (repeat 0 n)) -> snd x = 0).
  { intros n [x y] Hx. apply in_combine_r in Hx. now apply repeat_spec in Hx. }
  destruct (existsb has_frequency trips) eqn:Ee.
  - destruct (_ || _) eqn:E.
    + destruct (Nat.eqb_spec (length trips) 1) as [El|El].
      * eapply Hsingle; eauto. lia.
      * cbn [orb] in E. rewrite !andb_true_iff in E. destruct E as [[Ea Eh] _].
        destruct trips as [|a [|b ts]]; [simpl in Hf; tauto|simpl in El; lia|].
        cbn [forallb] in Ea. apply andb_true_iff in Ea. destruct Ea as [Ea _].
        unfold has_frequency in Ea. apply andb_true_iff in Ea. destruct Ea as [_ Ea].
        destruct (gt_freq a) as [ws|] eqn:Ew; [|discriminate].
        destruct ws as [|w ws].
        -- unfold expand_windows in Hf. rewrite Ew in Hf. simpl in Hf. tauto.
        -- rewrite (C24_through_running_refuted a b ts (w :: ws)) in Eh; auto; discriminate.
    + apply in_flat_map in Hf. destruct Hf as (x & _ & Hf). unfold expand_single in Hf.
      destruct (has_frequency x).
      * eapply Hsingle; eauto.
      * destruct Hf as [<-|[]]. simpl in H1, H2. destruct H1 as [<-|[]]. destruct H2 as [<-|[]]. reflexivity.
  - destruct Hf as [<-|[]]. cbn [ft_trips ft_offsets] in *. rewrite (Hrep _ _ H1), (Hrep _ _ H2). reflexivity.
Qed.

(** A night bus in a time zone with a change of offset, two service days: hypotheses of C23 hold and the two runs
    are the expected ones. *)
Definition c23_trip : gtfs_trip := mk_trip 7 [1; 2; 3] [mk_se 30 30; mk_se 100 110; mk_se 1500 1500] false None.
Definition c23_noon (d : Z) : Z := if d <=? 6 then 60 else 120.
Example C23_nonvacuous :
  let f := mk_fet [c23_trip] [0] in
  let vs := expand_local_to_utc 20 c23_noon (mk_iv 5 15) (fun d => (d =? 6) || (d =? 7)) f in
  local_schedule f = [30; 100; 110; 1500] /\
  increasing 0 (local_schedule f) /\ (forall t, In t (local_schedule f) -> t <= 30000) /\ usable_trips f <> [] /\
  (forall d, -900 <= c23_noon d <= 900 /\ c23_noon d <> -1) /\
  map (fun v => (ut_first_dep_offset v, ut_tz_offset v, ut_times v, ut_days v 5, ut_days v 6)) vs
  = [(-1, 60, [1410; 1480; 1490; 2880], true, false); (-1, 120, [1350; 1420; 1430; 2820], false, true)].
Proof.
  split; [reflexivity|]. split; [vm_compute; intuition discriminate|]. split.
  - intros t. vm_compute. intuition (subst; discriminate).
  - split; [discriminate|]. split; [|vm_compute; reflexivity].
    intros d. unfold c23_noon. destruct (d <=? 6); lia.
Qed.

(** ** C43: wheelchair assistance *)
(** Wheelchair permissions of stop [i] of [n] after taking opening hours into account: [loc_time t] is the local
    time of an event [t] minutes after midnight of the vehicle's day. *)
Definition assisted_stop (avail : Z -> Z -> bool) (loc_time : Z -> Z) (n : nat) (times : list Z) (i : nat) (s : stop) : stop :=
  mk_stop (s_loc s) (s_in s) (s_out s)
    (if Nat.ltb i (n - 1) then s_win s && avail (s_loc s) (loc_time (nth (2 * i) times 0)) else s_win s)
    (if Nat.ltb 0 i then s_wout s && avail (s_loc s) (loc_time (nth (2 * i - 1) times 0)) else s_wout s).

Lemma word_roundtrip w : word_ok w -> stop_value (stop_of_value w) = w.
Proof.
  unfold word_ok. intros H. unfold stop_value, stop_of_value. cbn [s_loc s_in s_out s_win s_wout].
  assert (Hb : forall z, b2z (Z.odd z) = z mod 2) by (intros z; rewrite Zmod_odd; destruct (Z.odd z); reflexivity).
  rewrite !Hb.
  replace (w / 536870912) with (w / 268435456 / 2) by (rewrite Z.div_div by lia; reflexivity).
  replace (w / 1073741824) with (w / 268435456 / 2 / 2) by (rewrite !Z.div_div by lia; reflexivity).
  replace (w / 2147483648) with (w / 268435456 / 2 / 2 / 2) by (rewrite !Z.div_div by lia; reflexivity).
  set (q := w / 268435456).
  assert (Hq : 0 <= q < 16) by (unfold q; split; [apply Z.div_pos; lia|apply Z.div_lt_upper_bound; lia]).
  pose proof (Z.div_mod w 268435456 ltac:(lia)) as Hw. fold q in Hw.
  pose proof (Z.div_mod q 2 ltac:(lia)). pose proof (Z.div_mod (q / 2) 2 ltac:(lia)).
  pose proof (Z.div_mod (q / 2 / 2) 2 ltac:(lia)). pose proof (Z.div_mod (q / 2 / 2 / 2) 2 ltac:(lia)).
  assert (q / 2 / 2 / 2 / 2 = 0) by (rewrite !Z.div_div by lia; apply Z.div_small; lia).
  lia.
Qed.

Lemma stop_of_value_wf w : 0 <= s_loc (stop_of_value w) < 268435456.
Proof. unfold stop_of_value. cbn [s_loc]. apply Z.mod_pos_bound. lia. Qed.

Lemma assist_loop_nth avail base :
  forall rest a times i s,
  length times = (2 * length rest)%nat ->
  nth_error (map stop_of_value (a :: rest)) i = Some s ->
  nth_error (map stop_of_value (assist_loop avail base a rest times)) i
  = Some (mk_stop (s_loc s) (s_in s) (s_out s)
           (if Nat.ltb i (length rest) then s_win s && avail (s_loc s) (base + nth (2 * i) times 0) else s_win s)
           (if Nat.ltb 0 i then s_wout s && avail (s_loc s) (base + nth (2 * i - 1) times 0) else s_wout s)).
Proof.
  induction rest as [|b rest IH]; intros a times i s Hlen Hi.
  - cbn [assist_loop]. destruct i as [|i]; [|destruct i; discriminate]. simpl in Hi |- *. injection Hi as <-.
    destruct (stop_of_value a); reflexivity.
  - destruct times as [|dep [|arr times]]; simpl in Hlen; try lia.
    cbn [assist_loop map].
    set (from := stop_of_value a) in *. set (to := stop_of_value b) in *.
    destruct i as [|i].
    + cbn [map nth_error] in Hi |- *. injection Hi as <-.
      rewrite stop_roundtrip' by (cbn [s_loc]; apply stop_of_value_wf). reflexivity.
    + cbn [map nth_error] in Hi |- *.
      set (to' := mk_stop (s_loc to) (s_in to) (s_out to) (s_win to) (s_wout to && avail (s_loc to) (base + arr))).
      assert (Hto : stop_of_value (stop_value to') = to') by (apply stop_roundtrip'; cbn [s_loc]; apply stop_of_value_wf).
      destruct i as [|i].
      * simpl in Hi. injection Hi as <-.
        rewrite (IH (stop_value to') times 0%nat to') by (simpl in Hlen |- *; try lia; now rewrite Hto).
        cbn [s_loc s_in s_out s_win s_wout to']. cbn [Nat.ltb Nat.leb]. replace (nth (2 * 1) (dep :: arr :: times) 0) with (nth (2 * 0) times 0) by reflexivity.
        replace (nth (2 * 1 - 1) (dep :: arr :: times) 0) with arr by reflexivity. reflexivity.
      * simpl in Hi.
        rewrite (IH (stop_value to') times (S i) s) by (simpl in Hlen |- *; try lia; exact Hi).
        replace (nth (2 * S (S i)) (dep :: arr :: times) 0) with (nth (2 * S i) times 0)
          by (replace (2 * S (S i))%nat with (S (S (2 * S i))) by lia; reflexivity).
        replace (nth (2 * S (S i) - 1) (dep :: arr :: times) 0) with (nth (2 * S i - 1) times 0)
          by (replace (2 * S (S i) - 1)%nat with (S (S (2 * S i - 1))) by lia; reflexivity).
        reflexivity.
Qed.

Lemma assist_loop_length avail base rest : forall a times, length times = (2 * length rest)%nat ->
  length (assist_loop avail base a rest times) = S (length rest).
Proof.
  induction rest as [|b rest IH]; intros a times H; [reflexivity|].
  destruct times as [|x [|y times]]; simpl in H; try lia. cbn [assist_loop length]. rewrite IH; [reflexivity|lia].
Qed.

(** C43.  Assistance restricts wheelchair boarding per day: for a vehicle whose first departure falls on its own
    local service day ([ut_first_dep_offset = 0]), the generated vehicles together run on exactly the same days
    with the same times, each day in exactly one of them, and on that day wheelchair boarding/alighting at a stop
    is allowed iff it was allowed before and assistance is available at the local time of the event. *)
Theorem C43_assistance : forall avail u,
  (2 <= length (get_stop_seq u))%nat -> length (ut_times u) = (2 * (length (get_stop_seq u) - 1))%nat ->
  ut_first_dep_offset u = 0 ->
  Permutation
    (flat_map (fun v => map (fun d => (d, ut_times v, map stop_of_value (ut_stop_seq v))) (filter (ut_days v) day_list))
              (expand_assistance avail u))
    (map (fun d => (d, ut_times u,
            map (fun i => assisted_stop avail (fun t => d * 1440 + t + ut_tz_offset u) (length (get_stop_seq u)) (ut_times u) i
                            (nth i (map stop_of_value (get_stop_seq u)) (stop_of_value 0)))
                (seq 0 (length (get_stop_seq u)))))
         (filter (ut_days u) day_list)).
Proof.
  intros avail u H2 Hlen H0. unfold expand_assistance.
  set (days := filter (ut_days u) day_list).
  assert (Hdays : days = filter (ut_days u) day_list) by reflexivity.
  set (ents := map (fun d => (assisted_seq avail u d, d)) days).
  assert (Hne : forall d, assisted_seq avail u d <> []).
  { intros d. unfold assisted_seq. destruct (get_stop_seq u) as [|a rest]; [simpl in H2; lia|].
    intros H. apply (f_equal (@length _)) in H. rewrite assist_loop_length in H by (simpl in Hlen; lia). discriminate. }
  assert (HP := group_permutation seq_eqb seq_eqb_spec ents []).
  assert (Hp1 : NoDup ents).
  { apply NoDup_map_inj; [intros x y _ _ H; congruence|]. rewrite Hdays. apply NoDup_filter, day_list_nodup. }
  assert (Hp2 : forall k d, In (k, d) ents -> 0 <= d < 512 /\ k <> []).
  { intros k d H. apply in_map_iff in H. destruct H as (D & H & HD). injection H as <- <-.
    rewrite Hdays in HD. apply filter_In in HD. destruct HD as [HD _]. apply day_list_in in HD. split; auto. }
  specialize (HP Hp1 Hp2). set (m := group_loop seq_eqb ents [] []) in *.
  set (g := fun kd : list Z * Z => (snd kd, ut_times u, map stop_of_value (fst kd))).
  assert (Hl : flat_map (fun v => map (fun d => (d, ut_times v, map stop_of_value (ut_stop_seq v))) (filter (ut_days v) day_list))
      (map (fun kb => mk_utc (ut_first_dep_offset u) (ut_tz_offset u) (ut_trips u) (ut_times u) (snd kb) (fst kb)) m)
    = map g (flat_map (fun kb => map (pair (fst kb)) (filter (snd kb) day_list)) m)).
  { clear. induction m as [|[k b] m IH]; [reflexivity|].
    cbn [map flat_map]. rewrite IH, map_app. f_equal. cbn [ut_times ut_days ut_stop_seq fst snd]. rewrite map_map. reflexivity. }
  rewrite Hl, HP. unfold ents. rewrite map_map.
  apply Permutation_refl'. apply map_ext. intros d. unfold g. cbn [fst snd]. f_equal.
  unfold assisted_seq. rewrite H0. destruct (get_stop_seq u) as [|a rest] eqn:Eseq; [simpl in H2; lia|].
  simpl in Hlen. apply nth_ext with (d := stop_of_value 0) (d' := stop_of_value 0).
  - rewrite !map_length, seq_length, assist_loop_length by lia. reflexivity.
  - intros i Hi. rewrite map_length, assist_loop_length in Hi by lia.
    set (orig := nth i (map stop_of_value (a :: rest)) (stop_of_value 0)).
    assert (Ho : nth_error (map stop_of_value (a :: rest)) i = Some orig)
      by (apply nth_error_nth'; rewrite map_length; simpl; lia).
    erewrite nth_error_nth by (apply (assist_loop_nth avail _ rest a (ut_times u) i orig); [lia|exact Ho]).
    match goal with |- _ = nth i (map ?f _) _ => assert (Hr : nth i (map f (seq 0 (length (a :: rest)))) (stop_of_value 0) = f i) end.
    { rewrite (Routes_Proofs.nth_map_in _ _ _ _ 0%nat) by (rewrite seq_length; simpl; lia). now rewrite seq_nth by (simpl; lia). }
    rewrite Hr. fold orig. unfold assisted_stop.
    replace (length (a :: rest) - 1)%nat with (length rest) by (simpl; lia).
    replace (d * 1440 + (0 * 1440 + ut_tz_offset u) + nth (2 * i) (ut_times u) 0) with (d * 1440 + nth (2 * i) (ut_times u) 0 + ut_tz_offset u) by lia.
    replace (d * 1440 + (0 * 1440 + ut_tz_offset u) + nth (2 * i - 1) (ut_times u) 0) with (d * 1440 + nth (2 * i - 1) (ut_times u) 0 + ut_tz_offset u) by lia.
    reflexivity.
Qed.

(** If the first departure falls on another UTC day than the local service day, opening hours are evaluated a day
    off: a train leaving at 00:30 local time on service day 6 (23:30 UTC on day 5), with assistance open on day 6
    only, loses its wheelchair boarding permission. *)
Definition c43_trip : gtfs_trip :=
  mk_trip 7 [stop_value (mk_stop 1 true true true true); stop_value (mk_stop 2 true true true true)] [mk_se 30 30; mk_se 100 100] false None.
Definition c43_avail (l t : Z) : bool := (6 * 1440 <=? t) && (t <? 7 * 1440).
Theorem C43_day_offset_refuted :
  let us := expand_trip 20 (fun _ => 60) (mk_iv 5 15) (fun d => d =? 6) None [c43_trip] in
  let vs := expand_trip 20 (fun _ => 60) (mk_iv 5 15) (fun d => d =? 6) (Some c43_avail) [c43_trip] in
  all_runs us = [[6 * 1440 + 30 - 60; 6 * 1440 + 100 - 60]] /\
  map (fun u => map (fun w => s_win (stop_of_value w)) (get_stop_seq u)) us = [[true; true]] /\
  (forall l, c43_avail l (6 * 1440 + 30) = true) /\
  map (fun v => map (fun w => s_win (stop_of_value w)) (get_stop_seq v)) vs = [[false; true]].
Proof. split; [vm_compute; reflexivity|]. split; [vm_compute; reflexivity|]. split; [intros; reflexivity|vm_compute; reflexivity]. Qed.

(** Departure at noon: hypotheses of C43 hold, the day without assistance is split off. *)
Example C43_nonvacuous :
  let u := mk_utc 0 60 [] [660; 700] (fun d => (d =? 6) || (d =? 7))
             [stop_value (mk_stop 1 true true true true); stop_value (mk_stop 2 true true true true)] in
  (2 <= length (get_stop_seq u))%nat /\ length (ut_times u) = (2 * (length (get_stop_seq u) - 1))%nat /\
  map (fun v => (map (fun w => (s_win (stop_of_value w), s_wout (stop_of_value w))) (ut_stop_seq v), ut_days v 6, ut_days v 7))
      (expand_assistance c43_avail u)
  = [([(true, true); (true, true)], true, false); ([(false, true); (true, false)], false, true)].
Proof. split; [simpl; lia|]. split; [reflexivity|vm_compute; reflexivity]. Qed.

Print Assumptions C23_local_to_utc_exact.
Print Assumptions C44_vehicles_fit_routes.
Print Assumptions C44_shared_stop.
Print Assumptions C24_frequency_departures.
Print Assumptions C24_exact_if_divisible.
Print Assumptions C24_offsets_agree.
Print Assumptions C43_assistance.
