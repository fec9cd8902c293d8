(** C65: lookup of runs by trip descriptor. *)
From Coq Require Import List ZArith Bool Arith Permutation Sorted Lia.
From Verif Require Import Base Time_Model Time_Proofs Calendar_Model Routes_Model P_Routes Utc_Model Utc_Proofs P_Utc Resolve_Model Resolve_Spec Resolve_Proofs.
From Verif Require Seated_Model Seated_Spec P_Seated.
Import ListNotations.
Local Open Scope Z_scope.

Lemma expanded_stop_seq n noon sel traffic f v : (forall to, In to (usable_trips f) -> length (gt_stop_seq (fst to)) = length (gt_events (fst to))) -> 
  In v (expand_local_to_utc n noon sel traffic f) -> (1 <= length (get_stop_seq v))%nat.
Proof.
  intros Hst Hv. assert (HT : ut_stop_seq v = [] /\ ut_trips v = map fst (usable_trips f) /\ usable_trips f <> []).
  { unfold expand_local_to_utc in Hv. destruct (usable_trips f) as [|(a, o) l]; [destruct Hv|]. cbv zeta in Hv. apply in_map_iff in Hv. destruct Hv as (kb & <- & _). split; [reflexivity|]. split; [reflexivity|discriminate]. }
  destruct HT as (H1 & H2 & H3). unfold get_stop_seq. rewrite H1, H2, map_map. set (us := usable_trips f) in *. 
  assert (HL : forall to, In to us -> (1 <= length (gt_stop_seq (fst to)))%nat).
  { intros to Hin. rewrite (Hst to Hin). unfold us, usable_trips in Hin. apply filter_In in Hin. destruct Hin as [_ Hu]. unfold usable in Hu. apply andb_true_iff in Hu. destruct Hu as [Hu _]. apply Nat.ltb_lt in Hu. lia. }
  destruct us as [|a l]; [tauto|]. cbn [map]. rewrite merge_seqs_length.
  - specialize (HL a (or_introl eq_refl)). lia.
  - apply HL. now left.
  - intros s Hs. apply in_map_iff in Hs. destruct Hs as (to & <- & Hin). apply HL. now right.
Qed.

Lemma flat_map_singleton {A} (l : list A) : flat_map (fun u => [u]) l = l.
Proof. induction l as [|x l IH]; [reflexivity|]. cbn. now rewrite IH. Qed.

(** The trips (or through-running chains) of a data set: calendar, assistance hours if any, trips. *)
Definition line := (bitfield * option (Z -> Z -> bool) * list gtfs_trip)%type.

(** C65: the runs found for a trip id (as index), a date and possibly a start time are exactly the runs of that trip on the service day the
    descriptor asks for - each once, with the times of its whole vehicle and the stops of the trip.  Whatever the frequencies, time zone
    changes, through-running chains, assistance hours and the order in which vehicles were written. *)
Theorem C65_exact (key : Type) n_days noon sel (lines : list line) vs ids routes dir date time id :
  (forall d, -720 <= noon d <= 900 /\ noon d <> -1) ->
  (forall l f, In l lines -> In f (expand_frequencies (snd l)) -> good_chain f) ->
  Permutation vs (flat_map (fun l => expand_trip n_days noon sel (fst (fst l)) (snd (fst l)) (snd l)) lines) ->
  (forall s, time = Some s -> 0 <= s) ->
  let T := @loaded key vs ids routes dir in
  Permutation (map (seen T) (resolve_trip T date time id))
              (flat_map (fun l => flat_map (fun f => chain_runs n_days noon sel (fst (fst l)) f date time id) (expand_frequencies (snd l))) lines).
Proof.
  intros Hnoon Hg Hvs Hs T. unfold T. rewrite (resolve_loaded noon Hnoon vs ids routes dir date time id). rewrite (flat_map_perm _ _ _ Hvs). clear Hvs vs T. rewrite flat_map_flat_map. apply flat_map_perm_ext.
  intros ((traffic, assist), trips) Hl. cbn [fst snd]. unfold expand_trip. rewrite flat_map_flat_map. apply flat_map_perm_ext. intros f Hf. pose proof (Hg _ f Hl Hf) as G.
  set (vs := flat_map (fun u => match assist with Some avail => expand_assistance avail u | None => [u] end) (expand_local_to_utc n_days noon sel traffic f)).
  assert (M : made n_days noon sel traffic f vs).
  { pose proof (made_expand n_days noon sel Hnoon traffic f G) as M. unfold vs. destruct assist as [avail|].
    - apply made_assistance; [exact Hnoon|exact M|]. intros v Hv. exact (expanded_stop_seq _ _ _ _ _ _ (gc_stops f G) Hv).
    - rewrite flat_map_singleton. exact M. }
  unfold chain_runs.
  assert (E : flat_map (fun v => flat_map (fun x => hit date time v (snd x)) (filter (fun x => Nat.eqb (fst x) id) (trip_ranges 0 (ut_trips v)))) vs =
              flat_map (fun v => flat_map (fun p => hit date time v (snd (fst p))) (filter (fun p => Nat.eqb (fst (fst p)) id) (chain_parts 0 (usable_trips f)))) vs).
  { pose proof (md_trips _ _ _ _ _ _ M) as HT. revert HT. clear. induction vs as [|v vs IH]; intros HT; [reflexivity|]. cbn [flat_map]. rewrite IH by (intros; apply HT; now right). f_equal.
    rewrite (HT v (or_introl eq_refl)), chain_ranges. generalize (chain_parts 0 (usable_trips f)). induction l as [|p l IHl]; [reflexivity|]. cbn [map filter].
    destruct (Nat.eqb (fst (fst p)) id); cbn [flat_map]; rewrite IHl; reflexivity. }
  rewrite E. rewrite flat_map_swap. apply flat_map_perm_ext. intros p Hp. apply filter_In in Hp. destruct Hp as (Hp & _).
  exact (chain_hits n_days noon sel Hnoon traffic f vs date time p G M Hs Hp).
Qed.

(** The stop range of a found run is the trip's: the vehicle's event at its start is the trip's first departure. *)
Theorem C65_departure n_days noon sel traffic f date time id r : good_chain f -> In r (chain_runs n_days noon sel traffic f date time id) ->
  exists D dep, wanted date time dep D = true /\ operates sel traffic noon (local_schedule f) D = true /\
    fst r = map (fun t => D * 1440 + t - noon D) (local_schedule f) /\ nth (2 * fst (snd r)) (fst r) 0 = D * 1440 + dep - noon D.
Proof.
  intros [_ _ _ _ Hst] H. unfold chain_runs in H. apply in_flat_map in H. destruct H as (p & Hp & H). apply filter_In in Hp. destruct Hp as (Hp & _).
  apply in_map_iff in H. destruct H as (D & <- & HD). apply filter_In in HD. destruct HD as (_ & HD). apply andb_true_iff in HD. destruct HD as (HW & HO).
  exists D, (snd p). do 2 (split; [assumption|]). split; [reflexivity|]. cbn [fst snd].
  destruct (chain_departures (usable_trips f)) with (before := @nil Z) (p := p) as (_ & A & B).
  - intros to Hin. split; [|auto]. unfold usable_trips in Hin. apply filter_In in Hin. destruct Hin as [_ Hu]. unfold usable in Hu. apply andb_true_iff in Hu. destruct Hu as [Hu _]. apply Nat.ltb_lt in Hu. lia.
  - exact Hp.
  - exists 0%nat. reflexivity.
  - cbn [app] in A, B. fold (local_schedule f) in A, B. rewrite (nth_indep _ 0 (D * 1440 + 0 - noon D)) by (rewrite map_length; exact B).
    rewrite (map_nth (fun t => D * 1440 + t - noon D)). rewrite A. reflexivity.
Qed.

(** The trips looked at are all trips with that id, and no others. *)
Theorem C65_lookup (key : Type) (ltb : key -> key -> bool) (T : schedule key) k :
  (forall a, ltb a a = false) -> (forall a b c, ltb a b = true -> ltb b c = true -> ltb a c = true) -> (forall a b, ltb a b = false -> ltb b a = false -> a = b) ->
  StronglySorted (fun a b => ltb (fst b) (fst a) = false) (sc_trip_ids T) ->
  forall trip, In trip (trips_of_id ltb T k) <-> In (k, trip) (sc_trip_ids T).
Proof.
  intros Hi Ht He Hs trip. unfold trips_of_id. revert Hs. generalize (sc_trip_ids T). intros l.
  assert (W : forall l, StronglySorted (fun a b => ltb (fst b) (fst a) = false) l -> (forall x, In x l -> ltb (fst x) k = false) -> In trip (while_equal ltb k l) <-> In (k, trip) l).
  { clear l. induction l as [|(k', x) l IH]; intros Hs Hl; [reflexivity|]. inversion Hs as [|? ? Hs' Hf]; subst. pose proof (Hl (k', x) (or_introl eq_refl)) as Hlx. cbn [fst] in Hlx. cbn [while_equal fst snd]. rewrite Hlx. cbn [negb andb].
    destruct (ltb k k') eqn:E; cbn [negb].
    - split; [intros []|]. intros H. exfalso. rewrite Forall_forall in Hf. destruct H as [H|H].
      + injection H as -> ->. rewrite Hi in E. discriminate.
      + specialize (Hf _ H). cbn in Hf. congruence.
    - assert (k' = k) as -> by (apply He; [exact (Hl (k', x) (or_introl eq_refl))|exact E]). cbn [In]. rewrite IH; [|exact Hs'|intros y Hy; apply Hl; now right].
      split; (intros [H|H]; [left|right; exact H]); [rewrite H; reflexivity|injection H; auto]. }
  induction l as [|(k', x) l IH]; intros Hs; [reflexivity|]. inversion Hs as [|? ? Hs' Hf]; subst. cbn [lower_bound fst].
  destruct (ltb k' k) eqn:E.
  - rewrite IH by exact Hs'. split; [now right|]. intros [H|H]; [|exact H]. injection H as -> ->. rewrite Hi in E. discriminate.
  - apply W; [exact Hs|]. intros y [<-|Hy]; [exact E|]. rewrite Forall_forall in Hf. specialize (Hf y Hy). cbn in Hf.
    destruct (ltb (fst y) k) eqn:Ey; [|reflexivity]. destruct (ltb k' (fst y)) eqn:E2; [rewrite (Ht _ _ _ E2 Ey) in E; discriminate|].
    rewrite (He _ _ E2 Hf) in E. congruence.
Qed.

(** The start of a trip, as reported for one of its stops, leads back to the run it was asked for - with and without the time. *)
Theorem C65_roundtrip (key : Type) (T : schedule key) sections trip t day from to stop :
  In (t, (from, to)) (sc_ranges T trip) -> ve_days (vehicle_of T t) day = true -> 0 <= day < 512 ->
  (from <= stop <= to)%nat -> (forall i, (from <= i < stop)%nat -> nth i sections 0%nat = trip) -> (from <> 0%nat -> nth (from - 1) sections 0%nat <> trip) ->
  let '(date, time) := get_trip_start T sections trip t day stop in
  In (mk_found t day (from, to)) (resolve_trip T date (Some time) trip) /\ In (mk_found t day (from, to)) (resolve_trip T date None trip).
Proof.
  intros HR HA Hd Hs Hsec Hfirst. unfold get_trip_start. destruct (to_offset (ve_offset (vehicle_of T t))) as (fo, tz) eqn:EO.
  assert (HF : first_trip_stop sections trip stop = from).
  { clear -Hs Hsec Hfirst. revert Hs Hsec. induction stop as [|s IH]; intros Hs Hsec; [cbn; lia|]. cbn [first_trip_stop]. destruct (Nat.eqb_spec (nth s sections 0%nat) trip) as [E|E].
    - destruct (Nat.eq_dec from (S s)) as [->|N]; [|apply IH; [lia|intros i Hi; apply Hsec; lia]]. exfalso. apply Hfirst; [lia|]. replace (S s - 1)%nat with s by lia. exact E.
    - destruct (Nat.eq_dec from (S s)) as [->|N]; [reflexivity|]. exfalso. apply E, Hsec. lia. }
  rewrite HF. unfold resolve_trip. split; apply in_flat_map; exists (t, (from, to)); (split; [exact HR|]); unfold resolve_one; cbn [fst snd]; rewrite EO; unfold split.
  - rewrite Z.eqb_refl. cbn [negb fst snd]. rewrite Z.sub_diag. replace (day - fo + fo - 0) with day by lia. rewrite (proj2 (Z.ltb_ge day 0)) by lia.
    rewrite Z.gtb_ltb, (proj2 (Z.ltb_ge kMaxDays day)) by (unfold kMaxDays; lia). unfold bf_test. rewrite HA. left. reflexivity.
  - replace (day - fo + fo - 0) with day by lia. rewrite (proj2 (Z.ltb_ge day 0)) by lia.
    rewrite Z.gtb_ltb, (proj2 (Z.ltb_ge kMaxDays day)) by (unfold kMaxDays; lia). unfold bf_test. rewrite HA. left. reflexivity.
Qed.
(** And the date of a trip start is the date the run is found by. *)
Theorem C65_start_date (key : Type) (T : schedule key) sections trip date r stop :
  In r (resolve_trip T date None trip) -> fst (get_trip_start T sections trip (fo_transport r) (fo_day r) stop) = date.
Proof.
  intros H. unfold resolve_trip in H. apply in_flat_map in H. destruct H as ((t, range) & _ & H). unfold resolve_one in H. cbn [fst snd] in H. unfold get_trip_start.
  destruct (to_offset (ve_offset (vehicle_of T t))) as (fo, tz) eqn:EO. destruct (split _) as (dd, dt) in H. cbn [negb] in H.
  destruct ((date + fo - 0 >? kMaxDays) || (date + fo - 0 <? 0)); [destruct H|]. destruct (bf_test _ _) in H; [|destruct H].
  destruct H as [<-|[]]. cbn [fo_transport fo_day]. rewrite EO. cbn [fst]. lia.
Qed.

(** [get_ref_transport]'s candidates: as long as the local departure is not before the UTC midnight of its traffic day, they are the runs
    departing on that local day. *)
Theorem C65_local_day (key : Type) (T : schedule key) (tz : nat -> Z) day t range r : 0 <= departure T t (fst range) + tz t ->
  schedule_transport T tz day t range = Some r <->
  r = mk_found t (fo_day r) range /\ ve_days (vehicle_of T t) (fo_day r) = true /\ day * 1440 <= fo_day r * 1440 + departure T t (fst range) + tz t < day * 1440 + 1440.
Proof.
  intros H. unfold schedule_transport, bf_test. rewrite Z.quot_div_nonneg by lia. set (x := departure T t (fst range) + tz t) in *.
  pose proof (Z.div_mod x 1440) as D. pose proof (Z.mod_pos_bound x 1440) as B. split.
  - destruct (ve_days (vehicle_of T t) (day - x / 1440)) eqn:E; [|discriminate]. intros [= <-]. cbn [fo_day]. split; [reflexivity|]. split; [exact E|]. unfold x in *. lia.
  - intros (Hr & Ha & Hx). assert (fo_day r = day - x / 1440) as E by (unfold x in *; lia). rewrite <- E, Ha. rewrite Hr at 2. reflexivity.
Qed.
(** West of Greenwich it is not: 23:00 at UTC-5 (04:00 UTC on the traffic day) is found for the day after its local departure. *)
Definition west : schedule nat := mk_sched nat [mk_veh (pack_offset 1 (-300)) [240; 300] (fun d => d =? 6)] (fun _ => [(0, (0, 2))]%nat) [(0, 0)]%nat (fun _ => []) (fun _ => false).
Theorem C65_west_refuted : let r := mk_found 0 6 (0, 2)%nat in
  schedule_transport west (fun _ => -300) 6 0 (0, 2)%nat = Some r /\ schedule_transport west (fun _ => -300) 5 0 (0, 2)%nat = None /\
  5 * 1440 <= fo_day r * 1440 + departure west 0 0 + -300 < 6 * 1440 /\
  resolve_trip west 5 None 0 = [r].
Proof. repeat split; vm_compute; reflexivity || discriminate. Qed.

(** [gtfsrt_resolve_run] with several trips of one id: a run is found if any of them has one; it is the first run of the last such trip. *)
Theorem C65_first_run l : match first_run l with
  | Some r => exists l1 runs l2, l = l1 ++ (r :: runs) :: l2 /\ Forall (fun x => x = []) l2
  | None => Forall (fun x => x = []) l
  end.
Proof.
  unfold first_run. induction l as [|x l IH] using rev_ind; [constructor|]. rewrite fold_left_app. cbn [fold_left]. destruct x as [|r runs].
  - destruct (fold_left _ l None) as [r|].
    + destruct IH as (l1 & runs & l2 & -> & H). exists l1, runs, (l2 ++ [[]]). split; [rewrite <- app_assoc; reflexivity|]. apply Forall_app. split; [exact H|constructor; auto].
    + apply Forall_app. split; [exact IH|constructor; auto].
  - exists l, runs, []. split; [reflexivity|constructor].
Qed.

(** A stay-seated transfer over midnight: b's own date does not find it, the date before does; with its start time it is found. *)
Section SeatedTrip.
  Import Seated_Model.
  Definition two : expanded_seated := P_Seated.make [P_Seated.trip 10 [1430; 1450] [1] 1 2; P_Seated.trip 11 [20; 60] [2] 2 3] (fun i => i) [(0, 1)]%nat.
  Definition seated_schedule (j : Seated_Model.utc_trip) : schedule nat :=
    mk_sched nat [mk_veh (pack_offset 0 0) (ut_times j) (ut_days j)] (fun trip => if Nat.eqb trip 10 then [(0, (0, 2))]%nat else [(0, (1, 3))]%nat) [(10, 10); (11, 11)]%nat (fun _ => []) (fun _ => false).
  Theorem C65_seated_wrong_day_refuted : Seated_Spec.runs two 1 2 /\ exists j, build_seated_trips two P_Seated.same_order [j] /\
    let T := seated_schedule j in let r := mk_found 0 1 (1, 3)%nat in
    resolve_trip T 2 None 11 = [] /\ resolve_trip T 1 None 11 = [r] /\ resolve_trip T 2 (Some 20) 11 = [r] /\ fo_day r * 1440 + departure T 0 1 = 2 * 1440 + 20.
  Proof.
    split; [eexists; split; reflexivity|].
    assert (O : option_map (fun out => match out with [j] => Some (ut_times j, map (ut_days j) [1; 2]) | _ => None end) (P_Seated.run_all two P_Seated.same_order 10) = Some (Some ([1430; 1450; 1460; 1500], [true; false]))) by (vm_compute; reflexivity).
    destruct (P_Seated.run_all two P_Seated.same_order 10) as [[|j [|? ?]]|] eqn:R; try discriminate. exists j. split; [exact (P_Seated.run_all_build two P_Seated.same_order 10 [j] R)|].
    cbn [option_map] in O. clear R. destruct j as [A1 A2 A3 A4]. cbn [ut_times ut_days map] in O. injection O as O1 O2 O3. subst.
    repeat split; vm_compute; rewrite ?O2, ?O3; reflexivity.
  Qed.
End SeatedTrip.

(** A night bus over a change of the UTC offset: the hypotheses of [C65_exact] hold, one run is found for each of its two days. *)
Example C65_nonvacuous :
  let lines := [((fun d => (d =? 6) || (d =? 7)), None, [c23_trip])] : list line in
  let vs := flat_map (fun l => expand_trip 20 c23_noon (mk_iv 5 15) (fst (fst l)) (snd (fst l)) (snd l)) lines in
  let T := loaded (key := nat) vs [(7, 7)]%nat (fun _ => []) (fun _ => false) in
  (forall d, -720 <= c23_noon d <= 900 /\ c23_noon d <> -1) /\
  (forall l f, In l lines -> In f (expand_frequencies (snd l)) -> good_chain f) /\
  map (seen T) (resolve_trip T 6 None 7) = [([8610; 8680; 8690; 10080], (0, 3)%nat)] /\
  map (seen T) (resolve_trip T 7 (Some 30) 7) = [([9990; 10060; 10070; 11460], (0, 3)%nat)] /\
  resolve_trip T 7 (Some 31) 7 = [] /\ resolve_trip T 8 None 7 = [].
Proof.
  split; [intros d; unfold c23_noon; destruct (d <=? 6); lia|]. split.
  - intros l f [<-|[]] Hf. destruct Hf as [<-|[]]. split; try (vm_compute; intuition discriminate).
    + intros to to' H H'. vm_compute in H, H'. destruct H as [<-|[]]. destruct H' as [<-|[]]. reflexivity.
    + intros t. vm_compute. intuition (subst; discriminate).
    + intros to H. vm_compute in H. destruct H as [<-|[]]. reflexivity.
  - do 3 (split; [vm_compute; reflexivity|]). vm_compute. reflexivity.
Qed.
