(** Properties C14, C15, C41, C42: vehicles grouped into routes, no overtaking, stop time arrays, restrictions. *)
From Coq Require Import List ZArith Lia Bool Arith Permutation.
From Verif Require Import Base Time_Model Raptor_Model Raptor_Spec Routes_Model Routes_Proofs.
Import ListNotations.
Local Open Scope Z_scope.

(** A vehicle that fits a route key: at least two stops, one departure and one arrival per section, no negative
    times ([Routes_Proofs.valid_service], restated). *)
Definition fits (k : route_key) (s : service) : Prop :=
  (2 <= length (rk_stops k))%nat /\ length (sv_times s) = (2 * (length (rk_stops k) - 1))%nat /\
  forall t, In t (sv_times s) -> 0 <= t.

Definition same_key (k : route_key) (x : route_key * service) : bool :=
  if route_key_eq_dec k (fst x) then true else false.

(** Event column [c] (dep(0), arr(1), dep(1), ...) of one vehicle as minute of the day. *)
Definition minute_of_day (s : service) (c : nat) : Z := nth c (sv_times s) 0 mod 1440.

Lemma time_mod_minute k s c : fits k s -> time_mod s c = minute_of_day s c.
Proof.
  intros (_ & _ & Ht). unfold time_mod, minute_of_day. apply Z.rem_mod_nonneg; [|lia].
  destruct (nth_in_or_default c (sv_times s) 0) as [H|H]; [auto|rewrite H; lia].
Qed.

Lemma services_for_in m k rs r s :
  NoDup (map fst m) -> In (k, rs) m -> In r rs -> In s r -> In s (services_for k m).
Proof.
  intros _ Hin Hr Hs. unfold services_for. apply in_flat_map. exists (k, rs). split; auto. simpl.
  destruct (route_key_eq_dec k k); [|tauto]. apply in_concat. eauto.
Qed.

Lemma loaded_fits ins k rs r s :
  (forall k s, In (k, s) ins -> fits k s) -> In (k, rs) (add_all ins) -> In r rs -> In s r -> fits k s.
Proof.
  intros Hf Hin Hr Hs. destruct (add_all_ok ins Hf) as [[Hnd _] Hp].
  assert (H := services_for_in _ _ _ _ _ Hnd Hin Hr Hs).
  apply (Permutation_in _ (Hp k)) in H. apply in_map_iff in H. destruct H as ([k' s'] & <- & H).
  apply filter_In in H. destruct H as [H1 H2]. simpl in H2.
  destruct (route_key_eq_dec k k'); [subst; simpl; auto|discriminate].
Qed.

(** C14.  After inserting any sequence of vehicles (in any order): every key occurs once; the routes of a key
    contain exactly the vehicles inserted under that key (as a multiset); no route is empty; in every route and
    every event column the minute of the day never decreases from one vehicle to a later one. *)
Theorem C14_routes_sorted_and_complete : forall ins : list (route_key * service),
  (forall k s, In (k, s) ins -> fits k s) ->
  NoDup (map fst (add_all ins)) /\
  (forall k, Permutation (flat_map (fun kr => if route_key_eq_dec k (fst kr) then concat (snd kr) else []) (add_all ins))
                         (map snd (filter (same_key k) ins))) /\
  (forall k rs r, In (k, rs) (add_all ins) -> In r rs ->
     r <> [] /\
     forall i j a b c, (i <= j)%nat -> nth_error r i = Some a -> nth_error r j = Some b ->
       (c < length (sv_times a))%nat -> minute_of_day a c <= minute_of_day b c).
Proof.
  intros ins Hf. destruct (add_all_ok ins Hf) as [Hok Hp]. split; [apply Hok|]. split; [exact Hp|].
  intros k rs r Hin Hr. destruct (mo_sorted _ Hok _ _ _ Hin Hr) as [Hne Hs]. split; auto.
  intros i j a b c Hij Ha Hb Hc.
  assert (Fa : fits k a) by (eapply loaded_fits; eauto; eapply nth_error_In; eauto).
  assert (Fb : fits k b) by (eapply loaded_fits; eauto; eapply nth_error_In; eauto).
  rewrite <- !(time_mod_minute k) by auto. apply (Hs i j a b Hij Ha Hb).
  destruct Fa as (_ & L & _). lia.
Qed.

(** A route is only split if it has to be: a vehicle refused by a route cannot be placed anywhere in it, unless
    another vehicle of the route has the same first departure minute (in which case the loader gives up early,
    see [C14_split_tie_refuted]). *)
Theorem C14_split_only_if_needed : forall k r s,
  (forall a, In a (s :: r) -> fits k a) ->
  (forall i j a b c, (i <= j)%nat -> nth_error r i = Some a -> nth_error r j = Some b ->
     (c < length (sv_times a))%nat -> minute_of_day a c <= minute_of_day b c) ->
  (forall a, In a r -> minute_of_day a 0 <> minute_of_day s 0) ->
  get_index r s = None ->
  forall pre post, r = pre ++ post ->
  ~ (forall i j a b c, (i <= j)%nat -> nth_error (pre ++ s :: post) i = Some a -> nth_error (pre ++ s :: post) j = Some b ->
       (c < length (sv_times a))%nat -> minute_of_day a c <= minute_of_day b c).
Proof.
  intros k r s Hf Hs Hne Hg pre post Hr Hs'.
  assert (Fs : fits k s) by (apply Hf; now left).
  assert (Hl : length (sv_times s) = (2 * (length (rk_stops k) - 1))%nat) by apply Fs.
  assert (Hconv : forall l, (forall a, In a l -> In a (s :: r)) ->
     (forall i j a b c, (i <= j)%nat -> nth_error l i = Some a -> nth_error l j = Some b ->
        (c < length (sv_times a))%nat -> minute_of_day a c <= minute_of_day b c) ->
     cols_sorted (2 * (length (rk_stops k) - 1)) l).
  { intros l Hin H i j a b Hij Ha Hb c Hc.
    assert (Fa : fits k a) by (apply Hf, Hin; eapply nth_error_In; eauto).
    assert (Fb : fits k b) by (apply Hf, Hin; eapply nth_error_In; eauto).
    rewrite !(time_mod_minute k) by auto. apply (H i j a b c Hij Ha Hb). destruct Fa as (_ & L & _). lia. }
  apply (get_index_complete (2 * (length (rk_stops k) - 1)) r s (length pre)); auto.
  - destruct Fs as (? & _); lia.
  - apply Hconv; auto. intros; now right.
  - intros a Ha. rewrite !(time_mod_minute k); auto. apply Hf. now right.
  - subst. rewrite app_length. lia.
  - unfold insert_at. subst r. rewrite firstn_app, Nat.sub_diag, firstn_all, firstn_O, app_nil_r.
    rewrite skipn_app, Nat.sub_diag, skipn_all. simpl.
    apply Hconv; auto. intros a Ha. apply in_app_iff in Ha. simpl in *. rewrite in_app_iff. tauto.
Qed.
(** With a tie at the first departure the loader opens a second route although the vehicle would fit. *)
Example C14_split_tie_refuted :
  let a := mk_service [600; 620] (fun _ => true) 0 in
  let b := mk_service [600; 640] (fun _ => true) 1 in
  let s := mk_service [600; 630] (fun _ => true) 2 in
  get_index [a; b] s = None /\ Routes_Proofs.cols_sorted 2 [a; s; b].
Proof.
  split; [reflexivity|]. intros i j a b Hij Ha Hb c Hc.
  destruct i as [|[|[|i]]]; simpl in Ha; try (destruct i; discriminate);
  destruct j as [|[|[|j]]]; simpl in Hb; try (destruct j; discriminate); try lia;
  injection Ha as <-; injection Hb as <-; destruct c as [|[|c]]; vm_compute; try lia; discriminate.
Qed.

(** ** C41: the stop time arrays *)
(** The event [e] at stop [s] is the [event_position]-th of the vehicle's time list dep(0), arr(1), dep(1), ... *)
Definition event_position (s : nat) (e : ev_type) : nat := match e with kDep => (2 * s)%nat | kArr => (2 * s - 1)%nat end.
(** Departures exist at every stop but the last one, arrivals at every stop but the first one. *)
Definition event_exists (n_stops s : nat) (e : ev_type) : Prop :=
  match e with kDep => (s + 1 < n_stops)%nat | kArr => (0 < s < n_stops)%nat end.

(** For any list of routes written one after the other (fewer than 2^32 stop times in total), reading back event
    [e] of the [j]-th vehicle of the [r]-th route at stop [s] - by vehicle or by column - yields exactly that
    vehicle's time; its global index resolves to route [r] and to its own traffic days. *)
Theorem C41_layout_reads_back : forall rs : list (route_key * list service),
  let a := write_routes no_arrays rs in
  Z.of_nat (length (a_stop_times a)) < 2 ^ 32 ->
  forall r k svs, nth_error rs r = Some (k, svs) ->
  exists t0,
    nth_error (a_transport_ranges a) r = Some (t0, t0 + length svs)%nat /\
    nth_error (a_route_stops a) r = Some (rk_stops k) /\
    forall j sv, nth_error svs j = Some sv ->
      nth_error (a_transport_route a) (t0 + j) = Some r /\
      nth_error (a_transport_days a) (t0 + j) = Some (sv_days sv) /\
      forall s e, event_exists (length (rk_stops k)) s e ->
        event_mam a r (t0 + j) s e = delta_of_minutes (nth (event_position s e) (sv_times sv) 0) /\
        nth_error (event_times_at_stop a r s e) j = Some (delta_of_minutes (nth (event_position s e) (sv_times sv) 0)).
Proof.
  intros rs a Hlim r k svs Hr. destruct (ao_at _ _ (write_routes_ok rs) _ _ _ Hr) as (t0 & x0 & Hat & _ & Hx).
  change (2 ^ 32) with 4294967296 in Hlim.
  exists t0. split; [apply Hat|]. split; [apply Hat|].
  intros j sv Hj. split; [apply (ra_route _ _ _ _ _ _ Hat); apply nth_error_Some; congruence|].
  split; [apply (ra_days _ _ _ _ _ _ Hat); auto|].
  intros s e He.
  assert (He' : ev_exists (length (rk_stops k)) s e) by (destruct e; exact He).
  assert (Hp : event_position s e = time_index s e) by (destruct e; reflexivity). rewrite Hp. split.
  - eapply event_mam_route_at; eauto.
  - erewrite event_times_at_stop_route_at; eauto. exact (map_nth_error (fun sv => delta_of_minutes (nth (time_index s e) (sv_times sv) 0)) _ _ Hj).
Qed.
(** Two routes, three stops, two vehicles: the arrival of the second vehicle at the last stop. *)
Example C41_example :
  let k0 := mk_key 0 [1; 2] [] in let k1 := mk_key 0 [1; 2; 3] [] in
  let a := write_routes no_arrays [(k0, [mk_service [10; 20] (fun _ => true) 0]);
             (k1, [mk_service [5; 6; 7; 8] (fun _ => true) 1; mk_service [15; 16; 17; 1458] (fun _ => true) 2])] in
  Z.of_nat (length (a_stop_times a)) < 2 ^ 32 /\ event_mam a 1 2 2 kArr = mk_delta 1 18.
Proof. split; vm_compute; reflexivity. Qed.

(** ** Loaded timetables satisfy the hypotheses of the search theorems *)
(** Vehicles in chronological order within one sixteenth of the range of the packed time (22.7 days). *)
Definition chronological (s : service) : Prop :=
  (forall i j, (i <= j < length (sv_times s))%nat -> nth i (sv_times s) 0 <= nth j (sv_times s) 0) /\
  (forall t, In t (sv_times s) -> t <= 32767).

Lemma delta_of_minutes_small m : 0 <= m <= 32767 -> delta_of_minutes m = mk_delta (m / 1440) (m mod 1440).
Proof.
  intros H. unfold delta_of_minutes, delta_make, to_u16.
  rewrite Z.quot_div_nonneg, Z.rem_mod_nonneg by lia.
  assert (0 <= m / 1440 < 23) by (split; [apply Z.div_pos; lia|apply Z.div_lt_upper_bound; lia]).
  assert (0 <= m mod 1440 < 1440) by (apply Z.mod_pos_bound; lia).
  f_equal; rewrite (Z.mod_small _ 65536) by lia; apply Z.mod_small; lia.
Qed.

Definition clamped_position (n s : nat) (e : ev_type) : nat :=
  let (s', e') := clamp_ev n s e in time_index s' e'.
Lemma clamp_ev_exists n s e : (2 <= n)%nat -> (s < n)%nat -> let (s', e') := clamp_ev n s e in ev_exists n s' e'.
Proof.
  intros Hn Hs. unfold clamp_ev. destruct e.
  - destruct (Nat.eqb_spec s 0); simpl; lia.
  - destruct (Nat.leb_spec (n - 1) s); simpl; lia.
Qed.

Lemma loaded_routes_nth rs ri r :
  nth_error (loaded_routes (write_routes no_arrays rs)) ri = Some r ->
  exists k svs, nth_error rs ri = Some (k, svs) /\ r = loaded_route (write_routes no_arrays rs) ri.
Proof.
  intros H. assert (Hlen := ao_n1 _ _ (write_routes_ok rs)).
  assert (ri < length (loaded_routes (write_routes no_arrays rs)))%nat by (apply nth_error_Some; congruence).
  unfold loaded_routes in *. rewrite map_length, seq_length, Hlen in H0.
  destruct (nth_error rs ri) as [[k svs]|] eqn:E; [|apply nth_error_None in E; lia].
  exists k, svs. split; auto.
  assert (Hn : nth_error (seq 0 (length (a_route_stops (write_routes no_arrays rs)))) ri = Some ri).
  { rewrite (nth_error_nth' _ 0%nat) by now rewrite seq_length, Hlen.
    rewrite seq_nth by now rewrite Hlen. reflexivity. }
  rewrite (map_nth_error (loaded_route (write_routes no_arrays rs)) _ _ Hn) in H. congruence.
Qed.

Lemma loaded_vehicle_nth rs ri k svs t0 x0 j v :
  let a := write_routes no_arrays rs in
  route_at a ri k svs t0 x0 ->
  nth_error (r_vehicles (loaded_route a ri)) j = Some v ->
  exists sv, nth_error svs j = Some sv /\ v = loaded_vehicle a ri (t0 + j) (length (rk_stops k)).
Proof.
  intros a [G1 G2 G3 G4 G5 G6 G7 G8 G9] H. unfold loaded_route in H. simpl in H.
  rewrite (nth_error_nth _ _ _ G5), (nth_error_nth _ _ _ G1) in H. cbn [fst snd] in H.
  replace (t0 + length svs - t0)%nat with (length svs) in H by lia.
  assert (Hj : (j < length svs)%nat).
  { assert (Hx : nth_error (map (fun t => loaded_vehicle a ri t (length (rk_stops k))) (seq t0 (length svs))) j <> None) by congruence.
    apply nth_error_Some in Hx. now rewrite map_length, seq_length in Hx. }
  destruct (nth_error svs j) as [sv|] eqn:E; [|apply nth_error_None in E; lia].
  exists sv. split; auto.
  assert (Hn : nth_error (seq t0 (length svs)) j = Some (t0 + j)%nat).
  { rewrite (nth_error_nth' _ 0%nat) by now rewrite seq_length. now rewrite seq_nth. }
  rewrite (map_nth_error (fun t => loaded_vehicle a ri t (length (rk_stops k))) _ _ Hn) in H. congruence.
Qed.

Lemma loaded_event rs ri k svs t0 x0 j sv s e :
  let a := write_routes no_arrays rs in
  route_at a ri k svs t0 x0 ->
  (x0 + length (route_times (length (rk_stops k)) svs) <= length (a_stop_times a))%nat ->
  Z.of_nat (length (a_stop_times a)) < 4294967296 ->
  (2 <= length (rk_stops k))%nat -> (s < length (rk_stops k))%nat -> nth_error svs j = Some sv ->
  v_ev (loaded_vehicle a ri (t0 + j) (length (rk_stops k))) s e =
  delta_of_minutes (nth (clamped_position (length (rk_stops k)) s e) (sv_times sv) 0).
Proof.
  intros a Hat Hx Hlim H2 Hs Hj. unfold loaded_vehicle, clamped_position. cbn [v_ev].
  assert (He := clamp_ev_exists _ s e H2 Hs). destruct (clamp_ev (length (rk_stops k)) s e) as [s' e'].
  eapply event_mam_route_at; eauto.
Qed.

Lemma clamped_position_lt n s e : (2 <= n)%nat -> (s < n)%nat -> (clamped_position n s e < 2 * (n - 1))%nat.
Proof.
  intros Hn Hs. unfold clamped_position. assert (He := clamp_ev_exists n s e Hn Hs).
  destruct (clamp_ev n s e). eapply time_index_lt; eauto.
Qed.

(** Everything the search theorems ask of the vehicles of a timetable holds for a loaded one. *)
Theorem C14_loaded_timetable_ok : forall (P : params) (ins : list (route_key * service)),
  (forall k s, In (k, s) ins -> fits k s /\ chronological s) ->
  let a := write_routes no_arrays (routes_of (add_all ins)) in
  Z.of_nat (length (a_stop_times a)) < 2 ^ 32 ->
  tt_routes (p_tt P) = loaded_routes a ->
  columns_sorted P /\ all_vehicles_wf P.
Proof.
  intros P ins Hins a Hlim Htt. change (2 ^ 32) with 4294967296 in Hlim.
  assert (Hf : forall k s, In (k, s) ins -> fits k s) by (intros k s H; apply Hins; auto).
  destruct (add_all_ok ins Hf) as [Hok Hp].
  assert (Hloaded : forall ri r, nth_error (tt_routes (p_tt P)) ri = Some r ->
    exists k rs svs t0 x0, In (k, rs) (add_all ins) /\ In svs rs /\ r = loaded_route a ri /\ route_at a ri k svs t0 x0 /\
      (x0 + length (route_times (length (rk_stops k)) svs) <= length (a_stop_times a))%nat /\
      length (r_stops r) = length (rk_stops k)).
  { intros ri r Hr. rewrite Htt in Hr. apply loaded_routes_nth in Hr. destruct Hr as (k & svs & Hr & ->).
    destruct (ao_at _ _ (write_routes_ok _) _ _ _ Hr) as (t0 & x0 & Hat & _ & Hx).
    assert (Hin := nth_error_In _ _ Hr). unfold routes_of in Hin. apply in_flat_map in Hin.
    destruct Hin as ([k' rs] & Hin1 & Hin2). apply in_map_iff in Hin2. destruct Hin2 as (svs' & Heq & Hin2).
    injection Heq as <- <-. exists k', rs, svs', t0, x0. split; auto. split; auto. split; auto. split; auto. split; auto.
    unfold loaded_route. cbn [r_stops]. rewrite map_length. now rewrite (nth_error_nth _ _ _ (ra_stops _ _ _ _ _ _ Hat)). }
  assert (Hsv : forall k rs svs sv, In (k, rs) (add_all ins) -> In svs rs -> In sv svs -> fits k sv /\ chronological sv).
  { intros k rs svs sv H1 H2 H3. assert (H := services_for_in _ _ _ _ _ (mo_nodup _ Hok) H1 H2 H3).
    apply (Permutation_in _ (Hp k)) in H. apply in_map_iff in H. destruct H as ([k' s'] & <- & H).
    apply filter_In in H. destruct H as [Ha Hb]. simpl in Hb.
    destruct (route_key_eq_dec k k'); [subst; simpl; auto|discriminate]. }
  split.
  - intros ri r i j v w s e Hr Hij Hv Hw Hs.
    destruct (Hloaded _ _ Hr) as (k & rs & svs & t0 & x0 & H1 & H2 & -> & Hat & Hx & Hlen).
    destruct (loaded_vehicle_nth _ _ _ _ _ _ _ _ Hat Hv) as (sv & Hsv1 & ->).
    destruct (loaded_vehicle_nth _ _ _ _ _ _ _ _ Hat Hw) as (sw & Hsw1 & ->).
    rewrite Hlen in Hs.
    destruct (Hsv k rs svs sv H1 H2 (nth_error_In _ _ Hsv1)) as [F1 C1].
    destruct (Hsv k rs svs sw H1 H2 (nth_error_In _ _ Hsw1)) as [F2 C2].
    assert (Hk : (2 <= length (rk_stops k))%nat) by apply F1.
    rewrite !(loaded_event _ _ _ _ _ _ _ _ _ _ Hat Hx Hlim Hk Hs Hsv1), !(loaded_event _ _ _ _ _ _ _ _ _ _ Hat Hx Hlim Hk Hs Hsw1).
    assert (Hc := clamped_position_lt _ s e Hk Hs). set (c := clamped_position _ s e) in *.
    destruct (mo_sorted _ Hok _ _ _ H1 H2) as [_ Hso].
    assert (Hle := Hso i j sv sw Hij Hsv1 Hsw1 c Hc).
    rewrite (time_mod_minute k sv), (time_mod_minute k sw) in Hle by auto. unfold minute_of_day in Hle.
    destruct F1 as (_ & L1 & P1). destruct F2 as (_ & L2 & P2). destruct C1 as [_ B1]. destruct C2 as [_ B2].
    assert (I1 : In (nth c (sv_times sv) 0) (sv_times sv)) by (apply nth_In; lia).
    assert (I2 : In (nth c (sv_times sw) 0) (sv_times sw)) by (apply nth_In; lia).
    rewrite !delta_of_minutes_small by (split; auto). exact Hle.
  - split; [|apply static_rt_ok; intros ri r Hr; destruct (Hloaded _ _ Hr) as (? & ? & ? & ? & ? & _ & _ & -> & _); reflexivity].
    intros ri r v Hr Hv.
    destruct (Hloaded _ _ Hr) as (k & rs & svs & t0 & x0 & H1 & H2 & -> & Hat & Hx & Hlen).
    apply In_nth_error in Hv. destruct Hv as (j & Hj).
    destruct (loaded_vehicle_nth _ _ _ _ _ _ _ _ Hat Hj) as (sv & Hsv1 & ->).
    destruct (Hsv k rs svs sv H1 H2 (nth_error_In _ _ Hsv1)) as [(Hk & L1 & P1) [M1 B1]].
    fold a. unfold vehicle_wf. rewrite Hlen. unfold event_minutes.
    assert (Hev : forall s e, (s < length (rk_stops k))%nat ->
       v_ev (loaded_vehicle a ri (t0 + j) (length (rk_stops k))) s e =
       (let m := nth (clamped_position (length (rk_stops k)) s e) (sv_times sv) 0 in mk_delta (m / 1440) (m mod 1440)) /\
       0 <= nth (clamped_position (length (rk_stops k)) s e) (sv_times sv) 0 <= 32767).
    { intros s e Hs. rewrite (loaded_event _ _ _ _ _ _ _ _ _ _ Hat Hx Hlim Hk Hs Hsv1).
      assert (Hc := clamped_position_lt _ s e Hk Hs).
      assert (I1 : In (nth (clamped_position (length (rk_stops k)) s e) (sv_times sv) 0) (sv_times sv)) by (apply nth_In; lia).
      split; [rewrite delta_of_minutes_small by (split; auto); reflexivity|split; auto]. }
    assert (Hdm : forall m, m / 1440 * 1440 + m mod 1440 = m) by (intros m; pose proof (Z.div_mod m 1440); lia).
    split; [|split].
    + intros s e Hs. destruct (Hev s e Hs) as [-> Hb]. cbv zeta. cbn [d_days d_mam]. rewrite Hdm.
      set (m := nth _ _ _) in *. pose proof (Z.mod_pos_bound m 1440). assert (0 <= m / 1440) by (apply Z.div_pos; lia). lia.
    + intros s Hs. destruct (Hev s kArr Hs) as [-> _]. destruct (Hev s kDep Hs) as [-> _].
      cbv zeta. cbn [d_days d_mam]. rewrite !Hdm. apply M1.
      assert (Ha := clamped_position_lt _ s kArr Hk Hs). assert (Hb := clamped_position_lt _ s kDep Hk Hs).
      split; [|lia]. unfold clamped_position, clamp_ev.
      destruct (Nat.eqb_spec s 0); destruct (Nat.leb_spec (length (rk_stops k) - 1) s); simpl; lia.
    + intros s s' Hs. destruct (Hev s kDep) as [-> _]; [lia|]. destruct (Hev s' kArr) as [-> _]; [lia|].
      cbv zeta. cbn [d_days d_mam]. rewrite !Hdm. apply M1.
      assert (Hb := clamped_position_lt _ s' kArr Hk ltac:(lia)).
      split; [|lia]. unfold clamped_position, clamp_ev.
      destruct (Nat.eqb_spec s' 0); destruct (Nat.leb_spec (length (rk_stops k) - 1) s); simpl; lia.
Qed.

(** ** C15: no overtaking *)
(** All vehicles of a route reach each stop on the same day of their run. *)
Definition same_day_everywhere (P : params) : Prop :=
  forall ri r v w s e, nth_error (tt_routes (p_tt P)) ri = Some r -> In v (r_vehicles r) -> In w (r_vehicles r) ->
    (s < length (r_stops r))%nat -> d_days (v_ev v s e) = d_days (v_ev w s e).

Theorem C15_no_overtaking : forall P,
  columns_sorted P -> all_vehicles_wf P -> same_day_everywhere P -> fifo P.
Proof.
  intros P Hc Hwf Hd ri r i v day j w day' s s' Hr Hv Hw Hrv Hrw Hs Hs' Hss. cbv zeta. intros Hle Htie.
  assert (Iv : In v (r_vehicles r)) by (eapply nth_error_In; eauto).
  assert (Iw : In w (r_vehicles r)) by (eapply nth_error_In; eauto).
  assert (Mv := proj1 (proj1 Hwf _ _ _ Hr Iv)). assert (Mw := proj1 (proj1 Hwf _ _ _ Hr Iw)).
  set (be := if p_fwd P then kDep else kArr) in *.
  unfold event_time in *.
  assert (Db := Hd _ _ _ _ s be Hr Iv Iw Hs).
  assert (Mvb := Mv s be Hs). assert (Mwb := Mw s be Hs).
  assert (Hgoal : forall e, no_later P ((day - p_base P) * 1440 + d_days (v_ev v s' e) * 1440 + d_mam (v_ev v s' e))
                                       ((day' - p_base P) * 1440 + d_days (v_ev w s' e) * 1440 + d_mam (v_ev w s' e))).
  { intros e. assert (De := Hd _ _ _ _ s' e Hr Iv Iw Hs').
    assert (Mve := Mv s' e Hs'). assert (Mwe := Mw s' e Hs').
    unfold no_later, ahead in *. clearbody be. destruct (p_fwd P).
    - destruct (Z.eq_dec day day') as [->|Hne]; [|lia].
      destruct (Z.eq_dec (d_mam (v_ev v s be)) (d_mam (v_ev w s be))) as [Heq|Hneq].
      + assert (i <= j)%nat by (apply Htie; lia).
        assert (H1 := Hc _ _ _ _ _ _ s' e Hr H Hv Hw Hs'). lia.
      + destruct (le_lt_dec i j) as [Hij|Hij].
        * assert (H1 := Hc _ _ _ _ _ _ s' e Hr Hij Hv Hw Hs'). lia.
        * assert (H1 := Hc _ _ _ _ _ _ s be Hr (Nat.lt_le_incl _ _ Hij) Hw Hv Hs). lia.
    - destruct (Z.eq_dec day day') as [->|Hne]; [|lia].
      destruct (Z.eq_dec (d_mam (v_ev v s be)) (d_mam (v_ev w s be))) as [Heq|Hneq].
      + assert (j <= i)%nat by (apply Htie; lia).
        assert (H1 := Hc _ _ _ _ _ _ s' e Hr H Hw Hv Hs'). lia.
      + destruct (le_lt_dec j i) as [Hij|Hij].
        * assert (H1 := Hc _ _ _ _ _ _ s' e Hr Hij Hw Hv Hs'). lia.
        * assert (H1 := Hc _ _ _ _ _ _ s be Hr (Nat.lt_le_incl _ _ Hij) Hv Hw Hs). lia. }
  split; apply Hgoal.
Qed.

(** Without that agreement a loaded route may contain overtaking vehicles: 22:50 arriving 24 hours later and
    23:30 arriving 23:35 share one route. *)
Definition c15_key : route_key := mk_key 2 [stop_value (mk_stop 0 true true true true); stop_value (mk_stop 1 true true true true)] [].
Definition c15_slow : service := mk_service [1370; 2810] (fun d => d =? 5) 0.
Definition c15_fast : service := mk_service [1410; 1415] (fun d => d =? 5) 1.
Definition c15_ins := [(c15_key, c15_slow); (c15_key, c15_fast)].
Definition c15_tt : timetable :=
  mk_tt 2 (loaded_routes (write_routes no_arrays (routes_of (add_all c15_ins)))) (fun _ => [0%nat])
        (fun _ => 0) (fun _ => []) (fun _ => []) (fun _ _ => true).
Definition c15_params : params :=
  mk_params true c15_tt (fun l => Nat.eqb l 1) None 0 (fun _ => 0) 5 (fun _ => true) (fun _ => false) (fun d => d).
Theorem C15_fifo_refuted :
  (forall k s, In (k, s) c15_ins -> fits k s /\ chronological s) /\
  map (fun r => length (r_vehicles r)) (tt_routes (p_tt c15_params)) = [2%nat] /\
  columns_sorted c15_params /\ all_vehicles_wf c15_params /\ ~ fifo c15_params.
Proof.
  assert (Hins : forall k s, In (k, s) c15_ins -> fits k s /\ chronological s).
  { intros k s [H|[H|[]]]; injection H as <- <-; (split; [split; [simpl; lia|split; [reflexivity|simpl; intros; lia]]|
      split; [intros i j; simpl; intros Hij; destruct i as [|[|i]], j as [|[|j]]; simpl; lia|simpl; intros; lia]]). }
  split; [exact Hins|]. split; [reflexivity|].
  destruct (C14_loaded_timetable_ok c15_params c15_ins Hins) as [H1 H2]; [vm_compute; reflexivity|reflexivity|].
  split; [exact H1|]. split; [exact H2|].
  intros H. unfold fifo in H.
  set (r := loaded_route (write_routes no_arrays (routes_of (add_all c15_ins))) 0).
  specialize (H 0%nat r 0%nat (nth 0 (r_vehicles r) (mk_vehicle (fun _ _ => mk_delta 0 0) (fun _ => false))) 5
                1%nat (nth 1 (r_vehicles r) (mk_vehicle (fun _ _ => mk_delta 0 0) (fun _ => false))) 5 0%nat 1%nat).
  destruct H as [H _].
  - reflexivity.
  - reflexivity.
  - reflexivity.
  - split; [lia|reflexivity].
  - split; [lia|reflexivity].
  - vm_compute; lia.
  - vm_compute; lia.
  - vm_compute; lia.
  - vm_compute. discriminate.
  - vm_compute. discriminate.
  - vm_compute in H. apply H. reflexivity.
Qed.

(** A loaded route with two vehicles on each of which all theorems apply. *)
Definition c15_good := [(c15_key, mk_service [1410; 1445] (fun d => d =? 5) 1); (c15_key, mk_service [1370; 1442] (fun d => d =? 5) 0)].
Example C15_nonvacuous :
  let P := mk_params true (mk_tt 2 (loaded_routes (write_routes no_arrays (routes_of (add_all c15_good)))) (fun _ => [0%nat])
        (fun _ => 0) (fun _ => []) (fun _ => []) (fun _ _ => true)) (fun l => Nat.eqb l 1) None 0 (fun _ => 0) 5 (fun _ => true) (fun _ => false) (fun d => d) in
  (forall k s, In (k, s) c15_good -> fits k s /\ chronological s) /\
  map (fun r => map (fun v => (v_ev v 0 kDep, v_ev v 1 kArr)) (r_vehicles r)) (tt_routes (p_tt P))
   = [[(mk_delta 0 1370, mk_delta 1 2); (mk_delta 0 1410, mk_delta 1 5)]] /\ same_day_everywhere P /\ fifo P.
Proof.
  intros P.
  assert (Hins : forall k s, In (k, s) c15_good -> fits k s /\ chronological s).
  { intros k s [H|[H|[]]]; injection H as <- <-; (split; [split; [simpl; lia|split; [reflexivity|simpl; intros; lia]]|
      split; [intros i j; simpl; intros Hij; destruct i as [|[|i]], j as [|[|j]]; simpl; lia|simpl; intros; lia]]). }
  assert (Hd : same_day_everywhere P).
  { intros ri r v w s e Hr Hv Hw Hs. destruct ri as [|[|ri]]; simpl in Hr; try discriminate.
    injection Hr as <-. simpl in Hv, Hw, Hs.
    destruct Hv as [<-|[<-|[]]]; destruct Hw as [<-|[<-|[]]]; destruct s as [|[|s]]; try lia; destruct e; vm_compute; reflexivity. }
  split; [exact Hins|]. split; [vm_compute; reflexivity|]. split; [exact Hd|].
  destruct (C14_loaded_timetable_ok P c15_good Hins) as [H1 H2]; [vm_compute; reflexivity|reflexivity|].
  apply C15_no_overtaking; auto.
Qed.

(** ** C42: restrictions per section *)
(** Flag of the trip that serves section [sec] (between stops [sec] and [sec + 1]) of a vehicle that chains the
    given trips (number of stops, flag); consecutive trips share a stop. *)
Fixpoint trip_flag_on_section (trips : list (nat * bool)) (sec : nat) : option bool :=
  match trips with
  | [] => None
  | (n, b) :: rest => if Nat.ltb sec (n - 1) then Some b else trip_flag_on_section rest (sec - (n - 1))
  end.

Lemma flag_seq_multi trips sec :
  nth_error (flat_map (fun t => repeat (snd t) (fst t - 1)) trips) sec = trip_flag_on_section trips sec.
Proof.
  revert sec. induction trips as [|[n b] trips IH]; intros sec; simpl; [now destruct sec|].
  destruct (Nat.ltb_spec sec (n - 1)).
  - rewrite nth_error_app1 by (rewrite repeat_length; auto).
    rewrite (nth_error_nth' _ b) by (rewrite repeat_length; auto). now rewrite nth_repeat.
  - rewrite nth_error_app2 by (rewrite repeat_length; auto). rewrite repeat_length. apply IH.
Qed.

Lemma count_true_le l : (count_true l <= length l)%nat.
Proof. unfold count_true. induction l as [|[] l]; simpl; lia. Qed.
Lemma count_true_all l : count_true l = length l -> forall i b, nth_error l i = Some b -> b = true.
Proof.
  induction l as [|x l IH]; intros H i b Hi; [destruct i; discriminate|].
  unfold count_true in *. assert (Hle := count_true_le l). unfold count_true in Hle.
  destruct x; simpl in H; [|lia]. destruct i; simpl in Hi; [congruence|]. eapply IH; eauto.
Qed.
Lemma count_true_none l : count_true l = 0%nat -> forall i b, nth_error l i = Some b -> b = false.
Proof.
  induction l as [|x l IH]; intros H i b Hi; [destruct i; discriminate|].
  unfold count_true in *. destruct x; simpl in H; [lia|]. destruct i; simpl in Hi; [congruence|]. eapply IH; eauto.
Qed.

(** The bits stored for a route answer, for every travelled section, the flag of the trip serving that section:
    this is how the search reads them ([section_has] of Raptor_Spec, property C20). *)
Theorem C42_section_flags : forall rs r k svs (trips : nat -> list (nat * bool)),
  nth_error rs r = Some (k, svs) ->
  rk_flags k = map (fun f => flag_seq (trips f)) (seq 0 4) ->
  (forall f n b, In (n, b) (trips f) -> (2 <= n)%nat) ->
  forall f sec b, (f < 4)%nat -> trip_flag_on_section (trips f) sec = Some b ->
  (section_has (loaded_route (write_routes no_arrays rs) r) sec f <-> b = true).
Proof.
  intros rs r k svs trips Hr Hk Hn f sec b Hf Hb.
  destruct (ao_at _ _ (write_routes_ok rs) _ _ _ Hr) as (t0 & x0 & Hat & _ & _).
  unfold section_has, loaded_route. cbn [r_flag_all r_flag_some r_flag_section].
  rewrite (nth_error_nth _ _ _ (ra_flags _ _ _ _ _ _ Hat)), (nth_error_nth _ _ _ (ra_sections _ _ _ _ _ _ Hat)), Hk.
  assert (Hnf : nth_error (map (fun f => flag_seq (trips f)) (seq 0 4)) f = Some (flag_seq (trips f))).
  { destruct f as [|[|[|[|f]]]]; try reflexivity; lia. }
  rewrite !(nth_error_nth _ _ _ (map_nth_error flag_bits _ _ Hnf)), !(nth_error_nth _ _ _ (map_nth_error flag_sections _ _ Hnf)).
  assert (Hcases : (exists n b0, trips f = [(n, b0)]) \/ flag_seq (trips f) = flat_map (fun t => repeat (snd t) (fst t - 1)) (trips f)).
  { destruct (trips f) as [|[n0 b0] [|t l]]; [now right|left; eauto|right; reflexivity]. }
  destruct Hcases as [(n & b0 & Ht)|Hseq].
  - rewrite Ht in Hb |- *. simpl in Hb. destruct (Nat.ltb_spec sec (n - 1)); [|discriminate]. injection Hb as ->.
    destruct b; simpl; intuition discriminate.
  - rewrite Hseq. assert (Hs := flag_seq_multi (trips f) sec). rewrite Hb in Hs.
    set (l := flat_map _ _) in *. unfold flag_sections, flag_bits. cbn [fst snd].
    assert (Hlen : length l <> 0%nat) by (destruct l; [destruct sec; discriminate|simpl; lia]).
    destruct (Nat.eqb_spec (length l) 0); [lia|].
    destruct (Nat.eqb_spec (count_true l) (length l)) as [E|E]; simpl.
    + rewrite (count_true_all l E sec b Hs). intuition.
    + destruct (Nat.eqb_spec (count_true l) 0) as [E0|E0]; simpl.
      * rewrite (count_true_none l E0 sec b Hs). intuition discriminate.
      * rewrite (nth_error_nth _ _ false Hs). destruct b; intuition discriminate.
Qed.
(** Two chained trips, bikes allowed on the second one only. *)
Example C42_example :
  let trips := fun f : nat => [(3%nat, false); (2%nat, Nat.eqb f 0)] in
  let k := mk_key 0 [1; 2; 3; 4] (map (fun f => flag_seq (trips f)) (seq 0 4)) in
  let r := loaded_route (write_routes no_arrays [(k, [])]) 0 in
  r_flag_all r 0 = false /\ r_flag_some r 0 = true /\ map (r_flag_section r 0) [0; 1; 2]%nat = [false; false; true] /\
  trip_flag_on_section (trips 0%nat) 2 = Some true /\ trip_flag_on_section (trips 1%nat) 2 = Some false.
Proof. vm_compute. auto. Qed.

Print Assumptions C14_routes_sorted_and_complete.
Print Assumptions C14_split_only_if_needed.
Print Assumptions C14_loaded_timetable_ok.
Print Assumptions C15_no_overtaking.
Print Assumptions C15_fifo_refuted.
Print Assumptions C41_layout_reads_back.
Print Assumptions C42_section_flags.
