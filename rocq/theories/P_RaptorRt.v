(** C52: the search on a timetable with real-time data. *)
From Coq Require Import List ZArith Bool Arith Lia.
From Verif Require Import Base Time_Model Raptor_Model Raptor_Spec Raptor_Base Raptor_Sound Raptor_Final Calendar_Model Rt_Model Dijkstra_Model Lb_Proofs
  P_Raptor P_LowerBounds P_Rt RtSearch_Model RtSearch_Spec RtSearch_Proofs RtSearch_Lb.
Import ListNotations.
Local Open Scope Z_scope.

(** * What the search can use *)
(** The rides open to the search are exactly those possible now: scheduled vehicles on the days active in the real-time timetable,
    real-time vehicles at their recorded stops and times. *)
Theorem C52_rides_are_possible_now : forall S rt X number P lb l tb l' ta,
  rt_data_ok S rt X number P -> (ride_ok (now S rt X number P lb) l tb l' ta <-> possible_now S rt X number P l tb l' ta).
Proof. intros. now apply rides_now. Qed.
(** The time the search reads for an event of a real-time vehicle is the recorded one. *)
Theorem C52_event_times : forall S rt X number P lb x s (arr : bool),
  rt_data_ok S rt X number P -> (x < length (rt_static rt))%nat -> (s < length (nth x (rt_stops rt) []))%nat ->
  (if arr then (0 < s)%nat else (Datatypes.S s < length (nth x (rt_stops rt) []))%nat) -> -32768 <= rt_time rt X P x s arr <= 32767 ->
  exists r day, nth_error (tt_routes (p_tt (now S rt X number P lb))) (length (tt_routes (p_tt P)) + x) = Some r /\ Raptor_Model.r_rt r = Some day /\
    time_at_stop (now S rt X number P lb) r (0%nat, day) s (if arr then kArr else kDep) = rt_time rt X P x s arr.
Proof.
  intros S rt X number P lb x s arr HR Hx Hs Ha Hr. exists (rt_route rt X x), (x_base X + rt_first_day rt x).
  split; [|split; [reflexivity|]].
  - rewrite routes_rt by lia. replace (_ + x - _)%nat with x by lia. unfold n_rt. destruct (Nat.ltb_spec x (length (rt_static rt))); [reflexivity|lia].
  - rewrite (rt_time_at_stop S rt X number P lb HR) by auto.
    assert (E : rt_minutes rt x s (if arr then kArr else kDep) = Rt_Model.event_time rt x s arr).
    { destruct arr; cbn [rt_minutes]; auto. unfold rt_n_stops. destruct (Nat.leb_spec (length (nth x (rt_stops rt) [])) (Datatypes.S s)); [lia|reflexivity]. }
    rewrite E. unfold rt_time in *. set (y := _ + _) in *. unfold clamp16, i16_min, i16_max. clearbody y. clear E. lia.
Qed.

(** * After any history of messages *)
Section History.
  Variable S : stt.
  Variable base : Z.
  Variable ms : list msg.
  Variable X : rt_extra.
  Variable number : nat -> nat -> nat.
  Variable P : params.
  Notation rt := (apply_msgs S ms (create_rt_timetable S base)).
  (** Both views of the static timetable agree on the vehicles' days. *)
  Record same_days : Prop := mk_same_days {
    sd_number : forall ri r vi v, nth_error (tt_routes (p_tt P)) ri = Some r -> nth_error (r_vehicles r) vi = Some v -> (number ri vi < length (s_days S))%nat;
    sd_days : forall ri r vi v d, nth_error (tt_routes (p_tt P)) ri = Some r -> nth_error (r_vehicles r) vi = Some v -> 0 <= d < 512 ->
      static_active S (number ri vi) d = v_days v d }.
  (** The real-time vehicles that exist afterwards have at least two stops, all in the timetable and with an index entry, and times
      within the days of the timetable that fit 16 bits. *)
  Record vehicles_fit : Prop := mk_vehicles_fit {
    vf_stops : forall x, (x < length (rt_static rt))%nat -> (2 <= length (nth x (rt_stops rt) []))%nat;
    vf_range : forall x t, (x < length (rt_static rt))%nat -> In t (nth x (rt_times rt) []) -> 0 <= x_base X + t / 1440 < 512;
    vf_span : forall x t, (x < length (rt_static rt))%nat -> In t (nth x (rt_times rt) []) ->
      t - 1440 * (nth 0 (nth x (rt_times rt) []) 0 / 1440) <= 32767;
    vf_locations : forall x w, (x < length (rt_static rt))%nat -> In w (nth x (rt_stops rt) []) ->
      (Z.to_nat (s_loc (stop_of_value w)) < tt_n_locations (p_tt P))%nat /\
      (p_dist_to_end P <> None -> Z.to_nat (s_loc (stop_of_value w)) <> p_end P) /\
      In x (x_index X (Z.to_nat (s_loc (stop_of_value w)))) }.
  Lemma vehicles_fit_intro rs ss ts : rt_static rt = rs -> rt_stops rt = ss -> rt_times rt = ts ->
    (forall x, (x < length rs)%nat -> (2 <= length (nth x ss []))%nat) ->
    (forall x t, (x < length rs)%nat -> In t (nth x ts []) ->
      0 <= x_base X + t / 1440 < 512 /\ t - 1440 * (nth 0 (nth x ts []) 0 / 1440) <= 32767) ->
    (forall x w, (x < length rs)%nat -> In w (nth x ss []) ->
      (Z.to_nat (s_loc (stop_of_value w)) < tt_n_locations (p_tt P))%nat /\
      (p_dist_to_end P <> None -> Z.to_nat (s_loc (stop_of_value w)) <> p_end P) /\
      In x (x_index X (Z.to_nat (s_loc (stop_of_value w))))) -> vehicles_fit.
  Proof using. intros E1 E2 E3 H1 H2 H3. split; rewrite E1, ?E2, ?E3; auto; intros x t Hx Ht; apply (H2 x t Hx Ht). Qed.
  Hypothesis HS : static_ok S.
  Hypothesis HM : Forall (msg_ok S) ms.
  Hypothesis HN : 2 * Z.of_nat (length ms) + 2 < 2 ^ 31.
  Hypothesis HD : same_days.
  Hypothesis HF : vehicles_fit.

  Lemma history_data_ok : rt_data_ok S rt X number P.
  Proof.
    pose proof (apply_msgs_inv S ms _ (create_inv S base)) as [A B C D E].
    split; try apply HF; auto.
    - intros ri r vi v d Hr Hv Hd H. rewrite (C35_only_the_addressed_vehicle_and_day S base ms HS HM HN) in H by (eapply sd_number; eauto).
      apply andb_true_iff in H as [H _]. now rewrite <- (sd_days HD ri r vi v d Hr Hv Hd).
  Qed.
  (** Scheduled rides that remain: those on vehicles and days no message was about. *)
  Lemma history_days ri r vi v d : nth_error (tt_routes (p_tt P)) ri = Some r -> nth_error (r_vehicles r) vi = Some v -> 0 <= d < 512 ->
    Rt_Model.is_transport_active S rt (number ri vi) d = v_days v d && negb (existsb (fun m => addresses m (number ri vi) d) ms).
  Proof.
    intros Hr Hv Hd. rewrite (C35_only_the_addressed_vehicle_and_day S base ms HS HM HN) by (eapply sd_number; eauto).
    now rewrite (sd_days HD ri r vi v d Hr Hv Hd).
  Qed.
End History.

(** Everything the search needs is preserved by the messages. *)
Theorem C52_messages_keep_timetable_ok : forall S base ms X number P lb,
  static_ok S -> Forall (msg_ok S) ms -> 2 * Z.of_nat (length ms) + 2 < 2 ^ 31 ->
  same_days S number P -> vehicles_fit S base ms X P ->
  let Q := now S (apply_msgs S ms (create_rt_timetable S base)) X number P lb in
  all_vehicles_wf P -> durations_ok P -> end_ok P -> locations_ok P -> columns_sorted P -> index_ok P -> fifo P ->
  all_vehicles_wf Q /\ durations_ok Q /\ end_ok Q /\ locations_ok Q /\ columns_sorted Q /\ index_ok Q /\ fifo Q.
Proof.
  intros S base ms X number P lb HS HM HN HD HF Q. pose proof (history_data_ok S base ms X number P HS HM HN HD HF) as HR.
  intros. unfold Q. refine (conj _ (conj _ (conj _ (conj _ (conj _ (conj _ _)))))).
  - now apply now_wf.
  - now apply now_durations.
  - now apply now_end.
  - now apply now_locations.
  - now apply now_columns.
  - now apply now_index.
  - now apply now_fifo.
Qed.

(** * The search *)
(** Every journey reported after any history of messages is feasible now. *)
Theorem C52_reported_journeys_are_possible_now : forall S base ms X number P lb mt gs j,
  let rt := apply_msgs S ms (create_rt_timetable S base) in
  let Q := now S rt X number P lb in
  static_ok S -> Forall (msg_ok S) ms -> 2 * Z.of_nat (length ms) + 2 < 2 ^ 31 ->
  same_days S number P -> vehicles_fit S base ms X P ->
  all_vehicles_wf P -> durations_ok P -> end_ok P -> locations_ok P -> groups_ok P gs ->
  (p_fwd P = false -> forall l tb l' ta, possible_now S rt X number P l tb l' ta -> tb <> ta) ->
  In j (snd (raptor Q mt gs)) ->
  exists l k, (1 <= k)%nat /\ Z.of_nat k <= j_transfers j + 1 /\
    connection_now S rt X number P (start_options P gs (j_start j)) (transfer_time P) k l (j_dest j).
Proof.
  intros S base ms X number P lb mt gs j rt Q HS HM HN HD HF Hwf Hdur Hend Hloc Hgs Ht Hin.
  pose proof (history_data_ok S base ms X number P HS HM HN HD HF) as HR. fold rt in HR.
  destruct (C17_reported_journeys_are_feasible Q mt gs j) as (l & k & Hk & Hle & Hc).
  - now apply now_wf.
  - now apply now_durations.
  - now apply now_end.
  - now apply now_locations.
  - destruct Hgs as [G1 G2 G3 G4]. exact (mk_groups_ok Q gs G1 G2 G3 G4).
  - intros E l tb l' ta H. apply (rides_now S rt X number P lb HR) in H. exact (Ht E _ _ _ _ H).
  - exact Hin.
  - exists l, k. do 2 (split; [assumption|]). apply (connections_now S rt X number P lb _ _ HR). exact Hc.
Qed.

(** Whenever a connection is possible now, an equally good journey is reported; the bounds are those computed on the static graph
    extended by [update_lbs]. *)
Theorem C52_search_is_optimal_now : forall S base ms X number P lb L has mode dest td_dest mt gs gs1 g gs2 K l a,
  let rt := apply_msgs S ms (create_rt_timetable S base) in
  let Q := now S rt X number P lb in
  let static := lb_edges L (p_tt P) (p_fwd P) false false in
  static_ok S -> Forall (msg_ok S) ms -> 2 * Z.of_nat (length ms) + 2 < 2 ^ 31 ->
  same_days S number P -> vehicles_fit S base ms X P ->
  all_vehicles_wf P -> durations_ok P -> end_ok P -> locations_ok P -> columns_sorted P -> index_ok P -> fifo P ->
  query_setup_on L mode dest td_dest false false Q (search_edges static (update_lbs L rt (p_fwd P) static has)) ->
  groups_ok P gs -> gs = gs1 ++ g :: gs2 ->
  starts_reach_ok Q (starts_of (gs1 ++ [g])) ->
  (forall l t, starts_of (gs1 ++ [g]) l t -> (l < tt_n_locations (p_tt P))%nat /\ p_is_dest P l = false) ->
  (forall g', In g' (gs1 ++ [g]) -> no_later P a (g_worst g')) ->
  no_later P a (after P (g_start g) 7200) -> -32768 < a < 32767 ->
  (K <= Nat.min mt 14 + 1)%nat ->
  connection_now S rt X number P (fun l t => In (l, t) (g_starts g)) (transfer_time P) K l a ->
  exists j, In j (snd (raptor Q mt gs)) /\ j_transfers j <= Z.of_nat K - 1 /\
            no_later P (j_dest j) a /\ no_later P (g_start g) (j_start j).
Proof.
  intros S base ms X number P lb L has mode dest td_dest mt gs gs1 g gs2 K l a rt Q static HS HM HN HD HF Hwf Hdur Hend Hloc Hcol Hidx Hfifo HL Hgs E Hst Hsl Hw Ha Har HK Hc.
  pose proof (history_data_ok S base ms X number P HS HM HN HD HF) as HR. fold rt in HR.
  destruct (rt_lower_bounds S rt X number P lb L has HR (qo_hierarchy _ _ _ _ _ _ _ _ HL) (qo_locations _ _ _ _ _ _ _ _ HL) mode dest td_dest HL Hwf Hdur Hend Hloc Hidx) as (D & HLB).
  eapply (C18_search_is_optimal Q mt D gs gs1 g gs2 K l a).
  - now apply now_wf.
  - now apply now_durations.
  - now apply now_end.
  - now apply now_locations.
  - now apply now_columns.
  - now apply now_index.
  - now apply now_fifo.
  - exact HLB.
  - destruct Hgs as [G1 G2 G3 G4]. exact (mk_groups_ok Q gs G1 G2 G3 G4).
  - exact E.
  - exact Hst.
  - exact Hsl.
  - exact Hw.
  - exact Ha.
  - exact Har.
  - exact HK.
  - apply (connections_now S rt X number P lb _ _ HR). exact Hc.
Qed.

(** * Non-vacuity: the example timetable of C18 (A = 0, B = 1, C = 2) after a history of messages *)
Module ExampleRt.
  Definition w (l : nat) : Z := stop_value (stop_make (Z.of_nat l) true true true true).
  (** Vehicles 0, 1: A -> B 08:00 / 09:00; vehicle 2: B -> C 08:40; days 10 .. 19; the timetable starts at minute 144000. *)
  Definition first_dep (t : nat) : Z := match t with 0%nat => 480 | 1%nat => 540 | _ => 520 end.
  Definition S := mk_stt [(fun d => (10 <=? d) && (d <? 20))] [0; 0; 0]
    (fun t => if (t <? 2)%nat then [w 0; w 1] else [w 1; w 2])
    (fun t d s arr => 144000 + d * 1440 + first_dep t + 30 * Z.of_nat s) (fun l => Z.of_nat l) (fun s => Some (Z.to_nat s)) (fun l => [l]).
  Definition base : Z := 144000 + 10 * 1440.
  Definition number (ri vi : nat) : nat := (2 * ri + vi)%nat.
  (** The 08:40 from B is 15 minutes late on day 10; an additional vehicle A 08:10 -> C 10:00. *)
  Definition delay := M_update 0 (2%nat, 10) 0 2 [1; 2] [mk_stu (Some 1) None None (Some (mk_ste (Some 900) None)) false None].
  Definition extra := M_added 0 7 7 [w 0; w 2] [mk_stu None (Some 0) None (Some (mk_ste None (Some (60 * (base + 490))))) false None;
                                               mk_stu None (Some 2) (Some (mk_ste None (Some (60 * (base + 600))))) None false None].
  Definition ms := [delay; extra].
  Notation rt := (apply_msgs S ms (create_rt_timetable S base)).
  Definition X := mk_rt_extra (fun _ => 3%nat) (fun _ _ => false) (fun _ _ => false) (fun _ _ _ => false)
                    (fun l => match l with 0%nat => [1%nat] | 1%nat => [0%nat] | 2%nat => [0%nat; 1%nat] | _ => [] end) 10.
  Lemma shape : rt_static rt = [inl (2%nat, 10); inr 0%nat] /\ rt_stops rt = [[w 1; w 2]; [w 0; w 2]] /\ rt_times rt = [[535; 565]; [490; 600]].
  Proof. split; [|split]; vm_compute; reflexivity. Qed.

  Definition L := Example3.L.
  Definition dest := Example3.dest.
  Notation tt := Example1.tt.
  Definition static := lb_edges L tt true false false.
  Definition graph := update_lbs L rt true static (fun _ => false).
  Definition lb : nat -> Z := match lower_bounds L kExact dest [] (search_edges static graph) 10 with Done D => D | _ => fun _ => -1 end.
  Example edges : map (search_edges static graph) [0; 1; 2]%nat = [[]; [(0%nat, 30)]; [(1%nat, 30); (0%nat, 110)]] /\ map lb [0; 1; 2]%nat = [60; 30; 0].
  Proof. split; vm_compute; reflexivity. Qed.
  Definition P := Example3.P.
  Definition Q := now S rt X number P lb.

  Lemma static_fits : static_ok S.
  Proof. unfold static_ok, kRtBitfieldFlag. cbn [S s_days]. repeat constructor; lia. Qed.
  Lemma msgs_fit : Forall (msg_ok S) ms.
  Proof. unfold ms, delay, extra. repeat constructor; cbn; lia. Qed.
  Lemma days_fit : same_days S number P.
  Proof.
    split.
    - intros ri r vi v Hr Hv. apply Example1.routes in Hr as [[-> ->]|[-> ->]]; cbn in Hv |- *; destruct vi as [|[|vi]]; cbn in *; try discriminate; try lia; destruct vi; discriminate.
    - intros ri r vi v d Hr Hv Hd. apply Example1.routes in Hr as [[-> ->]|[-> ->]]; destruct vi as [|[|vi]]; cbn in Hv; try (destruct vi; discriminate);
        try discriminate; injection Hv as <-; reflexivity.
  Qed.
  Lemma fits : vehicles_fit S base ms X P.
  Proof.
    destruct shape as (E1 & E2 & E3).
    refine (vehicles_fit_intro S base ms X P _ _ _ E1 E2 E3 _ _ _); clear E1 E2 E3.
    - intros [|[|x]] H; cbn in *; lia.
    - intros [|[|x]] t H Hin; cbn in H; try lia; cbn in Hin; destruct Hin as [<-|[<-|[]]]; vm_compute; (split; [split|]; discriminate || reflexivity).
    - intros [|[|x]] v H Hin; cbn in H; try lia; cbn in Hin; destruct Hin as [<-|[<-|[]]];
        (split; [vm_compute; lia|split; [intros N; now contradiction N|vm_compute; auto]]).
  Qed.
  Lemma setup : query_setup_on L kExact dest [] false false Q (search_edges static graph).
  Proof.
    destruct Example3.setup as [H1 H2 H3 H4 H5 H6 H7 H8 H9 H10 H11 H12 H13 _].
    constructor; auto.
    unfold Q, lb. cbn [now p_lb]. exists 10%nat.
    destruct (lower_bounds L kExact dest [] (search_edges static graph) 10) as [D| |] eqn:E.
    - exists D. auto.
    - vm_compute in E. discriminate.
    - vm_compute in E. discriminate.
  Qed.
  Definition g := mk_group 470 (470 + 2880) [(0%nat, 470)].
  Lemma grp : groups_ok P [g].
  Proof.
    split.
    - intros x l t [<-|[]] [[= <- <-]|[]]; unfold time_range; lia.
    - intros x [<-|[]]; unfold time_range; cbn; lia.
    - intros x l t [<-|[]] [[= <- <-]|[]]; unfold no_later; cbn; lia.
    - intros [|x [|y gs1]] g0 gs2 g' E Hin; [destruct Hin| |]; cbn in E; injection E; intros; discriminate.
  Qed.
  Lemma lb_small l : lb l <> 65535 \/ (3 <= l)%nat.
  Proof. destruct l as [|[|[|l]]]; [left|left|left|right; lia]; vm_compute; discriminate. Qed.
  Lemma reach : starts_reach_ok Q (starts_of ([] ++ [g])).
  Proof.
    split.
    - intros l t ri r s s' s0 s0' (g' & Hg & Hin) Hl. exfalso. destruct Hg as [<-|[]]. destruct Hin as [[= <- <-]|[]].
      change (p_lb Q 0%nat) with (lb 0%nat) in Hl. destruct (lb_small 0%nat); [contradiction|lia].
    - intros ri r day s s' s0 s0' Hr _ Hs Hs' _ Hl. exfalso. change (p_lb Q) with lb in Hl.
      destruct (lb_small (Z.to_nat (s_loc s0))) as [N|N]; [contradiction|].
      assert (HL : locations_ok Q).
      { apply now_locations; [exact (history_data_ok S base ms X number P static_fits msgs_fit ltac:(vm_compute; reflexivity) days_fit fits)|exact Example3.loc]. }
      destruct HL as [HL _]. specialize (HL ri r s0 Hr (nth_error_In _ _ Hs)). change (tt_n_locations (p_tt Q)) with 3%nat in HL. lia.
  Qed.
  (** A 08:00 - B 08:30 as scheduled, B 08:55 - C 09:25 fifteen minutes late. *)
  Lemma conn : connection_now S rt X number P (fun l t => In (l, t) (g_starts g)) (transfer_time P) 2 2 565.
  Proof.
    destruct shape as (E1 & E2 & E3).
    apply cn_station; auto.
    apply (an_ride S rt X number P _ _ 1 1 515 535 2 565); [|unfold no_later; cbn; lia|].
    - change 515 with (after P 510 (transfer_time P 1)). apply rn_transfer.
      apply (an_ride S rt X number P _ _ 0 0 470 480 1 510); [|unfold no_later; cbn; lia|].
      + apply rn_start. left; reflexivity.
      + apply (now_scheduled S rt X number P 0%nat 480 1%nat 510 0%nat Example1.r0 0%nat (Example1.veh 480 510) 10 0%nat 1%nat (Example1.st 0) (Example1.st 1));
          try reflexivity; cbn; try lia; intros; discriminate.
    - apply (now_realtime S rt X number P 1%nat 535 2%nat 565 0%nat 0%nat 1%nat (w 1) (w 2));
        rewrite ?E1, ?E2; unfold rt_time, Rt_Model.event_time; rewrite ?E3; try reflexivity; cbn; try lia; intros; discriminate.
  Qed.
  Example C52_nonvacuous :
    static_ok S /\ Forall (msg_ok S) ms /\ same_days S number P /\ vehicles_fit S base ms X P /\
    query_setup_on L kExact dest [] false false Q (search_edges static graph) /\ groups_ok P [g] /\ starts_reach_ok Q (starts_of ([] ++ [g])) /\
    connection_now S rt X number P (fun l t => In (l, t) (g_starts g)) (transfer_time P) 2 2 565 /\
    snd (raptor Q 5 [g]) = [mk_journey 470 600 0; mk_journey 470 565 1] /\
    (* without the messages *)
    snd (raptor P 5 [g]) = [mk_journey 470 550 1].
  Proof.
    refine (conj static_fits (conj msgs_fit (conj days_fit (conj fits (conj setup (conj grp (conj reach (conj conn (conj _ _))))))))).
    - vm_compute. reflexivity.
    - vm_compute. reflexivity.
  Qed.

  (** ** A cancelled vehicle is still offered *)
  (** The vehicle that was reported late is cancelled afterwards: its day stays inactive, it is marked as cancelled, and the search
      goes on using its real-time copy. *)
  Definition ms' := [delay; M_cancel 0 (2%nat, 10) 0 2].
  Notation rt' := (apply_msgs S ms' (create_rt_timetable S base)).
  Definition lb' : nat -> Z := match lower_bounds L kExact dest [] (search_edges static (update_lbs L rt' true static (fun _ => false))) 10 with Done D => D | _ => fun _ => -1 end.
End ExampleRt.

Theorem C52_cancelled_vehicle_refuted : exists S base t day from to X number P lb mt gs j,
  let rt := apply_msgs S [ExampleRt.delay; M_cancel 0 (t, day) from to] (create_rt_timetable S base) in
  static_active S t day = true /\ from = 0%nat /\ to = length (s_seq S t) /\
  In (true, inl (t, day)) (combine (rt_cancelled rt) (rt_static rt)) /\
  In j (snd (raptor (now S rt X number P lb) mt gs)) /\
  (* without the cancelled vehicle no journey arrives by then *)
  (forall j', In j' (snd (raptor (now S (apply_msgs S [M_cancel 0 (t, day) from to] (create_rt_timetable S base)) X number P lb) mt gs)) -> j_dest j < j_dest j').
Proof.
  exists ExampleRt.S, ExampleRt.base, 2%nat, 10, 0%nat, 2%nat, ExampleRt.X, ExampleRt.number, ExampleRt.P, ExampleRt.lb', 5%nat, [ExampleRt.g], (mk_journey 470 565 1).
  cbv zeta. split; [reflexivity|]. split; [reflexivity|]. split; [reflexivity|]. split; [vm_compute; auto|]. split.
  - match goal with |- In _ (snd ?r) => assert (E : snd r = [mk_journey 470 565 1]) by (vm_compute; reflexivity) end.
    rewrite E. now left.
  - match goal with |- forall j', In j' (snd ?r) -> _ => assert (E : snd r = [mk_journey 470 1990 1]) by (vm_compute; reflexivity) end.
    rewrite E. intros j' [<-|[]]. cbn. lia.
Qed.

(** * What goes wrong when the bounds do not cover the real-time vehicles *)
(** ** One stop that the bounds call unreachable hides all boardings of a real-time vehicle (raptor.h:1149-1151) *)
(** Nothing in the library calls [update_lbs] after messages were applied; the caller has to. *)
Module ExampleBreak.
  Definition w := ExampleRt.w.
  Definition st := Example1.st.
  (** Static: stop 1 -> stop 2, 10:00 - 10:30; no scheduled vehicle at stop 0. *)
  Definition r0 := mk_route [st 1; st 2] 3 (fun _ => false) (fun _ => false) (fun _ _ => false) [Example1.veh 600 630] None.
  Definition tt := mk_tt 3 [r0] (fun l => match l with 1%nat | 2%nat => [0%nat] | _ => [] end) (fun _ => 5) (fun _ => []) (fun _ => [])
                         (fun _ d => (10 <=? d) && (d <? 20)).
  Definition S := mk_stt [(fun d => (10 <=? d) && (d <? 20))] [0] (fun t => [w 1; w 2])
    (fun t d s arr => 144000 + d * 1440 + 600 + 30 * Z.of_nat s) (fun l => Z.of_nat l) (fun s => Some (Z.to_nat s)) (fun l => [l]).
  (** Additional vehicle 0 (08:00) -> 1 (08:20) -> 2 (08:50). *)
  Definition stu (s : Z) (a d : option Z) := mk_stu None (Some s) (option_map (fun t => mk_ste None (Some (60 * (ExampleRt.base + t)))) a)
                                                   (option_map (fun t => mk_ste None (Some (60 * (ExampleRt.base + t)))) d) false None.
  Definition ms := [M_added 0 7 7 [w 0; w 1; w 2] [stu 0 None (Some 480); stu 1 (Some 500) (Some 500); stu 2 (Some 530) None]].
  Definition X := mk_rt_extra (fun _ => 3%nat) (fun _ _ => false) (fun _ _ => false) (fun _ _ _ => false) (fun l => [0%nat]) 10.
  Definition L := Example3.L.
  Definition dest := Example3.dest.
  Definition static := lb_edges L tt true false false.
  Definition lb : nat -> Z := match lower_bounds L kExact dest [] static 10 with Done D => D | _ => fun _ => -1 end.
  Definition lb_updated : nat -> Z :=
    match lower_bounds L kExact dest [] (search_edges static (update_lbs L (apply_msgs S ms (create_rt_timetable S ExampleRt.base)) true static (fun _ => false))) 10
    with Done D => D | _ => fun _ => -1 end.
  Example bounds : map lb [0; 1; 2]%nat = [65535; 30; 0] /\ map lb_updated [0; 1; 2]%nat = [50; 30; 0].
  Proof. split; vm_compute; reflexivity. Qed.
  Definition P := mk_params true tt (collect_is_dest L kExact dest 99) None 99 lb 10 (fun _ => true) (fun _ => false) (fun d => d).
  Definition g := mk_group 490 (490 + 1440) [(1%nat, 490)].
End ExampleBreak.
Theorem C52_break_refuted : exists S base ms X number P L dest lb g a,
  let rt := apply_msgs S ms (create_rt_timetable S base) in
  let static := lb_edges L (p_tt P) true false false in
  (* the bounds of the static graph, real-time vehicles not added *)
  (exists D, lower_bounds L kExact dest [] static 10 = Done D /\ lb = D) /\
  (* a ride from the start to the destination within the horizon *)
  connection_now S rt X number P (fun l t => In (l, t) (g_starts g)) (transfer_time P) 1 2 a /\ a <= g_worst g /\
  (* which is not found, nor anything as good *)
  (forall j, In j (snd (raptor (now S rt X number P lb) 5 [g])) -> a < j_dest j) /\
  (* with updated bounds it is *)
  exists lb' D', lower_bounds L kExact dest [] (search_edges static (update_lbs L rt true static (fun _ => false))) 10 = Done D' /\ lb' = D' /\
    In (mk_journey (g_start g) a 0) (snd (raptor (now S rt X number P lb') 5 [g])).
Proof.
  exists ExampleBreak.S, ExampleRt.base, ExampleBreak.ms, ExampleBreak.X, ExampleRt.number, ExampleBreak.P, ExampleBreak.L, ExampleBreak.dest, ExampleBreak.lb, ExampleBreak.g, 530.
  cbv zeta. split; [|split; [|split; [|split]]].
  - exists ExampleBreak.lb. split; [|reflexivity]. unfold ExampleBreak.lb. change (lb_edges ExampleBreak.L (p_tt ExampleBreak.P) true false false) with ExampleBreak.static.
    destruct (lower_bounds _ _ _ _ _ _) eqn:E; [reflexivity| |]; vm_compute in E; discriminate.
  - assert (Sh : let rt := apply_msgs ExampleBreak.S ExampleBreak.ms (create_rt_timetable ExampleBreak.S ExampleRt.base) in
      rt_static rt = [inr 0%nat] /\ rt_stops rt = [[ExampleRt.w 0; ExampleRt.w 1; ExampleRt.w 2]] /\ rt_times rt = [[480; 500; 500; 530]]).
    { cbv zeta. split; [|split]; vm_compute; reflexivity. }
    cbv zeta in Sh. destruct Sh as (E1 & E2 & E3). apply cn_station; auto.
    apply (an_ride ExampleBreak.S _ ExampleBreak.X ExampleRt.number ExampleBreak.P _ _ 0 1 490 500 2 530); [apply rn_start; now left|unfold no_later; cbn; lia|].
    apply (now_realtime ExampleBreak.S _ ExampleBreak.X ExampleRt.number ExampleBreak.P 1%nat 500 2%nat 530 0%nat 1%nat 2%nat (ExampleRt.w 1) (ExampleRt.w 2));
        rewrite ?E1, ?E2; unfold rt_time, Rt_Model.event_time; rewrite ?E3; try reflexivity; cbn; try lia; intros; discriminate.
  - cbn. lia.
  - match goal with |- forall j', In j' (snd ?r) -> _ => assert (E : snd r = [mk_journey 490 630 0]) by (vm_compute; reflexivity) end.
    rewrite E. intros j' [<-|[]]. cbn. lia.
  - exists ExampleBreak.lb_updated, ExampleBreak.lb_updated. split; [|split; [reflexivity|]].
    + unfold ExampleBreak.lb_updated. change (lb_edges ExampleBreak.L (p_tt ExampleBreak.P) true false false) with ExampleBreak.static.
      destruct (lower_bounds _ _ _ _ _ _) eqn:E; [reflexivity| |]; vm_compute in E; discriminate.
    + match goal with |- In _ (snd ?r) => assert (E : snd r = [mk_journey 490 530 0]) by (vm_compute; reflexivity) end.
      rewrite E. now left.
Qed.

(** ** Queries with another profile (rt_timetable.cc:255, 271: compared with the default profile only) *)
(** A vehicle that carries cars is twenty minutes early; a faster vehicle without cars runs on the same section, so that the new
    edge is dropped, although the graph used for queries that need car transport still has the slow one. *)
Module ExampleProfile.
  Definition w := ExampleRt.w.
  Definition st := Example1.st.
  Definition cars (f : nat) : bool := Nat.eqb f 1.
  Definition r0 := mk_route [st 0; st 1] 3 cars (fun _ => false) (fun _ _ => false) [Example1.veh 470 490] None.
  Definition r1 := mk_route [st 1; st 2] 3 cars (fun _ => false) (fun _ _ => false) [Example1.veh 500 560] None.
  Definition r2 := mk_route [st 1; st 2] 3 (fun _ => false) (fun _ => false) (fun _ _ => false) [Example1.veh 700 730] None.
  Definition tt := mk_tt 3 [r0; r1; r2] (fun l => match l with 0%nat => [0%nat] | 1%nat => [0%nat; 1%nat; 2%nat] | 2%nat => [1%nat; 2%nat] | _ => [] end)
    (fun _ => 5) (fun _ => []) (fun _ => []) (fun _ d => (10 <=? d) && (d <? 20)).
  Definition times (t s : nat) : Z := match t, s with 0%nat, 0%nat => 470 | 0%nat, _ => 490 | 1%nat, 0%nat => 500 | 1%nat, _ => 560 | _, 0%nat => 700 | _, _ => 730 end.
  Definition S := mk_stt [(fun d => (10 <=? d) && (d <? 20))] [0; 0; 0] (fun t => match t with 0%nat => [w 0; w 1] | _ => [w 1; w 2] end)
    (fun t d s arr => 144000 + d * 1440 + times t s) (fun l => Z.of_nat l) (fun s => Some (Z.to_nat s)) (fun l => [l]).
  Definition number (ri vi : nat) : nat := ri.
  Definition ms := [M_update 0 (1%nat, 10) 0 2 [1; 2] [mk_stu (Some 2) None (Some (mk_ste (Some (-1200)) None)) None false None]].
  Definition X := mk_rt_extra (fun _ => 3%nat) (fun _ => cars) (fun _ _ => false) (fun _ _ _ => false)
    (fun l => match l with 0%nat => [] | _ => [0%nat] end) 10.
  Definition L := Example3.L.
  Definition dest := Example3.dest.
  Definition edges := search_edges (lb_edges L tt true true false)
    (update_lbs L (apply_msgs S ms (create_rt_timetable S ExampleRt.base)) true (lb_edges L tt true false false) (fun _ => false)).
  Definition lb : nat -> Z := match lower_bounds L kExact dest [] edges 10 with Done D => D | _ => fun _ => -1 end.
  Example bounds : map lb [0; 1; 2]%nat = [80; 60; 0].
  Proof. vm_compute; reflexivity. Qed.
  Definition P := mk_params true tt (collect_is_dest L kExact dest 99) None 99 lb 10 (fun _ => true) cars (fun d => d).
  Definition g := mk_group 470 545 [(0%nat, 470)].
End ExampleProfile.
Theorem C52_other_profile_refuted : exists S base ms X number P L dest lb g a,
  let rt := apply_msgs S ms (create_rt_timetable S base) in
  (* bounds of the graph for car transport, extended by the edges [update_lbs] computes *)
  (exists D, lower_bounds L kExact dest [] (search_edges (lb_edges L (p_tt P) true true false)
                (update_lbs L rt true (lb_edges L (p_tt P) true false false) (fun _ => false))) 10 = Done D /\ lb = D) /\
  p_require P 1 = true /\
  connection_now S rt X number P (fun l t => In (l, t) (g_starts g)) (transfer_time P) 2 2 a /\ a <= g_worst g /\
  snd (raptor (now S rt X number P lb) 5 [g]) = [].
Proof.
  exists ExampleProfile.S, ExampleRt.base, ExampleProfile.ms, ExampleProfile.X, ExampleProfile.number, ExampleProfile.P, ExampleProfile.L, ExampleProfile.dest,
    ExampleProfile.lb, ExampleProfile.g, 540.
  cbv zeta. split; [|split; [reflexivity|split; [|split]]].
  - exists ExampleProfile.lb. split; [|reflexivity]. unfold ExampleProfile.lb. change (p_tt ExampleProfile.P) with ExampleProfile.tt. fold ExampleProfile.edges.
    destruct (lower_bounds _ _ _ _ _ _) eqn:E; [reflexivity| |]; vm_compute in E; discriminate.
  - assert (Sh : let rt := apply_msgs ExampleProfile.S ExampleProfile.ms (create_rt_timetable ExampleProfile.S ExampleRt.base) in
      rt_static rt = [inl (1%nat, 10)] /\ rt_stops rt = [[ExampleRt.w 1; ExampleRt.w 2]] /\ rt_times rt = [[500; 540]]).
    { cbv zeta. split; [|split]; vm_compute; reflexivity. }
    cbv zeta in Sh. destruct Sh as (E1 & E2 & E3). apply cn_station; auto.
    apply (an_ride ExampleProfile.S _ ExampleProfile.X ExampleProfile.number ExampleProfile.P _ _ 1 1 495 500 2 540); [|unfold no_later; cbn; lia|].
    + change 495 with (after ExampleProfile.P 490 (transfer_time ExampleProfile.P 1)). apply rn_transfer.
      apply (an_ride ExampleProfile.S _ ExampleProfile.X ExampleProfile.number ExampleProfile.P _ _ 0 0 470 470 1 490); [apply rn_start; now left|unfold no_later; cbn; lia|].
      apply (now_scheduled ExampleProfile.S _ ExampleProfile.X ExampleProfile.number ExampleProfile.P 0%nat 470 1%nat 490 0%nat ExampleProfile.r0 0%nat (Example1.veh 470 490)
         10 0%nat 1%nat (Example1.st 0) (Example1.st 1)); try reflexivity; cbn; try lia.
      intros f sec Hf Hr _. left. exact Hr.
    + apply (now_realtime ExampleProfile.S _ ExampleProfile.X ExampleProfile.number ExampleProfile.P 1%nat 500 2%nat 540 0%nat 0%nat 1%nat (ExampleRt.w 1) (ExampleRt.w 2));
        rewrite ?E1, ?E2; unfold rt_time, Rt_Model.event_time; rewrite ?E3; try reflexivity; cbn; try lia.
      intros f sec Hf Hr _. left. exact Hr.
  - cbn. lia.
  - vm_compute. reflexivity.
Qed.

Print Assumptions C52_rides_are_possible_now.
Print Assumptions C52_event_times.
Print Assumptions C52_messages_keep_timetable_ok.
Print Assumptions C52_reported_journeys_are_possible_now.
Print Assumptions C52_search_is_optimal_now.
Print Assumptions C52_cancelled_vehicle_refuted.
Print Assumptions C52_break_refuted.
Print Assumptions C52_other_profile_refuted.
