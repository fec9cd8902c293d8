(** Property theorems C16 - C20: the round-based search (RAPTOR).
    The specification (rides, transfers, connections, well-formed timetables) is [Raptor_Spec]. *)
From Coq Require Import List ZArith Bool Arith Lia.
From Verif Require Import Base Time_Model Raptor_Model Raptor_Spec Raptor_Base Raptor_Sound Raptor_Opt Raptor_Final.
Import ListNotations.
Local Open Scope Z_scope.

(** * C16  Earliest vehicle *)
(** Time at which a vehicle can be boarded at stop [s] in search direction. *)
Definition boarding_time (P : params) (v : vehicle) (day : Z) (s : nat) : Z :=
  event_time P v day s (if p_fwd P then kDep else kArr).
(** [t] saturated to the 16 bit range of the search. *)
Definition saturate (t : Z) : Z := Z.max (-32768) (Z.min 32767 t).

Theorem C16_first_catchable_vehicle : forall P ri r s l tad t,
  all_vehicles_wf P -> columns_sorted P -> index_ok P ->
  nth_error (tt_routes (p_tt P)) ri = Some r -> (s < length (r_stops r))%nat ->
  match get_earliest_transport P ri r s l tad t with
  | Some (x, day) =>
      exists v, nth_error (r_vehicles r) x = Some v /\ runs_on v day /\
        no_later P t (boarding_time P v day s) /\
        (forall y w day', nth_error (r_vehicles r) y = Some w -> runs_on w day' ->
           no_later P t (boarding_time P w day' s) -> no_later P (boarding_time P v day s) (boarding_time P w day' s))
  | None =>
      forall y w day', nth_error (r_vehicles r) y = Some w -> runs_on w day' ->
        no_later P t (boarding_time P w day' s) -> no_later P (boarding_time P w day' s) (after P t 7200) ->
        ~ no_later P (after P (saturate (boarding_time P w day' s)) (p_lb P l)) tad
  end.
Proof.
  intros P ri r s l tad t Hwf Hcol Hidx Hr Hs.
  destruct (get_earliest_transport P ri r s l tad t) as [[x day]|] eqn:E.
  - destruct (get_earliest_transport_sound _ _ _ _ _ _ _ _ _ Hwf Hr Hs E) as (v & Hv & Hrun & Hle & _).
    exists v. split; auto. split; auto. split; [now apply no_later_o|].
    intros y w day' Hy Hrw Hge. apply no_later_o. apply no_later_o in Hge.
    eapply (get_earliest_transport_first P ri r s l tad t); eauto.
  - intros y w day' Hy Hrw Hge Hhor Hp. apply no_later_o in Hge, Hhor, Hp. rewrite o_after in Hhor, Hp.
    destruct (get_earliest_transport_complete P ri r s l tad t y w day') as (x & w' & e & E' & _); auto.
    congruence.
Qed.

(** * C17  Only feasible connections are reported *)
(** All starts of the query that do not lie before [t0]. *)
Definition start_options (P : params) (gs : list group) (t0 : Z) (l : nat) (t : Z) : Prop :=
  (exists g, In g gs /\ In (l, t) (g_starts g)) /\ no_later P t0 t.

Theorem C17_reported_journeys_are_feasible : forall P mt gs j,
  all_vehicles_wf P -> durations_ok P -> end_ok P -> locations_ok P -> groups_ok P gs ->
  (p_fwd P = false -> rides_take_time P) ->
  In j (snd (raptor P mt gs)) ->
  exists l k, (1 <= k)%nat /\ Z.of_nat k <= j_transfers j + 1 /\
    connection P (start_options P gs (j_start j)) (transfer_time P) k l (j_dest j).
Proof.
  intros P mt gs j Hwf Hdur Hend Hloc Hgs Ht Hin.
  exact (reported_feasible P mt Hwf Hdur Hend Hloc gs j Hgs Ht Hin).
Qed.

(** * C18  Optimality for every number of rides *)
(** Whenever a connection with K rides exists from the starts of group [g] that stays within the horizon, a
    journey is reported that departs no earlier, arrives no later and has no more transfers. *)
Theorem C18_search_is_optimal : forall P mt D gs gs1 g gs2 K l a,
  all_vehicles_wf P -> durations_ok P -> end_ok P -> locations_ok P ->
  columns_sorted P -> index_ok P -> fifo P -> lower_bounds_ok P D ->
  groups_ok P gs -> gs = gs1 ++ g :: gs2 ->
  starts_reach_ok P (starts_of (gs1 ++ [g])) ->
  (forall l t, starts_of (gs1 ++ [g]) l t -> (l < tt_n_locations (p_tt P))%nat /\ p_is_dest P l = false) ->
  (* horizon: the destination bound of the groups so far, five days, 16 bit range *)
  (forall g', In g' (gs1 ++ [g]) -> no_later P a (g_worst g')) ->
  no_later P a (after P (g_start g) 7200) -> -32768 < a < 32767 ->
  (* transfer limit *)
  (K <= Nat.min mt 14 + 1)%nat ->
  connection P (fun l t => In (l, t) (g_starts g)) (transfer_time P) K l a ->
  exists j, In j (snd (raptor P mt gs)) /\ j_transfers j <= Z.of_nat K - 1 /\
            no_later P (j_dest j) a /\ no_later P (g_start g) (j_start j).
Proof.
  intros P mt D gs gs1 g gs2 K l a Hwf Hdur Hend Hloc Hcol Hidx Hfifo HD Hgs E Hreach Hsl Hw Hh Ha HK Hconn.
  apply (search_optimal P mt Hwf Hdur Hend Hloc Hcol Hidx Hfifo D HD gs gs1 g gs2 K l a); auto.
  - unfold end_k, kMaxTransfers. lia.
  - unfold Raptor_Base.o, OI. destruct (p_fwd P); lia.
Qed.

(** * C19  Transfer limit *)
Theorem C19_transfer_limit : forall P mt gs j,
  In j (snd (raptor P mt gs)) -> 0 <= j_transfers j /\ j_transfers j <= Z.of_nat mt /\ j_transfers j <= 14.
Proof. intros P mt gs j Hin. apply transfers_limited in Hin. lia. Qed.
Theorem C19_one_journey_per_transfer_count : forall P mt gs p q x y,
  all_vehicles_wf P -> durations_ok P -> end_ok P -> locations_ok P -> groups_ok P gs ->
  (p_fwd P = false -> rides_take_time P) ->
  nth_error (snd (raptor P mt gs)) p = Some x -> nth_error (snd (raptor P mt gs)) q = Some y ->
  j_start x = j_start y -> j_transfers x = j_transfers y -> p = q.
Proof. intros P mt gs p q x y Hwf Hdur Hend Hloc. exact (transfers_unique P mt Hwf Hdur Hend Hloc gs p q x y). Qed.

(** * C20  Filters *)
(** Connections with the list of rides they use: (route, boarding stop, alighting stop). *)
Section Itineraries.
  Variable P : params.
  Variable St : nat -> Z -> Prop.
  Inductive ready_by : list (nat * nat * nat) -> nat -> Z -> Prop :=
  | rb_start l t : St l t -> ready_by [] l t
  | rb_transfer rides l t : arrived_by rides l t -> ready_by rides l (after P t (transfer_time P l))
  | rb_walk rides l t l' d : arrived_by rides l t -> walk P l l' d -> ready_by rides l' (after P t d)
  with arrived_by : list (nat * nat * nat) -> nat -> Z -> Prop :=
  | ab_ride rides l t ri r vi v day s s' st st' :
      ready_by rides l t ->
      nth_error (tt_routes (p_tt P)) ri = Some r -> nth_error (r_vehicles r) vi = Some v -> runs_on v day ->
      nth_error (r_stops r) s = Some st -> nth_error (r_stops r) s' = Some st' ->
      (if p_fwd P then (s < s')%nat else (s' < s)%nat) ->
      Z.to_nat (s_loc st) = l ->
      get_on_allowed P st = true -> get_off_allowed P st' = true ->
      no_later P t (boarding_time P v day s) ->
      arrived_by (rides ++ [(ri, s, s')]) (Z.to_nat (s_loc st')) (event_time P v day s' (if p_fwd P then kArr else kDep)).
  Inductive reaches_destination (rides : list (nat * nat * nat)) (t : Z) : Prop :=
  | rd_station l : p_is_dest P l = true -> arrived_by rides l t -> reaches_destination rides t
  | rd_walk l0 t0 l d : p_is_dest P l = true -> arrived_by rides l0 t0 -> walk P l0 l d -> t = after P t0 d -> reaches_destination rides t
  | rd_offset off l0 t0 d : p_dist_to_end P = Some off -> arrived_by rides l0 t0 -> off l0 = Some d -> t = after P t0 d -> reaches_destination rides t.
  (** All filters of the query hold for one ride: class of the route, every required flag on every section. *)
  Definition filters_hold (x : nat * nat * nat) : Prop :=
    let '(ri, s, s') := x in
    exists r, nth_error (tt_routes (p_tt P)) ri = Some r /\
      p_allowed_clasz P (r_clasz r) = true /\
      forall f sec, (f < 4)%nat -> p_require P f = true -> (Nat.min s s' <= sec < Nat.max s s')%nat ->
        r_flag_all r f = true \/ r_flag_section r f sec = true.

  Lemma arrived_itinerary : forall k,
    (forall l t, arrived P St (transfer_time P) k l t -> exists rides, length rides = k /\ arrived_by rides l t /\ Forall filters_hold rides) /\
    (forall l t, ready P St (transfer_time P) k l t -> exists rides, length rides = k /\ ready_by rides l t /\ Forall filters_hold rides).
  Proof.
    assert (HR : forall k,
      (forall l t, arrived P St (transfer_time P) k l t -> exists rides, length rides = k /\ arrived_by rides l t /\ Forall filters_hold rides) ->
      (forall l t, ready P St (transfer_time P) k l t -> exists rides, length rides = k /\ ready_by rides l t /\ Forall filters_hold rides)).
    { intros k HA l t H. inversion H as [l0 t0 Hs|k0 l0 t0 Ha|k0 l0 t0 l1 d Ha Hw]; subst.
      - exists []. split; auto. split; auto. now constructor.
      - destruct (HA _ _ Ha) as (rides & Hl & Hb & Hf). exists rides. split; auto. split; auto. now constructor.
      - destruct (HA _ _ Ha) as (rides & Hl & Hb & Hf). exists rides. split; auto. split; auto. eapply rb_walk; eauto. }
    induction k as [|k [IHa IHr]].
    - assert (HA : forall l t, arrived P St (transfer_time P) 0 l t -> exists rides, length rides = 0%nat /\ arrived_by rides l t /\ Forall filters_hold rides) by (intros l t Hx; inversion Hx).
      split; auto.
    - assert (HA : forall l t, arrived P St (transfer_time P) (S k) l t -> exists rides, length rides = S k /\ arrived_by rides l t /\ Forall filters_hold rides).
      { intros l t Hx. inversion Hx as [k0 l0 t0 tb l' ta Hr Hn Hri]; subst.
        destruct (IHr _ _ Hr) as (rides & Hl & Hb & Hf).
        destruct Hri as [ri r vi v day s s' st st' Hr1 Hv Hrun Hs Hs' Hlt El El' Hon Hoff Hcl Hsec -> ->]. subst.
        exists (rides ++ [(ri, s, s')]). split; [rewrite app_length; cbn; lia|]. split.
        - eapply ab_ride; eauto.
        - apply Forall_app. split; auto. constructor; auto. exists r. split; auto. split; auto.
          intros f sec Hfl Hreq Hb'. destruct (Hsec f sec Hfl Hreq Hb') as [?|[_ ?]]; auto. }
      split; auto.
  Qed.
End Itineraries.

Theorem C20_filters_never_violated : forall P mt gs j,
  all_vehicles_wf P -> durations_ok P -> end_ok P -> locations_ok P -> groups_ok P gs ->
  (p_fwd P = false -> rides_take_time P) ->
  In j (snd (raptor P mt gs)) ->
  exists rides, rides <> [] /\ Z.of_nat (length rides) <= j_transfers j + 1 /\
    reaches_destination P (start_options P gs (j_start j)) rides (j_dest j) /\
    Forall (filters_hold P) rides.
Proof.
  intros P mt gs j Hwf Hdur Hend Hloc Hgs Ht Hin.
  destruct (reported_feasible P mt Hwf Hdur Hend Hloc gs j Hgs Ht Hin) as (l & k & Hk & Htr & Hc).
  change (connection P (start_options P gs (j_start j)) (transfer_time P) k l (j_dest j)) in Hc.
  set (St := start_options P gs (j_start j)) in *.
  destruct (arrived_itinerary P St k) as [HA _].
  inversion Hc as [Hn Hd Ha|l0 t0 d Hn Hd Ha Hw Et|off l0 t0 d Hoff Hd El Ha Ho Et]; subst.
  - destruct (HA _ _ Ha) as (rides & <- & Hb & Hf). exists rides.
    split; [intros ->; cbn in Hk; lia|]. split; auto. split; auto. eapply rd_station; eauto.
  - destruct (HA _ _ Ha) as (rides & <- & Hb & Hf). exists rides.
    split; [intros ->; cbn in Hk; lia|]. split; auto. split; auto. eapply rd_walk; eauto.
  - destruct (HA _ _ Ha) as (rides & <- & Hb & Hf). exists rides.
    split; [intros ->; cbn in Hk; lia|]. split; auto. split; auto. eapply rd_offset; eauto.
Qed.

(** * Non-vacuity: a small timetable that meets all hypotheses *)
Module Example1.
  (** Stations A = 0, B = 1, C = 2.  Route 0: A -> B at 08:00 (arr 08:30) and 09:00 (arr 09:30);
      route 1: B -> C at 08:40 (arr 09:10).  Days 10 .. 19.  Transfer time 5 minutes. *)
  Definition veh (a b : Z) : vehicle :=
    mk_vehicle (fun s _ => mk_delta 0 (match s with O => a | _ => b end)) (fun d => (10 <=? d) && (d <? 20)).
  Definition st (l : Z) : stop := mk_stop l true true true true.
  Definition r0 := mk_route [st 0; st 1] 3 (fun _ => false) (fun _ => false) (fun _ _ => false) [veh 480 510; veh 540 570] None.
  Definition r1 := mk_route [st 1; st 2] 4 (fun f => Nat.eqb f 0) (fun _ => false) (fun _ _ => false) [veh 520 550] None.
  Definition tt := mk_tt 3 [r0; r1] (fun l => match l with 0%nat => [0%nat] | 1%nat => [0%nat; 1%nat] | 2%nat => [1%nat] | _ => [] end)
                         (fun _ => 5) (fun _ => []) (fun _ => []) (fun _ d => (10 <=? d) && (d <? 20)).
  Definition D (l : nat) : Z := match l with 0%nat => 60 | 1%nat => 30 | _ => 0 end.
  Definition P := mk_params true tt (fun l => Nat.eqb l 2) None 99 D 10 (fun _ => true) (fun _ => false) (fun d => d).
  Definition g1 := mk_group 530 (530 + 2880) [(0%nat, 530)].
  Definition g2 := mk_group 470 (470 + 2880) [(0%nat, 470)].

  Example results : snd (raptor P 5 [g1; g2]) = [mk_journey 530 1990 1; mk_journey 470 550 1].
  Proof. vm_compute. reflexivity. Qed.

  Lemma routes ri r : nth_error (tt_routes (p_tt P)) ri = Some r -> (ri = 0%nat /\ r = r0) \/ (ri = 1%nat /\ r = r1).
  Proof. destruct ri as [|[|[|ri]]]; cbn; intros H; try discriminate; injection H as <-; auto. Qed.
  Lemma vehicles v : (In v (r_vehicles r0) -> v = veh 480 510 \/ v = veh 540 570) /\ (In v (r_vehicles r1) -> v = veh 520 550).
  Proof. cbn. intuition. Qed.
  Lemma stop_lt r s : r = r0 \/ r = r1 -> (s < length (r_stops r))%nat -> s = 0%nat \/ s = 1%nat.
  Proof. intros [->| ->]; cbn; lia. Qed.

  Lemma wf : all_vehicles_wf P.
  Proof.
    split; [|apply static_rt_ok; intros ri r Hr; apply routes in Hr as [[_ ->]|[_ ->]]; reflexivity].
    intros ri r v Hr Hv. apply routes in Hr.
    assert (Hs : r = r0 \/ r = r1) by tauto.
    assert (Hvv : exists a b, v = veh a b /\ 0 <= a <= b /\ b < 1440).
    { destruct Hr as [[_ ->]|[_ ->]]; apply vehicles in Hv; [destruct Hv as [->| ->]|subst v]; eexists _, _; (split; [reflexivity|lia]). }
    destruct Hvv as (a & b & -> & Hab & Hb).
    split; [|split]; unfold event_minutes, veh; cbn [v_ev d_days d_mam].
    - intros s e Hl. apply stop_lt in Hl as [->| ->]; auto; lia.
    - intros s Hl. lia.
    - intros s s' Hl. destruct (stop_lt r s' Hs ltac:(lia)) as [->| ->]; [lia|].
      destruct (stop_lt r s Hs ltac:(lia)) as [->| ->]; lia.
  Qed.
  Lemma dur : durations_ok P.
  Proof. repeat split; cbn; intros; try lia; try tauto; try discriminate. Qed.
  Lemma endok : end_ok P.
  Proof. intros H. cbn in H. congruence. Qed.
  Lemma loc : locations_ok P.
  Proof.
    split; [|split]; cbn.
    - intros ri r s0 Hr Hin. apply routes in Hr as [[_ ->]|[_ ->]]; cbn in Hin; destruct Hin as [<-|[<-|[]]]; cbn; lia.
    - tauto.
    - intros l H. apply Nat.eqb_eq in H. lia.
  Qed.
  Lemma cols : columns_sorted P.
  Proof.
    intros ri r i j v w s e Hr Hij Hv Hw Hs. apply routes in Hr as [[_ ->]|[_ ->]]; cbn in Hv, Hw.
    - destruct (stop_lt r0 s ltac:(auto) Hs) as [->| ->];
      destruct i as [|[|i]]; destruct j as [|[|j]]; cbn in *; try lia; try (destruct i; discriminate); try (destruct j; discriminate);
        injection Hv as <-; injection Hw as <-; cbn; lia.
    - destruct (stop_lt r1 s ltac:(auto) Hs) as [->| ->];
      destruct i as [|i]; destruct j as [|j]; cbn in *; try lia; try (destruct i; discriminate); try (destruct j; discriminate);
        injection Hv as <-; injection Hw as <-; cbn; lia.
  Qed.
  Lemma idx : index_ok P.
  Proof.
    split.
    - intros ri r s0 Hr Hin. apply routes in Hr as [[-> ->]|[-> ->]]; cbn in Hin; destruct Hin as [<-|[<-|[]]]; vm_compute; auto.
    - intros ri r v day s e Hr Hv [Hd Hrun] Hs.
      assert (E : v_days v day = (10 <=? day) && (day <? 20) /\ d_days (v_ev v s e) = 0).
      { apply routes in Hr as [[_ ->]|[_ ->]]; apply vehicles in Hv; [destruct Hv as [->| ->]|subst v]; auto. }
      destruct E as [E1 E2]. rewrite E2, Z.add_0_r. rewrite E1 in Hrun. cbn. split; [lia|exact Hrun].
  Qed.
  Lemma fifo_ok : fifo P.
  Proof.
    intros ri r i v day j w day' s s' Hr Hi Hj Hrun Hrun' Hs Hs' Hlt tv tw Hle _. cbn [P p_fwd] in *.
    apply nth_error_In in Hi as Hv. apply nth_error_In in Hj as Hw. unfold tv, tw in Hle. clear tv tw.
    assert (E : exists a b c d, v = veh a b /\ w = veh c d /\ 0 <= a < 1440 /\ 0 <= c < 1440 /\ b - a = 30 /\ d - c = 30).
    { apply routes in Hr as [[_ ->]|[_ ->]]; apply vehicles in Hv; apply vehicles in Hw;
        [destruct Hv as [->| ->]; destruct Hw as [->| ->]|subst v; subst w]; do 4 eexists; (split; [reflexivity|]; split; [reflexivity|lia]). }
    destruct E as (a & b & c & d & -> & -> & Ha & Hc & Hb & Hdd).
    assert (Hs0 : s = 0%nat /\ s' = 1%nat).
    { apply routes in Hr. assert (Hx : r = r0 \/ r = r1) by tauto.
      destruct (stop_lt r s Hx Hs) as [->| ->], (stop_lt r s' Hx Hs') as [->| ->]; lia. }
    destruct Hs0 as [-> ->]. unfold no_later, event_time, veh in *. cbn [P p_fwd p_base v_ev d_days d_mam] in *. lia.
  Qed.
  Lemma lbs : lower_bounds_ok P D.
  Proof.
    split.
    - intros [|[|l]]; cbn; lia.
    - intros l _ _. cbn [P p_lb]. destruct l as [|[|l]]; cbn; lia.
    - intros ri r v s s' s0 s0' Hr Hv Hs Hs' Hlt Hon Hoff _. cbn [P p_fwd] in *.
      assert (E : exists a b, v = veh a b /\ b - a = 30).
      { apply routes in Hr as [[_ ->]|[_ ->]]; apply vehicles in Hv; [destruct Hv as [->| ->]|subst v]; eexists _, _; (split; [reflexivity|lia]). }
      destruct E as (a & b & -> & Hb).
      apply routes in Hr as [[_ ->]|[_ ->]]; cbn in Hs, Hs'.
      + destruct s as [|[|s]]; destruct s' as [|[|s']]; cbn in *; try lia; try (destruct s'; discriminate); try (destruct s; discriminate).
        injection Hs as <-. injection Hs' as <-. unfold event_minutes, veh. cbn [v_ev d_days d_mam].
        change (D (Z.to_nat (s_loc (st 0)))) with 60. change (D (Z.to_nat (s_loc (st 1)))) with 30. lia.
      + destruct s as [|[|s]]; destruct s' as [|[|s']]; cbn in *; try lia; try (destruct s'; discriminate); try (destruct s; discriminate).
        injection Hs as <-. injection Hs' as <-. unfold event_minutes, veh. cbn [v_ev d_days d_mam].
        change (D (Z.to_nat (s_loc (st 1)))) with 30. change (D (Z.to_nat (s_loc (st 2)))) with 0. lia.
    - intros l l' d (d0 & Hin & _). cbn in Hin. tauto.
    - intros l H. cbn in H. apply Nat.eqb_eq in H. subst. reflexivity.
    - intros off l d H. discriminate.
  Qed.
  Lemma grp : groups_ok P [g1; g2].
  Proof.
    split.
    - intros g l t [<-|[<-|[]]] [[= <- <-]|[]]; unfold time_range; lia.
    - intros g [<-|[<-|[]]]; unfold time_range; cbn; lia.
    - intros g l t [<-|[<-|[]]] [[= <- <-]|[]]; unfold no_later; cbn; lia.
    - intros [|x [|y gs1]] g gs2 g' E Hin; cbn in E; injection E.
      + destruct Hin.
      + intros; subst. destruct Hin as [<-|[]]. unfold no_later; cbn; lia.
      + intros E' _ _. destruct gs1; discriminate.
  Qed.
  Lemma starts_far : starts_reach_ok P (starts_of ([g1] ++ [g2])).
  Proof.
    split; [|intros ri r day s s' s0 s0' Hr E; apply routes in Hr as [[_ ->]|[_ ->]]; discriminate].
    intros l t ri r s s' s0 s0' (g & Hg & Hin) Hl. exfalso. cbn in Hg.
    destruct Hg as [<-|[<-|[]]]; destruct Hin as [[= <- <-]|[]]; cbn in Hl; discriminate.
  Qed.
  (** The connection A 08:00 - B 08:30, B 08:40 - C 09:10 of the example meets the hypotheses of C18. *)
  Lemma conn : connection P (fun l t => In (l, t) (g_starts g2)) (transfer_time P) 2 2 550.
  Proof.
    apply conn_station; auto.
    assert (Hd : runs_on (veh 480 510) 10 /\ runs_on (veh 520 550) 10) by (unfold runs_on; cbn; lia).
    apply (arrived_ride P _ _ 1 1 515 520 2 550); [|unfold no_later; cbn; lia|].
    - change 515 with (after P 510 (transfer_time P 1)). apply ready_transfer.
      apply (arrived_ride P _ _ 0 0 470 480 1 510); [|unfold no_later; cbn; lia|].
      + apply ready_start. left; reflexivity.
      + eapply (ride_intro P 0%nat 480 1%nat 510 0%nat r0 0%nat (veh 480 510) 10 0%nat 1%nat (st 0) (st 1));
          try reflexivity; try tauto; cbn; try lia; intros; discriminate.
    - eapply (ride_intro P 1%nat 520 2%nat 550 1%nat r1 0%nat (veh 520 550) 10 0%nat 1%nat (st 1) (st 2));
        try reflexivity; try tauto; cbn; try lia; intros; discriminate.
  Qed.
  Example C18_nonvacuous :
    all_vehicles_wf P /\ durations_ok P /\ end_ok P /\ locations_ok P /\ columns_sorted P /\ index_ok P /\ fifo P /\
    lower_bounds_ok P D /\ groups_ok P [g1; g2] /\ starts_reach_ok P (starts_of ([g1] ++ [g2])) /\
    connection P (fun l t => In (l, t) (g_starts g2)) (transfer_time P) 2 2 550 /\
    In (mk_journey 470 550 1) (snd (raptor P 5 [g1; g2])).
  Proof.
    refine (conj wf (conj dur (conj endok (conj loc (conj cols (conj idx (conj fifo_ok (conj lbs (conj grp (conj starts_far (conj conn _))))))))))).
    vm_compute. auto.
  Qed.
End Example1.

(** The advertised property without the assumption on far away starts is false: a start stop whose lower
    bound is "unreachable" (more than five days from every destination) cuts the scan of its route short; the
    connection from the second start stop of the same route is lost. *)
Module Example2.
  (** Route: stop 0 -(6 days)-> stop 1 -(30 min)-> stop 2 = destination. Both 0 and 1 are starts. *)
  Definition v := mk_vehicle (fun s _ => match s with O => mk_delta 0 480 | 1%nat => mk_delta 6 480 | _ => mk_delta 6 510 end)
                             (fun d => (0 <=? d) && (d <? 100)).
  Definition st (l : Z) : stop := mk_stop l true true true true.
  Definition r := mk_route [st 0; st 1; st 2] 3 (fun _ => false) (fun _ => false) (fun _ _ => false) [v] None.
  Definition tt := mk_tt 3 [r] (fun _ => [0%nat]) (fun _ => 5) (fun _ => []) (fun _ => []) (fun _ d => (0 <=? d) && (d <? 200)).
  Definition D (l : nat) : Z := match l with 0%nat => 8670 | 1%nat => 30 | _ => 0 end.
  Definition P := mk_params true tt (fun l => Nat.eqb l 2) None 99
     (fun l => match l with 0%nat => 65535 | 1%nat => 30 | _ => 0 end) 10 (fun _ => true) (fun _ => false) (fun d => d).
  Definition g (starts : list (nat * Z)) := mk_group 470 (470 + 1440) starts.
End Example2.
Theorem C18_far_start_refuted : exists P starts1 starts2,
  let g s := mk_group 470 (470 + 1440) s in
  (* with one start the journey is found *)
  In (mk_journey 470 510 0) (snd (raptor P 5 [g starts1])) /\
  (* with an additional start it is lost *)
  (forall x, In x starts1 -> In x starts2) /\
  snd (raptor P 5 [g starts2]) = [].
Proof.
  exists Example2.P, [(1%nat, 470)], [(0%nat, 470); (1%nat, 470)].
  split; [vm_compute; auto|]. split; [cbn; tauto|]. vm_compute. reflexivity.
Qed.

Print Assumptions C16_first_catchable_vehicle.
Print Assumptions C17_reported_journeys_are_feasible.
Print Assumptions C18_search_is_optimal.
Print Assumptions C19_one_journey_per_transfer_count.
Print Assumptions C20_filters_never_violated.
