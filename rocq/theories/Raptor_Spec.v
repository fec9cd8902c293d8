(** Specification of journey planning, independent of the search algorithm: which vehicles run, which rides
    are possible, how rides are chained by transfers and footpaths, what a connection is.  Only the data
    types of the model (timetable, query parameters) are used; none of the functions of the search.
    All times are minutes relative to the search's base day. *)
From Coq Require Import List ZArith Bool Arith.
From Verif Require Import Time_Model Raptor_Model.
Import ListNotations.
Local Open Scope Z_scope.

Section Spec.
  Variable P : params.
  Notation fwd := (p_fwd P).
  Notation tt := (p_tt P).

  (** Time order as seen by the traveller's search direction: a backward search starts at the arrival and
      walks towards the past. *)
  Definition no_later (a b : Z) : Prop := if fwd then a <= b else b <= a.
  Definition after (t d : Z) : Z := if fwd then t + d else t - d.

  (** Absolute time of an event of a vehicle whose first departure day is [day]. *)
  Definition event_time (v : vehicle) (day : Z) (s : nat) (e : ev_type) : Z :=
    (day - p_base P) * 1440 + d_days (v_ev v s e) * 1440 + d_mam (v_ev v s e).

  (** The vehicle runs on [day]: the day is one of the timetable's (bit set of 512 days). *)
  Definition runs_on (v : vehicle) (day : Z) : Prop := 0 <= day < 512 /\ v_days v day = true.

  (** Where a traveller may get on / off in search direction. *)
  Definition wheelchair : bool := p_require P 2.
  Definition get_on_allowed (s : stop) : bool :=
    match fwd, wheelchair with
    | true, false => s_in s | true, true => s_win s | false, false => s_out s | false, true => s_wout s
    end.
  Definition get_off_allowed (s : stop) : bool :=
    match fwd, wheelchair with
    | true, false => s_out s | true, true => s_wout s | false, false => s_in s | false, true => s_win s
    end.
  (** Flag [f] (0 bikes, 1 cars, 2 wheelchair, 3 no reservation) holds on the section between stops [sec]
      and [sec + 1] of a route. *)
  Definition section_has (r : route) (sec f : nat) : Prop :=
    r_flag_all r f = true \/ (r_flag_some r f = true /\ r_flag_section r f sec = true).

  (** A ride on one vehicle that satisfies all filters of the query: enter at location [l] at time [tb],
      leave at location [l'] at time [ta] (in search direction: a backward search enters at the arrival). *)
  Inductive ride_ok (l : nat) (tb : Z) (l' : nat) (ta : Z) : Prop :=
  | ride_intro : forall ri r vi v day s s' st st',
      nth_error (tt_routes tt) ri = Some r ->
      nth_error (r_vehicles r) vi = Some v ->
      runs_on v day ->
      nth_error (r_stops r) s = Some st -> nth_error (r_stops r) s' = Some st' ->
      (if fwd then (s < s')%nat else (s' < s)%nat) ->
      Z.to_nat (s_loc st) = l -> Z.to_nat (s_loc st') = l' ->
      get_on_allowed st = true -> get_off_allowed st' = true ->
      p_allowed_clasz P (r_clasz r) = true ->
      (forall f sec, (f < 4)%nat -> p_require P f = true ->
                     (Nat.min s s' <= sec < Nat.max s s')%nat -> section_has r sec f) ->
      tb = event_time v day s (if fwd then kDep else kArr) ->
      ta = event_time v day s' (if fwd then kArr else kDep) ->
      ride_ok l tb l' ta.

  (** Footpaths in search direction and their duration under the query's transfer time settings. *)
  Definition walk (l l' : nat) (d : Z) : Prop :=
    exists d0, In (l', d0) (if fwd then tt_footpaths_out tt l else tt_footpaths_in tt l) /\ d = p_adjust P d0.

  (** [St l t]: the traveller may be at [l] at [t] at the beginning.  [tr l]: transfer time at [l]. *)
  Section Connections.
    Variable St : nat -> Z -> Prop.
    Variable tr : nat -> Z.
    (** [ready k l t]: able to board at [l] at [t] after [k] rides; [arrived k l t]: just left the [k]-th vehicle. *)
    Inductive ready : nat -> nat -> Z -> Prop :=
    | ready_start l t : St l t -> ready 0 l t
    | ready_transfer k l t : arrived k l t -> ready k l (after t (tr l))
    | ready_walk k l t l' d : arrived k l t -> walk l l' d -> ready k l' (after t d)
    with arrived : nat -> nat -> Z -> Prop :=
    | arrived_ride k l t tb l' ta :
        ready k l t -> no_later t tb -> ride_ok l tb l' ta -> arrived (S k) l' ta.

    (** A connection with [k] rides that reaches destination [l] at time [t]: alighting at a destination
        (queries with station destinations), walking to one, or - queries with an offset table - leaving a
        vehicle at a stop with an offset to the (virtual) end. *)
    Inductive connection (k : nat) (l : nat) (t : Z) : Prop :=
    | conn_station : p_dist_to_end P = None -> p_is_dest P l = true -> arrived k l t -> connection k l t
    | conn_walk l0 t0 d : p_dist_to_end P = None -> p_is_dest P l = true ->
        arrived k l0 t0 -> walk l0 l d -> t = after t0 d -> connection k l t
    | conn_offset off l0 t0 d : p_dist_to_end P = Some off -> p_is_dest P l = true -> l = p_end P ->
        arrived k l0 t0 -> off l0 = Some d -> t = after t0 d -> connection k l t.
  End Connections.

  (** Transfer time of the query at a location. *)
  Definition transfer_time (l : nat) : Z := p_adjust P (tt_transfer_time tt l).

  (** *** Well-formedness of the timetable *)
  Definition event_minutes (v : vehicle) (s : nat) (e : ev_type) : Z := d_days (v_ev v s e) * 1440 + d_mam (v_ev v s e).
  Definition vehicle_wf (r : route) (v : vehicle) : Prop :=
    (forall s e, (s < length (r_stops r))%nat ->
       0 <= d_mam (v_ev v s e) < 1440 /\ 0 <= d_days (v_ev v s e) /\ event_minutes v s e <= 32767) /\
    (forall s, (s < length (r_stops r))%nat -> event_minutes v s kArr <= event_minutes v s kDep) /\
    (forall s s', (s < s' < length (r_stops r))%nat -> event_minutes v s kDep <= event_minutes v s' kArr).
  (** A real-time transport is one vehicle on one day. *)
  Definition rt_routes_ok : Prop :=
    forall ri r day, nth_error (tt_routes tt) ri = Some r -> r_rt r = Some day ->
      0 <= day < 512 /\ exists v, r_vehicles r = [v] /\ forall d, v_days v d = (d =? day).
  Definition all_vehicles_wf : Prop :=
    (forall ri r v, nth_error (tt_routes tt) ri = Some r -> In v (r_vehicles r) -> vehicle_wf r v) /\ rt_routes_ok.
  (** Each stop column of each route is sorted by minutes after midnight (property C14). *)
  Definition columns_sorted : Prop :=
    forall ri r i j v w s e, nth_error (tt_routes tt) ri = Some r -> (i <= j)%nat ->
      nth_error (r_vehicles r) i = Some v -> nth_error (r_vehicles r) j = Some w ->
      (s < length (r_stops r))%nat -> d_mam (v_ev v s e) <= d_mam (v_ev w s e).
  (** Locations used by the timetable and the query exist. *)
  Definition locations_ok : Prop :=
    (forall ri r st, nth_error (tt_routes tt) ri = Some r -> In st (r_stops r) ->
       (Z.to_nat (s_loc st) < tt_n_locations tt)%nat) /\
    (forall l l' d, In (l', d) (if fwd then tt_footpaths_out tt l else tt_footpaths_in tt l) -> (l' < tt_n_locations tt)%nat) /\
    (forall l, p_is_dest P l = true -> (l < tt_n_locations tt)%nat).
  Definition durations_ok : Prop :=
    (forall d, 0 <= d -> 0 <= p_adjust P d) /\ (forall l, 0 <= tt_transfer_time tt l) /\
    (forall l l' d, In (l', d) (if fwd then tt_footpaths_out tt l else tt_footpaths_in tt l) -> 0 <= d) /\
    (forall off l d, p_dist_to_end P = Some off -> off l = Some d -> 0 <= d).
  (** Route index of the locations, route level traffic days (property C32). *)
  Definition index_ok : Prop :=
    (forall ri r st, nth_error (tt_routes tt) ri = Some r -> In st (r_stops r) ->
       In ri (tt_location_routes tt (Z.to_nat (s_loc st)))) /\
    (forall ri r v day s e, nth_error (tt_routes tt) ri = Some r -> In v (r_vehicles r) -> runs_on v day ->
       (s < length (r_stops r))%nat ->
       0 <= day + d_days (v_ev v s e) < 512 /\ tt_route_active tt ri (day + d_days (v_ev v s e)) = true).
  (** No overtaking (property C15): of two running vehicles of one route, the one that can be boarded earlier at
      a stop - on a tie: the one that comes first in the route's vehicle order (backwards: last) - is no later at
      every further stop. *)
  Definition ahead (i j : nat) : Prop := if fwd then (i <= j)%nat else (j <= i)%nat.
  Definition fifo : Prop :=
    forall ri r i v day j w day' s s', nth_error (tt_routes tt) ri = Some r ->
      nth_error (r_vehicles r) i = Some v -> nth_error (r_vehicles r) j = Some w -> runs_on v day -> runs_on w day' ->
      (s < length (r_stops r))%nat -> (s' < length (r_stops r))%nat -> (if fwd then (s < s')%nat else (s' < s)%nat) ->
      let tv := event_time v day s (if fwd then kDep else kArr) in
      let tw := event_time w day' s (if fwd then kDep else kArr) in
      no_later tv tw -> (tv = tw -> ahead i j) ->
      no_later (event_time v day s' kArr) (event_time w day' s' kArr) /\
      no_later (event_time v day s' kDep) (event_time w day' s' kDep).
End Spec.

(** Timetables without real-time transports. *)
Definition static_only (P : params) : Prop := forall ri r, nth_error (tt_routes (p_tt P)) ri = Some r -> r_rt r = None.
Lemma static_rt_ok P : static_only P -> rt_routes_ok P.
Proof. intros H ri r day Hr E. rewrite (H _ _ Hr) in E. discriminate. Qed.

(** The virtual end of a query with an offset table: the only destination, no vehicle stops there, no footpath
    leads there (src/special_stations.h: [special_station::kEnd] is a synthetic location). *)
Definition end_ok (P : params) : Prop :=
  p_dist_to_end P <> None ->
  (forall l, p_is_dest P l = true <-> l = p_end P) /\
  (forall ri r st, nth_error (tt_routes (p_tt P)) ri = Some r -> In st (r_stops r) -> Z.to_nat (s_loc st) <> p_end P) /\
  (forall l d, ~ In (p_end P, d) (if p_fwd P then tt_footpaths_out (p_tt P) l else tt_footpaths_in (p_tt P) l)).

(** Every flag the query requires is set at least on some section of the route. *)
Definition has_required_flags (P : params) (r : route) : Prop :=
  forall f, (f < 4)%nat -> p_require P f = true -> r_flag_all r f = true \/ r_flag_some r f = true.

(** *** Lower bounds: [D l] is some consistent estimate of the remaining travel time (properties C21, C22
    show that the search's own pre-processing yields one); the array handed to the search never exceeds it,
    except where it is more than five days. *)
Record lower_bounds_ok (P : params) (D : nat -> Z) : Prop := mk_lbok {
  lb_nonneg : forall l, 0 <= D l;
  lb_value : forall l, (p_dist_to_end P <> None -> l <> p_end P) -> D l <= 7200 -> p_lb P l <= D l;
  lb_ride : forall ri r v s s' st st',
      nth_error (tt_routes (p_tt P)) ri = Some r -> In v (r_vehicles r) ->
      nth_error (r_stops r) s = Some st -> nth_error (r_stops r) s' = Some st' ->
      (if p_fwd P then (s < s')%nat else (s' < s)%nat) ->
      get_on_allowed P st = true -> get_off_allowed P st' = true -> has_required_flags P r ->
      D (Z.to_nat (s_loc st)) <= Z.abs (event_minutes v s' (if p_fwd P then kArr else kDep)
                                        - event_minutes v s (if p_fwd P then kDep else kArr))
                                 + D (Z.to_nat (s_loc st'));
  lb_walk : forall l l' d, walk P l l' d -> D l <= d + D l';
  lb_dest : forall l, p_is_dest P l = true -> D l = 0;
  lb_offset : forall off l d, p_dist_to_end P = Some off -> off l = Some d -> D l <= d }.

(** A start location whose lower bound says "no destination within five days" must not share a route with a
    later stop that has a finite bound (otherwise the scan of that route is cut short, see
    [C18_break_refuted]); the scan of a real-time vehicle is cut short by any such stop, reached or not
    ([C52_break_refuted]). *)
Definition starts_reach_ok (P : params) (St : nat -> Z -> Prop) : Prop :=
  (forall l t ri r s s' st st', St l t -> p_lb P l = 65535 ->
    nth_error (tt_routes (p_tt P)) ri = Some r ->
    nth_error (r_stops r) s = Some st -> nth_error (r_stops r) s' = Some st' ->
    (if p_fwd P then (s < s')%nat else (s' < s)%nat) ->
    Z.to_nat (s_loc st) = l -> get_on_allowed P st = true -> get_off_allowed P st' = true ->
    p_lb P (Z.to_nat (s_loc st')) = 65535) /\
  (forall ri r day s s' st st', nth_error (tt_routes (p_tt P)) ri = Some r -> r_rt r = Some day ->
    nth_error (r_stops r) s = Some st -> nth_error (r_stops r) s' = Some st' ->
    (if p_fwd P then (s < s')%nat else (s' < s)%nat) ->
    p_lb P (Z.to_nat (s_loc st)) = 65535 -> get_off_allowed P st' = true ->
    p_lb P (Z.to_nat (s_loc st')) = 65535).
