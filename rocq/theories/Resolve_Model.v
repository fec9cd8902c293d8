(** Model of the lookup of runs by trip descriptor: include/nigiri/rt/gtfsrt_resolve_run.h:20-145, src/rt/gtfsrt_resolve_run.cc:12-70,
    src/lookup/get_transport.cc:10-81, [run_stop::get_trip_start] (src/rt/frun.cc:58-100), and of how the GTFS loader writes what they read
    (src/loader/gtfs/load_timetable.cc:422-461).
    Days are day indices of the timetable's internal interval (dates minus [tt.internal_interval_days().from_]).
    Not modelled: parsing of protobuf, dates and times; log output; real-time lookup ([resolve_rt]). *)
From Coq Require Import List ZArith Bool Arith.
From Verif Require Import Base Calendar_Model Utc_Model.
Import ListNotations.
Local Open Scope Z_scope.

(** types.h:582-590 [delta(days, duration_t)]: five bits for the day offset plus one, eleven bits for the minutes plus 720. *)
Definition pack_offset (days minutes : Z) : Z * Z := ((days + 1) mod 32, (minutes + 720) mod 2048).
(** types.h:617-619 [delta::to_offset] *)
Definition to_offset (p : Z * Z) : Z * Z := (fst p - 1, snd p - 720).

(** What the timetable knows of a transport: [transport_first_dep_offset_], its event times (departure of stop 0, arrival at stop 1, ...;
    minutes), [transport_traffic_days_]. *)
Record vehicle := mk_veh { ve_offset : Z * Z; ve_times : list Z; ve_days : bitfield }.
Definition no_vehicle : vehicle := mk_veh (1, 720) [] bf_empty.
(** A run: transport, traffic day, stop range (rt/run.h). *)
Record found := mk_found { fo_transport : nat; fo_day : Z; fo_range : nat * nat }.

(** timetable.h: [trip_transport_ranges_], [trip_id_to_idx_] (sorted by source and id, here one key), [route_ids_[src].route_id_trips_] with
    the key of the route, [trip_direction_id_]. *)
Record schedule (key : Type) := mk_sched {
  sc_vehicles : list vehicle; sc_ranges : nat -> list (nat * (nat * nat)); sc_trip_ids : list (key * nat);
  sc_route_trips : key -> list nat; sc_direction : nat -> bool }.
Arguments sc_vehicles {key}. Arguments sc_ranges {key}. Arguments sc_trip_ids {key}. Arguments sc_route_trips {key}. Arguments sc_direction {key}.

(** gtfsrt_resolve_run.cc:12-16 *)
Definition split (i : Z) : Z * Z := (Z.quot i 1440, Z.rem i 1440).

Section Resolve.
  Context {key : Type}.
  Variable ltb : key -> key -> bool.
  Variable T : schedule key.
  Definition vehicle_of (t : nat) : vehicle := nth t (sc_vehicles T) no_vehicle.
  (** timetable.h:165-190 [event_mam] for a departure *)
  Definition departure (t stop : nat) : Z := nth (2 * stop) (ve_times (vehicle_of t)) 0.

  (** gtfsrt_resolve_run.h:27-65, one transport.  [date]: start date or today. *)
  Definition resolve_one (date : Z) (start_time : option Z) (t : nat) (range : nat * nat) : option found :=
    let '(first_dep_offset, tz_offset) := to_offset (ve_offset (vehicle_of t)) in
    let gtfs_static_dep := departure t (fst range) + first_dep_offset * 1440 + tz_offset in
    let '(dep_day, dep_time) := split gtfs_static_dep in
    let mismatch := match start_time with Some s => negb (dep_time =? snd (split s)) | None => false end in
    if mismatch then None else
    let start_time_day_offset := match start_time with Some s => dep_day - fst (split s) | None => 0 end in
    let day_idx := date + first_dep_offset - start_time_day_offset in
    if (day_idx >? kMaxDays) || (day_idx <? 0) then None
    else if bf_test (ve_days (vehicle_of t)) day_idx then Some (mk_found t day_idx range) else None.
  (** :20-66 [resolve_trip]: the runs handed to the callback as long as it continues. *)
  Definition resolve_trip (date : Z) (start_time : option Z) (trip : nat) : list found :=
    flat_map (fun tr => match resolve_one date start_time (fst tr) (snd tr) with Some r => [r] | None => [] end) (sc_ranges T trip).

  (** [std::lower_bound] (its specification: the first element that is not less) and the loop from there (:77-93, get_transport.cc:21-34). *)
  Fixpoint lower_bound (k : key) (l : list (key * nat)) : list (key * nat) :=
    match l with [] => [] | x :: l' => if ltb (fst x) k then lower_bound k l' else l end.
  Fixpoint while_equal (k : key) (l : list (key * nat)) : list nat :=
    match l with [] => [] | x :: l' => if negb (ltb (fst x) k) && negb (ltb k (fst x)) then snd x :: while_equal k l' else [] end.
  Definition trips_of_id (k : key) : list nat := while_equal k (lower_bound k (sc_trip_ids T)).
  (** :68-94 [resolve_static_trip_id], per trip of that id *)
  Definition resolve_static_trip_id (date : Z) (start_time : option Z) (k : key) : list (list found) := map (resolve_trip date start_time) (trips_of_id k).
  (** :96-115 [resolve_static_route] *)
  Definition resolve_static_route (date start_time : Z) (route : key) (direction : bool) : list (list found) :=
    map (resolve_trip date (Some start_time)) (filter (fun t => Bool.eqb (sc_direction T t) direction) (sc_route_trips T route)).
  (** gtfsrt_resolve_run.cc:18-29: the callback stops [resolve_trip], not the loop over the trips of the id. *)
  Definition first_run (l : list (list found)) : option found := fold_left (fun acc runs => match runs with [] => acc | r :: _ => Some r end) l None.

  (** frun.cc:58-100 [get_trip_start] of a scheduled run; [sections]: the trip of every section of the transport, [stop]: a stop of the trip,
      [trip]: the trip asked for. *)
  Fixpoint first_trip_stop (sections : list nat) (trip stop : nat) : nat :=
    match stop with
    | O => O
    | S s => if Nat.eqb (nth s sections 0%nat) trip then first_trip_stop sections trip s else stop
    end.
  Definition get_trip_start (sections : list nat) (trip : nat) (t : nat) (day : Z) (stop : nat) : Z * Z :=
    let '(first_dep_offset, tz_offset) := to_offset (ve_offset (vehicle_of t)) in
    (day - first_dep_offset, departure t (first_trip_stop sections trip stop) + first_dep_offset * 1440 + tz_offset).

  (** get_transport.cc:35-62: [tz t]: UTC offset at noon of [day] in the zone of the transport's first provider (0 unless a local day is asked
      for). *)
  Definition schedule_transport (tz : nat -> Z) (day : Z) (t : nat) (range : nat * nat) : option found :=
    let day_offset := Z.quot (departure t (fst range) + tz t) 1440 in
    let t_day := day - day_offset in
    if bf_test (ve_days (vehicle_of t)) t_day then Some (mk_found t t_day range) else None.
  Definition for_each_schedule_transport (tz : nat -> Z) (day : Z) (k : key) : list found :=
    flat_map (fun trip => flat_map (fun tr => match schedule_transport tz day (fst tr) (snd tr) with Some r => [r] | None => [] end) (sc_ranges T trip)) (trips_of_id k).
  (** :67-81 [get_ref_transport] *)
  Definition range_size (r : nat * nat) : nat := snd r - fst r.
  Definition get_ref_transport (tz : nat -> Z) (day : Z) (k : key) : option found :=
    fold_left (fun acc r => match acc with
                            | None => Some r
                            | Some a => if Nat.ltb (range_size (fo_range a)) (range_size (fo_range r)) then Some r else acc
                            end) (for_each_schedule_transport tz day k) None.
End Resolve.

(** load_timetable.cc:422-433: the stop ranges of the trips of a vehicle: neighbours share a stop. *)
Fixpoint trip_ranges (prev_end : nat) (trips : list gtfs_trip) : list (nat * (nat * nat)) :=
  match trips with
  | [] => []
  | t :: l => let e := (prev_end + length (gt_stop_seq t))%nat in (gt_id t, (prev_end, e)) :: trip_ranges (e - 1) l
  end.
(** load_timetable.cc:422-461 and 466-478: transports in the order of [vs] (the order in which routes are written). *)
Definition loaded_vehicle (u : utc_trip) : vehicle := mk_veh (pack_offset (ut_first_dep_offset u) (ut_tz_offset u)) (ut_times u) (ut_days u).
Definition loaded_ranges (vs : list utc_trip) (trip : nat) : list (nat * (nat * nat)) :=
  flat_map (fun iv => map (fun x => (fst iv, snd x)) (filter (fun x => Nat.eqb (fst x) trip) (trip_ranges 0 (ut_trips (snd iv))))) (combine (seq 0 (length vs)) vs).
Definition loaded {key : Type} (vs : list utc_trip) (ids : list (key * nat)) (routes : key -> list nat) (direction : nat -> bool) : schedule key :=
  mk_sched key (map loaded_vehicle vs) (loaded_ranges vs) ids routes direction.
