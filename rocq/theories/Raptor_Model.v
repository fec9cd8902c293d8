(** Model of the round-based search (include/nigiri/routing/raptor/raptor.h), template instance
    [raptor<SearchDir, Rt, Vias = 0, SearchMode::kOneToOne>] without pruning bounds
    ([bounds_last_k_ = 0]) and without time-dependent offsets.  [Rt = true] is the case of a timetable with real-time
    transports (routes with [r_rt <> None]).  Both search directions, route/section
    filters, wheelchair, lower bounds, destination pruning, station and intermodal destinations and
    multiple start times (range search with persistent labels) are modelled.
    Not modelled: vias, ping/pong bounds, td footpaths, statistics, tracing.
    Arrays indexed by location are total functions; every index the code uses is < n_locations. *)
From Coq Require Import List ZArith Bool Arith.
From Verif Require Import Base Time_Model Pareto_Model.
Import ListNotations.
Local Open Scope Z_scope.

Definition upd {A} (f : nat -> A) (i : nat) (x : A) : nat -> A := fun j => if Nat.eqb i j then x else f j.

(** ** Timetable as the search sees it (include/nigiri/timetable.h) *)
Inductive ev_type := kArr | kDep.
(** One transport: event times per stop (timetable.h:166-183 [event_mam]) and its traffic days. *)
Record vehicle := mk_vehicle { v_ev : nat -> ev_type -> delta; v_days : Z -> bool }.
(** One route: stop sequence, class, flags (types.h [route_flag]: 0 = bikes, 1 = cars, 2 = wheelchair,
    3 = reservation not required): set on all / on some sections / per section; its transports.
    [r_rt = Some day]: not a route of the static timetable but one real-time transport (rt/rt_timetable.h): one vehicle that
    runs on one day, with the stops and times of the real-time data.  As the search scans the routes first
    (raptor.h:252-330, [loop_routes]) and the real-time transports afterwards ([loop_rt_routes]), these entries come after all
    static ones in [tt_routes]; their indices in [tt_location_routes] stand for [rtt.location_rt_transports_]. *)
Record route := mk_route {
  r_stops : list stop; r_clasz : nat;
  r_flag_all : nat -> bool; r_flag_some : nat -> bool; r_flag_section : nat -> nat -> bool;
  r_vehicles : list vehicle;
  r_rt : option Z }.
Record timetable := mk_tt {
  tt_n_locations : nat;
  tt_routes : list route;
  tt_location_routes : nat -> list nat;
  tt_transfer_time : nat -> Z;
  tt_footpaths_out : nat -> list (nat * Z);
  tt_footpaths_in : nat -> list (nat * Z);
  tt_route_active : nat -> Z -> bool }.

Definition kMaxDays : Z := 512.              (* types.h: bitfield = bitset<kMaxDays> *)
Definition kMaxTransfers : nat := 14.        (* limits.h:9 *)
Definition kMaxTravelTime : Z := 7200.       (* limits.h:10 : 5_days *)
Definition kUnreachable : Z := 65535.        (* raptor.h:37-38 *)

(** timetable.h:147-149 / bitset::test: false outside the bit set.  Negative days wrap to large unsigned
    indices in the code and are therefore inactive as well. *)
Definition is_transport_active (v : vehicle) (day : Z) : bool :=
  (0 <=? day) && (day <? kMaxDays) && v_days v day.
Definition is_route_active (tt : timetable) (r : nat) (day : Z) : bool :=
  (0 <=? day) && (day <? kMaxDays) && tt_route_active tt r day.

(** ** Query parameters handed to the constructor (raptor.h:55-110) *)
Record params := mk_params {
  p_fwd : bool;                              (* SearchDir *)
  p_tt : timetable;
  p_is_dest : nat -> bool;
  p_dist_to_end : option (nat -> option Z);  (* None: not intermodal; kUnreachable entries: None *)
  p_end : nat;                               (* kIntermodalTarget *)
  p_lb : nat -> Z;
  p_base : Z;
  p_allowed_clasz : nat -> bool;
  p_require : nat -> bool;                   (* require flag f (bike/car/wheelchair/no reservation) *)
  p_adjust : Z -> Z                          (* adjusted_transfer_time(settings, .) *)
}.

Section Raptor.
  Variable P : params.
  Notation fwd := (p_fwd P).
  Notation tt := (p_tt P).

  Definition kInvalid : Z := if fwd then i16_max else i16_min.                          (* raptor.h:36 *)
  Definition is_better (a b : Z) : bool := if fwd then a <? b else b <? a.             (* :47 *)
  Definition is_better_or_eq (a b : Z) : bool := if fwd then a <=? b else b <=? a.     (* :48 *)
  Definition get_best (a b : Z) : Z := if is_better a b then a else b.                 (* :49 *)
  Definition dir (a : Z) : Z := if fwd then a else - a.                                (* :54 *)
  Definition is_wheelchair : bool := p_require P 2.
  Definition is_intermodal_dest : bool := match p_dist_to_end P with Some _ => true | None => false end.
  Definition lb_reachable (l : nat) : bool := negb (p_lb P l =? kUnreachable).         (* raptor.h:438-445 *)
  Definition to_delta (day mam : Z) : Z := clamp16 ((day - p_base P) * 1440 + mam).     (* :1462-1464 *)

  (** Event at which a vehicle is boarded / left in search direction. *)
  Definition board_ev : ev_type := if fwd then kDep else kArr.
  Definition alight_ev : ev_type := if fwd then kArr else kDep.

  (** A ride: transport index in the route, day of its first departure. *)
  Definition ride := (nat * Z)%type.
  Definition vehicle_of (r : route) (t : nat) : vehicle := nth t (r_vehicles r) (mk_vehicle (fun _ _ => mk_delta 0 0) (fun _ => false)).
  (** raptor.h:1447-1453 *)
  Definition time_at_stop (r : route) (x : ride) (stop_idx : nat) (e : ev_type) : Z :=
    to_delta (snd x) (delta_count (v_ev (vehicle_of r (fst x)) stop_idx e)).

  (** *** get_earliest_transport (raptor.h:1347-1436) *)
  Inductive scan_result := Found (x : ride) | Pruned | NoneFound.
  (** Inner loop :1382-1432 over the (remaining) events of one day. *)
  Fixpoint scan_events (r : route) (l : nat) (tad : Z) (first_day : bool) (day mam : Z)
           (evs : list (nat * delta)) : scan_result :=
    match evs with
    | [] => NoneFound
    | (t, ev) :: rest =>
        if negb (is_better_or_eq (to_delta day (d_mam ev) + dir (p_lb P l)) tad) then Pruned
        else if first_day && negb (is_better_or_eq mam (d_mam ev)) then scan_events r l tad first_day day mam rest
        else if negb (is_transport_active (vehicle_of r t) (day - d_days ev))
             then scan_events r l tad first_day day mam rest
             else Found (t, day - d_days ev)
    end.
  (** linear_lb (common/linear_lower_bound.h:7-15) with the comparison of :1360-1365. *)
  Fixpoint seek_first_day (mam : Z) (evs : list (nat * delta)) : list (nat * delta) :=
    match evs with
    | [] => []
    | (t, ev) :: rest => if is_better (d_mam ev) mam then seek_first_day mam rest else evs
    end.
  (** [event_times_at_stop] in iteration order ([get_begin_it]/[get_end_it] :1489-1505). *)
  Definition events_at_stop (r : route) (stop_idx : nat) : list (nat * delta) :=
    let evs := combine (seq 0 (length (r_vehicles r)))
                       (map (fun v => v_ev v stop_idx board_ev) (r_vehicles r)) in
    if fwd then evs else rev evs.
  (** Outer loop :1373-1434 over [n_days_to_iterate] = kMaxTravelTime / 1 day + 1 = 6 days. *)
  Fixpoint scan_days (r_idx : nat) (r : route) (l : nat) (tad : Z) (evs : list (nat * delta))
           (day_at_stop mam : Z) (i n : nat) : option ride :=
    match n with
    | O => None
    | S n' =>
        let day := day_at_stop + dir (Z.of_nat i) in
        if negb (is_route_active tt r_idx day) then scan_days r_idx r l tad evs day_at_stop mam (S i) n'
        else
          let range := if Nat.eqb i 0 then seek_first_day mam evs else evs in
          match scan_events r l tad (Nat.eqb i 0) day mam range with
          | Found x => Some x
          | Pruned => None
          | NoneFound => scan_days r_idx r l tad evs day_at_stop mam (S i) n'
          end
    end.
  Definition n_days_to_iterate : nat := 6.
  Definition get_earliest_transport (r_idx : nat) (r : route) (stop_idx l : nat) (tad : Z) (prev_time : Z)
    : option ride :=
    let (day, mam) := let minutes := p_base P * 1440 + prev_time in (Z.quot minutes 1440, Z.rem minutes 1440) in
    scan_days r_idx r l tad (events_at_stop r stop_idx) day mam 0 n_days_to_iterate.

  (** *** Search state (raptor_state + time_at_dest_) *)
  Record state := mk_state {
    s_tmp : nat -> Z; s_best : nat -> Z; s_rt : nat -> nat -> Z; s_tad : nat -> Z;
    s_mark : nat -> bool; s_prev : nat -> bool }.

  (** raptor.h:1477-1484: improves the destination bound of this and all later rounds. *)
  Definition update_time_at_dest (tad : nat -> Z) (k : nat) (t : Z) : nat -> Z :=
    fun i => if Nat.leb k i then get_best (tad i) t else tad i.

  (** *** update_route (raptor.h:1177-1345) *)
  Record scan := mk_scan { sc_et : option ride; sc_tmp : nat -> Z; sc_mark : nat -> bool; sc_break : bool }.
  (** Section filters that have to be evaluated for a route (raptor.h:503-543): the flag is required and not
      set on all sections. *)
  Definition section_filter (r : route) (f : nat) : bool := p_require P f && negb (r_flag_all r f).
  Definition section_ok (r : route) (section : nat) : bool :=
    forallb (fun f => negb (section_filter r f) || r_flag_section r f section) [0%nat; 1%nat; 2%nat; 3%nat].
  Definition stop_at (r : route) (s : nat) : stop := nth s (r_stops r) (mk_stop 0 false false false false).
  Definition loc_at (r : route) (s : nat) : nat := Z.to_nat (s_loc (stop_at r s)).
  (** :1189-1190: position i in scan order -> stop index. *)
  Definition stop_idx_of (r : route) (i : nat) : nat := if fwd then i else (length (r_stops r) - i - 1)%nat.
  (** Section entered when arriving at position i (:1196-1201). *)
  Definition section_before (r : route) (i : nat) : nat := if fwd then (stop_idx_of r i - 1)%nat else stop_idx_of r i.

  Definition scan_stop (k : nat) (r_idx : nat) (r : route) (best : nat -> Z) (rt_prev : nat -> Z) (tad : Z)
             (prev_mark : nat -> bool) (c : scan) (i : nat) : scan :=
    if sc_break c then c else
    let n := length (r_stops r) in
    let s := stop_idx_of r i in
    let stp := stop_at r s in
    let l := loc_at r s in
    let is_last := Nat.eqb i (n - 1) in
    let et := if negb (Nat.eqb i 0) && negb (section_ok r (section_before r i)) then None else sc_et c in
    (* alighting :1245-1301 *)
    let '(cb, tmp, mark) :=
      match et with
      | Some x =>
          if can_finish fwd is_wheelchair stp then
            let by_transport := time_at_stop r x s alight_ev in
            let cb := get_best (get_best (rt_prev l) (sc_tmp c l)) (best l) in
            if is_better_or_eq by_transport tad && lb_reachable l
               && is_better_or_eq (by_transport + dir (p_lb P l)) tad
            then (get_best by_transport cb, upd (sc_tmp c) l (get_best by_transport (sc_tmp c l)), upd (sc_mark c) l true)
            else (cb, sc_tmp c, sc_mark c)
          else (kInvalid, sc_tmp c, sc_mark c)
      | None => (kInvalid, sc_tmp c, sc_mark c)
      end in
    (* boarding :1303-1341 *)
    if is_last || negb (can_start fwd is_wheelchair stp) || negb (prev_mark l)
    then mk_scan et tmp mark false
    else if negb (lb_reachable l) then mk_scan et tmp mark true
    else
      let et_time := match et with Some x => time_at_stop r x s board_ev | None => kInvalid end in
      let prev_time := rt_prev l in
      if negb (prev_time =? kInvalid) && is_better_or_eq prev_time et_time then
        match get_earliest_transport r_idx r s l tad prev_time with
        | Some x =>
            let cb' := get_best (get_best cb (best l)) (tmp l) in
            if (cb' =? kInvalid) || is_better_or_eq (time_at_stop r x s board_ev) et_time
            then mk_scan (Some x) tmp mark false
            else mk_scan et tmp mark false
        | None => mk_scan et tmp mark false
        end
      else mk_scan et tmp mark false.

  (** *** update_rt_transport (raptor.h:1056-1175): no search for the earliest transport, no pruning before boarding, and the
      scan ends at the first stop from which the destination is out of reach - whether or not the stop was reached and may be
      boarded (:1149-1151).  [et] is a flag in the code: [Some (0, day)] here. *)
  Definition scan_rt_stop (r : route) (day : Z) (rt_prev : nat -> Z) (tad : Z) (prev_mark : nat -> bool) (c : scan) (i : nat) : scan :=
    if sc_break c then c else
    let n := length (r_stops r) in
    let s := stop_idx_of r i in
    let stp := stop_at r s in
    let l := loc_at r s in
    let is_last := Nat.eqb i (n - 1) in
    let et := if negb (Nat.eqb i 0) && negb (section_ok r (section_before r i)) then None else sc_et c in
    (* alighting :1107-1147 *)
    let '(tmp, mark) :=
      match et with
      | Some x =>
          let by_transport := time_at_stop r x s alight_ev in
          if negb (Nat.eqb i 0) && can_finish fwd is_wheelchair stp && is_better_or_eq by_transport tad && lb_reachable l
             && is_better_or_eq (by_transport + dir (p_lb P l)) tad
          then (upd (sc_tmp c) l (get_best by_transport (sc_tmp c l)), upd (sc_mark c) l true)
          else (sc_tmp c, sc_mark c)
      | None => (sc_tmp c, sc_mark c)
      end in
    if negb (lb_reachable l) then mk_scan et tmp mark true
    else if is_last || negb (can_start fwd is_wheelchair stp) || negb (prev_mark l) then mk_scan et tmp mark false
    (* boarding :1158-1165 *)
    else if is_better_or_eq (rt_prev l) (time_at_stop r (0%nat, day) s board_ev) then mk_scan (Some (0%nat, day)) tmp mark false
    else mk_scan et tmp mark false.

  Definition update_route (k : nat) (r_idx : nat) (r : route) (s : state) : state :=
    let c := fold_left (match r_rt r with
                        | None => scan_stop k r_idx r (s_best s) (s_rt s (k - 1)) (s_tad s k) (s_prev s)
                        | Some day => scan_rt_stop r day (s_rt s (k - 1)) (s_tad s k) (s_prev s)
                        end)
                       (seq 0 (length (r_stops r))) (mk_scan None (s_tmp s) (s_mark s) false) in
    mk_state (sc_tmp c) (s_best s) (s_rt s) (s_tad s) (sc_mark c) (s_prev s).

  (** *** loop_routes / loop_rt_routes (raptor.h:480-575, :577-674): class filter, route flags, then update_route /
      update_rt_transport. *)
  Definition route_allowed (r : route) : bool :=
    p_allowed_clasz P (r_clasz r)
    && forallb (fun f => negb (p_require P f) || r_flag_all r f || r_flag_some r f) [0%nat; 1%nat; 2%nat; 3%nat].
  Definition loop_routes (k : nat) (route_mark : nat -> bool) (s : state) : state :=
    fold_left (fun s r_idx =>
                 match nth_error (tt_routes tt) r_idx with
                 | Some r => if route_mark r_idx && route_allowed r then update_route k r_idx r s else s
                 | None => s
                 end)
              (seq 0 (length (tt_routes tt))) s.

  (** *** update_transfers (raptor.h:676-745) *)
  Definition transfer_to (k : nat) (target : nat) (fp_target_time : Z) (is_dest : bool) (s : state) : state :=
    let better := is_better fp_target_time (s_best s target) in
    let rt := if better then upd (s_rt s) k (upd (s_rt s k) target (get_best fp_target_time (s_rt s k target)))
              else s_rt s in
    if better && is_better_or_eq fp_target_time (s_tad s k)
       && (lb_reachable target && is_better_or_eq (fp_target_time + dir (p_lb P target)) (s_tad s k))
    then mk_state (s_tmp s) (upd (s_best s) target fp_target_time)
                  (upd rt k (upd (rt k) target fp_target_time))
                  (if is_dest then update_time_at_dest (s_tad s) k fp_target_time else s_tad s)
                  (upd (s_mark s) target true) (s_prev s)
    else mk_state (s_tmp s) (s_best s) rt (s_tad s) (s_mark s) (s_prev s).

  Definition update_transfers (k : nat) (s : state) : state :=
    fold_left (fun s i =>
                 if s_prev s i && negb (s_tmp s i =? kInvalid) then
                   let transfer_time := if negb is_intermodal_dest && p_is_dest P i then 0
                                        else dir (p_adjust P (tt_transfer_time tt i)) in
                   transfer_to k i (clamp16 (s_tmp s i + transfer_time)) (p_is_dest P i) s
                 else s)
              (seq 0 (tt_n_locations tt)) s.

  (** *** update_intermodal_footpaths (raptor.h:954-1043, without td offsets) *)
  Definition update_intermodal_footpaths (k : nat) (s : state) : state :=
    match p_dist_to_end P with
    | None => s
    | Some dist_to_end =>
        fold_left (fun s i =>
                     match s_prev s i, dist_to_end i with
                     | true, Some d =>
                         if s_tmp s i =? kInvalid then s else
                         let end_time := clamp16 (s_tmp s i + dir d) in
                         if is_better_or_eq end_time (s_tad s k)
                         then mk_state (s_tmp s) (upd (s_best s) (p_end P) end_time)
                                       (upd (s_rt s) k (upd (s_rt s k) (p_end P) end_time))
                                       (update_time_at_dest (s_tad s) k end_time) (s_mark s) (s_prev s)
                         else s
                     | _, _ => s
                     end)
                  (seq 0 (tt_n_locations tt)) s
    end.

  (** *** update_footpaths (raptor.h:747-845) *)
  Definition footpaths_of (i : nat) : list (nat * Z) := if fwd then tt_footpaths_out tt i else tt_footpaths_in tt i.
  Definition update_footpaths (k : nat) (s : state) : state :=
    fold_left (fun s i =>
                 if s_prev s i then
                   fold_left (fun s (fp : nat * Z) =>
                                if s_tmp s i =? kInvalid then s else
                                transfer_to k (fst fp) (clamp16 (s_tmp s i + dir (p_adjust P (snd fp))))
                                            (p_is_dest P (fst fp)) s)
                             (footpaths_of i) s
                 else s)
              (seq 0 (tt_n_locations tt)) s.

  (** *** One round (body of the loop raptor.h:215-388); [None] = break before scanning any route. *)
  Definition route_marks (s : state) : nat -> bool :=
    fun r => existsb (fun i => s_mark s i && existsb (Nat.eqb r) (tt_location_routes tt i)) (seq 0 (tt_n_locations tt)).
  Definition any_marked (s : state) : bool :=
    existsb (fun i => s_mark s i && negb (Nat.eqb (length (tt_location_routes tt i)) 0)) (seq 0 (tt_n_locations tt)).
  (** :216-223 *)
  Definition merge_best (k : nat) (s : state) : state :=
    let best := fun i => if Nat.ltb i (tt_n_locations tt) then get_best (s_rt s k i) (s_best s i) else s_best s i in
    let tad := fold_left (fun tad i => if p_is_dest P i then update_time_at_dest tad k (best i) else tad)
                         (seq 0 (tt_n_locations tt)) (s_tad s) in
    mk_state (s_tmp s) best (s_rt s) tad (s_mark s) (s_prev s).
  Definition round (k : nat) (s : state) : state * bool :=
    let s1 := merge_best k s in
    if negb (any_marked s1) then (s1, false) else
    let rm := route_marks s1 in
    let s2 := mk_state (s_tmp s1) (s_best s1) (s_rt s1) (s_tad s1) (fun _ => false) (s_mark s1) in
    let s3 := loop_routes k rm s2 in
    let s4 := mk_state (s_tmp s3) (s_best s3) (s_rt s3) (s_tad s3) (fun _ => false) (s_mark s3) in
    (update_footpaths k (update_intermodal_footpaths k (update_transfers k s4)), true).

  (** Rounds k = k0 .. k0 + n - 1, stopping at the first break. *)
  Fixpoint rounds (n k : nat) (s : state) : state :=
    match n with
    | O => s
    | S n' => let (s', go) := round k s in if go then rounds n' (S k) s' else s'
    end.

  (** raptor.h:203 *)
  Definition end_k (max_transfers : nat) : nat := (Nat.min max_transfers kMaxTransfers + 2)%nat.

  (** raptor.h:168-172 [reset_arrivals], :174-183 [next_start_time], :185-199 [add_start]. *)
  Definition reset_arrivals : state :=
    mk_state (fun _ => kInvalid) (fun _ => kInvalid) (fun _ _ => kInvalid) (fun _ => kInvalid) (fun _ => false) (fun _ => false).
  Definition next_start_time (s : state) : state :=
    mk_state (fun _ => kInvalid) (fun _ => kInvalid) (s_rt s) (s_tad s) (fun _ => false) (fun _ => false).
  Definition add_start (s : state) (lt : nat * Z) : state :=
    let (l, t) := lt in
    mk_state (s_tmp s) (upd (s_best s) l (get_best t (s_best s l)))
             (upd (s_rt s) 0%nat (upd (s_rt s 0%nat) l (get_best t (s_rt s 0%nat l)))) (s_tad s)
             (upd (s_mark s) l true) (s_prev s).

  (** One [execute] call for one start time: [g_starts] are (location, time) with times already converted by
      unix_to_delta (:193-197), [g_worst] is unix_to_delta(worst_time_at_dest), [g_start] the start time. *)
  Record group := mk_group { g_start : Z; g_worst : Z; g_starts : list (nat * Z) }.
  (** :205-208 *)
  Definition set_worst (w : Z) (s : state) : state :=
    mk_state (s_tmp s) (s_best s) (s_rt s) (fun i => get_best w (s_tad s i)) (s_mark s) (s_prev s).
  Definition run_group (max_transfers : nat) (s : state) (g : group) : state :=
    rounds (end_k max_transfers - 1) 1 (set_worst (g_worst g) (fold_left add_start (g_starts g) (next_start_time s))).

  (** raptor.h:394-415: journeys reported after one [execute]; times relative to the base day. *)
  Definition reported (max_transfers : nat) (g : group) (s : state) : list journey :=
    flat_map (fun i => if p_is_dest P i then
        flat_map (fun k => if s_rt s k i =? kInvalid then [] else
                           [mk_journey (g_start g) (s_rt s k i) (Z.of_nat k - 1)])
                 (seq 1 (end_k max_transfers - 1))
      else []) (seq 0 (tt_n_locations tt)).

  (** search.h: the start-time groups in order, results collected in one Pareto set. *)
  Fixpoint run_groups (max_transfers : nat) (s : state) (results : list journey) (gs : list group)
    : state * list journey :=
    match gs with
    | [] => (s, results)
    | g :: gs' =>
        let s' := run_group max_transfers s g in
        run_groups max_transfers s'
          (fold_left (fun rs j => fst (add journey journey_dominates rs j)) (reported max_transfers g s') results) gs'
    end.
  Definition raptor (max_transfers : nat) (gs : list group) : state * list journey :=
    run_groups max_transfers reset_arrivals [] gs.
End Raptor.
