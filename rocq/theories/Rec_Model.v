(** Model of the reconstruction of journeys from the labels of the round-based search
    (src/routing/raptor/reconstruct.cc) and of the clean-up of the footpaths of a reconstructed journey
    (src/routing/raptor/optimize_footpaths.cc), for queries without vias, real-time data and time-dependent offsets.
    All times are minutes relative to midnight of the search's base day ([delta_to_unix(base, x)] is [x],
    [unix_to_delta(base, x)] is [clamp16 x]).  An exception ([utl::fail]) is [None]. *)
From Coq Require Import List ZArith Bool Arith.
From Verif Require Import Base Time_Model Raptor_Model.
Import ListNotations.
Local Open Scope Z_scope.

(** ** journey.h:24-85: legs.  [Ride]: route, transport, day, stop range [from, to) ([run_enter_exit], the run itself is the
    whole transport); [Foot]: footpath; [Offs]: first / last mile offset. *)
Inductive uses := Ride (ri vi : nat) (day : Z) (from to : nat) | Foot (target : nat) (d : Z) | Offs (target : nat) (d : Z).
Record leg := mk_leg { l_from : nat; l_to : nat; l_dep : Z; l_arr : Z; l_uses : uses }.
(** journey.h:51-62: the constructor of [leg] with a direction. *)
Definition dir_leg (fwd : bool) (a b : nat) (ta tb : Z) (u : uses) : leg :=
  if fwd then mk_leg a b ta tb u else mk_leg b a tb ta u.

(** Parts of the query that only the reconstruction needs: [holds_alternative<unixtime_t>(start_time_)], start match mode
    (intermodal? equivalent?), start and destination offsets (location, duration), [matches(tt, start_match_mode_, target, l)],
    the locations visited by [for_each_meta(tt, kIntermodal, l)], the special station START. *)
Record rquery := mk_rquery {
  rq_ontrip : bool; rq_intermodal_start : bool; rq_equivalent : bool;
  rq_start : list (nat * Z); rq_dest : list (nat * Z);
  rq_matches : nat -> nat -> bool; rq_metas : nat -> list nat; rq_START : nat }.

(** First [Some] in iteration order. *)
Fixpoint first_some {A B} (f : A -> option B) (l : list A) : option B :=
  match l with [] => None | x :: l' => match f x with Some y => Some y | None => first_some f l' end end.

Section Rec.
  Variable P : params.
  Variable Q : rquery.
  Variable rt : nat -> nat -> Z.            (* raptor_state.get_round_times<0>() *)
  Notation fwd := (p_fwd P).
  Notation tt := (p_tt P).

  (** reconstruct.cc:22-28 *)
  Definition is_journey_start (l : nat) : bool := existsb (fun o : nat * Z => rq_matches Q (fst o) l) (rq_start Q).
  (** :46-48, :179-181 *)
  Definition start_matches (a b : Z) : bool := if rq_ontrip Q then is_better_or_eq P a b else a =? b.
  (** frun.cc [run_stop::time] -> timetable.h:185-194 [event_time] without real-time data. *)
  Definition run_time (r : route) (vi : nat) (day : Z) (s : nat) (e : ev_type) : Z :=
    (day - p_base P) * 1440 + delta_count (v_ev (vehicle_of r vi) s e).
  (** frun.cc:453-475 [is_flag_set], :375-378 [section_idx]. *)
  Definition flag_on_section (r : route) (f sec : nat) : bool := r_flag_all r f || (r_flag_some r f && r_flag_section r f sec).

  (** ** :186-293 [find_start_in_prev_round]: [stops] are the stops before the exit in reverse order of travel (in search direction). *)
  Fixpoint find_start_loop (k ri : nat) (r : route) (vi : nat) (day : Z) (finish : nat) (sf : nat -> bool) (stops : list nat) : option leg :=
    match stops with
    | [] => None
    | s :: rest =>
        if existsb (fun f => sf f && negb (flag_on_section r f (if fwd then s else (s - 1)%nat))) [0%nat; 1%nat; 2%nat; 3%nat] then None
        else if negb (can_start fwd (is_wheelchair P) (stop_at r s)) then find_start_loop k ri r vi day finish sf rest
        else
          let event_time := clamp16 (run_time r vi day s (board_ev P)) in
          let l := loc_at r s in
          let round_time := rt (k - 1)%nat l in
          if is_better_or_eq P round_time event_time
             || (Nat.eqb k 1 && rq_equivalent Q && is_journey_start l && start_matches round_time event_time)
          then Some (dir_leg fwd l (loc_at r finish) event_time (run_time r vi day finish (alight_ev P))
                             (Ride ri vi day (Nat.min s finish) (Nat.max s finish + 1)))
          else find_start_loop k ri r vi day finish sf rest
    end.
  Definition stops_before (r : route) (finish : nat) : list nat :=
    if fwd then rev (seq 0 finish) else seq (S finish) (length (r_stops r) - S finish).

  (** ** :302-374 [get_route_transport] (without td footpaths).  The day is not truncated to 16 bits (all days of a timetable are
      below 512). *)
  Definition get_route_transport (k : nat) (time : Z) (ri : nat) (r : route) (finish : nat) (sf : nat -> bool) : option leg :=
    let minutes := p_base P * 1440 + time in
    let day := Z.quot minutes 1440 in
    let mam := Z.rem minutes 1440 in
    first_some (fun vi =>
      let c := delta_count (v_ev (vehicle_of r vi) finish (alight_ev P)) in
      if negb (Z.rem c 1440 =? mam) then None
      else let traffic_day := day - Z.quot c 1440 in
           if negb (is_transport_active (vehicle_of r vi) traffic_day) then None
           else find_start_loop k ri r vi traffic_day finish sf (stops_before r finish))
      (seq 0 (length (r_vehicles r))).

  (** ** :376-521 [get_transport] (static timetable): class filter, flag filters, stops of the route at [l]. *)
  Definition finish_possible (r : route) (l i : nat) : bool :=
    Nat.eqb (loc_at r i) l && negb (if fwd then Nat.eqb i 0 else Nat.eqb i (length (r_stops r) - 1))
    && can_finish fwd (is_wheelchair P) (stop_at r i).
  Definition get_transport (k l : nat) (time : Z) : option leg :=
    first_some (fun ri =>
      match nth_error (tt_routes tt) ri with
      | None => None
      | Some r =>
          if negb (route_allowed P r) then None
          else first_some (fun i => if finish_possible r l i then get_route_transport k time ri r i (section_filter P r) else None)
                          (seq 0 (length (r_stops r)))
      end) (tt_location_routes tt l).

  (** ** :523-649 [check_fp] (no vias: only the attempt without via adjustment). *)
  Definition check_fp (k l : nat) (curr_time : Z) (fp : nat * Z) (adjust : bool) : option (leg * leg) :=
    let dur := if adjust then p_adjust P (snd fp) else snd fp in
    let fp_start := to_i16 (curr_time - dir P dur) in
    match get_transport k (fst fp) fp_start with
    | Some transport_leg =>
        Some (dir_leg fwd (fst fp) l fp_start (to_i16 (fp_start + dir P dur)) (Foot (fst fp) (snd fp)), transport_leg)
    | None => None
    end.

  (** ** :651-679 [find_dest_leg]: the last matching location wins. *)
  Definition find_dest_leg (k l : nat) (o : nat * Z) : option (leg * leg) :=
    if fp_max_duration <=? snd o then None
    else fold_left (fun ret eq =>
           match check_fp k l (rt k l) (eq, snd o) false with
           | Some (f, t) => Some (mk_leg (l_from f) (l_to f) (l_dep f) (l_arr f) (Offs eq (snd o)), t)
           | None => ret
           end) (rq_metas Q (fst o)) None.

  (** ** :681-797 [get_legs]; [last] = (k == j.transfers_ + 1). *)
  Definition get_legs (last : bool) (k l : nat) : option (leg * leg) :=
    if is_intermodal_dest P && last then first_some (find_dest_leg k l) (rq_dest Q)
    else
      match check_fp k l (rt k l) (l, if last then 0 else p_adjust P (tt_transfer_time tt l)) false with
      | Some x => Some x
      | None => first_some (fun fp => check_fp k l (rt k l) fp true) (if fwd then tt_footpaths_in tt l else tt_footpaths_out tt l)
      end.

  (** ** :799-811: rounds k, k - 1, .., 1; legs in search order reversed ([j.add] appends). *)
  Definition trivial_fp (f : leg) : bool := Nat.eqb (l_from f) (l_to f) && (l_dep f =? l_arr f).
  Fixpoint rec_rounds (last : bool) (k l : nat) : option (list leg) :=
    match k with
    | O => Some []
    | S k' =>
        match get_legs last k l with
        | None => None
        | Some (fp_leg, transport_leg) =>
            match rec_rounds false k' (if fwd then l_from transport_leg else l_to transport_leg) with
            | None => None
            | Some rest => Some ((if last && trivial_fp fp_leg then [] else [fp_leg]) ++ transport_leg :: rest)
            end
        end
    end.

  (** ** :29-160 [find_start_footpath]: [None] = exception, [Some None] = no leg needed. *)
  Definition find_start_footpath (j_start : Z) (lg : leg) : option (option leg) :=
    let loc := if fwd then l_from lg else l_to lg in
    let time := if fwd then l_dep lg else l_arr lg in
    if negb (rq_intermodal_start Q) && is_journey_start loc && is_better_or_eq P j_start time then Some None
    else if rq_intermodal_start Q then
      option_map Some (first_some (fun o : nat * Z =>
        if rq_matches Q (fst o) loc && is_better_or_eq P j_start (time - dir P (snd o))
        then Some (dir_leg fwd (rq_START Q) loc (time - dir P (snd o)) time (Offs (fst o) (snd o))) else None) (rq_start Q))
    else
      let fp_target_time := rt 0%nat loc in
      option_map Some (first_some (fun fp : nat * Z =>
        let dur := p_adjust P (snd fp) in
        if is_journey_start (fst fp) && negb (fp_target_time =? kInvalid P)
           && start_matches (to_i16 (clamp16 j_start + dir P dur)) fp_target_time
        then Some (dir_leg fwd (fst fp) loc j_start fp_target_time (Foot (fst fp) dur)) else None)
        (if fwd then tt_footpaths_in tt loc else tt_footpaths_out tt loc)).

  (** ** :819-859: order START -> END; backward: footpaths begin at the arrival of the previous leg. *)
  Fixpoint adjust_footpaths (prev : leg) (ls : list leg) : list leg :=
    match ls with
    | [] => []
    | x :: rest =>
        let x' := match l_uses x with
                  | Foot t d => let diff := l_dep x - l_arr prev in mk_leg (l_from x) (l_to x) (l_dep x - diff) (l_arr x - diff) (l_uses x)
                  | _ => x
                  end in
        x' :: adjust_footpaths x' rest
    end.
  Definition in_travel_order (legs : list leg) : list leg :=
    if fwd then rev legs else match legs with [] => [] | x :: rest => x :: adjust_footpaths x rest end.

  (** ** :799-859 (everything before [optimize_footpaths]): journey to [dest] found in round [transfers + 1], start time [j_start]. *)
  Definition reconstruct_legs (dest transfers : nat) (j_start : Z) : option (list leg) :=
    match rec_rounds true (transfers + 1) dest with
    | None => None
    | Some legs =>
        match find_start_footpath j_start (last legs (mk_leg 0 0 0 0 (Foot 0 0))) with
        | None => None
        | Some None => Some (in_travel_order legs)
        | Some (Some f) => Some (in_travel_order (legs ++ [f]))
        end
    end.

  (** * optimize_footpaths.cc; the journey runs from START to END whatever the search direction.  [starts] / [dests]: offsets of the
      query seen in travel direction (reconstruct.cc:864-867 [flip_dir]). *)
  Variable penalty_less : Z * Z * nat * nat -> Z * Z * nat * nat -> bool.   (* get_penalty(a) < get_penalty(b), :264-288 *)
  Definition travel_starts := if fwd then rq_start Q else rq_dest Q.
  Definition travel_dests := if fwd then rq_dest Q else rq_start Q.
  Definition route_of (ri : nat) : route := nth ri (tt_routes tt) (mk_route [] 0 (fun _ => false) (fun _ => false) (fun _ _ => false) [] None).

  (** :16-65 [optimize_initial_departure] *)
  Definition opt_departure_step (r : route) (ri vi : nat) (day : Z) (to s : nat) (st : Z * leg * leg) (o : nat * Z) : Z * leg * leg :=
    let '(best, a, b) := st in
    if (best <=? snd o) || negb (Nat.eqb (fst o) (loc_at r s)) then st
    else
      let dep := run_time r vi day s kDep in
      let o_start := dep - snd o in
      if l_dep a <=? o_start
      then (snd o, mk_leg (l_from a) (loc_at r s) o_start dep (Offs (fst o) (snd o)),
            mk_leg (loc_at r s) (l_to b) dep (l_arr b) (Ride ri vi day s to))
      else st.
  Definition optimize_initial_departure (legs : list leg) : list leg :=
    match legs with
    | a :: b :: rest =>
        match l_uses a, l_uses b with
        | Offs _ d, Ride ri vi day from to =>
            let r := route_of ri in
            let '(_, a', b') := fold_left (fun st s =>
                if s_in (stop_at r s) then fold_left (opt_departure_step r ri vi day to s) travel_starts st else st)
              (seq 0 (to - 1)) (d, a, b) in
            a' :: b' :: rest
        | _, _ => legs
        end
    | _ => legs
    end.

  (** :67-129 [optimize_initial_start_footpath]; only the first footpath to a stop counts ([break]). *)
  Definition find_fp (fps : list (nat * Z)) (target : nat) : option (nat * Z) := find (fun fp : nat * Z => Nat.eqb (fst fp) target) fps.
  Definition opt_start_fp_step (r : route) (ri vi : nat) (day : Z) (to : nat) (fps : list (nat * Z)) (st : Z * leg * leg) (s : nat) : Z * leg * leg :=
    let '(best, a, b) := st in
    if negb (s_in (stop_at r s)) then st
    else match find_fp fps (loc_at r s) with
         | None => st
         | Some fp =>
             let dur := p_adjust P (snd fp) in
             if dur <? best then
               let dep := run_time r vi day s kDep in
               let fp_start := dep - dur in
               if l_dep a <=? fp_start
               then (dur, mk_leg (l_from a) (loc_at r s) fp_start dep (Foot (loc_at r s) dur),
                     mk_leg (loc_at r s) (l_to b) dep (l_arr b) (Ride ri vi day s to))
               else st
             else st
         end.
  Definition optimize_initial_start_footpath (legs : list leg) : list leg :=
    match legs with
    | a :: b :: rest =>
        match l_uses a, l_uses b with
        | Foot _ d, Ride ri vi day from to =>
            let r := route_of ri in
            let '(_, a', b') := fold_left (opt_start_fp_step r ri vi day to (tt_footpaths_out tt (l_from a))) (seq 0 (to - 1)) (p_adjust P d, a, b) in
            a' :: b' :: rest
        | _, _ => legs
        end
    | _ => legs
    end.

  (** :131-189 [optimize_last_arrival]; [b] is the last ride, [c] the final offset. *)
  Definition opt_arrival_step (r : route) (ri vi : nat) (day : Z) (from s : nat) (st : Z * leg * leg) (o : nat * Z) : Z * leg * leg :=
    let '(best, b, c) := st in
    if (best <=? snd o) || negb (Nat.eqb (fst o) (loc_at r s)) then st
    else
      let arr := run_time r vi day s kArr in
      let o_end := arr + snd o in
      if o_end <=? l_arr c
      then (snd o, mk_leg (l_from b) (loc_at r s) (l_dep b) arr (Ride ri vi day from (s + 1)),
            mk_leg (loc_at r s) (l_to c) arr o_end (Offs (fst o) (snd o)))
      else st.
  Definition optimize_last_arrival (legs : list leg) : list leg :=
    match rev legs with
    | c :: b :: rest =>
        match l_uses c, l_uses b with
        | Offs _ d, Ride ri vi day from to =>
            let r := route_of ri in
            let '(_, b', c') := fold_left (fun st s =>
                if s_out (stop_at r s) then fold_left (opt_arrival_step r ri vi day from s) travel_dests st else st)
              (seq (from + 1) (length (r_stops r) - (from + 1))) (d, b, c) in
            rev (c' :: b' :: rest)
        | _, _ => legs
        end
    | _ => legs
    end.

  (** :191-262 [optimize_final_egress_footpath] *)
  Definition opt_egress_fp_step (r : route) (ri vi : nat) (day : Z) (from : nat) (fps : list (nat * Z)) (st : Z * leg * leg) (s : nat) : Z * leg * leg :=
    let '(best, b, c) := st in
    if negb (s_out (stop_at r s)) then st
    else match find_fp fps (loc_at r s) with
         | None => st
         | Some fp =>
             let dur := p_adjust P (snd fp) in
             if dur <? best then
               let arr := run_time r vi day s kArr in
               let fp_end := arr + dur in
               if fp_end <=? l_arr c
               then (dur, mk_leg (l_from b) (loc_at r s) (l_dep b) arr (Ride ri vi day from (s + 1)),
                     mk_leg (loc_at r s) (l_to c) arr fp_end (Foot (l_to c) dur))
               else st
             else st
         end.
  Definition optimize_final_egress_footpath (legs : list leg) : list leg :=
    match rev legs with
    | c :: b :: rest =>
        match l_uses c, l_uses b with
        | Foot _ d, Ride ri vi day from to =>
            let r := route_of ri in
            let '(_, b', c') := fold_left (opt_egress_fp_step r ri vi day from (tt_footpaths_in tt (l_to c)))
              (seq (from + 1) (length (r_stops r) - (from + 1))) (p_adjust P d, b, c) in
            rev (c' :: b' :: rest)
        | _, _ => legs
        end
    | _ => legs
    end.

  (** :290-443 [optimize_transfers] *)
  Definition transfer_state := (Z * Z * nat * nat * leg * leg * leg)%type.
  Definition opt_transfer_step (r : route) (ri vi : nat) (day : Z) (from : nat) (r' : route) (ri' vi' : nat) (day' : Z) (to' : nat)
             (sf : nat) (st : transfer_state) (sto : nat) : transfer_state :=
    let '(best, a, f, b) := st in
    if negb (s_in (stop_at r' sto)) then st
    else match find_fp (tt_footpaths_out tt (loc_at r sf)) (loc_at r' sto) with
         | None => st
         | Some fp =>
             let dur := p_adjust P (snd fp) in
             let arr := run_time r vi day sf kArr in
             let dep := run_time r' vi' day' sto kDep in
             let arr_fp := arr + dur in
             let pen := (dur, dep - arr_fp, loc_at r sf, loc_at r' sto) in
             if (arr_fp <=? dep) && penalty_less pen best
             then (pen, mk_leg (l_from a) (loc_at r sf) (l_dep a) arr (Ride ri vi day from (sf + 1)),
                   mk_leg (loc_at r sf) (loc_at r' sto) arr arr_fp (Foot (fst fp) (snd fp)),
                   mk_leg (loc_at r' sto) (l_to b) dep (l_arr b) (Ride ri' vi' day' sto to'))
             else st
         end.
  Definition opt_transfer (a f b : leg) : leg * leg * leg :=
    match l_uses a, l_uses f, l_uses b with
    | Ride ri vi day from to, Foot _ d, Ride ri' vi' day' from' to' =>
        let r := route_of ri in let r' := route_of ri' in
        let '(_, a', f', b') := fold_left (fun st sf =>
            if s_out (stop_at r sf) then fold_left (opt_transfer_step r ri vi day from r' ri' vi' day' to' sf) (seq 0 (to' - 1)) st else st)
          (seq (from + 1) (length (r_stops r) - (from + 1)))
          ((d, l_dep b - l_arr f, l_from a, l_to b), a, f, b) in
        (a', f', b')
    | _, _, _ => (a, f, b)
    end.
  (** The window (i, i + 1, i + 2) slides over the legs, which are changed on the way. *)
  Fixpoint optimize_transfers (n : nat) (legs : list leg) : list leg :=
    match n, legs with
    | S n', a :: f :: b :: rest => let '(a', f', b') := opt_transfer a f b in a' :: optimize_transfers n' (f' :: b' :: rest)
    | _, _ => legs
    end.

  (** :445-454 *)
  Definition optimize_footpaths (legs : list leg) : list leg :=
    let legs := optimize_final_egress_footpath (optimize_last_arrival (optimize_initial_start_footpath (optimize_initial_departure legs))) in
    optimize_transfers (length legs) legs.

  Definition reconstruct_journey (dest transfers : nat) (j_start : Z) : option (list leg) :=
    option_map optimize_footpaths (reconstruct_legs dest transfers j_start).
End Rec.
