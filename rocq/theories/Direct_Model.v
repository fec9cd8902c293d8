(** Model of the search for direct journeys (src/routing/direct.cc): all journeys that use exactly one vehicle, as a stream sorted
    by arrival (forward) or departure (backward); [enrich_with_slow_direct] (direct.cc:508-560) with its two callers
    (search.h:318-336, pong.cc:417-418).
    A real-time transport is a route with [r_rt = Some day] (see Raptor_Model), the traffic days of a vehicle are those in effect
    ([rtt->is_transport_active]).  Not modelled: time-dependent offsets and footpaths, the id of the transport mode of an offset.
    Times are minutes relative to midnight of day [p_base P] of the timetable. *)
From Coq Require Import List ZArith Bool Arith.
From Verif Require Import Base Time_Model Raptor_Model Rec_Model.
From Verif Require Query_Model.
Import ListNotations.
Local Open Scope Z_scope.

(** The parts of [query] used (query.h:80-110).  [dq_START], [dq_END]: special_stations.h. *)
Record dquery := mk_dquery {
  dq_start_mode : Query_Model.match_mode; dq_dest_mode : Query_Model.match_mode;
  dq_use_start_footpaths : bool;
  dq_start : list (nat * Z); dq_dest : list (nat * Z);
  dq_START : nat; dq_END : nat }.

Section Direct.
  Variable P : params.
  Variable L : Query_Model.locations.
  Variable Q : dquery.
  Notation fwd := (p_fwd P).
  Notation tt := (p_tt P).

  (** direct.cc:161-163: [boarding] is [side::kBoarding]. *)
  Definition side_offsets (boarding : bool) := if boarding then dq_start Q else dq_dest Q.
  Definition side_mode (boarding : bool) := if boarding then dq_start_mode Q else dq_dest_mode Q.
  (** :169, :182 *)
  Definition side_use_footpaths (boarding : bool) : bool := if boarding then dq_use_start_footpaths Q else true.
  (** :115-117 *)
  Definition side_footpaths (boarding : bool) (l : nat) := if boarding then tt_footpaths_out tt l else tt_footpaths_in tt l.
  Definition is_intermodal_mode (m : Query_Model.match_mode) : bool := match m with Query_Model.kIntermodal => true | _ => false end.
  Definition is_exact_mode (m : Query_Model.match_mode) : bool := match m with Query_Model.kExact => true | _ => false end.

  (** :21-61 [lookup_offset]: the first offset of the location. *)
  Definition lookup_offset (boarding : bool) (loc : nat) (t : Z) : option leg :=
    match find (fun o : nat * Z => Nat.eqb (fst o) loc) (side_offsets boarding) with
    | None => None
    | Some o => Some (if boarding then mk_leg (dq_START Q) loc (t - snd o) t (Offs loc (snd o))
                      else mk_leg loc (dq_END Q) t (t + snd o) (Offs loc (snd o)))
    end.

  (** :87-141: state = (best_dur, best_source). *)
  Definition best_footpath (fps : list (nat * Z)) (loc : nat) : Z :=                     (* :118-128 *)
    fold_left (fun eff (fp : nat * Z) =>
                 if Nat.eqb (fst fp) loc then (let adj := p_adjust P (snd fp) in if adj <? eff then adj else eff) else eff)
              fps fp_max_duration.
  Definition lookup_step (boarding : bool) (loc : nat) (o : nat * Z) (st : Z * nat) (l : nat) : Z * nat :=
    let st1 := if Nat.eqb l loc && (snd o <? fst st)
               then (snd o + (if is_exact_mode (side_mode boarding) then p_adjust P (tt_transfer_time tt l) else 0), fst o)
               else st in
    if negb (side_use_footpaths boarding) then st1
    else
      let eff := best_footpath (side_footpaths boarding l) loc in
      if fp_max_duration <=? eff then st1
      else let total := snd o + eff in
           if total <? fst st1 then (total, fst o) else st1.
  Definition lookup_best (boarding : bool) (loc : nat) : Z * nat :=
    fold_left (fun st (o : nat * Z) => fold_left (lookup_step boarding loc o) (Query_Model.metas L (side_mode boarding) (fst o)) st)
              (side_offsets boarding) (fp_max_duration, 0%nat).
  (** :63-155 [lookup_footpath] *)
  Definition lookup_footpath (boarding : bool) (loc : nat) (t : Z) : option leg :=
    let '(best, src) := lookup_best boarding loc in
    if fp_max_duration <=? best then None
    else Some (if boarding then mk_leg src loc (t - best) t (Foot loc best) else mk_leg loc src t (t + best) (Foot src best)).
  (** :159-180 *)
  Definition lookup_access (boarding : bool) (loc : nat) (t : Z) : option leg :=
    if is_intermodal_mode (side_mode boarding) then lookup_offset boarding loc t else lookup_footpath boarding loc t.

  (** :182-238 [collect_locations] *)
  Definition collect_locations (boarding : bool) : list nat :=
    if is_intermodal_mode (side_mode boarding) then map fst (side_offsets boarding)
    else flat_map (fun o : nat * Z =>
           flat_map (fun l => l :: (if side_use_footpaths boarding then map fst (side_footpaths boarding l) else []))
                    (Query_Model.metas L (side_mode boarding) (fst o)))
         (side_offsets boarding).
  Definition is_in (l : list nat) (x : nat) : bool := existsb (Nat.eqb x) l.

  (** :240-258; flag 0..3 = bikes, cars, wheelchair, no reservation ([flags], :429-430). *)
  Definition sections_violate_constraints (r : route) (from to : nat) : bool :=
    existsb (fun i => existsb (fun f => p_require P f && negb (flag_on_section r f i)) [0%nat; 1%nat; 2%nat; 3%nat])
            (seq from (to - from)).

  (** :260-278 *)
  Definition zero_offset (g : leg) : bool := match l_uses g with Offs _ _ => l_dep g =? l_arr g | _ => false end.
  Definition assemble_legs (b ride a : leg) : list leg :=
    (if zero_offset b then [] else [b]) ++ [ride] ++ (if zero_offset a then [] else [a]).

  (** :325-357 / :370-411: the journey with transport [vi] of [day] between stops [a] and [b]. *)
  Definition direct_journey (time : Z) (ri : nat) (r : route) (a b : nat) (vi : nat) (day : Z) : option (list leg) :=
    let dep := run_time P r vi day a kDep in
    let arr := run_time P r vi day b kArr in
    match lookup_access true (loc_at r a) dep, lookup_access false (loc_at r b) arr with
    | Some bw, Some aw =>
        if (if fwd then l_dep bw <? time else time <? l_arr aw) then None
        else Some (assemble_legs bw (mk_leg (loc_at r a) (loc_at r b) dep arr (Ride ri vi day a (b + 1))) aw)
    | _, _ => None
    end.

  (** :280-364 [route_gen]; [day_lo], [day_hi]: first / last day of the loop (:299-303).  The loop nest is flattened into the list of
      (day, transport) in iteration order. *)
  Variables day_lo day_hi : Z.
  Definition days_from (day : Z) : list Z :=
    if fwd then map (fun i => day + Z.of_nat i) (seq 0 (Z.to_nat (day_hi - day + 1)))
    else map (fun i => day - Z.of_nat i) (seq 0 (Z.to_nat (day - day_lo + 1))).
  Definition transports_of (r : route) : list nat :=
    let idx := seq 0 (length (r_vehicles r)) in if fwd then idx else rev idx.
  Definition route_step (time : Z) (ri : nat) (r : route) (a b : nat) (key : Z * nat) : option (list leg) :=
    let '(day, vi) := key in
    if negb (is_route_active tt ri day) then None
    else
      let ev := if fwd then v_ev (vehicle_of r vi) a kDep else v_ev (vehicle_of r vi) b kArr in
      let start_day := day - d_days ev in
      if negb (is_transport_active (vehicle_of r vi) start_day) then None
      else direct_journey time ri r a b vi start_day.
  Definition day_of (time : Z) : Z := Z.quot (p_base P * 1440 + time) 1440.             (* timetable.h:200-208 *)
  Fixpoint pick {A B} (f : A -> option B) (l : list A) : list B :=
    match l with [] => [] | x :: l' => match f x with Some y => y :: pick f l' | None => pick f l' end end.
  Definition route_gen (time : Z) (ri : nat) (r : route) (a b : nat) : list (list leg) :=
    pick (route_step time ri r a b) (flat_map (fun day => map (fun vi => (day, vi)) (transports_of r)) (days_from (day_of time))).
  (** :366-412 *)
  Definition rt_gen (time : Z) (ri : nat) (r : route) (a b : nat) (day : Z) : list (list leg) :=
    match direct_journey time ri r a b 0 day with Some j => [j] | None => [] end.

  (** :414-437 [for_each_pair] *)
  Fixpoint pairs_from (bl al : list nat) (stops : list stop) (i : nat) (cur : option nat) : list (nat * nat) :=
    match stops with
    | [] => []
    | s :: rest =>
        let l := Z.to_nat (s_loc s) in
        match cur with
        | Some a => if is_in al l && can_finish true (is_wheelchair P) s then (a, i) :: pairs_from bl al rest (S i) None
                    else pairs_from bl al rest (S i) cur
        | None => if is_in bl l && can_start true (is_wheelchair P) s then pairs_from bl al rest (S i) (Some i)
                  else pairs_from bl al rest (S i) None
        end
    end.

  (** :441-583 [get_direct_journeys]: one generator per route / real-time transport and pair of stops. *)
  Definition route_generators (time : Z) (bl al : list nat) (ri : nat) : list (list (list leg)) :=
    match nth_error (tt_routes tt) ri with
    | None => []
    | Some r =>
        if existsb (fun l => is_in (tt_location_routes tt l) ri) bl && existsb (fun l => is_in (tt_location_routes tt l) ri) al
           && route_allowed P r
        then map (fun ab : nat * nat => match r_rt r with
                                        | None => route_gen time ri r (fst ab) (snd ab)
                                        | Some day => rt_gen time ri r (fst ab) (snd ab) day
                                        end)
                 (filter (fun ab : nat * nat => negb (sections_violate_constraints r (fst ab) (snd ab)))
                         (pairs_from bl al (r_stops r) 0 None))
        else []
    end.
  Definition generators (time : Z) : list (list (list leg)) :=
    flat_map (route_generators time (collect_locations true) (collect_locations false)) (seq 0 (length (tt_routes tt))).

  Definition no_leg : leg := mk_leg 0 0 0 0 (Foot 0 0).
  Definition j_dep (j : list leg) : Z := l_dep (hd no_leg j).
  Definition j_arr (j : list leg) : Z := l_arr (last j no_leg).
  (** :556-560 [cmp]: [head_before x y]: the heap prefers head [x] to head [y]. *)
  Definition head_before (x y : list leg) : bool := if fwd then j_arr x <? j_arr y else j_dep y <? j_dep x.
  (** :561-577: [std::priority_queue] yields some head to which no other head is preferred; which one of several equal heads is
      not specified. *)
  Inductive merged : list (list (list leg)) -> list (list leg) -> Prop :=
  | merged_nil gs : (forall g, In g gs -> g = []) -> merged gs []
  | merged_step gs1 x xs gs2 out :
      (forall y ys, In (y :: ys) (gs1 ++ gs2) -> head_before y x = false) ->
      merged (gs1 ++ xs :: gs2) out -> merged (gs1 ++ (x :: xs) :: gs2) (x :: out).
  Definition direct_journeys (time : Z) (out : list (list leg)) : Prop := merged (generators time) out.

  (** ** :508-560 [enrich_with_slow_direct]; interval [from, to).  [factor] = num / den ([fastest_slow_direct_factor_] is a double). *)
  Definition j_check (j : list leg) : Z := if fwd then j_dep j else j_arr j.
  Fixpoint slow_in_interval (from to : Z) (stream : list (list leg)) : list (list leg) :=
    match stream with
    | [] => []
    | j :: rest =>
        if (from <=? j_check j) && (j_check j <? to) then j :: slow_in_interval from to rest
        else if (if fwd then to <=? j_check j else j_check j <? from) then []
        else slow_in_interval from to rest
    end.
  Definition j_travel_time (j : list leg) : Z := Z.abs (j_arr j - j_dep j).
  Definition slow_filter (num den : Z) (js : list (list leg)) : list (list leg) :=
    let shortest := fold_left (fun m j => if j_travel_time j <? m then j_travel_time j else m) js 32767 in
    if den <=? num then filter (fun j => negb (shortest * num <? j_travel_time j * den)) js else js.
  Definition slow_direct (num den from to : Z) (stream : list (list leg)) : list (list leg) :=
    slow_filter num den (slow_in_interval from to stream).

  (** journey.h:110-116, the fields a new [journey] gets. *)
  Record found := mk_found { f_legs : list leg; f_start : Z; f_dest_time : Z; f_transfers : nat; f_reconstructed : bool }.
  Definition slow_journey (j : list leg) : found :=
    mk_found j (if fwd then j_dep j else j_arr j) (if fwd then j_arr j else j_dep j) 0 false.
  (** :557-558 [concat], [erase_duplicates] (sorts and removes equal neighbours; the order is not modelled). *)
  Definition enriched (num den from to : Z) (stream : list (list leg)) (results out : list found) : Prop :=
    forall f, In f out <-> In f results \/ In f (map slow_journey (slow_direct num den from to stream)).
  (** search.h:326-336: sort, then remove everything that was not reconstructed. *)
  Definition search_results (out : list found) : list found := filter f_reconstructed out.
End Direct.
