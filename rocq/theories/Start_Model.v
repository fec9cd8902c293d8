(** Model of start time generation (src/routing/start_times.cc): which (time at start, time at stop, stop) labels a query
    begins with.  Times are unix minutes.  The result vector is kept newest first (the C++ vector reversed): the code only
    looks at [back()] and appends. *)
From Coq Require Import List ZArith Bool Arith.
From Verif Require Import Base Time_Model Seq_Model Raptor_Model Query_Model.
Import ListNotations.
Local Open Scope Z_scope.

(** start_times.h:20-25 *)
Record start := mk_start { st_at_start : Z; st_at_stop : Z; st_loc : nat }.

(** start_times.cc:16 [location_offset_t] *)
Inductive location_offset := Fixed (d : Z) | Timed (c : list td_footpath).

(** A real-time transport: its stops and event times (rt_timetable.h:128-140). *)
Record rt_transport := mk_rt { rt_stops : list stop; rt_ev : nat -> ev_type -> Z }.

Section Starts.
  Variable fwd : bool.
  Variable wheelchair : bool.            (* profile kWheelchairProfile *)
  Variable tt : timetable.
  Variable first_day : Z.                (* internal_interval_days().from_ as day number *)
  (** rtt == nullptr: no transports; the traffic days of the vehicles are those of the real-time timetable otherwise
      (start_times.cc:62-64). *)
  Variable rt_of_location : nat -> list rt_transport.

  (** start_times.cc:18-32 *)
  Definition get_duration (t : Z) (o : location_offset) (invert : bool) : Z :=
    match o with
    | Fixed x => x
    | Timed c => match get_td_duration (if invert then negb fwd else fwd) c t with Some (d, _) => d | None => fp_max_duration end
    end.
  Definition better_or_eq (a b : Z) : bool := if fwd then a <=? b else b <=? a.        (* :50-52 *)
  (** the event a traveller boards with, in search direction *)
  Definition start_ev : ev_type := if fwd then kDep else kArr.

  (** start_times.cc:79-105, body of the day loop once the vehicle is active and the event is inside [iv_at_stop]. *)
  Definition try_add (iv_at_start : interval) (o : location_offset) (l : nat) (ev_time : Z) (starts : list start) : list start :=
    let d := get_duration ev_time o true in
    if d =? fp_max_duration then starts
    else
      let at_start := if fwd then ev_time - d else ev_time + d in
      if negb (iv_contains iv_at_start at_start) then starts
      else if match starts with
              | b :: _ => (st_at_start b =? at_start) && better_or_eq (st_at_stop b) ev_time
              | [] => false
              end
      then starts
      else mk_start at_start ev_time l :: starts.

  (** start_times.cc:74-118, day loop for one vehicle; the bit set lookup is false outside the bit set. *)
  Definition add_days (v : vehicle) (s : nat) (iv_at_start iv_at_stop : interval) (o : location_offset) (l : nat)
             (days : list Z) (starts : list start) : list start :=
    let stop_time := delta_count (v_ev v s start_ev) in
    let day_offset := to_u16 (Z.quot stop_time 1440) in
    let mam := Z.rem stop_time 1440 in
    fold_left (fun starts day =>
                 if is_transport_active v (day - day_offset)
                    && iv_contains iv_at_stop (tt_to_unixtime first_day day mam)
                 then try_add iv_at_start o l (tt_to_unixtime first_day day mam) starts
                 else starts) days starts.
  Definition day_range (first last : Z) : list Z :=
    map (fun i => first + Z.of_nat i) (seq 0 (Z.to_nat (last - first + 1))).
  (** start_times.cc:40-120 *)
  Definition add_start_times_at_stop (r : route) (s : nat) (l : nat) (iv_at_start iv_at_stop : interval) (o : location_offset)
             (starts : list start) : list start :=
    let first := fst (tt_day_idx_mam first_day (iv_from iv_at_stop)) in
    let last := fst (tt_day_idx_mam first_day (iv_to iv_at_stop)) in
    fold_left (fun starts v => add_days v s iv_at_start iv_at_stop o l (day_range first last) starts) (r_vehicles r) starts.

  (** start_times.cc:152-161: stops the search cannot begin at. *)
  Definition skip_stop (n i : nat) (s : stop) : bool :=
    if fwd then Nat.eqb i (n - 1) || negb (if wheelchair then s_win s else s_in s)
    else Nat.eqb i 0 || negb (if wheelchair then s_wout s else s_out s).
  (** [utl::enumerate] *)
  Definition enumerate {A} (l : list A) : list (nat * A) := combine (seq 0 (length l)) l.

  (** start_times.cc:137-177 *)
  Definition static_starts (iv : interval) (l : nat) (o : location_offset) (max_start_offset : Z) (starts : list start) : list start :=
    let iv_at_stop := if fwd then mk_iv (iv_from iv) (iv_to iv + max_start_offset)
                      else mk_iv (iv_from iv - max_start_offset) (iv_to iv) in
    fold_left (fun starts ri =>
      match nth_error (tt_routes tt) ri with
      | None => starts
      | Some r =>
          fold_left (fun starts (is : nat * stop) =>
              if negb (Nat.eqb (Z.to_nat (s_loc (snd is))) l) || skip_stop (length (r_stops r)) (fst is) (snd is) then starts
              else add_start_times_at_stop r (fst is) l iv iv_at_stop o starts)
            (enumerate (r_stops r)) starts
      end) (tt_location_routes tt l) starts.
  (** start_times.cc:179-222: no feasibility test and no duplicate test here. *)
  Definition rt_starts (iv : interval) (l : nat) (o : location_offset) (starts : list start) : list start :=
    fold_left (fun starts rt =>
      fold_left (fun starts (is : nat * stop) =>
          if negb (Nat.eqb (Z.to_nat (s_loc (snd is))) l) || skip_stop (length (rt_stops rt)) (fst is) (snd is) then starts
          else
            let ev_time := rt_ev rt (fst is) start_ev in
            let d := get_duration ev_time o true in
            let at_start := if fwd then ev_time - d else ev_time + d in
            if iv_contains iv at_start then mk_start at_start ev_time l :: starts else starts)
        (enumerate (rt_stops rt)) starts) (rt_of_location l) starts.
  (** start_times.cc:224-241 *)
  Definition ontrip_start (iv : interval) (l : nat) (o : location_offset) (starts : list start) : list start :=
    let at_start := if fwd then iv_to iv else iv_from iv - 1 in
    let d := get_duration at_start o false in
    if d =? fp_max_duration then starts
    else mk_start at_start (if fwd then iv_to iv + d else iv_from iv - 1 - d) l :: starts.
  (** start_times.cc:122-242 *)
  Definition add_starts_in_interval (iv : interval) (l : nat) (o : location_offset) (max_start_offset : Z) (add_ontrip : bool)
             (starts : list start) : list start :=
    let s1 := rt_starts iv l o (static_starts iv l o max_start_offset starts) in
    if add_ontrip then ontrip_start iv l o s1 else s1.

  (** ** get_starts (start_times.cc:244-323) *)
  (** start_times.cc:259-267 [update]: the shortest offset per location, as an association list. *)
  Fixpoint update_shortest (m : list (nat * Z)) (l : nat) (d : Z) : list (nat * Z) :=
    match m with
    | [] => [(l, d)]
    | (l', d') :: m' => if Nat.eqb l' l then (l', Z.min d' d) :: m' else (l', d') :: update_shortest m' l d
    end.
  (** start_times.cc:269-283.  [adjust] is adjusted_transfer_time with the query's settings. *)
  Definition first_via_stay (vias : list via_stop) (l : nat) : Z :=
    match vias with v :: _ => if Nat.eqb (via_loc v) l then via_stay v else 0 | [] => 0 end.
  Definition start_candidates (L : locations) (mode : match_mode) (use_fp : bool) (adjust : Z -> Z) (offsets : list offset) : list (nat * Z) :=
    flat_map (fun o => flat_map (fun l =>
        (l, o_duration o) ::
        (if use_fp then map (fun fp => (fst fp, o_duration o + adjust (snd fp)))
                            (if fwd then tt_footpaths_out tt l else tt_footpaths_in tt l) else []))
      (metas L mode (o_target o))) offsets.
  Definition shortest_start (vias : list via_stop) (cands : list (nat * Z)) : list (nat * Z) :=
    fold_left (fun m c => update_shortest m (fst c) (snd c + first_via_stay vias (fst c))) cands [].

  Inductive start_time := Ontrip (t : Z) | Pretrip (iv : interval).
  (** start_times.cc:285-322.  [shortest] lists the entries of the hash map in its (unspecified) iteration order, likewise
      [td]. *)
  Definition get_starts (t : start_time) (shortest : list (nat * Z)) (td : list (nat * list td_footpath))
             (max_start_offset : Z) (add_ontrip : bool) (starts : list start) : list start :=
    let s1 := fold_left (fun starts lo =>
                match t with
                | Pretrip iv => add_starts_in_interval iv (fst lo) (Fixed (snd lo)) max_start_offset add_ontrip starts
                | Ontrip t => mk_start t (if fwd then t + snd lo else t - snd lo) (fst lo) :: starts
                end) shortest starts in
    fold_left (fun starts lo =>
                match t with
                | Pretrip iv => add_starts_in_interval iv (fst lo) (Timed (snd lo)) max_start_offset add_ontrip starts
                | Ontrip t =>
                    let d := get_duration t (Timed (snd lo)) false in
                    if d =? fp_max_duration then starts
                    else mk_start t (if fwd then t + d else t - d) (fst lo) :: starts
                end) td s1.
End Starts.
