(** Model of the search on a timetable with real-time data: what raptor<Rt = true> reads from the real-time timetable
    (include/nigiri/routing/raptor/raptor.h, include/nigiri/rt/rt_timetable.h), and the lower bound graph of the real-time vehicles
    (src/rt/rt_timetable.cc:214-320).  Not modelled: the classes of sections after the first (not read by the search). *)
From Coq Require Import List ZArith Bool Arith.
From Verif Require Import Base Time_Model Raptor_Model Dijkstra_Model Rt_Model.
Import ListNotations.
Local Open Scope Z_scope.

(** The members of the real-time timetable that are not part of [rtt]: class of the first section
    (rt_transport_section_clasz_[x][0]), restrictions on all / some sections and per section (rt_transport_flags_,
    rt_flags_per_section_), vehicles per location (location_rt_transports_), day index of the base day (base_day_idx_). *)
Record rt_extra := mk_rt_extra {
  x_clasz : nat -> nat; x_all : nat -> nat -> bool; x_some : nat -> nat -> bool; x_section : nat -> nat -> nat -> bool;
  x_index : nat -> list nat; x_base : Z }.

Section WithRt.
  Variable S : stt.
  Variable rt : rtt.
  Variable X : rt_extra.
  (** Number of the [v]-th vehicle of route [r]: route_transport_ranges_[r].from_ + v. *)
  Variable number : nat -> nat -> nat.
  Variable tt : timetable.                           (* the static timetable *)

  Definition n_rt : nat := length (rt_static rt).
  Definition rt_n_stops (x : nat) : nat := length (nth x (rt_stops rt) []).
  (** rt_timetable.h:139-144 [event_time]; the arrival at the first and the departure at the last stop do not exist (never read:
      raptor.h:1107, 1153); here they are the times of the other event of that stop. *)
  Definition rt_minutes (x s : nat) (e : ev_type) : Z :=
    match e with
    | kArr => Rt_Model.event_time rt x s true
    | kDep => if (rt_n_stops x <=? Datatypes.S s)%nat then Rt_Model.event_time rt x s true else Rt_Model.event_time rt x s false
    end.
  (** Day of the first departure, relative to the base day.  The code adds base_day_idx_ and the stored minutes
      (raptor.h:1460-1465); a vehicle of the model has a day of first departure and times relative to it. *)
  Definition rt_first_day (x : nat) : Z := nth 0 (nth x (rt_times rt) []) 0 / 1440.
  Definition rt_vehicle (x : nat) : vehicle :=
    mk_vehicle (fun s e => let m := rt_minutes x s e - 1440 * rt_first_day x in mk_delta (m / 1440) (m mod 1440))
               (fun d => d =? x_base X + rt_first_day x).
  Definition rt_route (x : nat) : route :=
    mk_route (map stop_of_value (nth x (rt_stops rt) [])) (x_clasz X x) (x_all X x) (x_some X x) (x_section X x) [rt_vehicle x]
             (Some (x_base X + rt_first_day x)).
  (** raptor.h:1440-1445: with real-time data the days of a scheduled vehicle are those of the real-time timetable. *)
  Definition day_filter (ri : nat) (v : vehicle) (vi : nat) : vehicle :=
    mk_vehicle (v_ev v) (fun d => Rt_Model.is_transport_active S rt (number ri vi) d).
  Definition scheduled_route (ri : nat) (r : route) : route :=
    mk_route (r_stops r) (r_clasz r) (r_flag_all r) (r_flag_some r) (r_flag_section r)
             (map (fun p => day_filter ri (snd p) (fst p)) (combine (seq 0 (length (r_vehicles r))) (r_vehicles r))) None.
  (** What the search reads; the days of a route (route_bitfields_) are those of the static timetable. *)
  Definition with_rt : timetable :=
    mk_tt (tt_n_locations tt)
          (map (fun p => scheduled_route (fst p) (snd p)) (combine (seq 0 (length (tt_routes tt))) (tt_routes tt)) ++ map rt_route (seq 0 n_rt))
          (fun l => tt_location_routes tt l ++ map (fun x => (length (tt_routes tt) + x)%nat) (x_index X l))
          (tt_transfer_time tt) (tt_footpaths_out tt) (tt_footpaths_in tt)
          (fun ri d => if (ri <? length (tt_routes tt))%nat then tt_route_active tt ri d else true).
End WithRt.

(** ** Lower bound graph of the real-time vehicles (rt_timetable.cc:214-320) *)
(** A graph with the bits "has edges" (fwd_search_lb_graph_has_edges_): set bits survive from update to update. *)
Definition lb_state := ((nat -> bool) * (nat -> list edge))%type.
(** :244-248 [is_fastest] *)
Definition is_fastest (existing : list edge) (e : edge) : bool :=
  match find (fun x : edge => Nat.eqb (fst x) (fst e)) existing with None => true | Some x => snd e <? snd x end.
(** :286-290: the first edge with the same target gets the new duration. *)
Fixpoint lower_first (l : list edge) (t : nat) (d : Z) : list edge :=
  match l with [] => [] | x :: l' => if Nat.eqb (fst x) t then (t, d) :: l' else x :: lower_first l' t d end.
(** :250-293 [update]: the new edge goes into [src]'s list. *)
Definition lb_update (static : nat -> list edge) (st : lb_state) (src tgt : nat) (travel_time : Z) : lb_state :=
  let new := (tgt, Z.min travel_time fp_max_duration) in
  if negb (is_fastest (static src) new) then st
  else if negb (fst st src) then (Raptor_Model.upd (fst st) src true, Raptor_Model.upd (snd st) src (snd st src ++ [new]))
  else if negb (is_fastest (snd st src) new) then st
  else (fst st, Raptor_Model.upd (snd st) src (lower_first (snd st src) tgt (snd new) ++ [new])).
(** :214-296 for one section of one vehicle; [fwd]: the graph of forward searches. *)
Definition update_lbs_section (L : locations) (rt : rtt) (fwd : bool) (static : nat -> list edge) (st : lb_state) (x s : nat) : lb_state :=
  let travel_time := to_i16 (Rt_Model.event_time rt x (S s) true - Rt_Model.event_time rt x s false) in
  let from := get_root_idx L (Z.to_nat (s_loc (stop_of_value (nth s (nth x (rt_stops rt) []) 0)))) in
  let to := get_root_idx L (Z.to_nat (s_loc (stop_of_value (nth (S s) (nth x (rt_stops rt) []) 0)))) in
  if travel_time <? 0 then st
  else if Nat.eqb from to then st
  else if fwd then lb_update static st to from travel_time else lb_update static st from to travel_time.
(** :298-320: all sections of all vehicles, starting with empty lists. *)
Definition update_lbs (L : locations) (rt : rtt) (fwd : bool) (static : nat -> list edge) (has : nat -> bool) : lb_state :=
  fold_left (fun st x =>
      fold_left (fun st s => update_lbs_section L rt fwd static st x s) (seq 0 (Nat.div2 (length (nth x (rt_times rt) [])))) st)
    (seq 0 (length (rt_static rt))) (has, fun _ => []).
(** dijkstra.h:58-68: the edges of the static graph, then those of the real-time graph if the bit is set. *)
Definition search_edges (static : nat -> list edge) (st : lb_state) (u : nat) : list edge :=
  static u ++ (if fst st u then snd st u else []).
