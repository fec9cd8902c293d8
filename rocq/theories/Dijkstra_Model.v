(** Model of the lower bound pre-processing of the search: include/nigiri/routing/dijkstra.h,
    src/routing/dijkstra.cc, include/nigiri/loader/build_lb_graph.h, include/nigiri/for_each_meta.h. *)
From Coq Require Import List ZArith Bool Arith.
From Verif Require Import Base Time_Model Raptor_Model Dial_Model.
Import ListNotations.
Local Open Scope Z_scope.

(** ** Generic search: dijkstra.h:32-72 *)
(** [label]: node and distance (dijkstra.h:16-22, [get_bucket] :27-29). *)
Definition label := (nat * Z)%type.
Definition get_bucket (l : label) : nat := Z.to_nat (snd l).
Definition edge := (nat * Z)%type.

Inductive outcome {A} := Done (x : A) | OutOfFuel | Undefined.
Arguments outcome : clear implicits.

Section Generic.
  (** Edges leaving a node: [graph[l]] followed by [rt[l]] if [has_rt->test(l)] (dijkstra.h:58-68). *)
  Variable edges : nat -> list edge.
  Variable max_dist : Z.

  (** dijkstra.h:47-56 [expand]; [Undefined]: a push outside the bucket array. *)
  Definition expand (d : Z) (st : option ((nat -> Z) * dial label)) (e : edge) : option ((nat -> Z) * dial label) :=
    match st with
    | None => None
    | Some (dists, pq) =>
        let new_dist := d + snd e in
        if (new_dist <? dists (fst e)) && (new_dist <? Z.of_nat (length (q_buckets pq))) && (new_dist <? max_dist)
        then match dial_push get_bucket pq (fst e, new_dist) with
             | Some pq' => Some (upd dists (fst e) new_dist, pq')
             | None => None
             end
        else st
    end.

  (** dijkstra.h:41-71; [fuel] bounds the number of iterations. *)
  Fixpoint loop (fuel : nat) (dists : nat -> Z) (pq : dial label) : outcome (nat -> Z) :=
    if dial_empty pq then Done dists else
    match fuel with
    | O => OutOfFuel
    | S fuel' =>
        match dial_top pq with
        | None => Undefined
        | Some (l, pq1) =>
            match dial_pop pq1 with
            | None => Undefined
            | Some pq2 =>
                if dists (fst l) <? snd l then loop fuel' dists pq2
                else match fold_left (expand (snd l)) (edges (fst l)) (Some (dists, pq2)) with
                     | Some (dists', pq3) => loop fuel' dists' pq3
                     | None => Undefined
                     end
            end
        end
    end.
End Generic.

(** ** Locations: parents, children, equivalences (timetable.h:28-140) *)
Record locations := mk_locs {
  lo_n : nat;
  lo_parent : nat -> option nat;          (* parents_, location_idx_t::invalid() = None *)
  lo_children : nat -> list nat;
  lo_equiv : nat -> list nat;
  lo_generated_track : nat -> bool }.     (* types_[l] == kGeneratedTrack *)

(** timetable.h:62-75 [get_root_idx]: climbs to the root; a cycle or a chain of more than 21 parents falls
    back to the direct parent. *)
Fixpoint root_loop (fuel : nat) (L : locations) (idx l : nat) (i : nat) : nat :=
  match lo_parent L l with
  | None => l
  | Some p =>
      if Nat.eqb p idx || Nat.ltb 20 i then match lo_parent L idx with Some q => q | None => l end
      else match fuel with O => p | S f => root_loop f L idx p (S i) end
  end.
Definition get_root_idx (L : locations) (idx : nat) : nat := root_loop 23 L idx idx 0.

(** include/nigiri/location_match_mode.h, for_each_meta.h:8-46: the list of visited locations. *)
Inductive match_mode := kExact | kOnlyChildren | kEquivalent | kIntermodal.
Definition family (L : locations) (l : nat) : list nat := flat_map (fun c => c :: lo_children L c) (lo_children L l).
Definition metas (L : locations) (m : match_mode) (l : nat) : list nat :=
  match m with
  | kExact => [l]
  | kIntermodal => l :: filter (lo_generated_track L) (lo_children L l)
  | kOnlyChildren => l :: family L l
  | kEquivalent => let root := get_root_idx L l in
                   root :: family L root ++ flat_map (fun e => e :: family L e) (lo_equiv L l)
  end.

(** ** build_lb_graph.h:11-99 *)
Section BuildLb.
  Variable L : locations.
  Variable tt : timetable.
  Variable fwd : bool.                       (* SearchDir *)
  Variable prf_cars prf_bikes : bool.        (* prf_idx == kCarProfile / kBikeProfile *)

  Definition weights := list (nat * Z).
  (** :15-22 [update_weight] on the hash map (association list). *)
  Fixpoint update_weight (w : weights) (target : nat) (d : Z) : weights :=
    match w with
    | [] => [(target, d)]
    | (t, x) :: w' => if Nat.eqb t target then (t, Z.min x d) :: w' else (t, x) :: update_weight w' target d
    end.

  (** :38-41: routes skipped for a car / bike profile ([is_flag_set], timetable.h:269-272). *)
  Definition route_in_profile (r : route) : bool :=
    negb (prf_cars && negb (r_flag_all r 1 || r_flag_some r 1)) &&
    negb (prf_bikes && negb (r_flag_all r 0 || r_flag_some r 0)).

  (** :60-65: minimum ride time from stop [from] to stop [from + 1] over all transports of the route;
      [operator-] (types.h:604-607) and [as_duration]. *)
  Definition ride_time (v : vehicle) (from to : nat) : Z :=
    let a := v_ev v to kArr in
    let b := v_ev v from kDep in
    delta_as_duration (delta_of_minutes (to_u16 ((d_days a - d_days b) * 1440 + (d_mam a - d_mam b)))).
  Definition min_ride_time (r : route) (from : nat) : Z :=
    fold_left (fun m v => Z.min (ride_time v from (S from)) m) (r_vehicles r) i16_max.

  (** :24-69 [add_edges] *)
  Definition route_loc (r : route) (s : nat) : nat := Z.to_nat (s_loc (nth s (r_stops r) (mk_stop 0 false false false false))).
  Definition add_route_edges (l : nat) (r : route) (w : weights) : weights :=
    if negb (route_in_profile r) then w else
    fold_left (fun w from =>
        let from_l := route_loc r from in
        let to_l := route_loc r (S from) in
        if negb (Nat.eqb (if fwd then to_l else from_l) l) then w else
        let target := get_root_idx L (if fwd then from_l else to_l) in
        if Nat.eqb target (get_root_idx L l) then w else
        update_weight w target (min_ride_time r from))
      (seq 0 (length (r_stops r) - 1)) w.
  Definition add_edges (w : weights) (l : nat) : weights :=
    let parent_l := get_root_idx L l in
    let w1 := fold_left (fun w (fp : nat * Z) =>
                           let target := get_root_idx L (fst fp) in
                           if Nat.eqb target parent_l then w else update_weight w target (snd fp))
                        (if fwd then tt_footpaths_in tt l else tt_footpaths_out tt l) w in
    fold_left (fun w ri => match nth_error (tt_routes tt) ri with
                           | Some r => add_route_edges l r w
                           | None => w
                           end)
              (tt_location_routes tt l) w1.

  (** :76-98: one adjacency list per location; the [footpath] constructor saturates at 511 minutes (C05).
      Edge order is the iteration order of the hash map, here: first insertion. *)
  Definition lb_edges (i : nat) : list edge :=
    match lo_parent L i with
    | Some _ => []
    | None => map (fun e => (fst e, Z.min (snd e) fp_max_duration))
                  (fold_left add_edges (family L i ++ [i]) [])
    end.
End BuildLb.

(** ** dijkstra.cc:18-67: lower bounds of a query *)
Section LowerBounds.
  Variable L : locations.
  Variable mode : match_mode.
  (** Destination offsets: [q.destination_] expanded by [for_each_meta], and the usable entries of
      [q.td_dest_] ([duration != kMaxDuration && duration < max_travel_time], :40-47). *)
  Variable dest : list (nat * Z).
  Variable td_dest : list (nat * Z).
  Variable edges : nat -> list edge.

  (** :27-32 [update_min] on the ordered map: per root the smallest offset (dist_t is a uint16). *)
  Fixpoint insert_min (m : list (nat * Z)) (l : nat) (d : Z) : list (nat * Z) :=
    match m with
    | [] => [(l, Z.min (to_u16 d) kUnreachable)]
    | (x, y) :: m' => if Nat.eqb x l then (x, Z.min (to_u16 d) y) :: m'
                      else if Nat.ltb l x then (l, Z.min (to_u16 d) kUnreachable) :: m
                      else (x, y) :: insert_min m' l d
    end.
  Definition dest_min : list (nat * Z) :=
    fold_left (fun m (o : nat * Z) => insert_min m (get_root_idx L (fst o)) (snd o))
              (flat_map (fun o : nat * Z => map (fun x => (x, snd o)) (metas L mode (fst o))) dest ++ td_dest) [].

  (** :49-57 *)
  Definition init_step (st : option ((nat -> Z) * dial label)) (x : nat * Z) :=
    fold_left (fun st meta =>
                 match st with
                 | None => None
                 | Some (dists, pq) =>
                     match dial_push get_bucket pq (meta, snd x) with
                     | Some pq' => Some (upd dists meta (Z.min (snd x) (dists meta)), pq')
                     | None => None
                     end
                 end)
              (metas L mode (fst x)) st.
  Definition init : option ((nat -> Z) * dial label) :=
    fold_left init_step dest_min (Some (fun _ => kUnreachable, dial_new (Z.to_nat kMaxTravelTime))).

  (** :61-66: bounds of a location are handed down to its children, in index order. *)
  Definition hand_down (dists : nat -> Z) : nat -> Z :=
    fold_left (fun dists i =>
                 let lb := dists i in
                 fold_left (fun dists c => upd dists c (Z.min lb (dists c))) (lo_children L i) dists)
              (seq 0 (lo_n L)) dists.

  Definition lower_bounds (fuel : nat) : outcome (nat -> Z) :=
    match init with
    | None => Undefined
    | Some (dists, pq) =>
        match loop edges 65535 fuel dists pq with
        | Done dists' => Done (hand_down dists')
        | OutOfFuel => OutOfFuel
        | Undefined => Undefined
        end
    end.
End LowerBounds.

(** ** start_times.cc:321-353 [collect_destinations] *)
Definition is_intermodal (m : match_mode) : bool := match m with kIntermodal => true | _ => false end.
Definition collect_is_dest (L : locations) (mode : match_mode) (dest : list (nat * Z)) (intermodal_target l : nat) : bool :=
  if is_intermodal mode then Nat.eqb l intermodal_target
  else existsb (fun o : nat * Z => existsb (Nat.eqb l) (metas L mode (fst o))) dest.
Definition collect_dist_to_dest (L : locations) (mode : match_mode) (dest : list (nat * Z)) : option (nat -> option Z) :=
  if is_intermodal mode then
    Some (fun l =>
      let d := fold_left (fun acc (o : nat * Z) =>
                            if existsb (Nat.eqb l) (metas L mode (fst o)) then Z.min acc (to_u16 (snd o)) else acc)
                         dest kUnreachable in
      if d =? kUnreachable then None else Some d)
  else None.
