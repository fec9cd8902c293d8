(** Model of how the GTFS loader groups expanded vehicles into routes and writes them into the timetable:
    include/nigiri/loader/get_index.h, src/loader/gtfs/load_timetable.cc:255-310, 385-492,
    src/timetable.cc:122-167 (register_route, finish_route), 201-208 (add_transport) and the readers
    include/nigiri/timetable.h:147-183.
    Simplifications: the hash map of routes is an association list in insertion order (the iteration order of
    the real map only permutes routes); trip meta data (trip ids, headsigns, providers) is left out. *)
From Coq Require Import List ZArith Bool Arith.
From Verif Require Import Base Time_Model Raptor_Model.
Import ListNotations.
Local Open Scope Z_scope.

(** local_to_utc.h:28-35 [utc_trip]: event times in minutes after midnight of the first departure day, in the
    order dep(0), arr(1), dep(1), ..., arr(n-1); traffic days; identity of the trips. *)
Record service := mk_service { sv_times : list Z; sv_days : Z -> bool; sv_id : nat }.

(** route_key.h:7-11 *)
Record route_key := mk_key { rk_clasz : nat; rk_stops : list Z; rk_flags : list (list bool) }.
(** route_key.h:50-75 [route_key_equals].  (Flag sequences are never empty, load_timetable.cc:255-275.) *)
Definition route_key_eq_dec (a b : route_key) : {a = b} + {a <> b}.
Proof.
  decide equality.
  - apply (list_eq_dec (list_eq_dec Bool.bool_dec)).
  - apply (list_eq_dec Z.eq_dec).
  - apply Nat.eq_dec.
Defined.

(** std::lower_bound on random access iterators: halving search for the first element for which [p]
    (= comp(element, value)) is false. *)
Fixpoint lower_bound_loop {A} (fuel : nat) (p : A -> bool) (d : A) (l : list A) (first count : nat) : nat :=
  match fuel with
  | O => first
  | S fuel' =>
      match count with
      | O => first
      | S _ =>
          let step := Nat.div2 count in
          let it := (first + step)%nat in
          if p (nth it l d) then lower_bound_loop fuel' p d l (S it) (count - (step + 1))
          else lower_bound_loop fuel' p d l first step
      end
  end.
Definition lower_bound {A} (p : A -> bool) (d : A) (l : list A) : nat :=
  lower_bound_loop (S (length l)) p d l 0 (length l).

Definition no_service : service := mk_service [] (fun _ => false) 0.
(** [utc_times_[i] % 1440] (C++ remainder). *)
Definition time_mod (s : service) (i : nat) : Z := Z.rem (nth i (sv_times s) 0) 1440.

(** get_index.h:8-30.  [utc_times_.at(i)] on a shorter vehicle would throw; vehicles of one route have equally
    many times because the stop sequence is part of the key. *)
Definition get_index (rs : list service) (s : service) : option nat :=
  let index := lower_bound (fun a => time_mod a 0 <? time_mod s 0) no_service rs in
  let bad i :=
    (Nat.ltb 0 index && (time_mod s i <? time_mod (nth (index - 1) rs no_service) i))
    || (Nat.ltb index (length rs) && (time_mod (nth index rs no_service) i <? time_mod s i)) in
  if existsb bad (seq 0 (length (sv_times s))) then None else Some index.

(** std::vector::insert *)
Definition insert_at {A} (l : list A) (n : nat) (x : A) : list A := firstn n l ++ x :: skipn n l.

(** load_timetable.cc:292-300: first route of the key that accepts the vehicle, else a new route. *)
Fixpoint insert_service (rs : list (list service)) (s : service) : list (list service) :=
  match rs with
  | [] => [[s]]
  | r :: rest =>
      match get_index r s with
      | Some i => insert_at r i s :: rest
      | None => r :: insert_service rest s
      end
  end.

Definition route_map := list (route_key * list (list service)).
(** load_timetable.cc:277-310 [add_expanded_trip]. *)
Fixpoint add_expanded_trip (m : route_map) (k : route_key) (s : service) : route_map :=
  match m with
  | [] => [(k, [[s]])]
  | (k', rs) :: rest =>
      if route_key_eq_dec k k' then (k', insert_service rs s) :: rest
      else (k', rs) :: add_expanded_trip rest k s
  end.
Definition add_all (ins : list (route_key * service)) : route_map :=
  fold_left (fun m ks => add_expanded_trip m (fst ks) (snd ks)) ins [].

(** load_timetable.cc:255-275 [apply_flag_seq]: one bit for a single trip, otherwise one bit per section;
    a trip is given by its number of stops and its value of the flag. *)
Definition flag_seq (trips : list (nat * bool)) : list bool :=
  match trips with
  | [(_, b)] => [b]
  | _ => flat_map (fun t => repeat (snd t) (fst t - 1)) trips
  end.

(** ** Timetable arrays *)
Record tt_arrays := mk_arrays {
  a_route_stops : list (list Z);              (* route_location_seq_ *)
  a_route_clasz : list nat;                   (* route_clasz_ *)
  a_flags : list (list (bool * bool));        (* route_flags_[f]: bits 2 r and 2 r + 1, per route, per flag *)
  a_flag_sections : list (list (list bool));  (* route_flags_per_section_[f][r], per route, per flag *)
  a_transport_ranges : list (nat * nat);      (* route_transport_ranges_ *)
  a_transport_days : list (Z -> bool);        (* bitfields_[transport_traffic_days_[t]] *)
  a_transport_route : list nat;               (* transport_route_ *)
  a_stop_times : list delta;                  (* route_stop_times_ *)
  a_stop_time_ranges : list (nat * nat) }.    (* route_stop_time_ranges_ *)
Definition no_arrays : tt_arrays := mk_arrays [] [] [] [] [] [] [] [] [].

Definition count_true (l : list bool) : nat := length (filter (fun b => b) l).
(** timetable.cc:138-155 [apply_filter]. *)
Definition flag_bits (seq : list bool) : bool * bool :=
  let sections := length seq in
  let set := count_true seq in
  (Nat.eqb set sections && negb (Nat.eqb sections 0), negb (Nat.eqb set 0)).
Definition flag_sections (seq : list bool) : list bool :=
  let (all, some) := flag_bits seq in if some && negb all then seq else [].

(** timetable.cc:122-161 [register_route] (the end of the transport range is filled in later), :201-208
    [add_transport] for every vehicle, :164-167 [finish_route], then load_timetable.cc:472-491: for every pair
    of consecutive stops all departures at the first, then all arrivals at the second. *)
Definition route_times (n_stops : nat) (services : list service) : list delta :=
  flat_map (fun from =>
              map (fun s => delta_of_minutes (nth (from * 2) (sv_times s) 0)) services
              ++ map (fun s => delta_of_minutes (nth ((from + 1) * 2 - 1) (sv_times s) 0)) services)
           (seq 0 (n_stops - 1)).
Definition write_route (a : tt_arrays) (k : route_key) (services : list service) : tt_arrays :=
  let idx := length (a_route_stops a) in
  let n := length (a_transport_days a) in
  let times := route_times (length (rk_stops k)) services in
  mk_arrays (a_route_stops a ++ [rk_stops k]) (a_route_clasz a ++ [rk_clasz k])
            (a_flags a ++ [map flag_bits (rk_flags k)]) (a_flag_sections a ++ [map flag_sections (rk_flags k)])
            (a_transport_ranges a ++ [(n, n + length services)%nat])
            (a_transport_days a ++ map sv_days services)
            (a_transport_route a ++ map (fun _ => idx) services)
            (a_stop_times a ++ times)
            (a_stop_time_ranges a ++ [(length (a_stop_times a), length (a_stop_times a) + length times)%nat]).
(** load_timetable.cc:385-492: all routes of all keys. *)
Definition routes_of (m : route_map) : list (route_key * list service) :=
  flat_map (fun kr => map (pair (fst kr)) (snd kr)) m.
Definition write_routes (a : tt_arrays) (rs : list (route_key * list service)) : tt_arrays :=
  fold_left (fun a kr => write_route a (fst kr) (snd kr)) rs a.

(** ** Readers.  timetable.h:166-177 [event_mam(r, t, stop, ev)]: 32 bit unsigned index arithmetic. *)
Definition ev_index (stop_idx : nat) (e : ev_type) : Z := Z.of_nat stop_idx * 2 - (match e with kArr => 1 | kDep => 0 end).
Definition event_mam (a : tt_arrays) (r t stop_idx : nat) (e : ev_type) : delta :=
  let range := nth r (a_transport_ranges a) (0, 0)%nat in
  let n_transports := Z.of_nat (snd range - fst range) in
  let begin := to_u32 (Z.of_nat (fst (nth r (a_stop_time_ranges a) (0, 0)%nat)) + n_transports * ev_index stop_idx e) in
  nth (Z.to_nat (begin + Z.of_nat (t - fst range))) (a_stop_times a) (mk_delta 0 0).
(** timetable.h:155-164 [event_times_at_stop]: the span of one stop. *)
Definition event_times_at_stop (a : tt_arrays) (r stop_idx : nat) (e : ev_type) : list delta :=
  let range := nth r (a_transport_ranges a) (0, 0)%nat in
  let n_transports := (snd range - fst range)%nat in
  let idx := to_u32 (Z.of_nat (fst (nth r (a_stop_time_ranges a) (0, 0)%nat)) + Z.of_nat n_transports * ev_index stop_idx e) in
  firstn n_transports (skipn (Z.to_nat idx) (a_stop_times a)).

(** ** The route as the search sees it, read back from the arrays.  Arrival at the first and departure at the
    last stop do not exist in the arrays (the search never asks for them); here they repeat the neighbouring
    event.  raptor.h:509-521 / 1197 and timetable.h:264-272 for the flags. *)
Definition clamp_ev (n_stops s : nat) (e : ev_type) : nat * ev_type :=
  match e with
  | kArr => if Nat.eqb s 0 then (0%nat, kDep) else (s, kArr)
  | kDep => if Nat.leb (n_stops - 1) s then (s, kArr) else (s, kDep)
  end.
Definition loaded_vehicle (a : tt_arrays) (r t n_stops : nat) : vehicle :=
  mk_vehicle (fun s e => let (s', e') := clamp_ev n_stops s e in event_mam a r t s' e')
             (nth t (a_transport_days a) (fun _ => false)).
Definition loaded_route (a : tt_arrays) (r : nat) : route :=
  let stops := nth r (a_route_stops a) [] in
  let range := nth r (a_transport_ranges a) (0, 0)%nat in
  mk_route (map stop_of_value stops) (nth r (a_route_clasz a) 0%nat)
           (fun f => fst (nth f (nth r (a_flags a) []) (false, false)))
           (fun f => snd (nth f (nth r (a_flags a) []) (false, false)))
           (fun f s => nth s (nth f (nth r (a_flag_sections a) []) []) false)
           (map (fun t => loaded_vehicle a r t (length stops)) (seq (fst range) (snd range - fst range))) None.
Definition loaded_routes (a : tt_arrays) : list route :=
  map (loaded_route a) (seq 0 (length (a_route_stops a))).
