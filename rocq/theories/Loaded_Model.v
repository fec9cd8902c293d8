(** Model of the whole way from expanded vehicles to the timetable the search works on: the loader's route index of the locations
    (src/loader/gtfs/load_timetable.cc:392-506), the registration of traffic days (:461-464, src/timetable.cc:116-120,
    src/loader/init_finish.cc:34), and [finalize] (src/loader/init_finish.cc:200-233), composed from the models of the single steps:
    [Routes_Model] (grouping into routes, arrays), [Finish_Model] (duplicates, traffic days of routes), [Foot_Model] (footpaths).
    Not modelled here: identifiers, providers, shapes, flex; the loading of more than one data set. *)
From Coq Require Import List ZArith Bool Arith.
From Verif Require Import Base Time_Model Calendar_Model Raptor_Model Routes_Model Finish_Model.
From Verif Require Query_Model Foot_Model.
Import ListNotations.
Local Open Scope Z_scope.

(** load_timetable.cc:392-404: the route is appended to the routes of each location it stops at, unless it is already the last entry. *)
Definition add_stop_route (ri : nat) (m : nat -> list nat) (value : Z) : nat -> list nat :=
  let l := Z.to_nat (s_loc (stop_of_value value)) in
  if match m l with [] => true | x :: _ => negb (Nat.eqb (last (m l) x) ri) end then Raptor_Model.upd m l (m l ++ [ri]) else m.
Definition add_route_stops (m : nat -> list nat) (e : nat * list Z) : nat -> list nat := fold_left (add_stop_route (fst e)) (snd e) m.
(** :500-504 with an empty timetable before: the map itself. *)
Definition build_location_routes (stops : list (list Z)) : nat -> list nat :=
  fold_left add_route_stops (combine (seq 0 (length stops)) stops) (fun _ => []).

(** load_timetable.cc:461-464 ([utl::get_or_create] on the hash map of bit fields), timetable.cc:116-120, :201-208: bit fields,
    the hash map, and the traffic days index of each vehicle. *)
Definition days_state := (list bitfield * list (bitfield * nat) * list nat)%type.
Definition register_days (st : days_state) (b : bitfield) : days_state :=
  let '(bfs, known, days) := st in
  match find (fun e => bfEq (fst e) b) known with
  | Some e => (bfs, known, days ++ [snd e])
  | None => (bfs ++ [b], known ++ [(b, length bfs)], days ++ [length bfs])
  end.
(** init_finish.cc:34: bit field 0 is empty and not in the hash map. *)
Definition register_all_days (l : list bitfield) : days_state := fold_left register_days l ([bf_empty], [], []).

(** What [finish_model] needs of a written route. *)
Definition froute_of (a : tt_arrays) (r : nat) : froute :=
  let range := nth r (a_transport_ranges a) (0, 0)%nat in
  mk_froute (map stop_of_value (nth r (a_route_stops a) [])) (fst range) (snd range).
Definition froutes (a : tt_arrays) : list froute := map (froute_of a) (seq 0 (length (a_route_stops a))).
Definition read_event (a : tt_arrays) (r t s : nat) (arr : bool) : delta := Routes_Model.event_mam a r t s (if arr then kArr else kDep).

(** build_footpaths.cc:442-459: the pairs of equivalent locations searched for duplicates.  [src]: [None] = invalid source. *)
Definition duplicate_pairs (n : nat) (L : Query_Model.locations) (src : nat -> option nat) (intra inter : bool) : list (nat * nat) :=
  if intra || inter then
    flat_map (fun l =>
      match src l with
      | None => []
      | Some sl =>
          flat_map (fun e =>
            match src e with
            | None => []
            | Some se => if (negb intra && Nat.eqb sl se) || (negb inter && negb (Nat.eqb sl se)) then [] else [(l, e)]
            end) (Query_Model.ls_equiv L l)
      end) (seq 0 n)
  else [].

(** Locations and options of a load. *)
Record setup := mk_setup {
  su_n : nat; su_locs : Query_Model.locations; su_src : nat -> option nat; su_ttime : nat -> Z;
  su_links : nat -> list (nat * Z);                    (* preprocessing_footpaths_out_ *)
  su_beeline : option (nat -> nat -> option Z);        (* adjust_footpaths *)
  su_intra : bool; su_inter : bool; su_max_foot : Z;
  (* trips of the vehicles: transport_to_trip_section_, merged_trips_, trip_transport_ranges_ *)
  su_sections : list (list nat); su_merged : list (list nat); su_ranges : list (list (nat * (Z * Z))) }.

Section Finalize.
  Variable su : setup.
  Variable a : tt_arrays.
  (** The timetable before [finalize] as far as [merge_duplicates] is concerned. *)
  Definition loaded_days : dtt :=
    let '(bfs, _, days) := register_all_days (a_transport_days a) in mk_dtt bfs days (su_sections su) (su_merged su) (su_ranges su).
  (** init_finish.cc:225 -> build_footpaths.cc:440-460 *)
  Definition merged_days : dtt :=
    remove_duplicates (su_locs su) (froutes a) (build_location_routes (a_route_stops a)) (read_event a)
      (duplicate_pairs (su_n su) (su_locs su) (su_src su) (su_intra su) (su_inter su)) loaded_days.
  (** init_finish.cc:226 *)
  Definition final_days : list bitfield * list nat := rebuild_route_traffic_days (froutes a) (read_event a) merged_days.
  (** timetable.h:147-149 on the final bit fields. *)
  Definition final_vehicle (r t n_stops : nat) : vehicle :=
    mk_vehicle (v_ev (loaded_vehicle a r t n_stops)) (nth (nth t (dt_days merged_days) 0%nat) (fst final_days) bf_empty).
  Definition final_route (r : nat) : Raptor_Model.route :=
    let lr := loaded_route a r in
    let range := nth r (a_transport_ranges a) (0, 0)%nat in
    mk_route (r_stops lr) (r_clasz lr) (r_flag_all lr) (r_flag_some lr) (r_flag_section lr)
             (map (fun t => final_vehicle r t (length (nth r (a_route_stops a) []))) (seq (fst range) (snd range - fst range))) None.
  Definition final_timetable (fuel : nat) : option timetable :=
    match Foot_Model.build_footpaths (su_n su) (su_links su) (su_ttime su) (su_max_foot su) (su_beeline su) fuel with
    | None => None
    | Some (out, inn) =>
        Some (mk_tt (su_n su) (map final_route (seq 0 (length (a_route_stops a)))) (build_location_routes (a_route_stops a))
                    (su_ttime su) out inn (fun r day => Finish_Model.is_route_active final_days r day))
    end.
End Finalize.
(** Loading a list of expanded vehicles and finalising. *)
Definition load (su : setup) (ins : list (route_key * service)) (fuel : nat) : option timetable :=
  final_timetable su (write_routes no_arrays (routes_of (add_all ins))) fuel.
