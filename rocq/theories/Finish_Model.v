(** Model of parts of the timetable finalisation: src/loader/merge_duplicates.cc (removal of duplicate vehicles) and
    src/loader/init_finish.cc:168-198 (per route traffic days).  Stop times are given by a function (their storage layout is
    the subject of Routes_Model.v). *)
From Coq Require Import List ZArith Bool Arith.
From Verif Require Import Base Time_Model Calendar_Model Query_Model.
Import ListNotations.
Local Open Scope Z_scope.

(** ** Traffic days *)
(** bitset operators on [kMaxDays] = 512 bits *)
Definition days_of : list Z := map Z.of_nat (seq 0 512).
Definition bfAnd (a b : bitfield) : bitfield := fun d => a d && b d.
Definition bfNot (a : bitfield) : bitfield := fun d => (0 <=? d) && (d <? 512) && negb (a d).
Definition bfOr (a b : bitfield) : bitfield := fun d => a d || b d.
Definition bfNone (a : bitfield) : bool := negb (existsb a days_of).
Definition bfEq (a b : bitfield) : bool := forallb (fun d => Bool.eqb (a d) (b d)) days_of.
(** operator<<: bit [d] of the result is bit [d - n]; bits shifted beyond the end are lost. *)
Definition bfShl (a : bitfield) (n : Z) : bitfield := fun d => (0 <=? d - n) && (d <? 512) && a (d - n).

(** The members of the timetable the two functions use and change. *)
Record dtt := mk_dtt {
  dt_bitfields : list bitfield;                     (* bitfields_; entry 0 is empty *)
  dt_days : list nat;                               (* transport_traffic_days_ *)
  dt_sections : list (list nat);                    (* transport_to_trip_section_: merged trip indices *)
  dt_merged : list (list nat);                      (* merged_trips_: trips *)
  dt_ranges : list (list (nat * (Z * Z))) }.        (* trip_transport_ranges_: (vehicle, stop range) per trip *)
Definition dt_bits (tt : dtt) (t : nat) : bitfield := nth (nth t (dt_days tt) 0%nat) (dt_bitfields tt) bf_empty.
(** timetable.h:147-149 *)
Definition is_transport_active (tt : dtt) (t : nat) (d : Z) : bool := bf_test (dt_bits tt t) d.

(** ** merge_duplicates.cc *)
(** The trips named by the sections of vehicle [t], in visiting order. *)
Definition section_trips (tt : dtt) (t : nat) : list nat :=
  flat_map (fun m => nth m (dt_merged tt) []) (nth t (dt_sections tt) []).
Definition redirect (x y : nat) (l : list (nat * (Z * Z))) : list (nat * (Z * Z)) :=
  map (fun e => if Nat.eqb (fst e) x then (y, snd e) else e) l.
(** :46-59 [merge_and_nullify] *)
Definition merge_and_nullify (tt : dtt) (x y : nat) : dtt :=
  mk_dtt (dt_bitfields tt) (set_nth (dt_days tt) x 0%nat) (dt_sections tt) (dt_merged tt)
    (fold_left (fun rs trp => set_nth rs trp (redirect x y (nth trp rs []))) (section_trips tt x) (dt_ranges tt)).
Definition is_superset (x y : bitfield) : bool := bfEq (bfAnd x y) y.
(** :34-89 [merge]; timetable.cc:116-120 [register_bitfield] appends.  The hash set of b's trips is a duplicate free list. *)
Definition merge (tt : dtt) (size : Z) (a b : nat) : dtt * bool :=
  let bf_a := dt_bits tt a in
  let bf_b := dt_bits tt b in
  if bfNone (bfAnd bf_a bf_b) then (tt, false)
  else if is_superset bf_b bf_a then (merge_and_nullify tt a b, true)
  else if is_superset bf_a bf_b then (merge_and_nullify tt b a, true)
  else
    let b_trips := nodup Nat.eq_dec
                     (filter (fun trp => existsb (fun e => Nat.eqb (fst e) b) (nth trp (dt_ranges tt) [])) (section_trips tt b)) in
    (mk_dtt (dt_bitfields tt ++ [bfAnd bf_a (bfNot (bfAnd bf_a bf_b))])
            (set_nth (dt_days tt) a (length (dt_bitfields tt)))
            (dt_sections tt) (dt_merged tt)
            (fold_left (fun rs trp => set_nth rs trp (nth trp rs [] ++ [(a, (0, size))])) b_trips (dt_ranges tt)), true).

(** Static part of a route. *)
Record froute := mk_froute { fr_seq : list stop; fr_from : nat; fr_to : nat }.
Section Duplicates.
  Variable L : locations.
  Variable routes : list froute.
  Variable location_routes : nat -> list nat.
  (** timetable.h:166-177 [event_mam]: route, vehicle, stop, arrival? *)
  Variable event_mam : nat -> nat -> nat -> bool -> delta.
  Definition route (r : nat) : froute := nth r routes (mk_froute [] 0 0).
  (** :10-32 [get_delta] *)
  Definition get_delta (ra rb a b : nat) : Z :=
    let n := length (fr_seq (route ra)) in
    fold_left (fun acc i =>
      let acc := if Nat.eqb i 0 then acc
                 else to_u32 (acc + Z.abs (delta_count (event_mam ra a i true) - delta_count (event_mam rb b i true))) in
      if Nat.eqb i (n - 1) then acc
      else to_u32 (acc + Z.abs (delta_count (event_mam ra a i false) - delta_count (event_mam rb b i false))))
      (seq 0 n) 0.
  (** :119-143, the walk over two sorted ranges; every step advances at least one of them. *)
  Fixpoint walk (fuel : nat) (ra rb : nat) (la lb : list nat) (tt : dtt) (merged : Z) : dtt * Z :=
    match fuel with
    | O => (tt, merged)
    | S f =>
        match la, lb with
        | a :: la', b :: lb' =>
            if Nat.eqb a b then walk f ra rb la' lb' tt merged
            else
              let ta := event_mam ra a 0 false in
              let tb := event_mam rb b 0 false in
              if delta_eqb ta tb then
                let n := Z.of_nat (length (fr_seq (route ra))) in
                let (tt', m) := if get_delta ra rb a b <? n then merge tt (to_u16 n) a b else (tt, false) in
                walk f ra rb la' lb' tt' (if m then merged + 1 else merged)
              else if delta_lt ta tb then walk f ra rb la' lb tt merged
              else walk f ra rb la lb' tt merged
        | _, _ => (tt, merged)
        end
    end.
  Definition transports (r : nat) : list nat := seq (fr_from (route r)) (fr_to (route r) - fr_from (route r)).
  Definition stop_loc (s : stop) : nat := Z.to_nat (s_loc s).
  Definition first_loc (r : nat) : option nat := match fr_seq (route r) with s :: _ => Some (stop_loc s) | [] => None end.
  (** :107-114 *)
  Definition station_sequence_matches (ra rb : nat) : bool :=
    forallb (fun p => matches L kEquivalent (stop_loc (fst p)) (stop_loc (snd p))) (combine (fr_seq (route ra)) (fr_seq (route rb))).
  Definition is_first (r l : nat) : bool := match first_loc r with Some x => Nat.eqb x l | None => false end.
  (** :91-148 [find_duplicates] *)
  Definition find_duplicates (tt : dtt) (a b : nat) : dtt * Z :=
    fold_left (fun st ra =>
      if negb (is_first ra a) then st
      else fold_left (fun st rb =>
        if negb (is_first rb b) then st
        else if negb (Nat.eqb (length (fr_seq (route ra))) (length (fr_seq (route rb)))) then st
        else if negb (station_sequence_matches ra rb) then st
        else walk (length (transports ra) + length (transports rb)) ra rb (transports ra) (transports rb) (fst st) (snd st))
        (location_routes b) st) (location_routes a) (tt, 0).
  (** build_footpaths.cc:440-458: the pairs (location, equivalent location) that pass the source options, in order. *)
  Definition remove_duplicates (pairs : list (nat * nat)) (tt : dtt) : dtt :=
    fold_left (fun tt p => fst (find_duplicates tt (fst p) (snd p))) pairs tt.

  (** ** init_finish.cc:168-198 [rebuild_route_traffic_days] *)
  (** :176-187: largest day offset of an event of vehicle [t]. *)
  Definition max_day_offset (r t : nat) : Z :=
    let n := length (fr_seq (route r)) in
    fold_left (fun acc s =>
      let acc := if Nat.eqb s 0 then acc else Z.max acc (d_days (event_mam r t s true)) in
      if Nat.eqb (s + 1) n then acc else Z.max acc (d_days (event_mam r t s false))) (seq 0 n) 0.
  (** :189-192 *)
  Definition add_vehicle_days (tt : dtt) (r : nat) (combined : bitfield) (t : nat) : bitfield :=
    fold_left (fun c d => bfOr c (bfShl (dt_bits tt t) (Z.of_nat d))) (seq 0 (Z.to_nat (max_day_offset r t + 1))) combined.
  Definition route_days (tt : dtt) (r : nat) : bitfield := fold_left (add_vehicle_days tt r) (transports r) bf_empty.
  (** The loop over routes: one new bit field per route; result: bit fields and [route_traffic_days_]. *)
  Definition rebuild_route_traffic_days (tt : dtt) : list bitfield * list nat :=
    fold_left (fun st r => (fst st ++ [route_days tt r], snd st ++ [length (fst st)])) (seq 0 (length routes)) (dt_bitfields tt, []).
  (** timetable.h:151-153 *)
  Definition is_route_active (st : list bitfield * list nat) (r : nat) (day : Z) : bool :=
    bf_test (nth (nth r (snd st) 0%nat) (fst st) bf_empty) day.
End Duplicates.
