(** Model of the resolution of stay-seated transfers: [build_seated_trips] (src/loader/gtfs/seated.cc:14-289), used by the GTFS loader
    (load_timetable.cc:350-395) and the NeTEx loader (netex/load_timetable.cc:1641-1704).
    The input is what [expand_seated_trips] (seated.h:29-69) delivers: the UTC variants of all trips with seated transfers ("remaining"),
    each with the rule trip it is a variant of, and the rules between rule trips.
    The iteration order of hash maps is unknown: it is the parameter [order] (which iteration of the outer loop, how many maps were read
    in it, contents), any permutation of the contents; [vector]s keep their order.  A loop that may run forever takes [fuel]; [None] =
    not finished.  Not modelled: debug output, route flags and colours, [first_dep_offset_] and [tz_offset_] (copied from the first trip). *)
From Coq Require Import List ZArith Bool Arith.
From Verif Require Import Base Calendar_Model Block_Model.
Import ListNotations.
Local Open Scope Z_scope.

(** A stop of a trip: location, in_allowed, out_allowed (stop.h). *)
Record sstop := mk_ss { ss_loc : Z; ss_in : bool; ss_out : bool }.

(** local_to_utc.h:28-35 [utc_trip]: trips, times (departure, arrival, departure, ... in minutes after the midnight the traffic days
    refer to), traffic days, stops. *)
Record utc_trip := mk_ut { ut_trips : list nat; ut_times : list Z; ut_days : bitfield; ut_stops : list sstop }.
Definition no_trip : utc_trip := mk_ut [] [] bf_empty [].

(** seated.h:15-21 [expanded_seated]: [expanded_.data_], [remaining_rule_trip_], [seated_in_], [seated_out_]. *)
Record expanded_seated := mk_es {
  es_trips : list utc_trip; es_rule : nat -> nat; es_in : nat -> list nat; es_out : nat -> list nat }.

(** bitset [<<] and [>>] (seated.cc:25-28 [shift]): bits that leave [0, 512) are lost, zeros enter. *)
Definition shift (b : bitfield) (offset : Z) : bitfield :=
  fun d => (0 <=? d) && (d <? 512) && (0 <=? d - offset) && (d - offset <? 512) && b (d - offset).

Section Seated.
  Variable E : expanded_seated.
  Variable order : nat -> nat -> list (nat * Z) -> list (nat * Z).

  Definition trip_of (i : nat) : utc_trip := nth i (es_trips E) no_trip.
  (** :31-35 [get_remaining]: the variants of a rule trip. *)
  Definition get_remaining (t : nat) : list nat := filter (fun i => Nat.eqb (es_rule E i) t) (seq 0 (length (es_trips E))).
  (** :36-41 *)
  Definition incoming (i : nat) : list nat := es_in E (es_rule E i).
  Definition outgoing (i : nat) : list nat := es_out E (es_rule E i).
  (** :45-52 *)
  Definition first_dep (i : nat) : Z := hd 0 (ut_times (trip_of i)).
  Definition last_arr (i : nat) : Z := last (ut_times (trip_of i)) 0.
  (** :53-60 [get_day_change_offset] *)
  Definition day_change (a b : nat) : Z :=
    (Z.quot (last_arr a) 1440 - Z.quot (first_dep a) 1440) + (if first_dep b <? Z.rem (last_arr a) 1440 then 1 else 0).
  (** :61-70 [is_valid_dwell_time] *)
  Definition valid_dwell (a b : nat) : bool :=
    let diff := first_dep b - Z.rem (last_arr a) 1440 in
    (if diff <? 0 then diff + 1440 else diff) <? 120.

  (** Maps: keys and offsets.  [emplace] keeps an existing entry. *)
  Definition has (m : list (nat * Z)) (i : nat) : bool := existsb (fun x => Nat.eqb (fst x) i) m.
  Definition emplace (m : list (nat * Z)) (x : nat * Z) : list (nat * Z) := if has m (fst x) then m else m ++ [x].

  (** :126-157: the neighbours of [cur] that are queued. *)
  Definition out_neighbours (comp : list (nat * Z)) (cur : nat) (offset : Z) : list (nat * Z) :=
    flat_map (fun t => flat_map (fun o => if has comp o || negb (valid_dwell cur o) then [] else [(o, offset + day_change cur o)]) (get_remaining t)) (outgoing cur).
  Definition in_neighbours (comp : list (nat * Z)) (cur : nat) (offset : Z) : list (nat * Z) :=
    flat_map (fun t => flat_map (fun o => if has comp o || negb (valid_dwell o cur) then [] else [(o, offset - day_change o cur)]) (get_remaining t)) (incoming cur).

  (** :82-159 PART 1: the component and its traffic days. [rem]: the traffic days of [remaining]; [k] counts the extractions. *)
  Fixpoint grow (fuel it k : nat) (rem : nat -> bitfield) (q comp : list (nat * Z)) (days : bitfield) : option (list (nat * Z) * bitfield) :=
    match fuel with
    | O => None
    | S fuel' =>
        match order it k q with
        | [] => Some (comp, days)
        | (cur, offset) :: q' =>
            let next := bf_and (shift (rem cur) (- offset)) days in
            if negb (bf_any next) then grow fuel' it (S k) rem q' comp days
            else
              let comp' := emplace comp (cur, offset) in
              let q1 := fold_left emplace (out_neighbours comp' cur offset) q' in
              let q2 := fold_left emplace (in_neighbours comp' cur offset) q1 in
              grow fuel' it (S k) rem q2 comp' next
        end
    end.

  (** :168-175 [get_representative] *)
  Definition get_representative (comp : list (nat * Z)) (t : nat) : option (nat * Z) := find (fun x => Nat.eqb (es_rule E (fst x)) t) comp.

  (** A queue entry of part 3: transport, last rule trip, transport offset. *)
  Definition entry := (utc_trip * nat * Z)%type.
  (** :184-204 PART 2 *)
  Definition is_entry (comp : list (nat * Z)) (i : nat) : bool :=
    forallb (fun t => match get_representative comp t with Some _ => false | None => true end) (incoming i).
  Definition start_entry (days : bitfield) (x : nat * Z) : entry :=
    let t := trip_of (fst x) in
    (mk_ut (ut_trips t) (ut_times t) (shift days (snd x)) (ut_stops t), es_rule E (fst x), - snd x).
  Definition starts (comp : list (nat * Z)) (days : bitfield) : list entry :=
    map (start_entry days) (filter (fun x => is_entry comp (fst x)) comp).

  (** :218-231: [curr] followed by the representative [r]. *)
  Definition append_trip (curr : utc_trip) (transport_offset : Z) (r : nat * Z) : utc_trip :=
    let t := trip_of (fst r) in
    mk_ut (ut_trips curr ++ [hd 0%nat (ut_trips t)])
          (ut_times curr ++ map (fun x => x + (transport_offset + snd r) * 1440) (ut_times t))
          (ut_days curr)
          (ut_stops curr ++ tl (ut_stops t)).
  (** :215-258: the entries pushed for [curr]; the last one pushed is the first to be popped. *)
  Definition nexts (comp : list (nat * Z)) (e : entry) : list entry :=
    let '(curr, prev, transport_offset) := e in
    flat_map (fun t => match get_representative comp t with
                       | Some r => [(append_trip curr transport_offset r, es_rule E (fst r), transport_offset)]
                       | None => []
                       end) (es_out E prev).
  (** :209-271 PART 3; the stack's top first. *)
  Fixpoint dfs (fuel : nat) (comp : list (nat * Z)) (stack : list entry) : option (list utc_trip) :=
    match fuel with
    | O => None
    | S fuel' =>
        match stack with
        | [] => Some []
        | e :: stack' =>
            match nexts comp e with
            | [] => option_map (cons (fst (fst e))) (dfs fuel' comp stack')
            | l => dfs fuel' comp (rev l ++ stack')
            end
        end
    end.

  (** :276-283 PART 4 *)
  Definition remove_days (comp : list (nat * Z)) (days : bitfield) (rem : nat -> bitfield) : nat -> bitfield :=
    fold_left (fun rem x => fun i => if Nat.eqb i (fst x) then bf_andnot (rem i) (shift days (snd x)) else rem i) comp rem.
  Definition clear_bits (comp : list (nat * Z)) (rem : nat -> bitfield) (bits : nat -> bool) : nat -> bool :=
    fold_left (fun bits x => fun i => if Nat.eqb i (fst x) && negb (bf_any (rem i)) then false else bits i) comp bits.

  (** bitvec [next_set_bit] *)
  Definition next_set_bit (bits : nat -> bool) (from : nat) : option nat := find bits (seq from (length (es_trips E) - from)).

  (** :72-288, the outer loop, as a relation: [loop it next rem bits out] = started in this state, it ends and hands [out] to the consumer,
      in this order.  It is deterministic for a given [order]: no [out] = it does not end. *)
  Inductive loop : nat -> option nat -> (nat -> bitfield) -> (nat -> bool) -> list utc_trip -> Prop :=
  | loop_end it rem bits : loop it None rem bits []
  | loop_step it i rem bits fuel comp days fuel' part out :
      grow fuel it 0 rem [(i, 0)] [] (rem i) = Some (comp, days) ->
      let comp' := order it 0 comp in
      dfs fuel' comp' (rev (starts comp' days)) = Some part ->
      let rem' := remove_days comp' days rem in
      let bits' := clear_bits comp' rem' bits in
      loop (S it) (next_set_bit bits' i) rem' bits' out ->
      loop it (Some i) rem bits (part ++ out).
  Definition build_seated_trips (out : list utc_trip) : Prop :=
    let bits := fun i => Nat.ltb i (length (es_trips E)) in
    loop 0 (next_set_bit bits 0) (fun i => ut_days (trip_of i)) bits out.
End Seated.

(** netex/load_timetable.cc:1654-1696: journeys without an entry in [global_journey_meetings] (no following journey) are added on their
    own; journeys with a following or a preceding journey become rule trips.  [variants i]: [sj_utc_trips[i]], [out i] / [inn i]: the
    meetings of journey [i].  Result: the transports added on their own and the input of [build_seated_trips] (rule trips numbered by
    position in [rule_trips]). *)
Section Netex.
  Variable n : nat.
  Variable variants : nat -> list utc_trip.
  Variables out inn : nat -> list nat.
  Definition netex_alone : list utc_trip := flat_map (fun i => match out i with [] => variants i | _ => [] end) (seq 0 n).
  Definition netex_rule_trips : list nat := filter (fun i => match out i, inn i with [], [] => false | _, _ => true end) (seq 0 n).
  Fixpoint index_in (x : nat) (l : list nat) : nat := match l with [] => 0%nat | y :: l' => if Nat.eqb x y then 0%nat else S (index_in x l') end.
  Definition netex_seated : expanded_seated :=
    mk_es (flat_map variants netex_rule_trips)
          (fun r => nth r (flat_map (fun i => map (fun _ => index_in i netex_rule_trips) (variants i)) netex_rule_trips) 0%nat)
          (fun t => map (fun i => index_in i netex_rule_trips) (inn (nth t netex_rule_trips 0%nat)))
          (fun t => map (fun i => index_in i netex_rule_trips) (out (nth t netex_rule_trips 0%nat))).
End Netex.
