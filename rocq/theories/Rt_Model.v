(** Model of the real-time timetable (include/nigiri/rt/rt_timetable.h, src/rt/rt_timetable.cc,
    src/rt/create_rt_timetable.cc) and of GTFS-RT trip updates (src/rt/gtfsrt_update.cc, resolve_rt of
    src/rt/gtfsrt_resolve_run.cc).  Not modelled: protobuf parsing, change callbacks dispatch callbacks, alerts, tracks,
    section classes and flags of real-time vehicles, resolution of trip descriptors to static runs.
    Strings (trip ids, stop ids) are numbers; times are unix minutes. *)
From Coq Require Import List ZArith Bool Arith.
From Verif Require Import Base Time_Model Calendar_Model Query_Model Finish_Model.
Import ListNotations.
Local Open Scope Z_scope.

(** ** The static timetable as far as it is used here *)
Record stt := mk_stt {
  s_bitfields : list bitfield;                       (* bitfields_ *)
  s_days : list Z;                                   (* transport_traffic_days_ *)
  s_seq : nat -> list Z;                             (* route_location_seq_[transport_route_[t]]: stop words *)
  s_event : nat -> Z -> nat -> bool -> Z;            (* event_time(t, day, stop, is arrival), timetable.h:185-190 *)
  s_loc_id : nat -> Z;                               (* locations_.ids_ *)
  s_find_loc : Z -> option nat;                      (* locations_.location_id_to_idx_ for the source at hand *)
  s_equiv : nat -> list nat }.                       (* locations_.equivalences_ *)
(** A vehicle on a day: [transport] = (index, day). *)
Definition transport := (nat * Z)%type.
Definition transport_eqb (a b : transport) : bool := Nat.eqb (fst a) (fst b) && (snd a =? snd b).
(** timetable.h:147-149 *)
Definition static_active (tt : stt) (t : nat) (d : Z) : bool :=
  bf_test (nth (Z.to_nat (nth t (s_days tt) 0)) (s_bitfields tt) bf_empty) d.

(** ** rt_timetable.h:216-260, the members used here *)
Record rtt := mk_rtt {
  rt_days : list Z;                                  (* transport_traffic_days_: index, with flag bit 31 for own bit fields *)
  rt_bitfields : list bitfield;                      (* bitfields_ *)
  rt_base : Z;                                       (* base_day_ in minutes *)
  rt_lookup : list (transport * nat);                (* static_trip_lookup_ *)
  rt_static : list (transport + nat);                (* rt_transport_static_transport_ *)
  rt_ids : nat -> list Z;                            (* additional_trips_[src].ids_ (string_store: index = position) *)
  rt_added : nat -> list nat;                        (* additional_trips_[src].transports_ *)
  rt_times : list (list Z);                          (* rt_transport_stop_times_ *)
  rt_stops : list (list Z);                          (* rt_transport_location_seq_ *)
  rt_cancelled : list bool }.                        (* rt_transport_is_cancelled_ *)
Definition kRtBitfieldFlag : Z := 2147483648.
(** :201-205 [traffic_days] *)
Definition traffic_days (tt : stt) (r : rtt) (i : Z) : bitfield :=
  if Z.odd (i / kRtBitfieldFlag) then nth (Z.to_nat (i mod kRtBitfieldFlag)) (rt_bitfields r) bf_empty
  else nth (Z.to_nat i) (s_bitfields tt) bf_empty.
(** :207-210 [rt_bitfield_idx], for [n] bit fields: (n - 1) | flag. *)
Definition rt_bitfield_idx (n : nat) : Z := Z.lor (Z.of_nat n - 1) kRtBitfieldFlag mod 4294967296.
(** :212-214 [is_transport_active] *)
Definition is_transport_active (tt : stt) (r : rtt) (t : nat) (d : Z) : bool := bf_test (traffic_days tt r (nth t (rt_days r) 0)) d.
(** create_rt_timetable.cc:11-43 *)
Definition create_rt_timetable (tt : stt) (base : Z) : rtt :=
  mk_rtt (s_days tt) [] base [] [] (fun _ => []) (fun _ => []) [] [] [].

(** Copy of the vehicle's days without [day] (rt_timetable.cc:35-38, 302-305). *)
Definition disable_day (tt : stt) (r : rtt) (t : nat) (day : Z) : rtt :=
  let bf := bf_set (traffic_days tt r (nth t (rt_days r) 0)) day false in
  mk_rtt (set_nth (rt_days r) t (rt_bitfield_idx (S (length (rt_bitfields r))))) (rt_bitfields r ++ [bf]) (rt_base r) (rt_lookup r)
    (rt_static r) (rt_ids r) (rt_added r) (rt_times r) (rt_stops r) (rt_cancelled r).
(** hash_map::emplace: keeps an existing entry. *)
Definition lookup_find (l : list (transport * nat)) (t : transport) : option nat :=
  match find (fun e => transport_eqb (fst e) t) l with Some e => Some (snd e) | None => None end.
Definition lookup_emplace (l : list (transport * nat)) (t : transport) (x : nat) : list (transport * nat) :=
  match lookup_find l t with Some _ => l | None => l ++ [(t, x)] end.
(** string_store.h: [store] appends unless present; [find]. *)
Fixpoint id_find (l : list Z) (s : Z) : option nat :=
  match l with
  | [] => None
  | x :: l' => if x =? s then Some 0%nat else match id_find l' s with Some n => Some (S n) | None => None end
  end.
Definition id_store (l : list Z) (s : Z) : list Z := match id_find l s with Some _ => l | None => l ++ [s] end.
Definition upd {A} (f : nat -> A) (k : nat) (v : A) : nat -> A := fun x => if Nat.eqb x k then v else f x.

(** rt_timetable.h:61-66 / 68-79: event [stop_idx * 2 - (arrival ? 1 : 0)]. *)
Definition rt_unix_to_delta (r : rtt) (t : Z) : Z := clamp16 (t - rt_base r).
Definition ev_idx (stop : nat) (arr : bool) : nat := (stop * 2 - (if arr then 1 else 0))%nat.

(** rt_timetable.cc:78-93: the loop over consecutive stops (dep, arr, dep, arr, ...), [n] pairs left; entries that are not
    written keep the value 0 ([add_back_sized]).  The offset is always 0 in the code modelled. *)
Fixpoint copy_times (n stop_idx : nat) (static_len : nat) (dep arr : nat -> Z) : list Z :=
  match n with
  | O => []
  | S n' =>
      dep stop_idx :: arr (S stop_idx) ::
      (if (static_len <=? S stop_idx + 1)%nat then repeat 0 (2 * n') else copy_times n' (S stop_idx) static_len dep arr)
  end.
(** rt_timetable.cc:13-99 [add_rt_transport]; [t = None] is the invalid transport, [new_id = None] the empty string, empty
    lists stand for "not given".  The new real-time index is [length (rt_static r)]. *)
Definition add_rt_transport (tt : stt) (r : rtt) (src : nat) (t : option transport) (stop_seq : list Z) (time_seq : list Z)
                            (new_id : option Z) : rtt * nat :=
  let rt_t := length (rt_static r) in
  let r1 :=
    match new_id, t with
    | None, Some (ti, day) =>
        let r0 := disable_day tt r ti day in
        mk_rtt (rt_days r0) (rt_bitfields r0) (rt_base r) (lookup_emplace (rt_lookup r) (ti, day) rt_t)
          (rt_static r ++ [inl (ti, day)]) (rt_ids r) (rt_added r) (rt_times r) (rt_stops r) (rt_cancelled r)
    | _, _ =>
        let id := match new_id with Some s => s | None => 0 end in
        mk_rtt (rt_days r) (rt_bitfields r) (rt_base r) (rt_lookup r)
          (rt_static r ++ [inr (length (rt_added r src))])
          (upd (rt_ids r) src (id_store (rt_ids r src) id)) (upd (rt_added r) src (rt_added r src ++ [rt_t]))
          (rt_times r) (rt_stops r) (rt_cancelled r)
    end in
  let seq := match stop_seq, t with [], Some (ti, _) => s_seq tt ti | _, _ => stop_seq end in
  let times :=
    match time_seq, t with
    | [], Some (ti, day) =>
        copy_times (length seq - 1) 0 (length (s_seq tt ti))
          (fun s => rt_unix_to_delta r (s_event tt ti day s false)) (fun s => rt_unix_to_delta r (s_event tt ti day s true))
    | _, _ => time_seq
    end in
  (mk_rtt (rt_days r1) (rt_bitfields r1) (rt_base r1) (rt_lookup r1) (rt_static r1) (rt_ids r1) (rt_added r1)
     (rt_times r1 ++ [times]) (rt_stops r1 ++ [seq]) (rt_cancelled r1 ++ [false]), rt_t).

(** rt_timetable.h:68-79 [update_time] *)
Definition set_times (r : rtt) (x : nat) (ts : list Z) : rtt :=
  mk_rtt (rt_days r) (rt_bitfields r) (rt_base r) (rt_lookup r) (rt_static r) (rt_ids r) (rt_added r)
    (set_nth (rt_times r) x ts) (rt_stops r) (rt_cancelled r).
Definition set_stops (r : rtt) (x : nat) (ss : list Z) : rtt :=
  mk_rtt (rt_days r) (rt_bitfields r) (rt_base r) (rt_lookup r) (rt_static r) (rt_ids r) (rt_added r)
    (rt_times r) (set_nth (rt_stops r) x ss) (rt_cancelled r).
Definition set_cancelled (r : rtt) (x : nat) (b : bool) : rtt :=
  mk_rtt (rt_days r) (rt_bitfields r) (rt_base r) (rt_lookup r) (rt_static r) (rt_ids r) (rt_added r)
    (rt_times r) (rt_stops r) (set_nth (rt_cancelled r) x b).
Definition update_time (r : rtt) (x stop : nat) (arr : bool) (t : Z) : rtt :=
  set_times r x (set_nth (nth x (rt_times r) []) (ev_idx stop arr) (rt_unix_to_delta r t)).
(** :139-144, 132-137 *)
Definition event_time (r : rtt) (x stop : nat) (arr : bool) : Z := nth (ev_idx stop arr) (nth x (rt_times r) []) 0.
Definition unix_event_time (r : rtt) (x stop : nat) (arr : bool) : Z := rt_base r + event_time r x stop arr.
(** :178-187 [resolve_static] (invalid transport = None), [resolve_rt] *)
Definition resolve_static (r : rtt) (x : nat) : option transport :=
  match nth_error (rt_static r) x with Some (inl t) => Some t | _ => None end.
Definition resolve_rt (r : rtt) (t : transport) : option nat := lookup_find (rt_lookup r) t.

(** ** Runs (include/nigiri/rt/run.h:29-55) *)
Record run := mk_run { r_t : option transport; r_from : nat; r_to : nat; r_rt : option nat }.
(** rt_timetable.cc:297-312 [cancel_run] *)
Definition cancel_run (tt : stt) (r : rtt) (x : run) : rtt :=
  let r1 := match r_rt x with Some i => set_cancelled r i true | None => r end in
  match r_t x with Some (t, day) => disable_day tt r1 t day | None => r1 end.
(** gtfsrt_resolve_run.cc:32-55 [resolve_rt] for runs (the lookup with the invalid transport finds nothing). *)
Definition resolve_rt_run (r : rtt) (x : run) (id : Z) (src : nat) : run :=
  match r_t x with
  | Some t => match resolve_rt r t with Some i => mk_run (r_t x) (r_from x) (r_to x) (Some i) | None => x end
  | None =>
      match id_find (rt_ids r src) id with
      | Some k =>
          let i := nth k (rt_added r src) 0%nat in
          let (f, t) := if Nat.eqb (r_to x - r_from x) 0 then (0%nat, length (nth i (rt_stops r) [])) else (r_from x, r_to x) in
          mk_run None f t (Some i)
      | None => x
      end
  end.

(** ** Trip updates (gtfsrt_update.cc) *)
(** gtfs-realtime.proto StopTimeEvent: delay and time in seconds. *)
Record st_event := mk_ste { e_delay : option Z; e_time : option Z }.
Definition has_info (e : st_event) : bool := match e_delay e, e_time e with None, None => false | _, _ => true end.
(** StopTimeUpdate *)
Record st_update := mk_stu {
  u_seq : option Z; u_stop_id : option Z; u_arr : option st_event; u_dep : option st_event; u_skipped : bool; u_assigned : option Z }.
Definition u_info (e : option st_event) : bool := match e with Some e => has_info e | None => false end.

(** gtfsrt_update.cc:103-106 [delay_propagation]: time and delay of the preceding event. *)
Definition delay_propagation := (Z * Z)%type.
(** :113-130 [update_delay]; the delay (duration_t) is an int16.  [min.value()] of an unscheduled run without predecessor
    throws - unreachable, modelled by 0. *)
Definition update_delay (tt : stt) (r : rtt) (x : run) (i stop : nat) (arr : bool) (delay : Z) (min : option Z) : rtt * delay_propagation :=
  let static := match r_t x with Some (t, day) => s_event tt t day stop arr | None => match min with Some m => m | None => 0 end end in
  let new := match min with Some m => Z.max m (static + delay) | None => static + delay end in
  let r' := update_time r i stop arr new in
  (r', (unix_event_time r' i stop arr, delay)).
(** std::chrono::duration_cast from seconds to minutes truncates towards zero. *)
Definition sec_to_min (s : Z) : Z := Z.quot s 60.
(** :132-160 [update_event] *)
Definition update_event (tt : stt) (r : rtt) (x : run) (i stop : nat) (arr : bool) (ev : st_event) (pred : option Z) : rtt * delay_propagation :=
  match e_delay ev, r_t x with
  | Some d, Some _ => update_delay tt r x i stop arr (to_i16 (sec_to_min d)) pred
  | _, _ =>
      let new := sec_to_min (match e_time ev with Some t => t | None => 0 end) in
      let static := match r_t x with Some (t, day) => s_event tt t day stop arr | None => new end in
      let bounded := match pred with Some p => Z.max p new | None => new end in
      (update_time r i stop arr bounded, (bounded, to_i16 (bounded - static)))
  end.
(** :162-175 [fallback_pred] *)
Definition fallback_pred (r : rtt) (i : nat) (pred : option delay_propagation) (stop : nat) (dep : bool) : Z :=
  match pred with
  | Some p => fst p
  | None => if Nat.eqb stop 0 then 0
            else if dep then unix_event_time r i (stop - 1) false else unix_event_time r i stop true
  end.

Section UpdateRun.
  Variable tt : stt.
  Variable x : run.                                  (* the run, with its real-time index *)
  Variable i : nat.                                  (* r.rt_ *)
  Variable location_seq : list Z.                    (* static sequence if scheduled, else that of the rt vehicle *)
  Definition scheduled : bool := match r_t x with Some _ => true | None => false end.
  Definition word_loc (w : Z) : nat := Z.to_nat (s_loc (stop_of_value w)).
  Definition loc_at (k : nat) : nat := word_loc (nth k location_seq 0).
  (** :361-368 *)
  Definition stop_matches (u : st_update) (k : nat) (seq : Z) : bool :=
    (scheduled && match u_seq u with Some s => s =? seq | None => false end) ||
    match u_stop_id u with Some s => s =? s_loc_id tt (loc_at k) | None => false end.
  (** :357-378: position (relative) of the first of the remaining stops that matches. *)
  Fixpoint first_match (u : st_update) (k : nat) (seqs : list Z) : option nat :=
    match seqs with
    | [] => None
    | s :: seqs' => if stop_matches u k s then Some 0%nat else option_map S (first_match u (S k) seqs')
    end.
  (** :354-384: drop updates that match none of the remaining stops; does the next one match the current stop? *)
  Fixpoint next_update (us : list st_update) (k : nat) (seqs : list Z) : list st_update * bool :=
    match us with
    | [] => ([], false)
    | u :: us' => match first_match u k seqs with
                  | None => next_update us' k seqs
                  | Some O => (us, true)
                  | Some (S _) => (us, false)
                  end
    end.
  (** :386-443: change of the stop itself.  [None]: the "continue" of a track change that cannot be applied. *)
  Definition update_stop (r : rtt) (u : st_update) (k : nat) : option rtt :=
    let words := nth i (rt_stops r) [] in
    let w := nth k words 0 in
    let put v := set_stops r i (set_nth words k v) in
    if u_skipped u then Some (put (stop_value (stop_make (Z.of_nat (word_loc w)) false false false false)))
    else
      let differs := match u_stop_id u with Some s => negb (s =? s_loc_id tt (loc_at k)) | None => false end in
      match u_assigned u, differs with
      | None, false => Some (put (nth k location_seq 0))
      | _, _ =>
          let new_id := match u_assigned u, u_stop_id u with Some a, _ => a | None, Some s => s | None, None => 0 end in
          match s_find_loc tt new_id with
          | None => None
          | Some l =>
              if existsb (Nat.eqb l) (s_equiv tt (loc_at k)) then
                let s := stop_of_value w in
                Some (put (stop_value (stop_make (Z.of_nat l) (s_in s) (s_out s) (s_win s) (s_wout s))))
              else None
          end
      end.
  (** :446-458 *)
  Definition update_arrival (r : rtt) (u : option st_update) (k : nat) (pred : option delay_propagation) : rtt * option delay_propagation :=
    if Nat.eqb k (r_from x) then (r, pred)
    else
      match u with
      | Some v => if u_info (u_arr v)
                  then match u_arr v with
                       | Some e => let (r', p) := update_event tt r x i k true e (Some (fallback_pred r i pred k true)) in (r', Some p)
                       | None => (r, pred)
                       end
                  else match pred with Some p => let (r', p') := update_delay tt r x i k true (snd p) (Some (fst p)) in (r', Some p') | None => (r, pred) end
      | None => match pred with Some p => let (r', p') := update_delay tt r x i k true (snd p) (Some (fst p)) in (r', Some p') | None => (r, pred) end
      end.
  (** :460-484 *)
  Definition update_departure (r : rtt) (u : option st_update) (k : nat) (pred : option delay_propagation) : rtt * option delay_propagation :=
    let first_arrival := Nat.eqb k 0 && match u with
                                        | Some v => u_info (u_arr v) && match u_dep v with None => true | Some _ => false end
                                        | None => false end in
    if first_arrival then
      match u with
      | Some v => match u_arr v with
                  | Some e => let (r', p) := update_event tt r x i k false e (Some 0) in (r', Some p)
                  | None => (r, pred)
                  end
      | None => (r, pred)
      end
    else if Nat.eqb k (length location_seq - 1) then (r, pred)
    else
      match u with
      | Some v => if u_info (u_dep v)
                  then match u_dep v with
                       | Some e => let (r', p) := update_event tt r x i k false e (Some (fallback_pred r i pred k false)) in (r', Some p)
                       | None => (r, pred)
                       end
                  else match pred with Some p => let (r', p') := update_delay tt r x i k false (snd p) (Some (fst p)) in (r', Some p') | None => (r, pred) end
      | None => match pred with Some p => let (r', p') := update_delay tt r x i k false (snd p) (Some (fst p)) in (r', Some p') | None => (r, pred) end
      end.
  (** :351-489: the loop over the stops of the run. *)
  Fixpoint stop_loop (seqs : list Z) (k : nat) (us : list st_update) (r : rtt) (pred : option delay_propagation) : rtt :=
    match seqs with
    | [] => r
    | s :: seqs' =>
        let (us1, matches) := next_update us k seqs in
        match us1, matches with
        | u :: us2, true =>
            match update_stop r u k with
            | None => stop_loop seqs' (S k) us1 r pred                 (* continue *)
            | Some r1 =>
                let (r2, pred2) := update_arrival r1 (Some u) k pred in
                let (r3, pred3) := update_departure r2 (Some u) k pred2 in
                stop_loop seqs' (S k) us2 r3 pred3
            end
        | _, _ =>
            let (r2, pred2) := update_arrival r None k pred in
            let (r3, pred3) := update_departure r2 None k pred2 in
            stop_loop seqs' (S k) us1 r3 pred3
        end
    end.
  (** :491-508: raise every time to its predecessor. *)
  Fixpoint monotone (pred : Z) (ts : list Z) : list Z :=
    match ts with
    | [] => []
    | t :: ts' => let t' := if t <? pred then pred else t in t' :: monotone t' ts'
    end.
  (** :310-517 [update_run] after the real-time vehicle exists; [seqs]: decoded stop sequence numbers. *)
  Definition n_active_stops (ws : list Z) : nat := length (filter (fun w => negb (stop_is_cancelled (stop_of_value w))) ws).
  Definition update_run_rt (r : rtt) (seqs : list Z) (us : list st_update) : rtt :=
    let pred := if scheduled && Nat.ltb 0 (r_from x) then Some (unix_event_time r i (r_from x) true, 0) else None in
    let r1 := stop_loop seqs (if scheduled then r_from x else 0%nat) us r pred in
    let r2 := set_times r1 i (monotone (-32768) (nth i (rt_times r1) [])) in
    if (n_active_stops (nth i (rt_stops r2) []) <=? 1)%nat then cancel_run tt r2 x else r2.
End UpdateRun.

(** gtfsrt_update.cc:177-308 [add_rt_trip] for SCHEDULED (no stops, no times, no id) and ADDED/NEW trips; for the latter the
    caller passes the stop words (all stops known, plausible speed) and the trip id. *)
Definition update_scheduled (tt : stt) (r : rtt) (src : nat) (x : run) (seqs : list Z) (us : list st_update) : rtt :=
  match r_t x with
  | None => r
  | Some t =>
      match r_rt x with
      | Some i => update_run_rt tt x i (s_seq tt (fst t)) (set_cancelled r i false) seqs us
      | None =>
          let (r', i) := add_rt_transport tt r src (Some t) [] [] None in
          update_run_rt tt (mk_run (r_t x) (r_from x) (r_to x) (Some i)) i (s_seq tt (fst t)) r' seqs us
      end
  end.
(** gtfsrt_update.cc:785-796: an ADDED/NEW trip; [lookup_id]: trip_properties.trip_id if given, else trip.trip_id;
    [trip_id]: trip.trip_id; [stops]: its stop words; sequence numbers 0, 1, 2, ... (not used for matching). *)
Definition update_added (tt : stt) (r : rtt) (src : nat) (lookup_id trip_id : Z) (stops : list Z) (us : list st_update) : rtt :=
  let x := resolve_rt_run r (mk_run None 0 0 None) lookup_id src in
  match r_rt x with
  | Some i => let seq := nth i (rt_stops r) [] in
              update_run_rt tt x i seq (set_cancelled r i false) (map Z.of_nat (List.seq 0 (length seq))) us
  | None =>
      let (r', i) := add_rt_transport tt r src None stops (repeat 0 (2 * length stops - 2)) (Some trip_id) in
      update_run_rt tt (mk_run None 0 0 (Some i)) i stops r' (map Z.of_nat (List.seq 0 (length stops))) us
  end.

(** ** Messages and histories *)
(** One feed entity after resolution (gtfsrt_update.cc:652-840 [gtfsrt_update_msg]): an update of a scheduled trip (the
    trip descriptor resolved to stops [from, to) of the vehicle [t], [seqs]: its stop sequence numbers), an added trip, a
    cancellation of a scheduled trip. *)
Inductive msg :=
| M_update (src : nat) (t : transport) (from to : nat) (seqs : list Z) (us : list st_update)
| M_added (src : nat) (lookup_id trip_id : Z) (stops : list Z) (us : list st_update)
| M_cancel (src : nat) (t : transport) (from to : nat).
(** gtfsrt_update.cc:766-825: resolve the run (resolve_rt), then cancel_run or update_run. *)
Definition apply_msg (tt : stt) (r : rtt) (m : msg) : rtt :=
  match m with
  | M_update src t from to seqs us => update_scheduled tt r src (resolve_rt_run r (mk_run (Some t) from to None) 0 src) seqs us
  | M_added src lookup_id trip_id stops us => update_added tt r src lookup_id trip_id stops us
  | M_cancel src t from to => cancel_run tt r (resolve_rt_run r (mk_run (Some t) from to None) 0 src)
  end.
Definition apply_msgs (tt : stt) (ms : list msg) (r : rtt) : rtt := fold_left (apply_msg tt) ms r.
