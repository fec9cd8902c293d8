(** Model of the expansion of GTFS trips into UTC vehicles: include/nigiri/loader/gtfs/local_to_utc.h and
    [frequency] of include/nigiri/loader/gtfs/trip.h:42-58.
    Days are indices into the timetable's internal interval (day 0 = first day of the internal interval,
    five days before the published one); [duration_t] has an int16 representation (explicit [to_i16]).
    Hash maps are association lists in insertion order.  Not modelled: logging, trip meta data. *)
From Coq Require Import List ZArith Bool Arith.
From Verif Require Import Base Time_Model Calendar_Model.
Import ListNotations.
Local Open Scope Z_scope.

(** trip.h:42-58.  [headway_ >= 1] (trip.cc:432-436). *)
Record frequency := mk_freq { fr_start : Z; fr_end : Z; fr_headway : Z }.
(** trip.h:43-45: integer division of int16 counts (C++ truncation), converted to unsigned (32 bit). *)
Definition number_of_iterations (f : frequency) : Z := to_u32 (Z.quot (fr_end f - fr_start f) (fr_headway f)).
(** trip.h:46-49 *)
Definition get_iteration_start_time (f : frequency) (it : Z) : Z := to_i16 (fr_start f + it * fr_headway f).

(** trip.h:61-63 [stop_events], :74-150 [trip]: the parts used by the expansion. *)
Record stop_events := mk_se { se_arr : Z; se_dep : Z }.
Record gtfs_trip := mk_trip {
  gt_id : nat;
  gt_stop_seq : list Z;
  gt_events : list stop_events;
  gt_requires_interpolation : bool;
  gt_freq : option (list frequency) }.
Definition front_dep (t : gtfs_trip) : Z := match gt_events t with e :: _ => se_dep e | [] => 0 end.
Definition back_arr (t : gtfs_trip) : Z := match rev (gt_events t) with e :: _ => se_arr e | [] => 0 end.

(** local_to_utc.h:22-26; the traffic days are passed separately. *)
Record freq_trip := mk_fet { ft_trips : list gtfs_trip; ft_offsets : list Z }.

(** local_to_utc.h:37-55.  The loop over the zipped frequencies returns in its first iteration. *)
Definition headways_match (trips : list gtfs_trip) : bool :=
  match trips with
  | [] | [_] => true
  | first :: _ =>
      forallb (fun t =>
        match gt_freq t, gt_freq first with
        | Some fs, Some gs =>
            if negb (Nat.eqb (length fs) (length gs)) then false
            else match gs, fs with
                 | a :: _, b :: _ => negb (fr_headway a =? fr_headway b)
                 | _, _ => true
                 end
        | _, _ => false
        end) trips
  end.
(** local_to_utc.h:57-77 *)
Fixpoint is_sorted_by (lt : gtfs_trip -> gtfs_trip -> bool) (l : list gtfs_trip) : bool :=
  match l with
  | a :: ((b :: _) as l') => negb (lt b a) && is_sorted_by lt l'
  | _ => true
  end.
Definition freq_at (t : gtfs_trip) (i : nat) : frequency :=
  nth i (match gt_freq t with Some fs => fs | None => [] end) (mk_freq 0 0 1).
Definition stays_sorted (trips : list gtfs_trip) : bool :=
  match trips with
  | [] | [_] => true
  | first :: _ =>
      forallb (fun i => is_sorted_by (fun a b => fr_start (freq_at a i) <? fr_start (freq_at b i)) trips)
              (seq 0 (length (match gt_freq first with Some fs => fs | None => [] end)))
  end.
(** local_to_utc.h:84-87 *)
Definition has_frequency (t : gtfs_trip) : bool :=
  negb (Nat.eqb (length (gt_events t)) 0) && match gt_freq t with Some _ => true | None => false end.
(** local_to_utc.h:93-109: all iterations of all windows of the first trip. *)
Definition expand_windows (trips : list gtfs_trip) : list freq_trip :=
  match trips with
  | [] => []
  | first :: _ =>
      flat_map (fun i =>
        map (fun it =>
          mk_fet trips (map (fun t => to_i16 (front_dep t - get_iteration_start_time (freq_at t i) (Z.of_nat it))) trips))
          (seq 0 (Z.to_nat (number_of_iterations (freq_at first i)))))
        (seq 0 (length (match gt_freq first with Some fs => fs | None => [] end)))
  end.
(** local_to_utc.h:80-121 [expand_frequencies] (the recursion is on single trips). *)
Definition expand_single (t : gtfs_trip) : list freq_trip :=
  if has_frequency t then expand_windows [t] else [mk_fet [t] [0]].
Definition expand_frequencies (trips : list gtfs_trip) : list freq_trip :=
  if existsb has_frequency trips then
    if Nat.eqb (length trips) 1 || (forallb has_frequency trips && headways_match trips && stays_sorted trips)
    then expand_windows trips
    else flat_map expand_single trips
  else [mk_fet trips (repeat 0 (length trips))].

(** ** Grouping days by key (local_to_utc.h:164-203 and :300-340): entries are (key, day); the previous key is
    cached.  If the first key equals the initial value of the cache the code dereferences [end()]; here nothing
    is stored in that case. *)
Section Group.
  Context {K : Type}.
  Variable eqb : K -> K -> bool.
  Fixpoint map_set (m : list (K * bitfield)) (k : K) (d : Z) : list (K * bitfield) :=
    match m with
    | [] => []
    | (k', b) :: rest => if eqb k k' then (k', bf_set b d true) :: rest else (k', b) :: map_set rest k d
    end.
  (** hash_map::emplace: insert unless present. *)
  Fixpoint map_emplace (m : list (K * bitfield)) (k : K) : list (K * bitfield) :=
    match m with
    | [] => [(k, bf_empty)]
    | (k', b) :: rest => if eqb k k' then m else (k', b) :: map_emplace rest k
    end.
  Fixpoint group_loop (ents : list (K * Z)) (prev : K) (m : list (K * bitfield)) : list (K * bitfield) :=
    match ents with
    | [] => m
    | (k, d) :: rest =>
        if eqb k prev then group_loop rest prev (map_set m k d)
        else group_loop rest k (map_set (map_emplace m k) k d)
    end.
End Group.

(** local_to_utc.h:124-128 [conversion_key]: (first departure day offset, UTC offset in minutes). *)
Definition conversion_key := (Z * Z)%type.
Definition key_eqb (a b : conversion_key) : bool := (fst a =? fst b) && (snd a =? snd b).

(** local_to_utc.h:28-35 *)
Record utc_trip := mk_utc {
  ut_first_dep_offset : Z; ut_tz_offset : Z; ut_trips : list gtfs_trip;
  ut_times : list Z; ut_days : bitfield; ut_stop_seq : list Z }.

(** local_to_utc.h:137-149: drop trips without usable times. *)
Definition usable (t : gtfs_trip) : bool := Nat.ltb 1 (length (gt_events t)) && negb (gt_requires_interpolation t).
Definition usable_trips (f : freq_trip) : list (gtfs_trip * Z) :=
  filter (fun to => usable (fst to)) (combine (ft_trips f) (ft_offsets f)).

(** local_to_utc.h:205-219: departure and arrival of consecutive stops of every trip, shifted. *)
Fixpoint section_times (shift : Z) (evs : list stop_events) : list Z :=
  match evs with
  | from :: ((to :: _) as rest) => to_i16 (se_dep from - shift) :: to_i16 (se_arr to - shift) :: section_times shift rest
  | _ => []
  end.
(** local_to_utc.h:221-225 *)
Fixpoint running_max (pred : Z) (l : list Z) : list Z :=
  match l with [] => [] | x :: rest => Z.max pred x :: running_max (Z.max pred x) rest end.
Definition build_time_string (tos : list (gtfs_trip * Z)) (key : conversion_key) : list Z :=
  running_max 0 (flat_map (fun to => section_times (snd to + snd key + fst key * 1440) (gt_events (fst to))) tos).

(** local_to_utc.h:131-238 [expand_local_to_utc].  [n_days]: length of the internal interval; [noon d]: UTC
    offset (minutes) at noon of day [d]; [sel]: published interval as day indices. *)
Definition expand_local_to_utc (n_days : nat) (noon : Z -> Z) (sel : interval) (traffic : bitfield) (f : freq_trip)
  : list utc_trip :=
  match usable_trips f with
  | [] => []
  | (first, _) :: _ =>
      let tos := usable_trips f in
      let back := last tos (first, 0) in
      let first_dep_time := to_i16 (front_dep first - snd back) in
      let last_arr_time := to_i16 (back_arr (fst back) - snd back) in
      let first_day_offset := Z.quot first_dep_time 1440 in
      let last_day_offset := Z.quot last_arr_time 1440 in
      let entry day :=
        if negb (iv_overlaps sel (mk_iv (day + first_day_offset) (day + last_day_offset + 1))) then []
        else if negb ((day <? kMaxDays) && bf_test traffic day) then []
        else
          let tz := noon day in
          let first_dep_day_offset := to_i16 (first_dep_time - tz) / 1440 in
          let utc_day := day + first_dep_day_offset in
          if (utc_day <? 0) || (kMaxDays <=? utc_day) then []
          else [((first_dep_day_offset, tz), utc_day)] in
      let m := group_loop key_eqb (flat_map (fun d => entry (Z.of_nat d)) (seq 0 n_days)) (2, -1) [] in
      map (fun kb => mk_utc (fst (fst kb)) (snd (fst kb)) (map fst tos) (build_time_string tos (fst kb)) (snd kb) []) m
  end.

(** local_to_utc.h:240-268 [get_stop_seq]: consecutive trips share a stop (words of [stop::value()]). *)
Definition merge_stop (prev_last curr_first : Z) : Z :=
  let p := stop_of_value prev_last in
  let c := stop_of_value curr_first in
  stop_value (stop_make (s_loc p) (s_in c) (s_out p) (s_win c) (s_wout p)).
Fixpoint merge_seqs (acc : list Z) (l : list (list Z)) : list Z :=
  match l with
  | [] => acc
  | s :: rest => merge_seqs (removelast acc ++ merge_stop (last acc 0) (hd 0 s) :: tl s) rest
  end.
Definition get_stop_seq (u : utc_trip) : list Z :=
  match ut_stop_seq u with
  | _ :: _ => ut_stop_seq u
  | [] => match map gt_stop_seq (ut_trips u) with
          | [] => []
          | s :: rest => merge_seqs s rest
          end
  end.

(** local_to_utc.h:278-322: the wheelchair bits of a vehicle on one day.  [avail l minutes]: assistance at location
    [l] available at a local time (minutes; day 0 = first day of the internal interval).  [split_time_mod]
    (common/split_duration.h:14-18) only splits the minute count, the sum is taken again by the caller.
    [a]: current word of the first stop of the pair, [rest]: the stops after it. *)
Fixpoint assist_loop (avail : Z -> Z -> bool) (base : Z) (a : Z) (rest times : list Z) : list Z :=
  match rest, times with
  | b :: rest', dep :: arr :: times' =>
      let from := stop_of_value a in
      let to := stop_of_value b in
      let from' := mk_stop (s_loc from) (s_in from) (s_out from)
                    (s_win from && avail (s_loc from) (base + dep)) (s_wout from) in
      let to' := mk_stop (s_loc to) (s_in to) (s_out to) (s_win to)
                    (s_wout to && avail (s_loc to) (base + arr)) in
      stop_value from' :: assist_loop avail base (stop_value to') rest' times'
  | _, _ => [a]
  end.
Definition assisted_seq (avail : Z -> Z -> bool) (u : utc_trip) (day : Z) : list Z :=
  match get_stop_seq u with
  | [] => []
  | a :: rest => assist_loop avail (day * 1440 + (ut_first_dep_offset u * 1440 + ut_tz_offset u)) a rest (ut_times u)
  end.
(** local_to_utc.h:270-344 [expand_assistance]: one vehicle per distinct stop sequence; the cached key starts as
    the empty sequence. *)
Definition day_list : list Z := map Z.of_nat (seq 0 512).    (* for_each_set_bit visits bits in this order *)
Definition seq_eqb (a b : list Z) : bool := if list_eq_dec Z.eq_dec a b then true else false.
Definition expand_assistance (avail : Z -> Z -> bool) (u : utc_trip) : list utc_trip :=
  let days := filter (ut_days u) day_list in
  map (fun kb => mk_utc (ut_first_dep_offset u) (ut_tz_offset u) (ut_trips u) (ut_times u) (snd kb) (fst kb))
      (group_loop seq_eqb (map (fun d => (assisted_seq avail u d, d)) days) [] []).

(** local_to_utc.h:346-374 [expand_trip]; [assist]: assistance data given and the class is long distance. *)
Definition expand_trip (n_days : nat) (noon : Z -> Z) (sel : interval) (traffic : bitfield)
           (assist : option (Z -> Z -> bool)) (trips : list gtfs_trip) : list utc_trip :=
  flat_map (fun f =>
    flat_map (fun u => match assist with Some avail => expand_assistance avail u | None => [u] end)
             (expand_local_to_utc n_days noon sel traffic f))
    (expand_frequencies trips).
