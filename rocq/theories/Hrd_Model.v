(** Model of the HAFAS raw data (HRD) loader's service expansion.

    Bit sets of days ([bitfield], a 512 bit cista bitset) are represented by
    the list of the positions that are set; [set], [test], [&], [& ~], [any],
    [none] are the list operations below.  Durations and time points are
    integers counting minutes (the code: 16 and 32 bit; overflow not
    modelled). *)

From Coq Require Import List Arith ZArith Bool Lia.
Import ListNotations.

Definition mem (d : nat) (b : list nat) : bool := existsb (Nat.eqb d) b.
(** bitset [set(i)] *)
Definition bset (d : nat) (b : list nat) : list nat := if mem d b then b else d :: b.
(** bitset [set(i, false)] *)
Definition breset (d : nat) (b : list nat) : list nat :=
  filter (fun x => negb (Nat.eqb x d)) b.
(** bitset [a & b] *)
Definition band (a b : list nat) : list nat := filter (fun d => mem d b) a.
(** bitset [a & ~b] *)
Definition bminus (a b : list nat) : list nat := filter (fun d => negb (mem d b)) a.
(** bitset [none()] *)
Definition bnone (a : list nat) : bool := match a with [] => true | _ => false end.

(* ------------------------------------------------------------------ *)
(** * src/loader/hrd/stamm/bitfield.cc *)

Definition kMaxDays : nat := 512.

(** src/loader/hrd/stamm/bitfield.cc:10-36 [ascii_hex_to_int]; [None]: a
    negative entry, for which the caller throws. *)
Definition ascii_hex_to_int (c : nat) : option nat :=
  if (48 <=? c) && (c <=? 57) then Some (c - 48)
  else if (65 <=? c) && (c <=? 70) then Some (c - 55)
  else if (97 <=? c) && (c <=? 102) then Some (c - 87)
  else None.

(** bitfield.cc:66-69: the four bits of one hex digit, in the order in which
    they are consumed: 3, 2, 1, 0 *)
Definition digit_bits (d : nat) : list bool :=
  [Nat.testbit d 3; Nat.testbit d 2; Nat.testbit d 1; Nat.testbit d 0].

(** The local variables of [hex_str_to_bitset] and of its lambda:
    [started], [prev_was_set], [i], [b]. *)
Record bst := { b_started : bool; b_prev : bool; b_i : nat; b_bits : list nat }.

(** src/loader/hrd/stamm/bitfield.cc:44-58 [consume_bit] *)
Definition consume_bit (s : bst) (cur : bool) : bst :=
  if b_started s then
    {| b_started := true; b_prev := b_prev s; b_i := S (b_i s);
       b_bits := if cur then bset (b_i s) (b_bits s) else b_bits s |}
  else
    {| b_started := b_prev s && cur; b_prev := cur; b_i := b_i s;
       b_bits := b_bits s |}.

(** bitfield.cc:75-84: the search for the end marker from the last bit;
    [n] bits are left to look at. *)
Fixpoint find_end (n : nat) (prev : bool) (b : list nat) : option (list nat) :=
  match n with
  | 0 => None
  | S j =>
      let cur := mem j b in
      let b' := breset j b in
      if prev && cur then Some b' else find_end j cur b'
  end.

(** bitfield.cc:38-88 [hex_str_to_bitset] from the bits of the digits on.
    [None]: an exception.  More than 512 bits after the start marker (where
    cista's bitset refuses the position) are not modelled. *)
Definition decode_bits (bits : list bool) : option (list nat) :=
  let s := fold_left consume_bit bits
             {| b_started := false; b_prev := false; b_i := 0; b_bits := [] |} in
  if b_started s then find_end kMaxDays false (b_bits s) else None.

(** bitfield.cc:38-88 [hex_str_to_bitset] *)
Fixpoint hex_bits (cs : list nat) : option (list bool) :=
  match cs with
  | [] => Some []
  | c :: t =>
      match ascii_hex_to_int c, hex_bits t with
      | Some d, Some r => Some (digit_bits d ++ r)
      | _, _ => None
      end
  end.

Definition hex_str_to_bitset (cs : list nat) : option (list nat) :=
  match hex_bits cs with Some bits => decode_bits bits | None => None end.

(* ------------------------------------------------------------------ *)
(** * include/nigiri/loader/hrd/service/expand_traffic_days.h *)

(** [ref_service{s_idx, split_info{current, {start, pos}}}] *)
Record piece := { pc_days : list nat; pc_from : nat; pc_to : nat }.

(** The local state: [section_bitfields], [consumed_traffic_days], the pieces
    given to the consumer so far. *)
Record xst := { x_secs : list (list nat); x_consumed : list nat; x_out : list piece }.

(** expand_traffic_days.h:59-69 [split]: the loop; [rest] are the sections
    from [i] on *)
Fixpoint split_scan (rest : list (list nat)) (b : list nat) (i : nat) : list nat * nat :=
  match rest with
  | [] => (b, i)
  | s :: r =>
      let nb := band b s in
      if bnone nb then (b, i) else split_scan r nb (S i)
  end.

(** expand_traffic_days.h:45-57: [section_bitfields[i] &= not_current] for i
    in [start, pos) *)
Fixpoint remove_days (secs : list (list nat)) (cur : list nat) (i start pos : nat)
  : list (list nat) :=
  match secs with
  | [] => []
  | s :: r =>
      (if (start <=? i) && (i <? pos) then bminus s cur else s)
        :: remove_days r cur (S i) start pos
  end.

(** expand_traffic_days.h:31-57 [check_and_consume], [consume_and_remove];
    [None]: the verify throws *)
Definition consume_and_remove (x : xst) (start pos : nat) (cur : list nat) : option xst :=
  if negb (bnone cur) && (start <? pos) then
    if bnone (band cur (x_consumed x)) then
      Some {| x_secs := remove_days (x_secs x) cur 0 start pos;
              x_consumed := cur ++ x_consumed x;
              x_out := x_out x ++ [{| pc_days := cur; pc_from := start; pc_to := pos |}] |}
    else None
  else Some x.

(** expand_traffic_days.h:71-77: the loop over the sections; the boolean says
    whether the exception was thrown (the pieces before it were consumed). *)
Fixpoint expand_loop (is : list nat) (x : xst) : list piece * bool :=
  match is with
  | [] => (x_out x, false)
  | i :: r =>
      if bnone (nth i (x_secs x) []) then (x_out x, false)
      else
        let '(b, pos) := split_scan (skipn (S i) (x_secs x)) (nth i (x_secs x) []) (S i) in
        match consume_and_remove x i pos b with
        | Some x' => expand_loop r x'
        | None => (x_out x, true)
        end
  end.

(** expand_traffic_days.h:10-78 [expand_traffic_days]; [secs]: the day sets of
    the sections as resolved in lines 17-28. *)
Definition expand_traffic_days (secs : list (list nat)) : list piece * bool :=
  expand_loop (seq 0 (length secs)) {| x_secs := secs; x_consumed := []; x_out := [] |}.

(** expand_traffic_days.h:17-28: the begin-to-end traffic days, when present,
    replace those of all sections *)
Definition section_days (n_stops : nat) (begin_to_end : option (list nat))
    (secs : list (list nat)) : list (list nat) :=
  match begin_to_end with
  | Some b => repeat b (n_stops - 1)
  | None => secs
  end.

(* ------------------------------------------------------------------ *)
(** * include/nigiri/loader/hrd/stamm/timezone.h *)

Local Open Scope Z_scope.

(** include/nigiri/types.h [tz_offsets::season]: [begin_ + season_begin_mam_],
    [end_ + season_end_mam_] and [offset_] *)
Record season := { sn_begin : Z; sn_end : Z; sn_off : Z }.
(** [tz_offsets] *)
Record tz := { tz_off : Z; tz_seasons : list season }.

(** timezone.h:16-24 [is_local_time_in_season] *)
Definition in_season (l : Z) (s : season) : bool :=
  (sn_begin s <=? l) && (l <? sn_end s).

(** timezone.h:26-62 [local_mam_to_utc_mam]: utc minutes after midnight, day
    offset (in minutes), valid *)
Definition local_to_utc (z : tz) (day mam : Z) (first : bool) : Z * Z * bool :=
  let l := day + mam in
  let so := find (in_season l) (tz_seasons z) in
  let off := match so with Some s => sn_off s | None => tz_off z end in
  let u0 := mam - off in
  let valid := match so with
               | Some s => sn_begin s + (sn_off s - tz_off z) <? l
               | None => true
               end in
  let u := if valid then u0 else u0 + 60 in
  if first && (1440 <=? u) then (u mod 1440, (u / 1440) * 1440, valid)
  else if u <? 0 then (u + 1440, -1440, valid)
  else (u, 0, valid).

(* ------------------------------------------------------------------ *)
(** * include/nigiri/loader/hrd/service/expand_local_to_utc.h *)

(** expand_local_to_utc.h:70-86: the loop *)
Fixpoint utc_seq (day fdo : Z) (evs : list (Z * tz)) (pred : Z) : option (list Z) :=
  match evs with
  | [] => Some []
  | (l, z) :: r =>
      let '(u, doff, valid) := local_to_utc z (day + fdo) (l - fdo) false in
      if negb (doff =? 0) || (u <? pred) || negb valid then None
      else match utc_seq day fdo r u with
           | Some us => Some (u :: us)
           | None => None
           end
  end.

(** expand_local_to_utc.h:52-89 [build_utc_time_seq]: the times and the offset
    of the first day *)
Definition build_utc_time_seq (evs : list (Z * tz)) (day : Z) : option (list Z * Z) :=
  match evs with
  | [] => None
  | (l, z) :: _ =>
      let '(_, fdo, valid) := local_to_utc z day l true in
      if negb valid then None
      else match utc_seq day fdo evs 0 with
           | Some us => Some (us, fdo)
           | None => None
           end
  end.

(** One stop of the HRD file (service::stop): number, arrival time, departure
    time, may get off, may get on *)
Record hstop := { hs_eva : nat; hs_arr : Z; hs_dep : Z; hs_out : bool; hs_in : bool }.
(** service: stops, number and interval of the repetitions, train number and
    provider from the beginning to the end, the same per section *)
Record hservice := {
  hv_stops : list hstop;
  hv_reps : nat;
  hv_interval : Z;
  hv_nr : option nat;
  hv_sections : list nat
}.

Section ToUtc.
  (** the loader's lookups: time zone of a stop, track of a stop for a train
      number, at a local time of day, on a day of the file *)
  Variable tz_of : nat -> tz.
  Variable track : nat -> nat -> Z -> Z -> nat.

  (** ref_service.h:45-60 [local_times]; [from], [n]: first stop and number of
      stops of the piece *)
  Fixpoint pair_times (stops : list hstop) (add : Z) : list Z :=
    match stops with
    | a :: ((b :: _) as r) => (hs_dep a + add) :: (hs_arr b + add) :: pair_times r add
    | _ => []
    end.
  (** ref_service.h:62-74 [get_stop_timezones] *)
  Fixpoint pair_tzs (stops : list hstop) : list tz :=
    match stops with
    | a :: ((b :: _) as r) => tz_of (hs_eva a) :: tz_of (hs_eva b) :: pair_tzs r
    | _ => []
    end.

  (** ref_service.h:76-85 [stops]: the stops of sections [from, to) *)
  Definition piece_stops (v : hservice) (from to : nat) : list hstop :=
    firstn (S to - from) (skipn from (hv_stops v)).

  Definition local_times (v : hservice) (from to : nat) (rep : nat) : list Z :=
    pair_times (piece_stops v from to) (Z.of_nat rep * hv_interval v).

  (** expand_local_to_utc.h:22-33: the train number used for stop [i] of the
      piece; the section index is relative to the whole service although the
      range it is applied to starts at [from].  [None]: out of range. *)
  Definition train_nr_at (v : hservice) (from n i : nat) : option nat :=
    match hv_nr v with
    | Some nr => Some nr
    | None =>
        let is_last := Nat.eqb i (n - 1) in
        let idx := (from + i - (if is_last then 1 else 0))%nat in
        nth_error (hv_sections v) (from + idx)
    end.

  (** expand_local_to_utc.h:12-50 [build_stop_seq] for one stop: location, may
      get on, may get off *)
  Definition stop_at (v : hservice) (from n : nat) (locals : list Z) (day_idx : Z) (i : nat)
    : option (nat * bool * bool) :=
    match nth_error (hv_stops v) (from + i)%nat, train_nr_at v from n i with
    | Some s, Some nr =>
        let is_last := Nat.eqb i (n - 1) in
        let t := nth (i * 2 - (if is_last then 1 else 0))%nat locals 0 in
        Some (track (hs_eva s) nr (t mod 1440) (day_idx + t / 1440), hs_in s, hs_out s)
    | _, _ => None
    end.

  Definition build_stop_seq (v : hservice) (from to : nat) (locals : list Z) (day_idx : Z)
    : list (option (nat * bool * bool)) :=
    map (stop_at v from (S to - from) locals day_idx) (seq 0 (S to - from)).

  Definition hkey := (list Z * list (option (nat * bool * bool)))%type.

  Definition stop_eq_dec (x y : option (nat * bool * bool)) : {x = y} + {x <> y}.
  Proof. decide equality. decide equality. apply bool_dec. decide equality. apply bool_dec. apply Nat.eq_dec. Defined.
  Definition key_eq_dec (x y : hkey) : {x = y} + {x <> y}.
  Proof. decide equality. apply (list_eq_dec stop_eq_dec). apply (list_eq_dec Z.eq_dec). Defined.

  (** expand_local_to_utc.h:141-147: find the key and set the day, or add it *)
  Fixpoint emplace (k : hkey) (d : nat) (m : list (hkey * list nat)) : list (hkey * list nat) :=
    match m with
    | [] => [(k, [d])]
    | (k', b) :: r => if key_eq_dec k k' then (k', bset d b) :: r else (k', b) :: emplace k d r
    end.

  Definition kTimetableOffset : Z := 5.

  (** expand_local_to_utc.h:112-148: the body of the loop for the day with
      index [i] in the file: the key and the day set for it, if any.
      [hrd_from]: first day of the file, [sel_from, sel_to): the selection, in
      days. *)
  Definition day_entry (hrd_from sel_from sel_to : Z) (days : list nat)
      (evs : list (Z * tz)) (seq_of : Z -> list (option (nat * bool * bool))) (i : nat)
    : option (hkey * nat) :=
    let day := hrd_from + Z.of_nat i in
    let last := fst (List.last evs (0, {| tz_off := 0; tz_seasons := [] |})) in
    let last_day_offset := 1 + last / 1440 in
    if negb ((sel_from <? day + last_day_offset) && (day <? sel_to)) then None
    else if negb (mem i days) then None
    else match build_utc_time_seq evs (day * 1440) with
         | None => None
         | Some (us, fdo) =>
             let offset := sel_from - hrd_from - kTimetableOffset in
             let d := Z.of_nat i - offset + fdo / 1440 in
             if d <? 0 then None
             else Some ((us, seq_of (Z.of_nat i)), Z.to_nat d)
         end.

  Definition step_day (hrd_from sel_from sel_to : Z) (days : list nat)
      (evs : list (Z * tz)) (seq_of : Z -> list (option (nat * bool * bool)))
      (m : list (hkey * list nat)) (i : nat) : list (hkey * list nat) :=
    match day_entry hrd_from sel_from sel_to days evs seq_of i with
    | Some (k, d) => emplace k d m
    | None => m
    end.

  (** expand_local_to_utc.h:91-152 [to_utc] for repetition [rep] of the
      sections [from, to) on the days [days]: the vehicles given to the
      consumer (in the unspecified order of the hash map) *)
  Definition to_utc (hrd_from hrd_to sel_from sel_to : Z) (v : hservice)
      (from to : nat) (days : list nat) (rep : nat) : list (hkey * list nat) :=
    let locals := local_times v from to rep in
    let evs := combine locals (pair_tzs (piece_stops v from to)) in
    fold_left (step_day hrd_from sel_from sel_to days evs
                 (build_stop_seq v from to locals))
      (seq 0 (Z.to_nat (hrd_to - hrd_from))) [].

  (** expand_repetitions.h:8-15, read_services.h:30-36: all vehicles of a
      service *)
  Definition expand_service (hrd_from hrd_to sel_from sel_to : Z) (v : hservice)
      (begin_to_end : option (list nat)) (secs : list (list nat)) : list (hkey * list nat) :=
    flat_map (fun p =>
      flat_map (fun rep => to_utc hrd_from hrd_to sel_from sel_to v
                             (pc_from p) (pc_to p) (pc_days p) rep)
        (seq 0 (S (hv_reps v))))
      (fst (expand_traffic_days (section_days (length (hv_stops v)) begin_to_end secs))).
End ToUtc.
