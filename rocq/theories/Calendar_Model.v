(** Models of the GTFS service calendar: src/loader/gtfs/calendar.cc, calendar_date.cc, services.cc.
    Dates are day numbers since 1970-01-01 (date::sys_days); the date library and the CSV parser are not
    modelled: a row is given by its parsed columns. *)
From Coq Require Import ZArith List Bool String.
From Verif Require Import Time_Model.
Import ListNotations.
Local Open Scope Z_scope.

(** types.h:62-63: [bitfield] = bitset of [kMaxDays] bits; bits outside [0, 512) do not exist. *)
Definition kMaxDays : Z := 512.
Definition bitfield := Z -> bool.
Definition bf_empty : bitfield := fun _ => false.
Definition bf_test (b : bitfield) (i : Z) : bool := b i.
Definition bf_set (b : bitfield) (i : Z) (x : bool) : bitfield := fun j => if j =? i then x else b j.

(** calendar.h:12-15 *)
Record calendar := mk_calendar { c_week_days : Z -> bool; c_interval : interval }.

(** calendar.cc:14-25: the columns of one row of calendar.txt (dates already as day numbers). *)
Record calendar_row := mk_calendar_row {
  monday : Z; tuesday : Z; wednesday : Z; thursday : Z; friday : Z; saturday : Z; sunday : Z;
  start_date : Z; end_date : Z }.
(** calendar.cc:33-50 *)
Definition read_calendar_row (e : calendar_row) : calendar :=
  mk_calendar
    (fun i => if i =? 0 then sunday e =? 1 else if i =? 1 then monday e =? 1 else if i =? 2 then tuesday e =? 1
              else if i =? 3 then wednesday e =? 1 else if i =? 4 then thursday e =? 1
              else if i =? 5 then friday e =? 1 else if i =? 6 then saturday e =? 1 else false)
    (mk_iv (start_date e) (end_date e + 1)).

(** date::weekday{sys_days}.c_encoding(): 0 = Sunday .. 6 = Saturday; 1970-01-01 was a Thursday (date library). *)
Definition weekday (d : Z) : Z := (d + 4) mod 7.

(** services.cc:25-29: the loop over days; [n] bounds the number of iterations, [d] and [bit] advance together. *)
Fixpoint calendar_loop (n : nat) (c : calendar) (d to bit : Z) (b : bitfield) : bitfield :=
  match n with
  | O => b
  | S n' =>
      if (d <? to) && (bit <? kMaxDays)
      then calendar_loop n' c (d + 1) to (bit + 1) (bf_set b bit (c_week_days c (weekday d)))
      else b
  end.
(** services.cc:12-31 [calendar_to_bitfield].  The loop ends after at most [kMaxDays] iterations. *)
Definition calendar_to_bitfield (tt : interval) (c : calendar) (feed_end_date : option Z) : bitfield :=
  let extend := match feed_end_date with Some f => f =? iv_to (c_interval c) - 1 | None => false end in
  if negb (iv_overlaps tt (c_interval c)) && negb extend then bf_empty
  else
    let from := iv_clamp tt (iv_from (c_interval c)) in
    let to := if extend then iv_to tt else iv_clamp tt (iv_to (c_interval c)) in
    calendar_loop (Z.to_nat kMaxDays) c from to (from - iv_from tt) bf_empty.

(** calendar_date.h:13-16 *)
Record calendar_date := mk_calendar_date { cd_add : bool; cd_day : Z }.
(** calendar_date.cc:17-21, 33-40: columns of one row of calendar_dates.txt. *)
Record exception_row := mk_exception_row { ex_service : string; ex_date : Z; ex_type : Z }.
Definition read_exception_row (e : exception_row) : calendar_date := mk_calendar_date (ex_type e =? 1) (ex_date e).

(** services.cc:33-41 [add_exception] *)
Definition add_exception (tt : interval) (e : calendar_date) (b : bitfield) : bitfield :=
  let day_idx := cd_day e - iv_from tt in
  if (day_idx <? 0) || (day_idx >=? kMaxDays) then b else bf_set b day_idx (cd_add e).

(** hash_map<std::string, T>: association list; [operator[]] / [get_or_create] append a missing key.
    The iteration order of the hash map is the insertion order here. *)
Definition smap (A : Type) := list (string * A).
Fixpoint smap_find {A} (m : smap A) (k : string) : option A :=
  match m with
  | [] => None
  | (k', v) :: m' => if String.eqb k k' then Some v else smap_find m' k
  end.
Fixpoint smap_update {A} (m : smap A) (k : string) (dflt : A) (f : A -> A) : smap A :=
  match m with
  | [] => [(k, f dflt)]
  | (k', v) :: m' => if String.eqb k k' then (k', f v) :: m' else (k', v) :: smap_update m' k dflt f
  end.

(** calendar_date.cc:15-41 [read_calendar_date]: rows in file order. *)
Definition read_calendar_date (rows : list exception_row) : smap (list calendar_date) :=
  fold_left (fun m e => smap_update m (ex_service e) [] (fun l => l ++ [read_exception_row e])) rows [].

(** services.cc:43-73 [merge_traffic_days] *)
Definition merge_traffic_days (tt : interval) (base : smap calendar) (exceptions : smap (list calendar_date))
                              (feed_end_date : option Z) : smap bitfield :=
  let s := fold_left (fun s (e : string * calendar) =>
                        smap_update s (fst e) bf_empty (fun _ => calendar_to_bitfield tt (snd e) feed_end_date))
                     base [] in
  fold_left (fun s (e : string * list calendar_date) =>
               fold_left (fun s day => smap_update s (fst e) bf_empty (add_exception tt day)) (snd e) s)
            exceptions s.
