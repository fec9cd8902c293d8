(** Models of nigiri's packed integer types and time conversions.  C++ integers are [Z]; every narrowing
    conversion that can lose information is an explicit [wrap]/[mod]. *)
From Coq Require Import ZArith List Bool.
Import ListNotations.
Local Open Scope Z_scope.

(** Two's complement conversion to std::int16_t, and to std::uint16_t / std::uint32_t. *)
Definition to_i16 (z : Z) : Z := (z + 32768) mod 65536 - 32768.
Definition to_u16 (z : Z) : Z := z mod 65536.
Definition to_u32 (z : Z) : Z := z mod 4294967296.

(** ** [struct delta] (include/nigiri/types.h:569-633): [days_ : 5], [mam_ : 11] bit-fields. *)
Record delta := mk_delta { d_days : Z; d_mam : Z }.

(** types.h:580-581 plain constructor: storing into bit-fields keeps the low 5 / 11 bits. *)
Definition delta_make (day mam : Z) : delta := mk_delta (day mod 32) (mam mod 2048).
(** types.h:570-578 construction from a minute count (both the duration_t and the uint16 overload;
    C++ division truncates: [Z.quot]/[Z.rem]). *)
Definition delta_of_minutes (m : Z) : delta := delta_make (to_u16 (Z.quot m 1440)) (to_u16 (Z.rem m 1440)).
(** types.h:592-594 [value()]: the 16-bit word; bit-fields are allocated from the least significant bit
    (x86-64/ARM64 ABI), so [days_] occupies the low 5 bits. *)
Definition delta_value (d : delta) : Z := d_days d + 32 * d_mam d.
(** types.h:622 [count()] returns std::int16_t. *)
Definition delta_count (d : delta) : Z := to_i16 (d_days d * 1440 + d_mam d).
(** types.h:613-616 [as_duration()] (duration_t has an int16 representation). *)
Definition delta_as_duration (d : delta) : Z := to_i16 (d_days d * 1440 + d_mam d).
(** types.h:624-629 comparison operators work on the word. *)
Definition delta_lt (a b : delta) : bool := delta_value a <? delta_value b.
Definition delta_eqb (a b : delta) : bool := delta_value a =? delta_value b.
(** types.h:583-590 first departure offset encoding, and types.h:618-620 [to_offset()]. *)
Definition delta_of_offset (day_offset minutes_offset : Z) : delta :=
  delta_make (to_u16 (day_offset + 1)) (to_u16 (minutes_offset + 720)).
Definition delta_to_offset (d : delta) : Z * Z := (d_days d - 1, to_i16 (d_mam d - 720)).

(** ** [struct stop] (include/nigiri/stop.h:13-91): 28 bit location, four permission bits. *)
Record stop := mk_stop { s_loc : Z; s_in : bool; s_out : bool; s_win : bool; s_wout : bool }.
Definition b2z (b : bool) : Z := if b then 1 else 0.
(** stop.h:20-29: constructing from a location index stores its low 28 bits. *)
Definition stop_make (l : Z) (i o wi wo : bool) : stop := mk_stop (l mod 268435456) i o wi wo.
(** stop.h:77-79 [value()] (bit-fields from the least significant bit). *)
Definition stop_value (s : stop) : Z :=
  s_loc s + 268435456 * (b2z (s_in s) + 2 * b2z (s_out s) + 4 * b2z (s_win s) + 8 * b2z (s_wout s)).
(** stop.h:16-18 construction from the word (memcpy). *)
Definition stop_of_value (v : Z) : stop :=
  mk_stop (v mod 268435456) (Z.odd (v / 268435456)) (Z.odd (v / 536870912))
          (Z.odd (v / 1073741824)) (Z.odd (v / 2147483648)).
(** stop.h:42-44 *)
Definition stop_is_cancelled (s : stop) : bool := negb (s_in s) && negb (s_out s).
(** stop.h:53-71 [can_start]/[can_finish]: [fwd] is the search direction. *)
Definition can_start (fwd wheelchair : bool) (s : stop) : bool :=
  if fwd then (if wheelchair then s_win s else s_in s) else (if wheelchair then s_wout s else s_out s).
Definition can_finish (fwd wheelchair : bool) (s : stop) : bool :=
  if fwd then (if wheelchair then s_wout s else s_out s) else (if wheelchair then s_win s else s_in s).

(** ** [struct footpath] (include/nigiri/footpath.h:13-73): 23 bit target, 9 bit duration. *)
Definition fp_max_duration : Z := 511.       (* footpath.h:18-19: 0xFFFFFFFF >> 23 *)
Definition fp_max_target : Z := 8388607.     (* footpath.h:20-21: 0xFFFFFFFF >> 9 *)
Record footpath := mk_fp { fp_target : Z; fp_duration : Z }.
(** footpath.h:29-34; [None] = utl::verify failure ("station index overflow").  The duration is saturated
    from above only; a negative duration is cast to uint32 and truncated to 9 bits. *)
Definition footpath_make (target duration : Z) : option footpath :=
  if target <? fp_max_target
  then Some (mk_fp (target mod 8388608) (to_u32 (Z.min duration fp_max_duration) mod 512))
  else None.
(** footpath.h:49-51 [value()], 25-27 construction from the word. *)
Definition footpath_value (f : footpath) : Z := fp_target f + 8388608 * fp_duration f.
Definition footpath_of_value (v : Z) : footpath := mk_fp (v mod 8388608) (v / 8388608 mod 512).
(** footpath.h:60-62 [operator<=>] : lexicographic on (target, duration); [operator<]. *)
Definition footpath_lt (a b : footpath) : bool :=
  (fp_target a <? fp_target b) || ((fp_target a =? fp_target b) && (fp_duration a <? fp_duration b)).

(** ** Search-relative time (include/nigiri/common/delta_t.h) *)
Definition i16_min : Z := -32768.
Definition i16_max : Z := 32767.
(** delta_t.h:21-34 [clamp] to int16. *)
Definition clamp16 (t : Z) : Z := Z.max i16_min (Z.min i16_max t).
(** delta_t.h:36-40; [base] is a day number since the epoch, unixtime is in minutes. *)
Definition unix_to_delta (base t : Z) : Z := clamp16 (t - base * 1440).
(** delta_t.h:42-48 *)
Definition tt_to_delta (base day mam : Z) : Z := clamp16 ((day - base) * 1440 + mam).
(** delta_t.h:50-54 *)
Definition delta_to_unix (base d : Z) : Z := base * 1440 + d.
(** delta_t.h:56-60: [day_idx_t] is a uint16 (conversion of the quotient wraps), C++ truncating division. *)
Definition split_day_mam (base x : Z) : Z * Z :=
  let minutes := base * 1440 + x in (to_u16 (Z.quot minutes 1440), Z.rem minutes 1440).

(** include/nigiri/timetable.h:196-213: [day_idx], [day_idx_mam], [to_unixtime]; [first_day] is
    [internal_interval_days().from_] as a day number. *)
Definition tt_day_idx (first_day day : Z) : Z := to_u16 (day - first_day).
Definition tt_day_idx_mam (first_day t : Z) : Z * Z :=
  let m := t - first_day * 1440 in (to_u16 (Z.quot m 1440), Z.rem m 1440).
Definition tt_to_unixtime (first_day d m : Z) : Z := (first_day + d) * 1440 + m.

(** ** [mam_dist] (src/common/mam_dist.cc:8-22) *)
Definition mam_dist (a b : Z) : Z * Z :=
  let diff := a - b in
  let abs := Z.abs diff in
  if abs >? 720 then (1440 - abs, if diff <? 0 then -1 else 1) else (abs, 0).

(** ** [struct interval] (include/nigiri/common/interval.h:16-134), over an integer type. *)
Record interval := mk_iv { iv_from : Z; iv_to : Z }.
Definition iv_contains (i : interval) (t : Z) : bool := (iv_from i <=? t) && (t <? iv_to i).   (* :67 *)
Definition iv_contains_iv (i o : interval) : bool :=                                            (* :69-71 *)
  (iv_from i <=? iv_from o) && (iv_to o <=? iv_to i).
Definition iv_overlaps (i o : interval) : bool := (iv_from i <? iv_to o) && (iv_from o <? iv_to i). (* :73-75 *)
Definition iv_intersect (i o : interval) : interval :=                                          (* :77-83 *)
  if iv_overlaps i o then mk_iv (Z.max (iv_from i) (iv_from o)) (Z.min (iv_to i) (iv_to o)) else mk_iv 0 0.
(** interval.h:65: std::clamp(x, from, to); only defined for from <= to. *)
Definition iv_clamp (i : interval) (x : Z) : Z :=
  if x <? iv_from i then iv_from i else if iv_to i <? x then iv_to i else x.
Definition iv_shift_right (i : interval) (x : Z) : interval := mk_iv (iv_from i + x) (iv_to i + x). (* :48-51 *)
Definition iv_shift_left (i : interval) (x : Z) : interval := mk_iv (iv_from i - x) (iv_to i - x).  (* :53-56 *)
Definition iv_size (i : interval) : Z := iv_to i - iv_from i.                                   (* :104-106 *)
Definition iv_empty (i : interval) : bool := iv_to i - iv_from i =? 0.                           (* :108 *)

(** ** [journey] (include/nigiri/routing/journey.h:76-104): the fields dominance looks at. *)
Record journey := mk_journey { j_start : Z; j_dest : Z; j_transfers : Z }.
Definition journey_dominates (a o : journey) : bool :=                                           (* :76-84 *)
  if j_start a <=? j_dest a
  then (j_transfers a <=? j_transfers o) && (j_start o <=? j_start a) && (j_dest a <=? j_dest o)
  else (j_transfers a <=? j_transfers o) && (j_start a <=? j_start o) && (j_dest o <=? j_dest a).
Definition journey_departure (j : journey) : Z := if j_start j <=? j_dest j then j_start j else j_dest j. (* :92-94 *)
Definition journey_arrival (j : journey) : Z := if j_start j <=? j_dest j then j_dest j else j_start j.   (* :96-98 *)
(** journey.h:88-90 [travel_time]: |dest - start| narrowed to duration_t. *)
Definition journey_travel_time (j : journey) : Z := to_i16 (Z.abs (j_dest j - j_start j)).
