(** What the HRD loader should do, stated independently of its code. *)
From Coq Require Import List Arith ZArith Bool Lia.
From Verif Require Import Hrd_Model.
Import ListNotations.
Local Open Scope Z_scope.

(** The offset in force in zone [z] at the instant [u]: a season begins at its
    begin read on the standard clock and ends at its end read on the season's
    clock. *)
Definition in_force (z : tz) (u : Z) (s : season) : Prop :=
  sn_begin s - tz_off z <= u < sn_end s - sn_off s.

Definition offset_at (z : tz) (u o : Z) : Prop :=
  (exists s, In s (tz_seasons z) /\ in_force z u s /\ o = sn_off s) \/
  ((forall s, In s (tz_seasons z) -> ~ in_force z u s) /\ o = tz_off z).

(** At the instant [u] the clocks of zone [z] show [l]. *)
Definition shows (z : tz) (u l : Z) : Prop := exists o, offset_at z u o /\ l = u + o.

(** [u] is the first instant at which the clocks show [l]. *)
Definition first_shows (z : tz) (l u : Z) : Prop :=
  shows z u l /\ forall u', shows z u' l -> u <= u'.

(** Daylight saving as it is: the clocks go forward, seasons do not overlap and
    are longer than twice the shift. *)
Record wf_tz (z : tz) : Prop := {
  wz_shift : forall s, In s (tz_seasons z) -> tz_off z <= sn_off s;
  wz_long : forall s, In s (tz_seasons z) ->
    2 * (sn_off s - tz_off z) < sn_end s - sn_begin s;
  wz_disj : forall s s', In s (tz_seasons z) -> In s' (tz_seasons z) -> s <> s' ->
    sn_end s <= sn_begin s' \/ sn_end s' <= sn_begin s;
  wz_day : -1440 <= tz_off z <= 1440 /\ forall s, In s (tz_seasons z) -> -1440 <= sn_off s <= 1440
}.

(** The moment a season's clocks are set to: 03:00 for a shift at 02:00. *)
Definition at_season_start (z : tz) (l : Z) : Prop :=
  exists s, In s (tz_seasons z) /\ l = sn_begin s + (sn_off s - tz_off z).

Fixpoint nondecreasing (us : list Z) : Prop :=
  match us with
  | a :: ((b :: _) as r) => a <= b /\ nondecreasing r
  | _ => True
  end.

(** The instants of the departures and arrivals of sections [from, to) of [v],
    repetition [rep], on the service day beginning at local midnight [day]
    (minutes): each the first instant at which the station's clocks show the
    time of the schedule, which must exist and not be the moment at which the
    clocks are set forward, and each not before the one before it. *)
Definition ev_instant (z : tz) (l u : Z) : Prop :=
  first_shows z l u /\ ~ at_season_start z l.

Definition trip_instants (tz_of : nat -> tz) (v : hservice) (from to rep : nat) (day : Z)
    (us : list Z) : Prop :=
  length us = (2 * (to - from))%nat /\ nondecreasing us /\
  forall m, (m < to - from)%nat ->
    exists a b,
      nth_error (hv_stops v) (from + m) = Some a /\
      nth_error (hv_stops v) (from + m + 1) = Some b /\
      ev_instant (tz_of (hs_eva a)) (day + hs_dep a + Z.of_nat rep * hv_interval v)
        (nth (2 * m) us 0) /\
      ev_instant (tz_of (hs_eva b)) (day + hs_arr b + Z.of_nat rep * hv_interval v)
        (nth (2 * m + 1) us 0).

(** A traffic day of the timetable, [d] days after the first one (five days
    before the selection), as an instant. *)
Definition day_instant (sel_from : Z) (d : nat) : Z :=
  (sel_from - kTimetableOffset + Z.of_nat d) * 1440.

(** All departures of the loaded vehicles: instants and stop sequence. *)
Definition loaded_trips (sel_from : Z) (vs : list (hkey * list nat))
  : list (list Z * list (option (nat * bool * bool))) :=
  flat_map (fun kb =>
    map (fun d => (map (fun t => day_instant sel_from d + t) (fst (fst kb)), snd (fst kb)))
      (snd kb)) vs.

(** The service's local days, from [day] to the day of its last arrival,
    meet the selection. *)
Definition meets_selection (sel_from sel_to : Z) (v : hservice) (to rep : nat) (day : Z) : Prop :=
  exists z, nth_error (hv_stops v) to = Some z /\
    sel_from <= day + (hs_arr z + Z.of_nat rep * hv_interval v) / 1440 /\ day < sel_to.
