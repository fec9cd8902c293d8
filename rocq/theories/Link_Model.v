(** Model of src/loader/link_nearby_stations.cc (links between the stations of different feeds),
    src/loader/gtfs/stop_group.cc (stop groups) and src/timetable_metrics.cc:26-70 (counts per feed). *)
From Coq Require Import ZArith List Bool Arith.
Import ListNotations.
Local Open Scope Z_scope.

Definition upd {A} (f : nat -> A) (i : nat) (v : A) : nat -> A := fun j => if Nat.eqb j i then v else f j.

(** ** link_nearby_stations *)
(** What the function reads of the timetable. [loc_src] = None is source_idx_t::invalid(); [null_island] is
    |lat| < 2 and |lng| < 2 (:38). The geometry is abstract: [in_radius i] is what the r-tree returns for 300 m around
    the coordinate of [i] (:50-51, in any order), [walk i j] is round(distance / (60 * kWalkSpeed)) in minutes (:68-69) and
    [close i j] is distance < 100 m (:78); they need not be symmetric (the approximate distance depends on the latitude of
    its first argument). *)
Record geo := {
  n_locs : nat;
  loc_src : nat -> option nat;
  null_island : nat -> bool;
  transfer_time : nat -> Z;
  in_radius : nat -> list nat;
  walk : nat -> nat -> Z;
  close : nat -> nat -> bool
}.
(** What it changes: preprocessing footpaths (target, duration; the duration is at most 255, so that C05's saturation at
    511 does not occur) and equivalences. *)
Record links := { fp_out : nat -> list (nat * Z); fp_in : nat -> list (nat * Z); eqv : nat -> list nat }.

Definition opt_nat_eqb (a b : option nat) : bool :=
  match a, b with Some x, Some y => Nat.eqb x y | None, None => true | _, _ => false end.

(** :52-82 the body for one result of the r-tree *)
Definition link_to (g : geo) (from : nat) (st : links) (to : nat) : links :=
  if Nat.eqb from to then st
  else if match loc_src g to with None => true | Some _ => false end || opt_nat_eqb (loc_src g from) (loc_src g to)
  then st
  else
    let duration := Z.max (Z.max (transfer_time g from) (transfer_time g to)) (walk g from to) in
    {| fp_out := upd (fp_out st) from (fp_out st from ++ [(to, duration)]);
       fp_in := upd (fp_in st) to (fp_in st to ++ [(from, duration)]);
       eqv := if close g from to then upd (eqv st) from (eqv st from ++ [to]) else eqv st |}.
(** :35-83 *)
Definition link_from (g : geo) (st : links) (from : nat) : links :=
  if null_island g from then st
  else match loc_src g from with
       | None => st
       | Some _ => fold_left (link_to g from) (in_radius g from) st
       end.
Definition link_nearby_stations (g : geo) (st : links) : links := fold_left (link_from g) (seq 0 (n_locs g)) st.

(** ** add_stop_groups *)
(** A row of stop_group_elements.txt after trimming; ids are numbers. *)
Record group_row := { gr_group : nat; gr_stop : nat }.
(** stop_group.cc:31-61; [stops]: stop id to location, [origin]: the coordinate is (0, 0), [children]: children of a
    location. *)
Definition add_group_row (stops : nat -> option nat) (origin : nat -> bool) (children : nat -> list nat)
    (eq : nat -> list nat) (r : group_row) : nat -> list nat :=
  match stops (gr_group r) with
  | None => eq
  | Some meta =>
      match stops (gr_stop r) with
      | None => eq
      | Some l =>
          if negb (origin meta) then eq
          else
            let eq1 := upd eq meta (eq meta ++ [l]) in
            fold_left (fun e c1 =>
                         let e1 := upd e meta (e meta ++ [c1]) in
                         fold_left (fun e' c2 => upd e' meta (e' meta ++ [c2])) (children c1) e1)
                      (children l) eq1
      end
  end.
Definition add_stop_groups stops origin children (rows : list group_row) (eq : nat -> list nat) : nat -> list nat :=
  fold_left (add_group_row stops origin children) rows eq.

(** ** get_metrics *)
(** timetable_metrics.h:13-19; [m_days] is [transport_days_]. No counter wraps around. *)
Record feed_metrics := { m_days : Z; m_locations : Z; m_trips : Z; m_first : Z; m_last : Z }.
Definition no_metrics : feed_metrics := {| m_days := 0; m_locations := 0; m_trips := 0; m_first := 65535; m_last := 0 |}.
(** timetable_metrics.cc:14-18, 27-35: a set of days is the list of its elements in increasing order
    (for_each_set_bit). *)
Record day_metric := { d_first : Z; d_last : Z; d_count : Z }.
Definition transport_day_metrics (days : list Z) : day_metric :=
  fold_left (fun m d => {| d_first := Z.min (d_first m) d; d_last := Z.max (d_last m) d; d_count := d_count m + 1 |})
            days {| d_first := 65535; d_last := 0; d_count := 0 |}.
(** [kMaxDays] bits *)
Definition set_bits (n_days : nat) (f : nat -> bool) : list Z := map Z.of_nat (filter f (seq 0 n_days)).
(** What is read: source of each location; for every entry of [trip_id_to_idx_] (:47) its source and the traffic days of
    the transports of its trip (:50-52); for every flex transport (:62-68) its days and the sources of the ids of its trip. *)
Record tt_counts := {
  c_n_sources : nat;
  c_n_days : nat;
  c_loc_src : list (option nat);
  c_trips : list (nat * list (nat -> bool));
  c_flex : list ((nat -> bool) * list nat)
}.
Definition metrics_t := nat -> feed_metrics.
(** :40-45 *)
Definition count_location (m : metrics_t) (s : option nat) : metrics_t :=
  match s with
  | None => m
  | Some f => let x := m f in upd m f {| m_days := m_days x; m_locations := m_locations x + 1; m_trips := m_trips x;
                                         m_first := m_first x; m_last := m_last x |}
  end.
(** :47-59 *)
Definition count_trip (n_days : nat) (m : metrics_t) (t : nat * list (nat -> bool)) : metrics_t :=
  let days := fun d => existsb (fun b => b d) (snd t) in
  let tdm := transport_day_metrics (set_bits n_days days) in
  let x := m (fst t) in
  upd m (fst t) {| m_days := m_days x + d_count tdm; m_locations := m_locations x; m_trips := m_trips x + 1;
                   m_first := Z.min (m_first x) (d_first tdm); m_last := Z.max (m_last x) (d_last tdm) |}.
(** :62-72 *)
Definition count_flex (n_days : nat) (m : metrics_t) (t : (nat -> bool) * list nat) : metrics_t :=
  let tdm := transport_day_metrics (set_bits n_days (fst t)) in
  fold_left (fun m' f =>
               let x := m' f in
               upd m' f {| m_days := m_days x + d_count tdm; m_locations := m_locations x; m_trips := m_trips x;
                           m_first := Z.min (m_first x) (d_first tdm); m_last := Z.max (m_last x) (d_last tdm) |})
            (snd t) m.
Definition get_metrics (c : tt_counts) : metrics_t :=
  fold_left (count_flex (c_n_days c)) (c_flex c)
    (fold_left (count_trip (c_n_days c)) (c_trips c)
       (fold_left count_location (c_loc_src c) (fun _ => no_metrics))).
