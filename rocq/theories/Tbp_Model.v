(** Model of the pre-processing of the trip based search: src/routing/tb/preprocess.cc (all of it except statistics, the thread pool
    and the de-duplication of day sets), include/nigiri/routing/tb/tb_data.h [transfer].
    A transport is the pair (route, position in the route) instead of the global index, which numbers the same pairs consecutively;
    a segment is (transport, position).  Narrowing conversions are explicit. *)
From Coq Require Import List ZArith Bool Arith.
From Verif Require Import Base Time_Model Pareto_Model Calendar_Model Finish_Model Raptor_Model.
From Verif Require Tb_Model.
Import ListNotations.
Local Open Scope Z_scope.

(** constants.h:7 *)
Definition kMaxTransferTime : Z := 1440.
(** Conversion to std::int8_t. *)
Definition to_i8 (z : Z) : Z := (z + 128) mod 256 - 128.
(** bitset [operator>>]: bit [d] of the result is bit [d + n]; zeros enter at the top. *)
Definition bfShr (a : bitfield) (n : Z) : bitfield := fun d => (0 <=? d) && (d + n <? 512) && a (d + n).
Definition bf_max : bitfield := fun d => (0 <=? d) && (d <? 512).                                   (* bitfield::max() *)

(** preprocess.cc:66-81 [expanded_transfer]; the target transport is (x_route, x_vehicle). *)
Record xtransfer := mk_xt { x_bf : bitfield; x_route : nat; x_vehicle : nat; x_stop : nat; x_day : Z }.
(** :86-91 [route_transfer] *)
Record neighbor := mk_nb { nb_from : nat; nb_route : nat; nb_to : nat; nb_len : Z }.
(** :20-24 [rlb_entry] *)
Record rlb_entry := mk_rlb { rlb_shift : Z; rlb_start : Z; rlb_bf : bitfield }.

(** :26-46 [reached_line_based::update]: rewritten entries and remaining days of the new entry. *)
Fixpoint rlb_update (es : list rlb_entry) (shift start : Z) (bf : bitfield) : list rlb_entry * bitfield :=
  match es with
  | [] => ([], bf)
  | e :: es' =>
      if bfNone bf then (es, bf)
      else if bfNone (rlb_bf e) then let (r, b) := rlb_update es' shift start bf in (e :: r, b)
      else if (shift <? rlb_shift e) || ((shift =? rlb_shift e) && (start <? rlb_start e))
      then let (r, b) := rlb_update es' shift start bf in (mk_rlb (rlb_shift e) (rlb_start e) (bfAnd (rlb_bf e) (bfNot bf)) :: r, b)
      else let (r, b) := rlb_update es' shift start (bfAnd bf (bfNot (rlb_bf e))) in (e :: r, b)
  end.
Definition rlb_table := nat -> list rlb_entry.
(** :48-55 [reset] *)
Definition rlb_reset (num_stops : nat) : rlb_table := fun j => if Nat.ltb j num_stops then [mk_rlb 127 65535 bf_max] else [].

Section Preprocess.
  Variable tt : timetable.
  Notation fps := (tt_footpaths_out tt).     (* footpaths_out_[prf_idx] *)
  Variable fps0 : nat -> list (nat * Z).     (* footpaths_out_[0], used by :473 whatever the profile *)

  Definition no_route : route := mk_route [] 0 (fun _ => false) (fun _ => false) (fun _ _ => false) [] None.
  Definition route_at (r : nat) : route := nth r (tt_routes tt) no_route.
  Definition n_stops (r : nat) : nat := length (r_stops (route_at r)).
  Definition vehicle_at (r v : nat) : vehicle := vehicle_of (route_at r) v.
  (** tt.event_mam(t, i, ev) *)
  Definition mam_of (r v i : nat) (e : ev_type) : delta := v_ev (vehicle_at r v) i e.
  (** bitfields_[transport_traffic_days_[t]] *)
  Definition days_of_vehicle (r v : nat) : bitfield := is_transport_active (vehicle_at r v).

  (** ** :178-215 [add_non_uturn_transfers] *)
  Definition is_uturn_terminates (prev next : stop) (last : bool) : bool :=
    last && (s_loc prev =? s_loc next) && s_out prev.
  Definition is_uturn (prev next : stop) (d : Z) : bool :=
    (s_loc prev =? s_loc next) && s_out prev && s_in next && (tt_transfer_time tt (Z.to_nat (s_loc prev)) <=? d).
  Definition non_uturn_transfers (r_from i : nat) (fp : nat * Z) : list neighbor :=
    let prev := stop_at (route_at r_from) (i - 1) in
    flat_map (fun r_to =>
      let rt := route_at r_to in
      flat_map (fun j =>
        let target := stop_at rt j in
        if negb (Nat.eqb (Z.to_nat (s_loc target)) (fst fp)) || negb (s_in target) then []
        else
          let next := stop_at rt (S j) in
          if negb (is_uturn prev next (snd fp)) && negb (is_uturn_terminates prev next (Nat.eqb (S j) (length (r_stops rt) - 1)))
          then [mk_nb i r_to j (snd fp)] else [])
        (seq 0 (length (r_stops rt) - 1))) (tt_location_routes tt (fst fp)).
  (** :217-255 [get_route_neighborhood].  std::sort is not stable; elements that are equal for the comparison (parallel footpaths)
      keep their order here, nothing below depends on that order. *)
  Definition nb_lt (a b : neighbor) : bool :=
    Nat.ltb (nb_route a) (nb_route b)
    || (Nat.eqb (nb_route a) (nb_route b) && Nat.ltb (nb_from b) (nb_from a))
    || (Nat.eqb (nb_route a) (nb_route b) && Nat.eqb (nb_from a) (nb_from b) && Nat.ltb (nb_to a) (nb_to b)).
  Fixpoint nb_insert (x : neighbor) (l : list neighbor) : list neighbor :=
    match l with [] => [x] | y :: l' => if nb_lt y x then y :: nb_insert x l' else x :: l end.
  Definition nb_sort (l : list neighbor) : list neighbor := fold_right nb_insert [] l.
  Definition neighborhood (r : nat) : list neighbor :=
    nb_sort (flat_map (fun i =>
      if negb (s_out (stop_at (route_at r) i)) then []
      else
        let from := loc_at (route_at r) i in
        non_uturn_transfers r i (from, tt_transfer_time tt from) ++ flat_map (non_uturn_transfers r i) (fps from))
      (rev (seq 1 (n_stops r - 1)))).

  (** ** :257-410 [preprocess_transport], first part: line based pruning *)
  (** Departures at the target stop in vehicle order: (position, time). *)
  Definition departures (r j : nat) : list (nat * delta) :=
    map (fun v => (v, mam_of r v j kDep)) (seq 0 (length (r_vehicles (route_at r)))).
  Record line_state := mk_ls { ls_reached : rlb_table; ls_transfers : nat -> list xtransfer }.
  (** Start time of a vehicle at its first stop (uint16). *)
  Definition start_mam (r v : nat) : Z := d_mam (mam_of r v 0 kDep).

  (** :379-395: subsequent stops of the target route. *)
  Definition mark_later_stops (reached : rlb_table) (from to : nat) (day_offset start : Z) (bf : bitfield) : rlb_table :=
    fold_left (fun tab j =>
      let (es, impr) := rlb_update (tab j) day_offset start bf in
      Tb_Model.upd tab j (if bfNone impr then es else es ++ [mk_rlb day_offset start impr]))
      (seq from (to - from)) reached.

  (** :323-397: one iteration for the departure [(u, dep)] on day [tdo] after the arrival day. *)
  Definition handle_departure (n : neighbor) (t_arr_days : Z) (tdo : Z) (u : nat) (dep : delta) (remaining : bitfield) (s : line_state)
    : bitfield * line_state :=
    let u_days := to_i8 (d_days dep) in
    let total := to_i8 (u_days - t_arr_days - tdo) in
    let udays := days_of_vehicle (nb_route n) u in
    let shifted := if total <? 0 then bfShr udays (-1 * total) else bfShl udays total in
    let common := bfAnd remaining shifted in
    if bfNone common then (remaining, s)
    else
      let remaining' := bfAnd remaining (bfNot common) in
      let day_offset := to_i8 (t_arr_days + tdo - u_days) in
      let start := start_mam (nb_route n) u in
      let (es, common') := rlb_update (ls_reached s (nb_to n)) day_offset start common in
      let reached1 := Tb_Model.upd (ls_reached s) (nb_to n) es in
      if bfNone common' then (remaining', mk_ls reached1 (ls_transfers s))
      else
        let tr := Tb_Model.upd (ls_transfers s) (nb_from n) (ls_transfers s (nb_from n) ++ [mk_xt common' (nb_route n) u (nb_to n) day_offset]) in
        let reached2 := Tb_Model.upd reached1 (nb_to n) (reached1 (nb_to n) ++ [mk_rlb day_offset start common']) in
        (remaining', mk_ls (mark_later_stops reached2 (S (nb_to n)) (n_stops (nb_route n)) day_offset start common') tr).

  (** The while loop :313-409.  [evs]: the departures from the current one to the end of the day, [all]: those of the whole day.
      Two days after the arrival day the maximal transfer time is exceeded, so [3 * n + 1] iterations suffice. *)
  Fixpoint line_loop (fuel : nat) (n : neighbor) (t_arr_mam t_arr_days tdo : Z) (evs all : list (nat * delta))
           (remaining : bitfield) (s : line_state) : line_state :=
    match fuel with
    | O => s
    | S fuel' =>
        if bfNone remaining then s
        else
          match evs with
          | [] => s   (* unreachable for routes with vehicles *)
          | (u, dep) :: rest =>
              if kMaxTransferTime <? to_u16 (tdo * 1440 + d_mam dep) - t_arr_mam then s
              else
                let (remaining', s') := handle_departure n t_arr_days tdo u dep remaining s in
                match rest with
                | [] => line_loop fuel' n t_arr_mam t_arr_days (to_i8 (tdo + 1)) all all remaining' s'
                | _ => line_loop fuel' n t_arr_mam t_arr_days tdo rest all remaining' s'
                end
          end
    end.
  (** linear_lb of :300-302 *)
  Fixpoint seek (mam : Z) (evs : list (nat * delta)) : list (nat * delta) :=
    match evs with [] => [] | (u, dep) :: rest => if d_mam dep <? mam then seek mam rest else evs end.
  (** :286-313 for one neighbor *)
  Definition handle_neighbor (r v : nat) (s : line_state) (n : neighbor) : line_state :=
    let t_arr := mam_of r v (nb_from n) kArr in
    let t_arr_mam := d_mam t_arr in
    let t_arr_days := to_i8 (d_days t_arr) in
    let fp_arr := to_u16 (t_arr_mam + nb_len n) in
    let all := departures (nb_route n) (nb_to n) in
    let evs := seek (fp_arr mod 1440) all in
    let tdo := to_i8 (fp_arr / 1440) in
    let '(tdo, evs) := match evs with [] => (to_i8 (tdo + 1), all) | _ => (tdo, evs) end in
    line_loop (3 * length all + 1) n t_arr_mam t_arr_days tdo evs all (days_of_vehicle r v) s.
  (** :266-284: the reached table is reset whenever the target route changes. *)
  Fixpoint handle_neighbors (r v : nat) (prev_route : nat) (ns : list neighbor) (s : line_state) : line_state :=
    match ns with
    | [] => s
    | n :: ns' =>
        let s1 := if Nat.eqb prev_route (nb_route n) then s else mk_ls (rlb_reset (n_stops (nb_route n))) (ls_transfers s) in
        handle_neighbors r v (nb_route n) ns' (handle_neighbor r v s1 n)
    end.
  Definition line_based (r v : nat) : nat -> list xtransfer :=
    match neighborhood r with
    | [] => fun _ => []
    | (n :: _) as ns => ls_transfers (handle_neighbors r v (nb_route n) ns (mk_ls (rlb_reset (n_stops (nb_route n))) (fun _ => [])))
    end.

  (** ** :412-493 [preprocess_transport], second part: transfer reduction *)
  Record rr_state := mk_rs { rs_arr : Tb_Model.rr_table; rs_ch : Tb_Model.rr_table }.
  (** Both tables, or-ing the improvements. *)
  Definition rr_update2 (s : rr_state) (l : nat) (t_arr t_ch : Z) (bf : bitfield) : rr_state * bitfield :=
    let (a, i1) := Tb_Model.rr_update (rs_arr s) l (to_u16 t_arr) bf in
    let (c, i2) := Tb_Model.rr_update (rs_ch s) l (to_u16 t_ch) bf in
    (mk_rs a c, bfOr i1 i2).
  (** :453-479: arriving with the target vehicle at stop [i]. *)
  Definition reduce_arrival (x : xtransfer) (st : rr_state * bitfield) (i : nat) : rr_state * bitfield :=
    let (s, impr) := st in
    let arr := to_u16 (x_day x * 1440 + delta_count (mam_of (x_route x) (x_vehicle x) i kArr)) in
    let l := loc_at (route_at (x_route x)) i in
    let (s1, i1) := rr_update2 s l arr (arr + tt_transfer_time tt l) (x_bf x) in
    fold_left (fun st (fp : nat * Z) =>
      let (s, impr) := st : rr_state * bitfield in
      let (s', i') := rr_update2 s (fst fp) (arr + snd fp) (arr + snd fp) (x_bf x) in (s', bfOr impr i'))
      (fps0 l) (s1, bfOr impr i1).
  Definition reduce_transfer (s : rr_state) (x : xtransfer) : rr_state * bitfield :=
    fold_left (reduce_arrival x) (seq (S (x_stop x)) (n_stops (x_route x) - S (x_stop x))) (s, bf_empty).
  (** :446-491: the transfers of one stop, in order. *)
  Fixpoint reduce_stop (s : rr_state) (xs : list xtransfer) : rr_state * list xtransfer :=
    match xs with
    | [] => (s, [])
    | x :: xs' =>
        let (s1, impr) := reduce_transfer s x in
        let (s2, rest) := reduce_stop s1 xs' in
        (s2, if bfNone impr then rest else mk_xt impr (x_route x) (x_vehicle x) (x_stop x) (x_day x) :: rest)
    end.
  (** :429-444: what the vehicle itself reaches by leaving it at stop [i]. *)
  Definition reach_by_leaving (r v i : nat) (s : rr_state) : rr_state :=
    let t_arr := to_u16 (delta_count (mam_of r v i kArr)) in
    let l := loc_at (route_at r) i in
    let days := days_of_vehicle r v in
    fold_left (fun s (fp : nat * Z) => fst (rr_update2 s (fst fp) (t_arr + snd fp) (t_arr + snd fp) days))
      (fps l) (fst (rr_update2 s l t_arr (t_arr + tt_transfer_time tt l) days)).
  (** :419-492: stops from the last to the second. *)
  Fixpoint reduce_stops (r v : nat) (is : list nat) (s : rr_state) (tr : nat -> list xtransfer) : nat -> list xtransfer :=
    match is with
    | [] => tr
    | i :: is' =>
        if negb (s_out (stop_at (route_at r) i)) then reduce_stops r v is' s tr
        else
          let (s', xs) := reduce_stop (reach_by_leaving r v i s) (tr i) in
          reduce_stops r v is' s' (Tb_Model.upd tr i xs)
    end.
  Definition rr_empty : rr_state := mk_rs (fun _ => []) (fun _ => []).
  (** :495-518 [preprocess_route], :520-595 [preprocess]: the transfers out of vehicle [v] of route [r] when leaving it at stop [i]
      (segment [i - 1] of the vehicle). *)
  Definition transfers_of (r v i : nat) : list xtransfer :=
    reduce_stops r v (rev (seq 1 (n_stops r - 1))) rr_empty (line_based r v) i.
  (** tb_data.h:20-23 [set_day_offset]: throws unless the offset fits into 4 bit. *)
  Definition day_offset_ok (x : xtransfer) : bool := (-8 <=? x_day x) && (x_day x <? 8).
  Definition preprocess_ok : bool :=
    forallb (fun r => forallb (fun v => forallb (fun i => forallb day_offset_ok (transfers_of r v i)) (seq 1 (n_stops r - 1)))
                              (seq 0 (length (r_vehicles (route_at r))))) (seq 0 (length (tt_routes tt))).
End Preprocess.
