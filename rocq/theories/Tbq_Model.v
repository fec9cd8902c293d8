(** Model of the trip based search: src/routing/tb/query_engine.cc (constructor, execute, seg_dest, seg_prune, seg_transfers,
    add_start), include/nigiri/routing/tb/queue.h, query_engine.h, include/nigiri/routing/get_earliest_transport.h and the start time
    groups of search.h.  [UseLowerBounds = true] as in tb_search.cc.  A segment is (route, vehicle, position) instead of the global
    number, see Tbp_Model.v.  Times are minutes relative to the query's base day (unixtime in the code), not wrapped.
    The statistics and [reconstruct] are not modelled here. *)
From Coq Require Import List ZArith Bool Arith.
From Verif Require Import Base Time_Model Pareto_Model Calendar_Model Finish_Model Raptor_Model Tb_Model Tbp_Model.
Import ListNotations.
Local Open Scope Z_scope.

Definition kTBMaxDayOffset : Z := 8.       (* settings.h:19-21: kTimetableOffset / 1 day + 3 *)
Definition QUERY_DAY_SHIFT : Z := 5.       (* settings.h:13 *)
Definition kMaxTime : Z := 2147483647.     (* unixtime_t::max() *)

(** queue.h:23-36 [queue_entry]: vehicle, segments [q_from, q_to), parent, day relative to [base_]. *)
Record qentry := mk_qe { q_route : nat; q_vehicle : nat; q_from : nat; q_to : nat; q_parent : option nat; q_day : Z }.
(** query_engine.h:23-51 [query_state]; [qs_dist] is [dist_to_dest_] (per segment, the same for all vehicles of a route). *)
Record qstate := mk_qs { qs_tmin : nat -> Z; qs_parent : nat -> option nat; qs_queue : list qentry; qs_reached : reached;
                         qs_end : nat -> nat -> bool; qs_dist : nat -> nat -> option Z }.
(** query_engine.h:24-29 *)
Definition fresh_state : qstate :=
  mk_qs (fun _ => kMaxTime) (fun _ => None) [] reached_empty (fun _ _ => false) (fun _ _ => None).

Section Query.
  Variable P : params.                       (* timetable, destinations, lower bounds, base day *)
  Notation tt := (p_tt P).
  Variable fps0 : nat -> list (nat * Z).     (* footpaths_out_ of profile 0, see Tbp_Model *)

  Definition base_ : Z := p_base P - QUERY_DAY_SHIFT.                                              (* query_engine.cc:50 *)
  Definition tb_event_time (r v : nat) (day : Z) (i : nat) (e : ev_type) : Z :=
    (day - p_base P) * 1440 + delta_count (mam_of tt r v i e).

  (** ** Constructor, query_engine.cc:30-96 *)
  (** query_engine.h:31-36 [reset]: [t_min_] and [dist_to_dest_] keep their contents. *)
  Definition qs_reset (s : qstate) : qstate :=
    mk_qs (qs_tmin s) (fun _ => None) [] reached_empty (fun _ _ => false) (qs_dist s).
  (** :55-78 [mark_dest_segments] *)
  Definition mark_dest_segments (s : qstate) (ld : nat * Z) : qstate :=
    fold_left (fun s r =>
      fold_left (fun s i =>
        let stp := stop_at (route_at tt r) i in
        if negb (Nat.eqb (Z.to_nat (s_loc stp)) (fst ld)) || negb (s_out stp) || Nat.eqb (length (r_vehicles (route_at tt r))) 0 then s
        else
          let d := match qs_dist s r (i - 1)%nat with None => snd ld | Some d0 => Z.min d0 (snd ld) end in
          mk_qs (qs_tmin s) (qs_parent s) (qs_queue s) (qs_reached s)
                (upd (qs_end s) r (upd (qs_end s r) (i - 1)%nat true)) (upd (qs_dist s) r (upd (qs_dist s r) (i - 1)%nat (Some d))))
        (seq 1 (n_stops tt r - 1)) s) (tt_location_routes tt (fst ld)) s.
  (** :80-95 *)
  Definition dest_offsets : list (nat * Z) :=
    match p_dist_to_end P with
    | None => flat_map (fun l => if p_is_dest P l then (l, 0) :: tt_footpaths_in tt l else []) (seq 0 (tt_n_locations tt))
    | Some off => flat_map (fun l => match off l with Some d => [(l, d)] | None => [] end) (seq 0 (tt_n_locations tt))
    end.
  Definition init_query (s : qstate) : qstate := fold_left mark_dest_segments dest_offsets (qs_reset s).

  (** ** get_earliest_transport.h:12-93, forward, without pruning *)
  (** Events of one day, :60-90. *)
  Fixpoint tb_scan_day (r : nat) (first : bool) (day mam : Z) (evs : list (nat * delta)) : option (nat * Z) :=
    match evs with
    | [] => None
    | (v, ev) :: rest =>
        if first && negb (mam <=? d_mam ev) then tb_scan_day r first day mam rest
        else if negb (days_of_vehicle tt r v (day - d_days ev)) then tb_scan_day r first day mam rest
        else Some (v, day - d_days ev)
    end.
  Definition tb_earliest_transport (r i : nat) (day mam : Z) : option (nat * Z) :=
    let evs := departures tt r i in
    match tb_scan_day r true day mam (seek mam evs) with
    | Some x => Some x
    | None => tb_scan_day r false (day + 1) mam evs
    end.

  (** ** queue.h *)
  Definition add_entry (s : qstate) (e : qentry) (min_k : Z) : qstate :=
    mk_qs (qs_tmin s) (qs_parent s) (qs_queue s ++ [e])
          (reached_update (qs_reached s) (q_route e) (Z.of_nat (q_vehicle e)) (Z.of_nat (q_from e)) (q_day e) min_k) (qs_end s) (qs_dist s).
  (** :78-114 [initial_enqueue] *)
  Definition initial_enqueue (s : qstate) (r v i : nat) (qday : Z) : qstate :=
    let min_seg := reached_query (qs_reached s) (n_stops tt) r (Z.of_nat v) qday 0 in
    if min_seg <=? Z.of_nat i then s
    else add_entry s (mk_qe r v i (Z.to_nat min_seg) None qday) 0.
  (** :44-76 [enqueue] *)
  Definition enqueue (s : qstate) (x : xtransfer) (parent : nat) (pday : Z) (k : nat) : qstate :=
    let day := pday + x_day x in
    if (day <=? 0) || (kTBMaxDayOffset <=? day) then s
    else
      let min_seg := reached_query (qs_reached s) (n_stops tt) (x_route x) (Z.of_nat (x_vehicle x)) day (Z.of_nat k) in
      if min_seg <=? Z.of_nat (x_stop x) then s
      else add_entry s (mk_qe (x_route x) (x_vehicle x) (x_stop x) (Z.to_nat min_seg) (Some parent) day) (Z.of_nat k).

  (** ** query_engine.cc:229-262 [add_start] *)
  Definition tb_add_start (s : qstate) (lt : nat * Z) : qstate :=
    let (l, t) := lt in
    let m := p_base P * 1440 + t in
    let day := Z.quot m 1440 in let mam := Z.rem m 1440 in
    fold_left (fun s r =>
      fold_left (fun s i =>
        let stp := stop_at (route_at tt r) i in
        if negb (s_in stp) || negb (Nat.eqb (Z.to_nat (s_loc stp)) l) then s
        else match tb_earliest_transport r i day mam with
             | None => s
             | Some (v, vday) =>
                 let qday := vday - base_ in
                 if (qday <? 0) || (kTBMaxDayOffset <=? qday) then s else initial_enqueue s r v i qday
             end)
        (seq 0 (n_stops tt r - 1)) s) (tt_location_routes tt l) s.

  (** ** :146-175 [seg_dest] *)
  Definition improve (s : qstate) (k q : nat) (time : Z) : qstate :=
    let upd_j j := Nat.leb k j && Nat.ltb j 15 && (time <? qs_tmin s j) in
    mk_qs (fun j => if upd_j j then time else qs_tmin s j)
          (fun j => if upd_j j && Nat.eqb j k then Some q else qs_parent s j)
          (qs_queue s) (qs_reached s) (qs_end s) (qs_dist s).
  Definition seg_dest (k : nat) (s : qstate) (q : nat) : qstate :=
    match nth_error (qs_queue s) q with
    | None => s
    | Some e =>
        fold_left (fun s seg =>
          if negb (qs_end s (q_route e) seg) then s
          else match qs_dist s (q_route e) seg with
               | None => s
               | Some d => improve s k q (tb_event_time (q_route e) (q_vehicle e) (base_ + q_day e) (S seg) kArr + d)
               end)
          (seq (q_from e) (q_to e - q_from e)) s
    end.
  (** :177-196 [seg_prune]; the lower bound is converted to the 16 bit duration type. *)
  Definition seg_prune (k : nat) (s : qstate) (q : nat) : qstate :=
    match nth_error (qs_queue s) q with
    | None => s
    | Some e =>
        let i := S (q_from e) in
        let arr := tb_event_time (q_route e) (q_vehicle e) (base_ + q_day e) i kArr
                   + to_i16 (p_lb P (loc_at (route_at tt (q_route e)) i)) in
        if qs_tmin s (S k) <? arr
        then mk_qs (qs_tmin s) (qs_parent s)
                   (set_nth (qs_queue s) q (mk_qe (q_route e) (q_vehicle e) (q_from e) (q_from e) (q_parent e) (q_day e)))
                   (qs_reached s) (qs_end s) (qs_dist s)
        else s
    end.
  (** :198-227 [seg_transfers] *)
  Definition seg_transfers (k : nat) (s : qstate) (q : nat) : qstate :=
    match nth_error (qs_queue s) q with
    | None => s
    | Some e =>
        fold_left (fun s seg =>
          fold_left (fun s x => if x_bf x (base_ + q_day e) then enqueue s x q (q_day e) (S k) else s)
                    (transfers_of tt fps0 (q_route e) (q_vehicle e) (S seg)) s)
          (seq (q_from e) (q_to e - q_from e)) s
    end.

  (** ** :98-144 [execute]; [max_transfers] only enters the statistics. *)
  Definition set_worst_time (s : qstate) (worst : Z) : qstate :=
    let cut k := Nat.ltb k 14 && (worst <=? qs_tmin s k) in
    mk_qs (fun k => if cut k then worst else qs_tmin s k) (fun k => if cut k then None else qs_parent s k)
          (qs_queue s) (qs_reached s) (qs_end s) (qs_dist s).
  Fixpoint tb_rounds (n k from to : nat) (s : qstate) : qstate :=
    match n with
    | O => s
    | S n' =>
        if Nat.eqb from to then s
        else
          let is := seq from (to - from) in
          let s1 := fold_left (seg_dest k) is s in
          let s2 := fold_left (seg_prune k) is s1 in
          let s3 := fold_left (seg_transfers k) is s2 in
          tb_rounds n' (S k) to (length (qs_queue s3)) s3
    end.
  Definition tb_reported (start : Z) (s : qstate) : list journey :=
    flat_map (fun n => match qs_parent s n with Some _ => [mk_journey start (qs_tmin s n) (Z.of_nat n)] | None => [] end) (seq 0 14).
  (** search.h:420-440 for one start time: next_start_time (query_engine.h:97), add_start for all, execute. *)
  Definition next_start (s : qstate) : qstate := mk_qs (qs_tmin s) (qs_parent s) [] (qs_reached s) (qs_end s) (qs_dist s).
  Definition tb_group (s : qstate) (g : group) : qstate :=
    let s1 := fold_left tb_add_start (g_starts g) (next_start s) in
    tb_rounds 14 0 0 (length (qs_queue s1)) (set_worst_time s1 (g_worst g)).
  Fixpoint tb_groups (s : qstate) (results : list journey) (gs : list group) : qstate * list journey :=
    match gs with
    | [] => (s, results)
    | g :: gs' =>
        let s' := tb_group s g in
        tb_groups s' (fold_left (fun rs j => fst (add journey journey_dominates rs j)) (tb_reported (g_start g) s') results) gs'
    end.
  (** A whole query on a state that may have been used before. *)
  Definition tb_query (s : qstate) (gs : list group) : qstate * list journey := tb_groups (init_query s) [] gs.
End Query.
