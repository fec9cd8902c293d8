(** Model of the round-based search with via stops (include/nigiri/routing/raptor/raptor.h, template instance
    [raptor<SearchDir, false, Vias, SearchMode::kOneToOne>] with [Vias <> 0], without pruning bounds and without
    time-dependent offsets).  [Vias = 0] gives the search of Raptor_Model.v.
    Every label array of the code has a second index, the number of via stops visited so far ("via state"):
    [tmp_[l][v]], [best_[l][v]], [round_times_[k][l][v]].  Here the two indices are flattened to [ix l v] (exactly like the
    code's own flat storage, raptor_state.h) so that the state record of Raptor_Model.v can be used.
    The code keeps one station mark per location; the model keeps one per (location, via state) and reads the mark of a
    location as "one of its via states is marked", which is the same bit.
    Not modelled: real-time transports, as well as what is listed in Raptor_Model.v. *)
From Coq Require Import List ZArith Bool Arith.
From Verif Require Import Base Time_Model Pareto_Model Raptor_Model.
Import ListNotations.
Local Open Scope Z_scope.

(** One via stop of the query (routing/query.h:59-64 [via_stop]): the locations that count ([is_via_], filled by
    search.h:110-112 with the locations equivalent to the requested one) and the minimal stay. *)
Record via := mk_via { via_at : nat -> bool; via_stay : Z }.

Section Vias.
  Variable P : params.
  Variable vias : list via.
  Notation fwd := (p_fwd P).
  Notation tt := (p_tt P).
  Notation kInvalid := (kInvalid P).
  Notation n_loc := (tt_n_locations (p_tt P)).

  Definition nv : nat := length vias.                                                       (* Vias *)
  (** [v != Vias && is_via_[v][l]] *)
  Definition is_via (v l : nat) : bool := match nth_error vias v with Some w => via_at w l | None => false end.
  Definition stay_of (v : nat) : Z := match nth_error vias v with Some w => via_stay w | None => 0 end.
  Definition ix (l v : nat) : nat := (l * S nv + v)%nat.
  (** Via states 0 .. Vias. *)
  Definition slots : list nat := seq 0 (S nv).
  (** Station mark of a location. *)
  Definition marked (m : nat -> bool) (l : nat) : bool := existsb (fun v => m (ix l v)) slots.

  (** *** update_route (raptor.h:1177-1345) *)
  (** [vs_et e o]: vehicle boarded in via state [e] that has passed [o] further vias since. *)
  Record vscan := mk_vscan { vs_et : nat -> nat -> option ride; vs_tmp : nat -> Z; vs_mark : nat -> bool; vs_break : bool }.
  Definition upd2 {A} (f : nat -> nat -> A) (i j : nat) (x : A) : nat -> nat -> A := upd f i (upd (f i) j x).

  (** :1221-1243, one execution of the loop body. *)
  Definition cross_step (r : route) (s l : nat) (et : nat -> nat -> option ride) (eo : nat * nat) : nat -> nat -> option ride :=
    let (e, o) := eo in
    let cs := (e + o - 1)%nat in
    match et e (o - 1)%nat with
    | Some from =>
        if is_via cs l && (stay_of cs =? 0) then
          let take := match et e o with
                      | None => true
                      | Some to => is_better P (time_at_stop P r from s (alight_ev P)) (time_at_stop P r to s (alight_ev P))
                      end in
          upd2 (if take then upd2 et e o (Some from) else et) e (o - 1)%nat None
        else et
    | None => et
    end.
  (** The loops :1221-1222: e = 0 .. Vias - 1, o = Vias - e .. 1. *)
  Definition cross_order : list (nat * nat) :=
    flat_map (fun e => map (fun o => (e, o)) (rev (seq 1 (nv - e)))) (seq 0 nv).
  Definition cross_vias (r : route) (s l : nat) (et : nat -> nat -> option ride) : nat -> nat -> option ride :=
    fold_left (cross_step r s l) cross_order et.

  (** :1248-1301, one execution of the loop body: [cb] is [current_best]. *)
  Definition alight_step (r : route) (s l : nat) (best rt_prev : nat -> Z) (tad : Z) (et : nat -> nat -> option ride)
             (a : (nat -> Z) * (nat -> Z) * (nat -> bool)) (cse : nat * nat) : (nat -> Z) * (nat -> Z) * (nat -> bool) :=
    let '(cb, tmp, mark) := a in
    let (cs, e) := cse in
    match et e (cs - e)%nat with
    | Some x =>
        if can_finish fwd (is_wheelchair P) (stop_at r s) then
          let by_transport := time_at_stop P r x s (alight_ev P) in
          let cb1 := if cb cs =? kInvalid
                     then upd cb cs (get_best P (get_best P (rt_prev (ix l cs)) (tmp (ix l cs))) (best (ix l cs))) else cb in
          if is_better_or_eq P by_transport tad && lb_reachable P l
             && is_better_or_eq P (by_transport + dir P (p_lb P l)) tad
          then (upd cb1 cs (get_best P by_transport (cb1 cs)),
                upd tmp (ix l cs) (get_best P by_transport (tmp (ix l cs))), upd mark (ix l cs) true)
          else (cb1, tmp, mark)
        else (cb, tmp, mark)
    | None => (cb, tmp, mark)
    end.
  (** The loops :1248-1250: cs = Vias .. 0, e = 0 .. cs. *)
  Definition alight_order : list (nat * nat) :=
    flat_map (fun cs => map (fun e => (cs, e)) (seq 0 (S cs))) (rev slots).

  (** :1313-1341, one execution of the loop body. *)
  Definition board_step (r_idx : nat) (r : route) (s l : nat) (best rt_prev tmp cb : nat -> Z) (tad : Z)
             (et : nat -> nat -> option ride) (v : nat) : nat -> nat -> option ride :=
    let et_time := match et v 0%nat with Some x => time_at_stop P r x s (board_ev P) | None => kInvalid end in
    let prev_time := rt_prev (ix l v) in
    if negb (prev_time =? kInvalid) && is_better_or_eq P prev_time et_time then
      match get_earliest_transport P r_idx r s l tad prev_time with
      | Some x =>
          let cb' := get_best P (get_best P (cb v) (best (ix l v))) (tmp (ix l v)) in
          if (cb' =? kInvalid) || is_better_or_eq P (time_at_stop P r x s (board_ev P)) et_time
          then upd2 et v 0%nat (Some x) else et
      | None => et
      end
    else et.

  Definition via_scan_stop (r_idx : nat) (r : route) (best rt_prev : nat -> Z) (tad : Z)
             (prev_mark : nat -> bool) (c : vscan) (i : nat) : vscan :=
    if vs_break c then c else
    let n := length (r_stops r) in
    let s := stop_idx_of P r i in
    let stp := stop_at r s in
    let l := loc_at r s in
    let is_last := Nat.eqb i (n - 1) in
    let et0 := if negb (Nat.eqb i 0) && negb (section_ok P r (section_before P r i)) then (fun _ _ => None) else vs_et c in
    let et := cross_vias r s l et0 in
    let '(cb, tmp, mark) :=
      fold_left (alight_step r s l best rt_prev tad et) alight_order ((fun _ => kInvalid), vs_tmp c, vs_mark c) in
    if is_last || negb (can_start fwd (is_wheelchair P) stp) || negb (marked prev_mark l)
    then mk_vscan et tmp mark false
    else if negb (lb_reachable P l) then mk_vscan et tmp mark true
    else mk_vscan (fold_left (board_step r_idx r s l best rt_prev tmp cb tad) slots et) tmp mark false.

  Definition via_update_route (k : nat) (r_idx : nat) (r : route) (s : state) : state :=
    let c := fold_left (via_scan_stop r_idx r (s_best s) (s_rt s (k - 1)%nat) (s_tad s k) (s_prev s))
                       (seq 0 (length (r_stops r))) (mk_vscan (fun _ _ => None) (s_tmp s) (s_mark s) false) in
    mk_state (vs_tmp c) (s_best s) (s_rt s) (s_tad s) (vs_mark c) (s_prev s).
  (** loop_routes, raptor.h:480-575. *)
  Definition via_loop_routes (k : nat) (route_mark : nat -> bool) (s : state) : state :=
    fold_left (fun s r_idx =>
                 match nth_error (tt_routes tt) r_idx with
                 | Some r => if route_mark r_idx && route_allowed P r then via_update_route k r_idx r s else s
                 | None => s
                 end)
              (seq 0 (length (tt_routes tt))) s.

  (** *** Improving a label by a transfer (common part of update_transfers :704-744 and update_footpaths :793-843). *)
  Definition via_transfer_to (k target target_v : nat) (fp_target_time : Z) (is_dest : bool) (s : state) : state :=
    let x := ix target target_v in
    let better := is_better P fp_target_time (s_best s x) in
    let rt := if better then upd (s_rt s) k (upd (s_rt s k) x (get_best P fp_target_time (s_rt s k x))) else s_rt s in
    if better && is_better_or_eq P fp_target_time (s_tad s k)
       && (lb_reachable P target && is_better_or_eq P (fp_target_time + dir P (p_lb P target)) (s_tad s k))
    then mk_state (s_tmp s) (upd (s_best s) x fp_target_time)
                  (upd rt k (upd (rt k) x fp_target_time))
                  (if is_dest then update_time_at_dest P (s_tad s) k fp_target_time else s_tad s)
                  (upd (s_mark s) x true) (s_prev s)
    else mk_state (s_tmp s) (s_best s) rt (s_tad s) (s_mark s) (s_prev s).

  (** update_transfers (raptor.h:676-745). *)
  Definition via_transfers_step (k i : nat) (s : state) (v : nat) : state :=
    let tmp_time := s_tmp s (ix i v) in
    if tmp_time =? kInvalid then s else
    let target_v := if is_via v i then S v else v in
    let is_dest := Nat.eqb target_v nv && p_is_dest P i in
    let stay := if is_via v i then stay_of v else 0 in
    let transfer_time := if negb (is_intermodal_dest P) && is_dest then 0
                         else dir P (p_adjust P (tt_transfer_time tt i)) in
    via_transfer_to k i target_v (clamp16 (tmp_time + transfer_time + dir P stay)) is_dest s.
  Definition via_update_transfers (k : nat) (s : state) : state :=
    fold_left (fun s i => if marked (s_prev s) i then fold_left (via_transfers_step k i) slots s else s)
              (seq 0 n_loc) s.

  (** update_intermodal_footpaths (raptor.h:954-1043): reaching the end at [end_time]. *)
  Definition via_reach_end (k : nat) (end_time : Z) (s : state) : state :=
    if is_better_or_eq P end_time (s_tad s k)
    then mk_state (s_tmp s) (upd (s_best s) (ix (p_end P) nv) end_time)
                  (upd (s_rt s) k (upd (s_rt s k) (ix (p_end P) nv) end_time))
                  (update_time_at_dest P (s_tad s) k end_time) (s_mark s) (s_prev s)
    else s.
  Definition via_intermodal_step (k : nat) (dist_to_end : nat -> option Z) (s : state) (i : nat) : state :=
    if marked (s_prev s) i then
      match dist_to_end i with
      | Some d =>
          (* case 1: the last via *)
          let s1 := if negb (Nat.eqb nv 0) && negb (s_tmp s (ix i (nv - 1)) =? kInvalid) && is_via (nv - 1) i
                    then via_reach_end k (clamp16 (s_tmp s (ix i (nv - 1)) + dir P (stay_of (nv - 1)) + dir P d)) s else s in
          (* case 2: all vias visited *)
          if s_tmp s1 (ix i nv) =? kInvalid then s1
          else via_reach_end k (clamp16 (s_tmp s1 (ix i nv) + dir P d)) s1
      | None => s
      end
    else s.
  Definition via_update_intermodal (k : nat) (s : state) : state :=
    match p_dist_to_end P with
    | None => s
    | Some dist_to_end => fold_left (via_intermodal_step k dist_to_end) (seq 0 n_loc) s
    end.

  (** update_footpaths (raptor.h:747-845). *)
  Definition via_footpath_step (k i : nat) (fp : nat * Z) (s : state) (v : nat) : state :=
    let tmp_time := s_tmp s (ix i v) in
    if tmp_time =? kInvalid then s else
    let target := fst fp in
    let start_is_via := is_via v i in
    let start_v := if start_is_via then S v else v in
    let target_is_via := is_via start_v target in
    let target_v := if target_is_via then S start_v else start_v in
    let stay := (if start_is_via then stay_of v else 0) + (if target_is_via then stay_of start_v else 0) in
    via_transfer_to k target target_v (clamp16 (tmp_time + dir P (p_adjust P (snd fp) + stay)))
                    (Nat.eqb target_v nv && p_is_dest P target) s.
  Definition via_update_footpaths (k : nat) (s : state) : state :=
    fold_left (fun s i =>
                 if marked (s_prev s) i then
                   fold_left (fun s fp => fold_left (via_footpath_step k i fp) slots s) (footpaths_of P i) s
                 else s)
              (seq 0 n_loc) s.

  (** *** One round (raptor.h:215-388) *)
  Definition via_route_marks (s : state) : nat -> bool :=
    fun r => existsb (fun i => marked (s_mark s) i && existsb (Nat.eqb r) (tt_location_routes tt i)) (seq 0 n_loc).
  Definition via_any_marked (s : state) : bool :=
    existsb (fun i => marked (s_mark s) i && negb (Nat.eqb (length (tt_location_routes tt i)) 0)) (seq 0 n_loc).
  (** :216-223 *)
  Definition via_merge_best (k : nat) (s : state) : state :=
    let best := fun x => if Nat.ltb x (n_loc * S nv) then get_best P (s_rt s k x) (s_best s x) else s_best s x in
    let tad := fold_left (fun tad i => if p_is_dest P i then update_time_at_dest P tad k (best (ix i nv)) else tad)
                         (seq 0 n_loc) (s_tad s) in
    mk_state (s_tmp s) best (s_rt s) tad (s_mark s) (s_prev s).
  Definition via_round (k : nat) (s : state) : state * bool :=
    let s1 := via_merge_best k s in
    if negb (via_any_marked s1) then (s1, false) else
    let rm := via_route_marks s1 in
    let s2 := mk_state (s_tmp s1) (s_best s1) (s_rt s1) (s_tad s1) (fun _ => false) (s_mark s1) in
    let s3 := via_loop_routes k rm s2 in
    let s4 := mk_state (s_tmp s3) (s_best s3) (s_rt s3) (s_tad s3) (fun _ => false) (s_mark s3) in
    (via_update_footpaths k (via_update_intermodal k (via_update_transfers k s4)), true).
  Fixpoint via_rounds (n k : nat) (s : state) : state :=
    match n with
    | O => s
    | S n' => let (s', go) := via_round k s in if go then via_rounds n' (S k) s' else s'
    end.

  (** raptor.h:185-199 [add_start]: a start location of the first via counts as its visit. *)
  Definition via_add_start (s : state) (lt : nat * Z) : state :=
    let (l, t) := lt in
    add_start P s (ix l (if is_via 0 l then 1 else 0)%nat, t).
  Definition via_run_group (max_transfers : nat) (s : state) (g : group) : state :=
    via_rounds (end_k max_transfers - 1) 1
      (set_worst P (g_worst g) (fold_left via_add_start (g_starts g) (next_start_time P s))).

  (** raptor.h:394-415: only labels in via state [Vias] are reported. *)
  Definition via_reported (max_transfers : nat) (g : group) (s : state) : list journey :=
    flat_map (fun i => if p_is_dest P i then
        flat_map (fun k => if s_rt s k (ix i nv) =? kInvalid then [] else
                           [mk_journey (g_start g) (s_rt s k (ix i nv)) (Z.of_nat k - 1)])
                 (seq 1 (end_k max_transfers - 1))
      else []) (seq 0 n_loc).
  Fixpoint via_run_groups (max_transfers : nat) (s : state) (results : list journey) (gs : list group)
    : state * list journey :=
    match gs with
    | [] => (s, results)
    | g :: gs' =>
        let s' := via_run_group max_transfers s g in
        via_run_groups max_transfers s'
          (fold_left (fun rs j => fst (add journey journey_dominates rs j)) (via_reported max_transfers g s') results) gs'
    end.
  Definition via_raptor (max_transfers : nat) (gs : list group) : state * list journey :=
    via_run_groups max_transfers (reset_arrivals P) [] gs.
End Vias.
