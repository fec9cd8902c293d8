(** Model of the search of raptor.h with round-dependent bounds switched on (bounds_last_k_ <> 0): the pong searches of
    pong.cc (kPruneWithPingBounds).  Only the functions that look at the bounds differ from [Raptor_Model]; the state, the
    search for the earliest transport, the destination bounds and the reports are the same. *)
From Coq Require Import List ZArith Bool Arith.
From Verif Require Import Base Time_Model Pareto_Model Raptor_Model.
Import ListNotations.
Local Open Scope Z_scope.

(** raptor.h:117-143 [fill_bounds] (without vias and td footpaths): row [k] of the bounds is the best label of the ping search
    [P] after at most [k] rounds; [rt] are its round times. *)
Fixpoint bound_row (P : params) (rt : nat -> nat -> Z) (k l : nat) : Z :=
  match k with
  | O => rt 0%nat l
  | S k' => get_best P (rt (S k') l) (bound_row P rt k' l)
  end.
(** raptor.h:458-492 [within_bounds] of the pong search [Q] after [set_bounds last] (:172). *)
Definition within_bounds (P Q : params) (rt : nat -> nat -> Z) (last : nat) (k l : nat) (t : Z) : bool :=
  is_better_or_eq Q t (bound_row P rt (last - k) l + dir Q (p_adjust Q (tt_transfer_time (p_tt Q) l))).

Section Prune.
  Variable P : params.
  Notation fwd := (p_fwd P).
  Notation tt := (p_tt P).
  Notation kInvalid := (kInvalid P).
  (** [W k l t]: within_bounds(k, l, t). *)
  Variable W : nat -> nat -> Z -> bool.

  (** update_route (raptor.h:1177-1345) with the bounds test (:1274). *)
  Definition pscan_stop (k : nat) (r_idx : nat) (r : route) (best : nat -> Z) (rt_prev : nat -> Z) (tad : Z)
             (prev_mark : nat -> bool) (c : scan) (i : nat) : scan :=
    if sc_break c then c else
    let n := length (r_stops r) in
    let s := stop_idx_of P r i in
    let stp := stop_at r s in
    let l := loc_at r s in
    let is_last := Nat.eqb i (n - 1) in
    let et := if negb (Nat.eqb i 0) && negb (section_ok P r (section_before P r i)) then None else sc_et c in
    (* alighting :1245-1301 *)
    let '(cb, tmp, mark) :=
      match et with
      | Some x =>
          if can_finish fwd (is_wheelchair P) stp then
            let by_transport := time_at_stop P r x s (alight_ev P) in
            let cb := get_best P (get_best P (rt_prev l) (sc_tmp c l)) (best l) in
            if is_better_or_eq P by_transport tad && lb_reachable P l
               && is_better_or_eq P (by_transport + dir P (p_lb P l)) tad && W k l by_transport
            then (get_best P by_transport cb, upd (sc_tmp c) l (get_best P by_transport (sc_tmp c l)), upd (sc_mark c) l true)
            else (cb, sc_tmp c, sc_mark c)
          else (kInvalid, sc_tmp c, sc_mark c)
      | None => (kInvalid, sc_tmp c, sc_mark c)
      end in
    (* boarding :1303-1341 *)
    if is_last || negb (can_start fwd (is_wheelchair P) stp) || negb (prev_mark l)
    then mk_scan et tmp mark false
    else if negb (lb_reachable P l) then mk_scan et tmp mark true
    else
      let et_time := match et with Some x => time_at_stop P r x s (board_ev P) | None => kInvalid end in
      let prev_time := rt_prev l in
      if negb (prev_time =? kInvalid) && is_better_or_eq P prev_time et_time then
        match get_earliest_transport P r_idx r s l tad prev_time with
        | Some x =>
            let cb' := get_best P (get_best P cb (best l)) (tmp l) in
            if (cb' =? kInvalid) || is_better_or_eq P (time_at_stop P r x s (board_ev P)) et_time
            then mk_scan (Some x) tmp mark false
            else mk_scan et tmp mark false
        | None => mk_scan et tmp mark false
        end
      else mk_scan et tmp mark false.

  (** update_rt_transport (raptor.h:1056-1175) with the bounds test (:1132). *)
  Definition pscan_rt_stop (k : nat) (r : route) (day : Z) (rt_prev : nat -> Z) (tad : Z) (prev_mark : nat -> bool) (c : scan) (i : nat) : scan :=
    if sc_break c then c else
    let n := length (r_stops r) in
    let s := stop_idx_of P r i in
    let stp := stop_at r s in
    let l := loc_at r s in
    let is_last := Nat.eqb i (n - 1) in
    let et := if negb (Nat.eqb i 0) && negb (section_ok P r (section_before P r i)) then None else sc_et c in
    let '(tmp, mark) :=
      match et with
      | Some x =>
          let by_transport := time_at_stop P r x s (alight_ev P) in
          if negb (Nat.eqb i 0) && can_finish fwd (is_wheelchair P) stp && is_better_or_eq P by_transport tad && lb_reachable P l
             && is_better_or_eq P (by_transport + dir P (p_lb P l)) tad && W k l by_transport
          then (upd (sc_tmp c) l (get_best P by_transport (sc_tmp c l)), upd (sc_mark c) l true)
          else (sc_tmp c, sc_mark c)
      | None => (sc_tmp c, sc_mark c)
      end in
    if negb (lb_reachable P l) then mk_scan et tmp mark true
    else if is_last || negb (can_start fwd (is_wheelchair P) stp) || negb (prev_mark l) then mk_scan et tmp mark false
    else if is_better_or_eq P (rt_prev l) (time_at_stop P r (0%nat, day) s (board_ev P)) then mk_scan (Some (0%nat, day)) tmp mark false
    else mk_scan et tmp mark false.

  Definition pupdate_route (k : nat) (r_idx : nat) (r : route) (s : state) : state :=
    let c := fold_left (match r_rt r with
                        | None => pscan_stop k r_idx r (s_best s) (s_rt s (k - 1)) (s_tad s k) (s_prev s)
                        | Some day => pscan_rt_stop k r day (s_rt s (k - 1)) (s_tad s k) (s_prev s)
                        end)
                       (seq 0 (length (r_stops r))) (mk_scan None (s_tmp s) (s_mark s) false) in
    mk_state (sc_tmp c) (s_best s) (s_rt s) (s_tad s) (sc_mark c) (s_prev s).

  (** loop_routes / loop_rt_routes (raptor.h:494-674). *)
  Definition ploop_routes (k : nat) (route_mark : nat -> bool) (s : state) : state :=
    fold_left (fun s r_idx =>
                 match nth_error (tt_routes tt) r_idx with
                 | Some r => if route_mark r_idx && route_allowed P r then pupdate_route k r_idx r s else s
                 | None => s
                 end)
              (seq 0 (length (tt_routes tt))) s.

  (** raptor.h:709-742 / :790-830: with bounds the round time is written only if the label is accepted. *)
  Definition ptransfer_to (k : nat) (target : nat) (fp_target_time : Z) (is_dest : bool) (s : state) : state :=
    if is_better P fp_target_time (s_best s target) && is_better_or_eq P fp_target_time (s_tad s k)
       && (lb_reachable P target && is_better_or_eq P (fp_target_time + dir P (p_lb P target)) (s_tad s k))
       && W k target fp_target_time
    then mk_state (s_tmp s) (upd (s_best s) target fp_target_time)
                  (upd (s_rt s) k (upd (s_rt s k) target fp_target_time))
                  (if is_dest then update_time_at_dest P (s_tad s) k fp_target_time else s_tad s)
                  (upd (s_mark s) target true) (s_prev s)
    else s.

  (** update_transfers (raptor.h:676-745) *)
  Definition pupdate_transfers (k : nat) (s : state) : state :=
    fold_left (fun s i =>
                 if s_prev s i && negb (s_tmp s i =? kInvalid) then
                   let transfer_time := if negb (is_intermodal_dest P) && p_is_dest P i then 0
                                        else dir P (p_adjust P (tt_transfer_time tt i)) in
                   ptransfer_to k i (clamp16 (s_tmp s i + transfer_time)) (p_is_dest P i) s
                 else s)
              (seq 0 (tt_n_locations tt)) s.

  (** update_footpaths (raptor.h:747-845) *)
  Definition pupdate_footpaths (k : nat) (s : state) : state :=
    fold_left (fun s i =>
                 if s_prev s i then
                   fold_left (fun s (fp : nat * Z) =>
                                if s_tmp s i =? kInvalid then s else
                                ptransfer_to k (fst fp) (clamp16 (s_tmp s i + dir P (p_adjust P (snd fp))))
                                            (p_is_dest P (fst fp)) s)
                             (footpaths_of P i) s
                 else s)
              (seq 0 (tt_n_locations tt)) s.

  (** One round (raptor.h:215-388). *)
  Definition pround (k : nat) (s : state) : state * bool :=
    let s1 := merge_best P k s in
    if negb (any_marked P s1) then (s1, false) else
    let rm := route_marks P s1 in
    let s2 := mk_state (s_tmp s1) (s_best s1) (s_rt s1) (s_tad s1) (fun _ => false) (s_mark s1) in
    let s3 := ploop_routes k rm s2 in
    let s4 := mk_state (s_tmp s3) (s_best s3) (s_rt s3) (s_tad s3) (fun _ => false) (s_mark s3) in
    (pupdate_footpaths k (update_intermodal_footpaths P k (pupdate_transfers k s4)), true).
  Fixpoint prounds (n k : nat) (s : state) : state :=
    match n with
    | O => s
    | S n' => let (s', go) := pround k s in if go then prounds n' (S k) s' else s'
    end.
  (** set_bounds, next_start_time, add_start, execute (pong.cc:294-312). *)
  Definition prun_group (max_transfers : nat) (s : state) (g : group) : state :=
    prounds (end_k max_transfers - 1) 1
            (set_worst P (g_worst g) (fold_left (add_start P) (g_starts g) (next_start_time P s))).
End Prune.
