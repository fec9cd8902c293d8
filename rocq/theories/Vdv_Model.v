(** Model of VDV 454 / SIRI updates of scheduled runs: src/rt/vdv_aus.cc (update_run, monotonize, process_vdv_run after the
    run was matched).  Not modelled: XML, matching of runs to vehicles (match_run), tracks, statistics, callbacks. *)
From Coq Require Import List ZArith Lia Bool Arith.
From Verif Require Import Base Time_Model Calendar_Model Query_Model Rt_Model.
Import ListNotations.
Local Open Scope Z_scope.

(** vdv_aus.h:75-86 [vdv_stop]: location (None: not found), planned and predicted times (unix minutes), flags. *)
Record vstop := {
  v_loc : option nat; v_dep : option Z; v_arr : option Z; v_rt_dep : option Z; v_rt_arr : option Z;
  v_no_in : bool; v_no_out : bool; v_pass : bool; v_arr_c : bool; v_dep_c : bool }.
(** vdv_aus.cc:31-37: [kAllowedTimeDiscrepancy] = 15 for [kExactMatchScore] = 230. *)
Definition kAllowedTimeDiscrepancy : Z := 15.
Definition close (a b : Z) : bool := Z.abs (a - b) <=? kAllowedTimeDiscrepancy.

Section Run.
  Variables (tt : stt) (eqv : nat -> nat -> bool)    (* eqv a b = matches(tt, kEquivalent, a, b), Query_Model.v *)
            (ti : nat) (day : Z) (to : nat) (base : Z).
  (** vdv_aus.cc:544-548, 560-564 *)
  Definition fits_arr (k : nat) (v : vstop) : bool :=
    negb (Nat.eqb k 0) && match v_arr v with Some a => close a (s_event tt ti day k true) | None => false end.
  Definition fits_dep (k : nat) (v : vstop) : bool :=
    negb (Nat.eqb (S k) to) && match v_dep v with Some a => close a (s_event tt ti day k false) | None => false end.
  Definition fits (w : Z) (k : nat) (v : vstop) : bool :=
    match v_loc v with Some l => eqv (word_loc w) l && (fits_arr k v || fits_dep k v) | None => false end.
  (** vdv_aus.cc:540-600: the scan from the cursor up to the first stop that fits; the new cursor is behind it. *)
  Fixpoint find_match (w : Z) (k : nat) (vs : list vstop) : option (vstop * list vstop) :=
    match vs with
    | [] => None
    | v :: t => if fits w k v then Some (v, t) else find_match w k t
    end.
  (** rt_timetable.h:68-79 update_time, on the row of the vehicle. *)
  Definition put (ts : list Z) (k : nat) (arr : bool) (t : Z) : list Z := set_nth ts (ev_idx k arr) (clamp16 (t - base)).
  (** vdv_aus.cc:452-463 update_event with delay propagation. *)
  Definition update_ev (ts : list Z) (delay : option Z) (k : nat) (arr : bool) (rt : option Z) : list Z * option Z :=
    match rt with Some t => (put ts k arr t, Some (t - s_event tt ti day k arr)) | None => (ts, delay) end.
  (** vdv_aus.cc:575-591 *)
  Definition new_word (w : Z) (k : nat) (v : vstop) : Z :=
    let i := negb (v_no_in v) && negb (v_pass v) && negb (v_dep_c v) in
    let o := negb (v_no_out v) && negb (v_pass v) && negb (v_arr_c v) in
    let sc := stop_of_value (nth k (s_seq tt ti) 0) in
    stop_value (stop_make (Z.of_nat (word_loc w)) i o (s_win sc && i) (s_wout sc && o)).
  (** vdv_aus.cc:534-617: one stop of the vehicle.  State: times and stops of the vehicle, remaining message stops, delay. *)
  Definition vdv_step (st : list Z * list Z * list vstop * option Z) (k : nat) : list Z * list Z * list vstop * option Z :=
    let '(ts, ws, vs, delay) := st in
    match find_match (nth k ws 0) k vs with
    | Some (v, rest) =>
        let '(ts1, d1) := if fits_arr k v then update_ev ts delay k true (v_rt_arr v) else (ts, delay) in
        let '(ts2, d2) := if fits_dep k v then update_ev ts1 d1 k false (v_rt_dep v) else (ts1, d1) in
        let ts3 := match d2 with
                   | Some d => if negb (Nat.eqb k 0) && negb (fits_arr k v) then put ts2 k true (s_event tt ti day k true + d) else ts2
                   | None => ts2 end in
        let ts4 := match d2 with
                   | Some d => if negb (Nat.eqb (S k) to) && negb (fits_dep k v) then put ts3 k false (s_event tt ti day k false + d) else ts3
                   | None => ts3 end in
        (ts4, set_nth ws k (new_word (nth k ws 0) k v), rest, d2)
    | None =>
        match delay with
        | Some d =>
            let ts1 := if negb (Nat.eqb k 0) then put ts k true (s_event tt ti day k true + d) else ts in
            let ts2 := if negb (Nat.eqb (S k) to) then put ts1 k false (s_event tt ti day k false + d) else ts1 in
            (ts2, ws, vs, delay)
        | None => (ts, ws, vs, delay)
        end
    end.
End Run.

(** vdv_aus.cc:488-503 handle_first_last_cancelation *)
Definition cancel_stop (ws : list Z) (k : nat) : list Z :=
  set_nth ws k (stop_value (stop_make (Z.of_nat (word_loc (nth k ws 0))) false false false false)).
Definition first_last (ws : list Z) (from to : nat) : list Z :=
  let ws1 := if s_in (stop_of_value (nth from ws 0)) then ws else cancel_stop ws from in
  if s_out (stop_of_value (nth (to - 1) ws1 0)) then ws1 else cancel_stop ws1 (to - 1).
(** vdv_aus.cc:465-486 monotonize, on the row of the vehicle: stops n - 1, ..., 0; [ub] = None: unixtime_t::max().  [k] stops
    are left. *)
Definition mono_ev (base : Z) (st : list Z * option Z) (k : nat) (arr : bool) : list Z * option Z :=
  let t := base + nth (ev_idx k arr) (fst st) 0 in
  let u := match snd st with Some u => Z.min t u | None => t end in
  (set_nth (fst st) (ev_idx k arr) (clamp16 (u - base)), Some u).
Fixpoint mono_down (base : Z) (n k : nat) (st : list Z * option Z) : list Z :=
  match k with
  | O => fst st
  | S k' =>
      let st1 := if Nat.eqb (S k') n then st else mono_ev base st k' false in
      let st2 := if Nat.eqb k' 0 then st1 else mono_ev base st1 k' true in
      mono_down base n k' st2
  end.

(** vdv_aus.cc:505-640 update_run for the run [from, to) of vehicle [t], which match_run has found in the static timetable. *)
Definition vdv_update_run (tt : stt) (eqv : nat -> nat -> bool) (r : rtt) (src : nat) (t : transport) (from to : nat) (vs : list vstop) : rtt :=
  let '(r1, i) := match resolve_rt r t with
                  | Some i => (set_cancelled r i false, i)
                  | None => add_rt_transport tt r src (Some t) [] [] None
                  end in
  let '(ts, ws, _, _) := fold_left (vdv_step tt eqv (fst t) (snd t) to (rt_base r1)) (seq from (to - from))
                           (nth i (rt_times r1) [], nth i (rt_stops r1) [], vs, None) in
  let ws' := first_last ws from to in
  let r2 := set_stops (set_times r1 i ts) i ws' in
  let r3 := if (n_active_stops ws' <=? 1)%nat then cancel_run tt r2 (mk_run (Some t) from to (Some i)) else r2 in
  if nth i (rt_cancelled r3) false then r3
  else set_times r3 i (mono_down (rt_base r3) (length ws') (length ws') (nth i (rt_times r3) [], None)).
(** vdv_aus.cc:681-748 process_vdv_run: the runs that were matched, without their real-time vehicles; a cancelled run is
    passed to cancel_run as it is. *)
Record vdv_msg := { vm_src : nat; vm_runs : list (transport * nat * nat); vm_cancelled : bool; vm_stops : list vstop }.
Definition apply_vdv_run (tt : stt) (eqv : nat -> nat -> bool) (m : vdv_msg) (r : rtt) (x : transport * nat * nat) : rtt :=
  let '(t, from, to) := x in
  if vm_cancelled m then cancel_run tt r (mk_run (Some t) from to None)
  else vdv_update_run tt eqv r (vm_src m) t from to (vm_stops m).
Definition apply_vdv (tt : stt) (eqv : nat -> nat -> bool) (r : rtt) (m : vdv_msg) : rtt := fold_left (apply_vdv_run tt eqv m) (vm_runs m) r.
