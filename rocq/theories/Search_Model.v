(** Model of the interval search: include/nigiri/routing/interval_estimate.h and the driver
    include/nigiri/routing/search.h:204-497 ([execute], [search_interval], [add_start_labels]).  The round-based search
    itself and the generation of start labels are parameters; P_Search.v instantiates them with the models of raptor.h and
    start_times.cc.  Times are unix minutes. *)
From Coq Require Import List ZArith Bool Arith.
From Verif Require Import Base Time_Model Pareto_Model Start_Model.
Import ListNotations.
Local Open Scope Z_scope.

Definition to_i32 (z : Z) : Z := (z + 2147483648) mod 4294967296 - 2147483648.

(** std::chrono::round<days>: nearest day, ties to the even day; result in minutes. *)
Definition round_days (t : Z) : Z :=
  let d := t / 1440 in
  let r := t mod 1440 in
  if r <? 720 then d * 1440 else if 720 <? r then (d + 1) * 1440 else if Z.even d then d * 1440 else (d + 1) * 1440.

(** limits.h:11-13: 22 days (32767 / 1440) minus (5 days + 2 days). *)
Definition kMaxSearchIntervalSize : Z := (Z.quot 32767 1440 - (5 + 2)) * 1440.

(** The part of a query the interval estimation and the driver look at (query.h:76-100). *)
Record iquery := mk_iquery {
  iq_fwd : bool;                         (* SearchDir *)
  iq_time : start_time;
  iq_earlier : bool; iq_later : bool;    (* extend_interval_earlier_, extend_interval_later_ *)
  iq_min_conn : Z;                       (* min_connection_count_ (unsigned) *)
  iq_max_interval : option interval;
  iq_has_direct : bool;                  (* fastest_direct_ given *)
  iq_max_travel : Z;                     (* max_travel_time_ *)
  iq_external : interval }.              (* tt.external_interval() *)

Section Estimate.
  Variable q : iquery.
  Definition q_iv : interval := match iq_time q with Ontrip t => mk_iv t t | Pretrip iv => iv end.
  (** interval_estimate.h:17-38.  Time points are far from the limits of 32 bit minutes here (years -2100 .. 6000). *)
  Definition data_type_max_interval : interval :=
    let iv := q_iv in
    let days := if iq_has_direct q then 1440 else 2 * 1440 in
    mk_iv (Z.max (round_days (iv_from iv - days))
                 (round_days (iv_from iv + Z.quot (iv_to iv - iv_from iv - kMaxSearchIntervalSize) 2)))
          (Z.min (round_days (iv_to iv + days))
                 (round_days (iv_from iv + Z.quot (iv_to iv - iv_from iv + kMaxSearchIntervalSize) 2))).
  (** interval_estimate.h:136-146 *)
  Definition clamp_iv (iv : interval) : interval :=
    let c1 := mk_iv (iv_clamp (iq_external q) (iv_from iv)) (iv_clamp (iq_external q) (iv_to iv)) in
    let c2 := mk_iv (iv_clamp data_type_max_interval (iv_from c1)) (iv_clamp data_type_max_interval (iv_to c1)) in
    match iq_max_interval q with
    | Some m => mk_iv (iv_clamp m (iv_from c2)) (iv_clamp m (iv_to c2))
    | None => c2
    end.
  (** :113-134 *)
  Definition can_extend_earlier (iv : interval) : bool := iq_earlier q && negb (iv_from iv =? iv_from (iq_external q)).
  Definition can_extend_later (iv : interval) : bool := iq_later q && negb (iv_to iv =? iv_to (iq_external q)).
  Definition can_extend_bad_dir (iv : interval) : bool := if iq_fwd q then can_extend_later iv else can_extend_earlier iv.
  (** Adding / subtracting a duration with unsigned 32 bit representation (product with an unsigned) to a time point. *)
  Definition plus32 (t ext : Z) : Z := to_i32 (t + to_i32 ext).
  Definition minus32 (t ext : Z) : Z := to_i32 (t - to_i32 ext).
  (** :40-79 *)
  Definition initial (iv : interval) : interval :=
    if (iq_min_conn q =? 0) || (negb (iq_earlier q) && negb (iq_later q)) then iv
    else
      let ext := to_u32 (60 * iq_min_conn q) in
      clamp_iv
        (if can_extend_bad_dir iv
         then if iq_fwd q
              then if can_extend_earlier iv then mk_iv (minus32 (iv_from iv) 60) (plus32 (iv_to iv) ext)
                   else mk_iv (iv_from iv) (plus32 (plus32 (iv_to iv) 60) ext)
              else if can_extend_later iv then mk_iv (minus32 (iv_from iv) ext) (plus32 (iv_to iv) 60)
                   else mk_iv (minus32 (minus32 (iv_from iv) 60) ext) (iv_to iv)
         else if iq_fwd q
              then if iq_earlier q then mk_iv (minus32 (iv_from iv) (to_u32 (60 + ext))) (iv_to iv) else iv
              else if iq_later q then mk_iv (iv_from iv) (plus32 (iv_to iv) (to_u32 (60 + ext))) else iv).
  (** :87-110 *)
  Definition extension (iv : interval) (num_con_req : Z) : interval :=
    if (num_con_req =? 0) || (negb (iq_earlier q) && negb (iq_later q)) then iv
    else
      let ext := to_u32 (iv_size iv * num_con_req) in
      clamp_iv
        (if can_extend_earlier iv && can_extend_later iv
         then mk_iv (minus32 (iv_from iv) (ext / 2)) (plus32 (iv_to iv) (ext / 2))
         else mk_iv (if iq_earlier q then minus32 (iv_from iv) ext else iv_from iv)
                    (if iq_later q then plus32 (iv_to iv) ext else iv_to iv)).
End Estimate.

(** ** The driver *)
(** A journey of the result set with its [is_reconstructed_] and [error_] flags. *)
Record result := mk_result { r_journey : journey; r_reconstructed : bool; r_error : bool }.
Definition result_dominates (a b : result) : bool := journey_dominates (r_journey a) (r_journey b).

(** start_times.h:20-25: comparison in member order. *)
Definition start_lt (a b : start) : bool :=
  (st_at_start a <? st_at_start b) ||
  ((st_at_start a =? st_at_start b) &&
   ((st_at_stop a <? st_at_stop b) || ((st_at_stop a =? st_at_stop b) && Nat.ltb (st_loc a) (st_loc b)))).
Fixpoint insert_start (fwd : bool) (s : start) (l : list start) : list start :=
  match l with
  | [] => [s]
  | x :: r => if (if fwd then start_lt x s else start_lt s x) then s :: l else x :: insert_start fwd s r
  end.
(** std::sort in search.h:394-397 (a total order: the result does not depend on the algorithm). *)
Definition sort_starts (fwd : bool) (l : list start) : list start := fold_right (insert_start fwd) [] l.

(** utl::equal_ranges_linear by [time_at_start_] (search.h:411-416). *)
Fixpoint start_groups (l : list start) : list (Z * list start) :=
  match l with
  | [] => []
  | x :: l' =>
      match start_groups l' with
      | (t, g) :: gs => if st_at_start x =? t then (t, x :: g) :: gs else (st_at_start x, [x]) :: (t, g) :: gs
      | [] => [(st_at_start x, [x])]
      end
  end.

Section Driver.
  Variable q : iquery.
  Variable A : Type.                                          (* state of the search algorithm *)
  Variable reset_arrivals : A -> A.
  (** [algo_execute s start_time starts worst]: next_start_time, add_start for all [starts], execute; the journeys handed to
      [results.add] in order. *)
  Variable algo_execute : A -> Z -> list start -> Z -> A * list journey.
  (** [algo_.reconstruct] succeeds (does not throw). *)
  Variable reconstruct : A -> journey -> bool.
  Variable get_start_labels : start_time -> bool -> list start -> list start.   (* get_starts, newest first *)
  Variable fastest_direct : Z.
  Variable timeout_reached : nat -> bool.                     (* clock, per iteration *)
  (** journeys produced by enrich_with_slow_direct (direct.cc:524-580) for the final interval: new journey objects *)
  Variable slow_direct : interval -> list journey.
  Notation fwd := (iq_fwd q).

  (** search.h:386-398 *)
  Definition add_start_labels (t : start_time) (add_ontrip : bool) (starts : list start) : list start :=
    sort_starts fwd (rev (get_start_labels t add_ontrip (rev starts))).

  Definition is_ontrip : bool := match iq_time q with Ontrip _ => true | Pretrip _ => false end.
  (** search.h:367-377 *)
  Definition n_results_in_interval (iv : interval) (rs : list result) : Z :=
    if is_ontrip then Z.of_nat (length rs)
    else Z.of_nat (length (filter (fun r => iv_contains iv (j_start (r_journey r))) rs)).

  Record dstate := mk_dstate { ds_algo : A; ds_results : list result; ds_iv : interval }.

  (** search.h:425-495, one start time; [early]: the flag [early_termination].  Reconstruction marks the results that are
      not marked yet; those for which it throws are marked as erroneous and not tried again. *)
  Definition search_group (st : dstate * bool) (g : Z * list start) : dstate * bool :=
    let (s, early) := st in
    if early then st
    else
      let t := fst g in
      let worst := t + (if fwd then 1 else -1) * (Z.min fastest_direct (iq_max_travel q) + 1) in
      let (a, js) := algo_execute (ds_algo s) t (snd g) worst in
      let rs := fold_left (fun rs j => fst (add result result_dominates rs (mk_result j false false))) js (ds_results s) in
      let rs := map (fun r => if negb (r_reconstructed r) && negb (r_error r)
                                 && (is_ontrip || iv_contains (ds_iv s) (j_start (r_journey r)))
                                 && (journey_travel_time (r_journey r) <? fastest_direct)
                              then if reconstruct a (r_journey r) then mk_result (r_journey r) true false
                                   else mk_result (r_journey r) false true
                              else r) rs in
      let stop := (0 <? iq_min_conn q) && (iq_min_conn q <=? n_results_in_interval (ds_iv s) rs)
                  && (if fwd then iq_earlier q && negb (iq_later q) else negb (iq_earlier q) && iq_later q) in
      (mk_dstate a rs (if stop then (if fwd then mk_iv t (iv_to (ds_iv s)) else mk_iv (iv_from (ds_iv s)) (t + 1)) else ds_iv s),
       stop).
  Definition search_interval (s : dstate) (starts : list start) : dstate :=
    fst (fold_left search_group (start_groups starts) (s, false)).

  (** search.h:400-404 *)
  Definition remove_ontrip_results (iv : interval) (rs : list result) : list result :=
    filter (fun r => iv_contains iv (j_start (r_journey r))) rs.

  (** search.h:236-313, the while loop; [fuel] bounds the number of iterations, [n] counts them.  [None]: not finished. *)
  Fixpoint search_loop (fuel n : nat) (s : dstate) (starts : list start) : option dstate :=
    match fuel with
    | O => None
    | S fuel' =>
        let s1 := search_interval s starts in
        let n_res := n_results_in_interval (ds_iv s1) (ds_results s1) in
        if (match ds_results s1 with [] => true | _ => false end) || is_ontrip || (iq_min_conn q <=? n_res) || timeout_reached n
        then Some s1
        else
          let iv := ds_iv s1 in
          let iv' := extension q iv (iq_min_conn q - n_res) in
          if (iv_from iv' =? iv_from iv) && (iv_to iv' =? iv_to iv) then Some s1
          else
            let earlier := negb (iv_from iv' =? iv_from iv) in
            let later := negb (iv_to iv' =? iv_to iv) in
            let st1 := if earlier then add_start_labels (Pretrip (mk_iv (iv_from iv') (iv_from iv))) (negb fwd) [] else [] in
            let st2 := if later then add_start_labels (Pretrip (mk_iv (iv_to iv) (iv_to iv'))) fwd st1 else st1 in
            let do_reset := if fwd then later else earlier in
            let s2 := if do_reset then mk_dstate (reset_arrivals (ds_algo s1)) (remove_ontrip_results iv (ds_results s1)) iv' 
                      else mk_dstate (ds_algo s1) (ds_results s1) iv' in
            search_loop fuel' (S n) s2 st2
    end.

  (** search.h:315-338: filter, direct connections, sort by (start, transfers) - std::sort leaves the order of equal keys
      open -, keep reconstructed journeys only.  utl::erase_duplicates removes equal neighbours after sorting. *)
  Definition keep_result (iv : interval) (r : result) : bool :=
    iv_contains iv (j_start (r_journey r)) && (journey_travel_time (r_journey r) <? fastest_direct)
    && (journey_travel_time (r_journey r) <=? iq_max_travel q).
  Fixpoint insert_result (r : result) (l : list result) : list result :=
    match l with
    | [] => [r]
    | x :: rest =>
        if (j_start (r_journey r) <? j_start (r_journey x)) ||
           ((j_start (r_journey r) =? j_start (r_journey x)) && (j_transfers (r_journey r) <? j_transfers (r_journey x)))
        then r :: l else x :: insert_result r rest
    end.
  Definition finish (s : dstate) : list result :=
    let rs := if is_ontrip then ds_results s
              else fold_left (fun acc r => insert_result r acc)
                     (filter (keep_result (ds_iv s)) (ds_results s) ++ map (fun j => mk_result j false false) (slow_direct (ds_iv s))) [] in
    filter r_reconstructed rs.

  (** search.h:204-345 (start and destination do not overlap): returned journeys and interval. *)
  Definition execute (fuel : nat) (a0 : A) : option (list result * interval) :=
    let iv := if is_ontrip then q_iv q else initial q (q_iv q) in
    let starts := add_start_labels (if negb (iv_size iv =? 0) then Pretrip iv else iq_time q) true [] in
    match search_loop fuel 0 (mk_dstate a0 [] iv) starts with
    | Some s => Some (finish s, ds_iv s)
    | None => None
    end.
End Driver.
