(** Model of the forward-backward ("ping-pong") search: src/routing/raptor/pong.cc:62-389, the part that decides which
    journeys are returned and which interval is reported.  The two searches are parameters here; P_Pong.v instantiates them
    with the models of raptor.h.  All times are unix minutes minus 1440 * base_day (base_day: pong.cc:88-95); only
    differences and comparisons of times occur.
    Not modelled: statistics, the legs of a journey (reconstruct is a parameter, property C48/C49), the exchange of the special
    stations in the legs (:401-413), enrich_with_slow_direct (:415-416) and the replacement of interior legs by earlier
    alternatives (:435-475), the final sort (:418-421). *)
From Coq Require Import List ZArith Bool Arith.
From Verif Require Import Base Time_Model Pareto_Model.
Import ListNotations.
Local Open Scope Z_scope.

(** The part of the query the loop looks at. *)
Record pquery := mk_pquery {
  pq_fwd : bool;                   (* SearchDir *)
  pq_iv : interval;                (* search_interval, :79-87 *)
  pq_external : interval;          (* tt.external_interval() *)
  pq_min_conn : Z;                 (* min_connection_count_ *)
  pq_max_travel : Z;               (* max_travel_time_ after sanitize: 0 .. 7200 (query.cc:26-30) *)
  pq_extend : bool;                (* extend_interval_later_ (forward) / extend_interval_earlier_ (backward) *)
  pq_fastest_direct : Z }.         (* get_fastest_direct, :78 *)

(** A journey of the result set, oriented as the pong search sees it ([j_start] = where the pong search starts), and its
    [is_reconstructed_] flag. *)
Record presult := mk_presult { pr_j : journey; pr_rec : bool }.
Definition presult_dominates (a b : presult) : bool := journey_dominates (pr_j a) (pr_j b).

Inductive perror := NoPong | NoProgress | ReconstructFailed | OutOfFuel.
Inductive outcome (A : Type) := Done (x : A) | Throw (e : perror).
Arguments Done {A} _.
Arguments Throw {A} _.

Section Pong.
  Variable q : pquery.
  Notation fwd := (pq_fwd q).
  Variable A : Type.                                            (* state of the pong search *)
  (** starts, reset_arrivals, next_start_time, add_start, execute with the given start time (:244-264). *)
  Variable ping : Z -> list journey.
  (** fill_bounds and reset_arrivals (:288-293): start time and ping results, sorted. *)
  Variable pong_init : Z -> list journey -> A.
  (** set_bounds, starts, next_start_time, add_start, execute for one ping result (:294-312, :345-347): the journeys handed
      to [results.add], in order. *)
  Variable pong_execute : A -> Z -> journey -> A * list journey.
  (** po.reconstruct(q, *match) does not throw (:336-338). *)
  Variable reconstruct : A -> journey -> bool.
  (** is_timeout_reached in the n-th evaluation of the loop condition (:220-227). *)
  Variable timeout : nat -> bool.

  Definition is_better (a b : Z) : bool := if fwd then a <? b else b <? a.                    (* :208 *)
  Definition one : Z := if fwd then 1 else -1.
  Definition first_start : Z := if fwd then iv_from (pq_iv q) else iv_to (pq_iv q) - 1.       (* :204-205 *)
  Definition end_time : Z := if fwd then iv_to (pq_iv q) else iv_from (pq_iv q) - 1.          (* :206-207 *)
  (** :257-260; limits.h:10 kMaxTravelTime = 5 days, pong.h:11 kMinLookAhead = 1 day *)
  Definition look_ahead : Z := Z.min (pq_max_travel q + 1440) 7200.
  Definition worst_time_at_dest (t : Z) : Z := t + one * look_ahead.
  (** :209-211 *)
  Definition is_validated (start_time : Z) (j : journey) : bool := is_better (j_dest j) start_time.
  Definition too_slow (j : journey) : bool :=
    (pq_fastest_direct q <=? journey_travel_time j) || (pq_max_travel q <? journey_travel_time j).
  (** :212-218 *)
  Definition result_count (start_time : Z) (include_too_slow : bool) (rs : list presult) : Z :=
    Z.of_nat (length (filter (fun r => is_validated start_time (pr_j r) && (include_too_slow || negb (too_slow (pr_j r)))) rs)).
  (** :228-231 *)
  Definition continue (n : nat) (start_time : Z) (rs : list presult) : bool :=
    (is_better start_time end_time ||
     (result_count start_time true rs + result_count start_time false rs <? to_u32 (2 * pq_min_conn q)))
    && iv_contains (pq_external q) start_time && negb (timeout n).

  (** utl::sort by descending number of transfers (:283-285); the ping results have pairwise different numbers. *)
  Fixpoint insert_ping (j : journey) (l : list journey) : list journey :=
    match l with
    | [] => [j]
    | x :: r => if j_transfers x <? j_transfers j then j :: l else x :: insert_ping j r
    end.
  Definition sort_pings (l : list journey) : list journey := fold_right insert_ping [] l.

  Definition add_reports (rs : list presult) (js : list journey) : list presult :=
    fold_left (fun rs j => fst (add presult presult_dominates rs (mk_presult j false))) js rs.
  (** :319-323 *)
  Definition matches (ping_j : journey) (r : presult) : bool :=
    (j_transfers (pr_j r) =? j_transfers ping_j) && (j_start (pr_j r) =? j_dest ping_j).
  (** :319-339: find the match, reconstruct it; [None]: no match. *)
  Fixpoint mark_match (ping_j : journey) (rs : list presult) : option (journey * bool * list presult) :=
    match rs with
    | [] => None
    | r :: rs' =>
        if matches ping_j r then Some (pr_j r, pr_rec r, mk_presult (pr_j r) true :: rs')
        else match mark_match ping_j rs' with
             | Some (j, b, rs'') => Some (j, b, r :: rs'')
             | None => None
             end
    end.
  (** :294-341 for one ping result: new state, results, new start time of the ping journey. *)
  Definition run_pong (t : Z) (a : A) (rs : list presult) (ping_j : journey) : outcome (A * list presult * Z) :=
    let (a', js) := pong_execute a t ping_j in
    match mark_match ping_j (add_reports rs js) with
    | None => Throw NoPong
    | Some (j, was_rec, rs') =>
        if was_rec || reconstruct a' j then Done (a', rs', j_dest j) else Throw ReconstructFailed
    end.
  (** :342-350: all ping results; the start times written back. *)
  Fixpoint run_pongs (t : Z) (a : A) (rs : list presult) (pings : list journey) : outcome (list presult * list Z) :=
    match pings with
    | [] => Done (rs, [])
    | j :: pings' =>
        match run_pong t a rs j with
        | Throw e => Throw e
        | Done (a', rs', d) =>
            match run_pongs t a' rs' pings' with
            | Throw e => Throw e
            | Done (rs'', ds) => Done (rs'', d :: ds)
            end
        end
    end.
  (** min_element (:354-357); [d] for the empty list, which does not occur. *)
  Definition first_departure (ds : list Z) : Z :=
    match ds with
    | [] => 0
    | d :: ds' => fold_left (fun m x => if is_better x m then x else m) ds' d
    end.

  (** The while loop (:228-371). *)
  Fixpoint loop (fuel n : nat) (rs : list presult) (t : Z) : outcome (list presult * Z) :=
    match fuel with
    | O => Throw OutOfFuel
    | S fuel' =>
        if continue n t rs then
          match ping t with
          | [] => Done (rs, t)
          | _ :: _ =>
              match sort_pings (filter (fun x => negb (existsb (fun r => journey_dominates (pr_j r) x) rs)) (ping t)) with
              | [] => Done (rs, t)
              | (_ :: _) as pings =>
                  match run_pongs t (pong_init t pings) rs pings with
                  | Throw e => Throw e
                  | Done (rs', ds) =>
                      let next := first_departure ds + one in
                      if is_better t next then loop fuel' (S n) rs' next else Throw NoProgress
                  end
              end
          end
        else Done (rs, t)
    end.

  (** :373-391 *)
  Definition out_of_interval (j : journey) : bool :=
    negb (pq_extend q) && (if fwd then iv_to (pq_iv q) <=? j_dest j else j_dest j <? iv_from (pq_iv q)).
  Definition keep (t : Z) (r : presult) : bool :=
    pr_rec r && is_validated t (pr_j r) && negb (out_of_interval (pr_j r)) && negb (too_slow (pr_j r)).
  Definition swapped (j : journey) : journey := mk_journey (j_dest j) (j_start j) (j_transfers j).
  (** :373-397: journeys and interval returned. *)
  Definition pong_finish (rs : list presult) (t : Z) : list journey * interval :=
    (map (fun r => swapped (pr_j r)) (filter (keep t) rs),
     mk_iv (if fwd then iv_from (pq_iv q) else t + 1) (if fwd then t else iv_to (pq_iv q))).
  (** One iteration per minute of the external interval is enough ([pong_terminates]). *)
  Definition pong_fuel : nat := S (Z.to_nat (iv_to (pq_external q) - iv_from (pq_external q))).
  Definition pong_search : outcome (list journey * interval) :=
    match loop pong_fuel 0 [] first_start with
    | Throw e => Throw e
    | Done (rs, t) => Done (pong_finish rs t)
    end.
End Pong.
