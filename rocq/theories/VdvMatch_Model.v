(** Model of the matching of VDV / SIRI runs to vehicles: src/rt/vdv_aus.cc (get_event, candidate, match_run).  Not modelled:
    XML, caching of matches by run id, statistics; a run id with date that resolves (gtfsrt_resolve_run, Resolve_Model.v) is an
    argument. *)
From Coq Require Import List ZArith Lia Bool Arith.
From Verif Require Import Base Time_Model Rt_Model Vdv_Model.
Import ListNotations.
Local Open Scope Z_scope.

(** The static timetable as far as it is used here: locations_.equivalences_, location_routes_, route_location_seq_ (locations of
    the stops), route_transport_ranges_[r].from_, event_times_at_stop (timetable.h:155-164; in minutes: days * 1440 + mam),
    is_transport_active.  Times are minutes since the first day of the timetable. *)
Record vtt := {
  q_equiv : nat -> list nat; q_routes : nat -> list nat; q_locs : nat -> list nat; q_first : nat -> nat;
  q_ev : nat -> nat -> bool -> list Z; q_active : nat -> Z -> bool }.
(** vdv_aus.cc:31-34 *)
Definition kExactMatchScore : Z := 230.
(** vdv_aus.cc:219-228 [get_event]: the planned time and whether it is an arrival; [et]: kDep (Some false), kArr (Some true). *)
Definition get_event (et : option bool) (v : vstop) : option (Z * bool) :=
  match (match et with Some true => None | _ => v_dep v end) with
  | Some t => Some (t, false)
  | None => match (match et with Some false => None | _ => v_arr v end) with Some t => Some (t, true) | None => None end
  end.
(** vdv_aus.cc:279-306 [candidate]: the run is [c_from, c_len) of vehicle [c_t]. *)
Record cand := { c_t : transport; c_from : nat; c_len : nat; c_score : Z; c_best : Z }.
Definition finish_stop (c : cand) : cand :=
  {| c_t := c_t c; c_from := c_from c; c_len := c_len c; c_score := c_score c + c_best c; c_best := 0 |}.
Definition raise_best (c : cand) (s : Z) : cand :=
  {| c_t := c_t c; c_from := c_from c; c_len := c_len c; c_score := c_score c; c_best := Z.max (c_best c) s |}.
Definition cand_lt (a b : cand) : bool := (c_score a >? c_score b) || ((c_score a =? c_score b) && (c_len a <? c_len b)%nat).
(** vdv_aus.cc:371-397: candidate for the vehicle: found (and not before its first stop), or new. *)
Fixpoint hit (cs : list cand) (t : transport) (k len : nat) (s : Z) : list cand :=
  match cs with
  | [] => [{| c_t := t; c_from := k; c_len := len; c_score := 0; c_best := s |}]
  | c :: cs' => if transport_eqb (c_t c) t then (if (k <? c_from c)%nat then c else raise_best c s) :: cs' else c :: hit cs' t k len s
  end.
Fixpoint enum {A} (n : nat) (l : list A) : list (nat * A) := match l with [] => [] | x :: l' => (n, x) :: enum (S n) l' end.
Section Match.
  Variable q : vtt.
  (** vdv_aus.cc:355-397: position [p] in route [r], event time [e] at stop [k]; [pl]: planned time. *)
  Definition try_time (r k len : nat) (pl : Z) (cs : list cand) (pe : nat * Z) : list cand :=
    let '(day, mam) := tt_day_idx_mam 0 pl in
    let '(error, shift) := mam_dist mam (snd pe mod 1440) in
    let s := kExactMatchScore - error * error in
    if s <? 0 then cs
    else
      let tr := ((q_first q r + fst pe)%nat, to_u16 (day - to_u16 (snd pe / 1440 - shift))) in
      if q_active q (fst tr) (snd tr) then hit cs tr k len s else cs.
  (** vdv_aus.cc:337-354: one stop of the route. *)
  Definition try_stop (v : vstop) (l r : nat) (cs : list cand) (kl : nat * nat) : list cand :=
    if negb (Nat.eqb (snd kl) l) then cs
    else
      let len := length (q_locs q r) in
      let ev := if Nat.eqb (fst kl) 0 then get_event (Some false) v
                else if Nat.eqb (fst kl) (len - 1) then get_event (Some true) v else get_event None v in
      match ev with
      | None => cs
      | Some (pl, a) => fold_left (try_time r (fst kl) len pl) (enum 0 (q_ev q r (fst kl) a)) cs
      end.
  (** vdv_aus.cc:329-408: one stop of the message. *)
  Definition match_stop (cs : list cand) (v : vstop) : list cand :=
    match v_loc v with
    | None => cs
    | Some l0 =>
        map finish_stop (fold_left (fun cs l => fold_left (fun cs r => fold_left (try_stop v l r) (enum 0 (q_locs q r)) cs) (q_routes q l) cs) (q_equiv q l0) cs)
    end.
  (** utl::sort; the order of equal candidates is unspecified. *)
  Fixpoint insert (c : cand) (cs : list cand) : list cand :=
    match cs with [] => [c] | d :: cs' => if cand_lt d c then d :: insert c cs' else c :: d :: cs' end.
  Definition sort (cs : list cand) : list cand := fold_right insert [] cs.
  Fixpoint take_while {A} (f : A -> bool) (l : list A) : list A := match l with [] => [] | x :: l' => if f x then x :: take_while f l' else [] end.
  (** vdv_aus.cc:309-430 [match_run].  [by_id]: what the run id and the operating day resolve to.  The thresholds 0.5, 0.7 and
      0.975 are rationals here; the code compares with doubles (n * 230 * 0.7 may be rounded down to just below the integer
      161 n, which matters for a score of exactly 161 n). *)
  Definition match_run (by_id : option (transport * nat * nat)) (vs : list vstop) (complete : bool) : list (transport * nat * nat) :=
    match by_id with
    | Some r => [r]
    | None =>
        let cs := sort (fold_left match_stop vs []) in
        match cs with
        | [] => []
        | f :: _ =>
            if 1000 * c_score f >? Z.of_nat (length vs) * kExactMatchScore * (if complete then 500 else 700) then
              map (fun c => (c_t c, c_from c, c_len c)) (take_while (fun c => 1000 * c_score c >? c_score f * 975) cs)
            else []
        end
    end.
End Match.
