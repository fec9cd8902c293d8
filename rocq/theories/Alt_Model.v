(** Model of the search for alternatives to one ride of a journey (src/routing/leg_alternatives.cc) and of the replacement of interior
    rides by the earliest alternative at the end of the forward-backward search (src/routing/raptor/pong.cc:36-63, 435-475).
    Both use the stream of direct journeys (Direct_Model) and, the former, the clean-up of footpaths (Rec_Model).
    Not modelled: time-dependent offsets and footpaths ([td_start_], [td_dest_]). *)
From Coq Require Import List ZArith Bool Arith.
From Verif Require Import Base Time_Model Raptor_Model Rec_Model Direct_Model.
From Verif Require Query_Model.
Import ListNotations.
Local Open Scope Z_scope.

(** The same timetable and filters, searched in the given direction. *)
Definition with_dir (b : bool) (P : params) : params :=
  mk_params b (p_tt P) (p_is_dest P) (p_dist_to_end P) (p_end P) (p_lb P) (p_base P) (p_allowed_clasz P) (p_require P) (p_adjust P).

(** leg_alternatives.cc:54-56, :107-109 [is_transit] *)
Definition is_transit (g : leg) : bool := match l_uses g with Ride _ _ _ _ _ => true | _ => false end.

(** leg_alternatives.cc:26-44 [make_alternative_query] *)
Definition alternative_query (Q : dquery) (from to : nat) : dquery :=
  mk_dquery Query_Model.kExact Query_Model.kExact true [(from, 0)] [(to, 0)] (dq_START Q) (dq_END Q).

Fixpoint take_while {A} (f : A -> bool) (l : list A) : list A :=
  match l with [] => [] | x :: l' => if f x then x :: take_while f l' else [] end.

Section Alternatives.
  Variable P : params.
  Variable L : Query_Model.locations.
  Variable Q : dquery.
  Variables day_lo day_hi : Z.
  (** optimize_footpaths.cc:264-288, only used for transfers between rides. *)
  Variable penalty_less : Z * Z * nat * nat -> Z * Z * nat * nat -> bool.
  (** [run::t_] of a vehicle: for a vehicle of a real-time route the scheduled transport it is an instance of, [None] for an
      additional service (run.h:10-27). *)
  Variable scheduled : nat -> nat -> Z -> option (nat * nat * Z).

  (** run.h:39-41, journey.h:31-33: two rides are equal if they have the same scheduled transport, as many stops and the same stop
      range; the real-time transport is not compared. *)
  Definition key_eqb (a b : option (nat * nat * Z)) : bool :=
    match a, b with
    | None, None => true
    | Some (r, v, d), Some (r', v', d') => Nat.eqb r r' && Nat.eqb v v' && (d =? d')
    | _, _ => false
    end.
  Definition same_ride (a b : uses) : bool :=
    match a, b with
    | Ride ri vi day from to, Ride ri' vi' day' from' to' =>
        key_eqb (scheduled ri vi day) (scheduled ri' vi' day')
        && Nat.eqb (length (r_stops (route_of P ri))) (length (r_stops (route_of P ri')))
        && Nat.eqb from from' && Nat.eqb to to'
    | _, _ => false
    end.
  (** :70-75 [not_original] *)
  Definition not_original (original : uses) (j : list leg) : bool :=
    negb (existsb (fun g => is_transit g && same_ride (l_uses g) original) j).
  (** :61-69 [optimize]: the legs run from START to END, the offsets are those of the direct query. *)
  Definition opt_query (DQ : dquery) : rquery :=
    mk_rquery false false false (dq_start DQ) (dq_dest DQ) (fun _ _ => false) (fun _ => []) (dq_START DQ).
  Definition optimize (DQ : dquery) (j : list leg) : list leg :=
    optimize_footpaths (with_dir true P) (opt_query DQ) penalty_less j.

  (** :46-100 [get_leg_alternatives] with a direct query: [b] = forward.  The result depends on the choice among equals in the stream. *)
  Definition alternatives_of (DQ : dquery) (b : bool) (anchor : Z) (max_arrival : option Z) (original : uses) (n : nat) (out : list (list leg)) : Prop :=
    exists stream, direct_journeys (with_dir b P) L DQ day_lo day_hi anchor stream /\
      let fits := fun j => match max_arrival with None => true | Some m => j_arr j <=? m end in
      out = firstn n (filter (not_original original) (map (optimize DQ) (if b then take_while fits stream else stream))).

  (** :119-133: the rides before and after position [i]. *)
  Definition prev_transit (j : list leg) (i : nat) : option leg := find is_transit (rev (firstn i j)).
  Definition next_transit (j : list leg) (i : nat) : option leg := find is_transit (skipn (S i) j).
  (** :135-149 *)
  Definition direct_query (prev next : option leg) : dquery :=
    mk_dquery (match prev with Some _ => Query_Model.kExact | None => dq_start_mode Q end)
              (match next with Some _ => Query_Model.kExact | None => dq_dest_mode Q end)
              (match prev with Some _ => true | None => dq_use_start_footpaths Q end)
              (match prev with Some p => [(l_to p, 0)] | None => dq_start Q end)
              (match next with Some x => [(l_from x, 0)] | None => dq_dest Q end)
              (dq_START Q) (dq_END Q).

  (** :102-179 [get_leg_alternatives] for leg [i] of journey [j]. *)
  Definition leg_alternatives (j : list leg) (i n : nat) (out : list (list leg)) : Prop :=
    match nth_error j i with
    | Some g =>
        if Nat.eqb n 0 || negb (is_transit g) then out = []
        else
          let prev := prev_transit j i in
          let next := next_transit j i in
          let next_dep := match next with Some x => l_dep x | None => l_arr (last j no_leg) end in
          match prev, next with
          | None, Some _ => alternatives_of (direct_query prev next) false next_dep None (l_uses g) n out
          | _, _ =>
              alternatives_of (direct_query prev next) true
                (match prev with Some p => l_arr p | None => l_dep (hd no_leg j) end)
                (match next with Some _ => Some next_dep | None => None end) (l_uses g) n out
          end
    | None => out = []
    end.

  (** * pong.cc:36-63 [get_earliest_alternative]: the first journey of the stream, if it arrives in time.  [legs[2]] of a journey with
      fewer than three legs is an error ([None] inside). *)
  Definition first_three (from_arr : Z) (j : list leg) : option (leg * leg * leg) :=
    match j with
    | [a; b; c] => Some (mk_leg (l_from a) (l_to a) from_arr (from_arr + (l_arr a - l_dep a)) (l_uses a), b, c)
    | _ => None
    end.
  Inductive earliest_alternative (from to : nat) (from_arr to_dep : Z) : option (option (leg * leg * leg)) -> Prop :=
  | earliest_none : direct_journeys (with_dir true P) L (alternative_query Q from to) day_lo day_hi from_arr [] ->
      earliest_alternative from to from_arr to_dep (Some None)
  | earliest_late j stream : direct_journeys (with_dir true P) L (alternative_query Q from to) day_lo day_hi from_arr (j :: stream) ->
      to_dep < j_arr j -> earliest_alternative from to from_arr to_dep (Some None)
  | earliest_some j stream : direct_journeys (with_dir true P) L (alternative_query Q from to) day_lo day_hi from_arr (j :: stream) ->
      j_arr j <= to_dep -> earliest_alternative from to from_arr to_dep (option_map Some (first_three from_arr j)).

  (** pong.cc:446-471: the window of five legs slides over the journey, which is changed on the way; [None] = undefined behaviour. *)
  Definition ride_end (u : uses) : option (nat * Z) :=                               (* :458-461 *)
    match u with Ride ri vi day _ to => Some (loc_at (route_of P ri) (to - 1), run_time P (route_of P ri) vi day (to - 1) kArr) | _ => None end.
  Definition ride_begin (u : uses) : option (nat * Z) :=                             (* :463-466 *)
    match u with Ride ri vi day from _ => Some (loc_at (route_of P ri) from, run_time P (route_of P ri) vi day from kDep) | _ => None end.
  Inductive improved : list leg -> option (list leg) -> Prop :=
  | improved_short j : (length j < 5)%nat -> improved j (Some j)
  | improved_skip a t1 b t2 c rest out :
      is_transit a && is_transit b && is_transit c = false ->
      improved (t1 :: b :: t2 :: c :: rest) out -> improved (a :: t1 :: b :: t2 :: c :: rest) (option_map (cons a) out)
  | improved_keep a t1 b t2 c rest from arr to dep out :
      is_transit b = true -> ride_end (l_uses a) = Some (from, arr) -> ride_begin (l_uses c) = Some (to, dep) ->
      earliest_alternative from to arr dep (Some None) ->
      improved (t1 :: b :: t2 :: c :: rest) out -> improved (a :: t1 :: b :: t2 :: c :: rest) (option_map (cons a) out)
  | improved_replace a t1 b t2 c rest from arr to dep t1' b' t2' out :
      is_transit b = true -> ride_end (l_uses a) = Some (from, arr) -> ride_begin (l_uses c) = Some (to, dep) ->
      earliest_alternative from to arr dep (Some (Some (t1', b', t2'))) ->
      improved (t1' :: b' :: t2' :: c :: rest) out -> improved (a :: t1 :: b :: t2 :: c :: rest) (option_map (cons a) out)
  | improved_error a t1 b t2 c rest from arr to dep :
      is_transit b = true -> ride_end (l_uses a) = Some (from, arr) -> ride_begin (l_uses c) = Some (to, dep) ->
      earliest_alternative from to arr dep None -> improved (a :: t1 :: b :: t2 :: c :: rest) None.
End Alternatives.
