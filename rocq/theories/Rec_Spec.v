(** Specification of a concrete itinerary (list of legs in travel order), independent of how it is computed.
    Only the data types of the model (timetable, query, legs) are used. *)
From Coq Require Import List ZArith Bool Arith.
From Verif Require Import Time_Model Raptor_Model Raptor_Spec Rec_Model.
Import ListNotations.
Local Open Scope Z_scope.

Section Spec.
  Variable P : params.
  Variable Q : rquery.
  Notation tt := (p_tt P).

  Definition may_board (s : stop) : bool := if wheelchair P then s_win s else s_in s.
  Definition may_alight (s : stop) : bool := if wheelchair P then s_wout s else s_out s.

  (** A ride on an existing vehicle on a day it runs, from stop [from] to a later stop [to - 1] of its route; the leg shows the
      locations and the scheduled times of these stops; boarding and alighting are allowed; all filters of the query hold. *)
  Inductive ride_leg (g : leg) : Prop :=
  | ride_leg_intro ri vi day from to r v st st' :
      l_uses g = Ride ri vi day from to ->
      nth_error (tt_routes tt) ri = Some r -> nth_error (r_vehicles r) vi = Some v -> runs_on v day ->
      (from + 1 < to)%nat -> nth_error (r_stops r) from = Some st -> nth_error (r_stops r) (to - 1) = Some st' ->
      l_from g = Z.to_nat (s_loc st) -> l_to g = Z.to_nat (s_loc st') ->
      may_board st = true -> may_alight st' = true ->
      p_allowed_clasz P (r_clasz r) = true ->
      (forall f sec, (f < 4)%nat -> p_require P f = true -> (from <= sec < to - 1)%nat -> section_has r sec f) ->
      l_dep g = event_time P v day from kDep -> l_arr g = event_time P v day (to - 1) kArr ->
      ride_leg g.

  (** The footpath between two locations takes [d] minutes under the query's transfer time settings. *)
  Definition footpath_time (a b : nat) (d : Z) : Prop := exists d0, In (b, d0) (tt_footpaths_out tt a) /\ d = p_adjust P d0.
  Definition change_time (a b : nat) (d : Z) : Prop := (a = b /\ d = transfer_time P a) \/ footpath_time a b d.
  (** A transfer between two rides. *)
  Definition change_leg (g : leg) : Prop :=
    (exists t d, l_uses g = Foot t d) /\ exists d, change_time (l_from g) (l_to g) d /\ l_arr g = l_dep g + d.

  (** [rides n legs]: [n] rides with a transfer between consecutive rides; each leg begins where the one before it ends and not
      before it ends. *)
  Inductive rides : nat -> list leg -> Prop :=
  | rides_last g : ride_leg g -> rides 1 [g]
  | rides_more n g f h ls :
      ride_leg g -> change_leg f -> l_to g = l_from f -> l_arr g <= l_dep f -> l_to f = l_from h -> l_arr f <= l_dep h ->
      rides n (h :: ls) -> rides (S n) (g :: f :: h :: ls).

  (** *** The two ends of an itinerary.  [front]: it is the beginning (in travel direction), otherwise the end. *)
  Definition outer_loc (front : bool) (g : leg) : nat := if front then l_from g else l_to g.
  Definition inner_loc (front : bool) (g : leg) : nat := if front then l_to g else l_from g.
  Definition outer_time (front : bool) (g : leg) : Z := if front then l_dep g else l_arr g.
  Definition inner_time (front : bool) (g : leg) : Z := if front then l_arr g else l_dep g.
  (** [a] lies further outside than (or is equal to) [b]. *)
  Definition outside (front : bool) (a b : Z) : Prop := if front then a <= b else b <= a.

  Definition is_start_location (l : nat) : Prop := exists x d, In (x, d) (rq_start Q) /\ rq_matches Q x l = true.

  (** The side on which the search started; [t0] is the start time of the search (departure or arrival), the first ride in search
      direction touches [loc] at time [t]. *)
  Inductive start_side (front : bool) (t0 : Z) : list leg -> nat -> Z -> Prop :=
  | start_direct loc t : rq_intermodal_start Q = false -> is_start_location loc -> outside front t0 t -> start_side front t0 [] loc t
  | start_walk g loc t d : rq_intermodal_start Q = false ->
      (exists x d', l_uses g = Foot x d') -> is_start_location (outer_loc front g) -> inner_loc front g = loc ->
      footpath_time (l_from g) (l_to g) d -> l_dep g + d <= l_arr g ->
      outside front t0 (outer_time front g) -> outside front (inner_time front g) t -> start_side front t0 [g] loc t
  | start_offset g loc t x d : rq_intermodal_start Q = true ->
      l_uses g = Offs x d -> In (x, d) (rq_start Q) -> rq_matches Q x loc = true ->
      outer_loc front g = rq_START Q -> inner_loc front g = loc -> l_dep g + d = l_arr g ->
      outside front t0 (outer_time front g) -> inner_time front g = t -> start_side front t0 [g] loc t.

  (** The side of the destination: [l1] is the destination, [t1] the time at which the journey was reported to reach it. *)
  Inductive dest_side (front : bool) (l1 : nat) (t1 : Z) : list leg -> nat -> Z -> Prop :=
  | dest_direct : p_dist_to_end P = None -> dest_side front l1 t1 [] l1 t1
  | dest_walk g loc t d : p_dist_to_end P = None ->
      (exists x d', l_uses g = Foot x d') -> outer_loc front g = l1 -> inner_loc front g = loc ->
      footpath_time (l_from g) (l_to g) d -> l_dep g + d = l_arr g ->
      outside front t1 (outer_time front g) -> inner_time front g = t -> dest_side front l1 t1 [g] loc t
  | dest_offset g loc t x d : p_dist_to_end P <> None ->
      l_uses g = Offs loc d -> In (x, d) (rq_dest Q) -> In loc (rq_metas Q x) ->
      outer_loc front g = l1 -> inner_loc front g = loc -> l_dep g + d = l_arr g ->
      outside front t1 (outer_time front g) -> inner_time front g = t -> dest_side front l1 t1 [g] loc t.

  Definition first_leg (ls : list leg) : leg := hd (mk_leg 0 0 0 0 (Foot 0 0)) ls.
  Definition last_leg (ls : list leg) : leg := last ls (mk_leg 0 0 0 0 (Foot 0 0)).

  (** An itinerary with [n] rides that starts (search: [t0]) at a start of the query and reaches [l1] at [t1] or better. *)
  Definition itinerary (n : nat) (t0 : Z) (l1 : nat) (t1 : Z) (legs : list leg) : Prop :=
    exists pre mid post, legs = pre ++ mid ++ post /\ rides n mid /\
      if p_fwd P
      then start_side true t0 pre (l_from (first_leg mid)) (l_dep (first_leg mid)) /\
           dest_side false l1 t1 post (l_to (last_leg mid)) (l_arr (last_leg mid))
      else dest_side true l1 t1 pre (l_from (first_leg mid)) (l_dep (first_leg mid)) /\
           start_side false t0 post (l_to (last_leg mid)) (l_arr (last_leg mid)).
End Spec.
