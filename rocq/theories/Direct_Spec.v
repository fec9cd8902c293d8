(** Specification of direct journeys, independent of how they are computed.  Only data types of the model are used (plus [metas],
    the locations a query location stands for, property C26, and [ride_leg], the specification of a ride in Rec_Spec). *)
From Coq Require Import List ZArith Bool Arith Sorting.Sorted.
From Verif Require Import Time_Model Raptor_Model Raptor_Spec Rec_Model Rec_Spec Direct_Model.
From Verif Require Query_Model.
Import ListNotations.
Local Open Scope Z_scope.

Section Spec.
  Variable P : params.
  Variable L : Query_Model.locations.
  Variable Q : dquery.
  Notation tt := (p_tt P).

  Definition offsets_of (front : bool) := if front then dq_start Q else dq_dest Q.
  Definition mode_of (front : bool) := if front then dq_start_mode Q else dq_dest_mode Q.

  (** [access front loc o d]: it takes [d] minutes from the start of the journey ([front]) to the stop [loc], or from the stop [loc] to
      the end of the journey (not [front]); [o] is the location displayed as the outer end of the walk. *)
  Inductive access (front : bool) (loc : nat) : nat -> Z -> Prop :=
  | access_offset d : mode_of front = Query_Model.kIntermodal -> In (loc, d) (offsets_of front) ->
      access front loc (if front then dq_START Q else dq_END Q) d
  | access_here o d : mode_of front <> Query_Model.kIntermodal -> In (o, d) (offsets_of front) ->
      In loc (Query_Model.metas L (mode_of front) o) -> mode_of front <> Query_Model.kExact -> access front loc o d
  | access_exact o d : In (o, d) (offsets_of front) -> mode_of front = Query_Model.kExact -> loc = o ->
      access front loc o (d + transfer_time P loc)
  | access_walk o d l d1 : mode_of front <> Query_Model.kIntermodal -> In (o, d) (offsets_of front) ->
      In l (Query_Model.metas L (mode_of front) o) -> (front = true -> dq_use_start_footpaths Q = true) ->
      In (loc, d1) (if front then tt_footpaths_out tt l else tt_footpaths_in tt l) ->
      access front loc o (d + p_adjust P d1).

  (** The legs before the ride / after the ride that touches stop [loc] at time [t]. *)
  Inductive side_legs (front : bool) (loc : nat) (t : Z) : list leg -> Prop :=
  | side_none o : mode_of front = Query_Model.kIntermodal -> access front loc o 0 -> side_legs front loc t []
  | side_walk g o d : access front loc o d ->
      outer_loc front g = o -> inner_loc front g = loc ->
      inner_time front g = t -> outer_time front g = (if front then t - d else t + d) ->
      l_uses g = (match mode_of front with Query_Model.kIntermodal => Offs loc d | _ => Foot (l_to g) d end) -> side_legs front loc t [g].

  (** A direct journey: one ride, before and after it the way from the start / to the destination without any waiting time. *)
  Inductive direct : list leg -> Prop :=
  | direct_intro pre g post : ride_leg P g ->
      side_legs true (l_from g) (l_dep g) pre -> side_legs false (l_to g) (l_arr g) post -> direct (pre ++ g :: post).

  (** The journey uses the vehicle number [vi] of route [ri] that starts on [day], between the stops [a] and [b]. *)
  Definition rides_on (ri vi : nat) (day : Z) (a b : nat) (j : list leg) : Prop :=
    exists g, In g j /\ l_uses g = Ride ri vi day a (b + 1).

  (** Stops of a route at which the journey may begin / end. *)
  Definition can_board (r : route) (s : nat) : Prop :=
    exists st o d, nth_error (r_stops r) s = Some st /\ may_board P st = true /\ access true (Z.to_nat (s_loc st)) o d.
  Definition can_alight (r : route) (s : nat) : Prop :=
    exists st o d, nth_error (r_stops r) s = Some st /\ may_alight P st = true /\ access false (Z.to_nat (s_loc st)) o d.

  (** Durations a footpath can have (nine bits, property C05); offsets are not limited. *)
  Definition usable (front : bool) (d : Z) : Prop := mode_of front = Query_Model.kIntermodal \/ d < 511.
  (** The query's offsets are sorted by duration ([query::sanitize] does this, C28); with exact matching there is one location. *)
  Definition offsets_ok (front : bool) : Prop :=
    (forall o d, In (o, d) (offsets_of front) -> 0 <= d) /\
    match mode_of front with
    | Query_Model.kIntermodal => StronglySorted (fun x y : nat * Z => snd x <= snd y) (offsets_of front)
    | Query_Model.kExact => (length (offsets_of front) <= 1)%nat
    | _ => True
    end.
  (** All filters of the query hold between two stops. *)
  Definition filters_ok (r : route) (a b : nat) : Prop :=
    p_allowed_clasz P (r_clasz r) = true /\
    (forall f sec, (f < 4)%nat -> p_require P f = true -> (a <= sec < b)%nat -> section_has r sec f).
End Spec.
