(** Specification of journeys with via stops, independent of the search: the traveller visits the via stops in the given
    order.  A via without a minimal stay is visited as soon as the vehicle stops at one of its locations; a via with a minimal
    stay has to be visited by leaving the vehicle there (or walking there) and staying.  A location counts for the next via
    not yet visited, and it counts as soon as it can (the traveller does not postpone a visit).
    Only the data types of the model are used. *)
From Coq Require Import List ZArith Bool Arith.
From Verif Require Import Time_Model Raptor_Model Raptor_Spec Via_Model.
Import ListNotations.
Local Open Scope Z_scope.

Section ViaSpec.
  Variable P : params.
  Variable vias : list via.
  Notation fwd := (p_fwd P).
  Notation tt := (p_tt P).

  (** After [v] visited vias: does location [l] belong to the next via, and how long is the stay there? *)
  Definition next_via (v l : nat) : option Z :=
    match nth_error vias v with
    | Some w => if via_at w l then Some (via_stay w) else None
    | None => None
    end.
  (** Being at [l] outside a vehicle: number of vias visited after the stay, and the stay. *)
  Definition visited (v l : nat) : nat := match next_via v l with Some _ => S v | None => v end.
  Definition staying (v l : nat) : Z := match next_via v l with Some d => d | None => 0 end.
  (** Passing [l] inside a vehicle. *)
  Definition passing (v l : nat) : nat := match next_via v l with Some d => if d =? 0 then S v else v | None => v end.

  (** Stops the vehicle calls at after boarding at [s], up to and including [s'], in travel (search) direction. *)
  Definition stops_passed (r : route) (s s' : nat) : list stop :=
    if fwd then firstn (s' - s) (skipn (S s) (r_stops r)) else rev (firstn (s - s') (skipn s' (r_stops r))).
  Definition pass_all (v : nat) (l : list stop) : nat := fold_left (fun v st => passing v (Z.to_nat (s_loc st))) l v.

  (** A ride as in Raptor_Spec.v; [v], [v'] vias visited when boarding and when leaving. *)
  Inductive via_ride (v l : nat) (tb : Z) (v' l' : nat) (ta : Z) : Prop :=
  | via_ride_intro : forall ri r vi w day s s' st st',
      nth_error (tt_routes tt) ri = Some r ->
      nth_error (r_vehicles r) vi = Some w ->
      runs_on w day ->
      nth_error (r_stops r) s = Some st -> nth_error (r_stops r) s' = Some st' ->
      (if fwd then (s < s')%nat else (s' < s)%nat) ->
      Z.to_nat (s_loc st) = l -> Z.to_nat (s_loc st') = l' ->
      get_on_allowed P st = true -> get_off_allowed P st' = true ->
      p_allowed_clasz P (r_clasz r) = true ->
      (forall f sec, (f < 4)%nat -> p_require P f = true ->
                     (Nat.min s s' <= sec < Nat.max s s')%nat -> section_has r sec f) ->
      tb = event_time P w day s (if fwd then kDep else kArr) ->
      ta = event_time P w day s' (if fwd then kArr else kDep) ->
      v' = pass_all v (stops_passed r s s') ->
      via_ride v l tb v' l' ta.

  Section Connections.
    Variable St : nat -> Z -> Prop.
    Variable tr : nat -> Z.
    (** [vready k v l t]: able to board at [l] at [t] after [k] rides with [v] vias visited;
        [varrived k v l t]: just left the [k]-th vehicle. *)
    Inductive vready : nat -> nat -> nat -> Z -> Prop :=
    | vready_start l t : St l t -> vready 0 (visited 0 l) l t
    | vready_transfer k v l t : varrived k v l t -> vready k (visited v l) l (after P t (tr l + staying v l))
    | vready_walk k v l t l' d : varrived k v l t -> walk P l l' d ->
        vready k (visited (visited v l) l') l' (after P t (d + staying v l + staying (visited v l) l'))
    with varrived : nat -> nat -> nat -> Z -> Prop :=
    | varrived_ride k v l t tb v' l' ta :
        vready k v l t -> no_later P t tb -> via_ride v l tb v' l' ta -> varrived (S k) v' l' ta.

    (** A connection with [k] rides that reaches destination [l] at [t] after visiting all vias. *)
    Inductive via_connection (k : nat) (l : nat) (t : Z) : Prop :=
    | vconn_station v t0 : p_dist_to_end P = None -> p_is_dest P l = true -> varrived k v l t0 ->
        visited v l = length vias -> t = after P t0 (staying v l) -> via_connection k l t
    | vconn_walk v l0 t0 d : p_dist_to_end P = None -> p_is_dest P l = true ->
        varrived k v l0 t0 -> walk P l0 l d -> visited (visited v l0) l = length vias ->
        t = after P t0 (d + staying v l0 + staying (visited v l0) l) -> via_connection k l t
    | vconn_offset off v l0 t0 d : p_dist_to_end P = Some off -> p_is_dest P l = true -> l = p_end P ->
        varrived k v l0 t0 -> off l0 = Some d -> visited v l0 = length vias ->
        t = after P t0 (staying v l0 + d) -> via_connection k l t.
  End Connections.

  Definition stays_ok : Prop := forall w, In w vias -> 0 <= via_stay w.
  (** No route calls twice at the locations of one via without a stay (see [C57_tie_refuted] for why). *)
  Definition via_once : Prop :=
    forall ri r w s s' st st', nth_error (tt_routes tt) ri = Some r -> In w vias -> via_stay w = 0 ->
      nth_error (r_stops r) s = Some st -> nth_error (r_stops r) s' = Some st' ->
      via_at w (Z.to_nat (s_loc st)) = true -> via_at w (Z.to_nat (s_loc st')) = true -> s = s'.
End ViaSpec.
