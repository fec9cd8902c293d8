(** Model of the polyline of a run: src/rt/frun.cc:656-750 (for_each_trip,
    for_each_shape_point). *)
From Coq Require Import ZArith List Lia Bool.
Import ListNotations.
Local Open Scope Z_scope.

Section Polyline.
  Variable P : Type.
  Variable P_eqb : P -> P -> bool.
  (** trip_idx_t::invalid() *)
  Variable invalid : Z.

  (** for_each_trip, frun.cc:663-679. [secs] are the trips of the departures
      at the stops [0 .. to_ - 2] of the transport; the loop stands at stop
      [from]; [to] is stop_range_.to_. *)
  Fixpoint trip_loop (to : nat) (secs : list Z) (from : nat) (cur : Z) (cf : nat)
    : list (Z * nat * nat) :=
    match secs with
    | [] => [(cur, cf, to)]
    | t :: r =>
      if t =? cur then trip_loop to r (from + 1) cur cf
      else (if Nat.eqb from 0 then [] else [(cur, cf, (from + 1)%nat)]) ++ trip_loop to r (from + 1) t from
    end.
  Definition for_each_trip (secs : list Z) : list (Z * nat * nat) :=
    trip_loop (length secs + 1) secs 0 invalid 0.

  (** Position of a stop of the transport. *)
  Variable pos : nat -> P.
  (** shapes_data->get_shape_with_idx(trip, [from, to) in the trip)
      (shapes_storage.cc:130-139), and whether its source is kTimetable. *)
  Variable shape_of : Z -> nat -> nat -> list P * bool.
  (** shapes_data != nullptr *)
  Variable has_shapes : bool.

  (** get_subshape and the two visitors, frun.cc:691-704, 717-741; [a, b) is the
      absolute range, (t, f, e) a call of for_each_trip *)
  Definition piece (a b : nat) (x : Z * nat * nat) : list P :=
    let '(t, f, e) := x in
    let lo := Nat.max f a in
    let hi := Nat.min e b in
    if Nat.ltb (lo + 1) hi then
      let stops := map pos (seq lo (hi - lo)) in
      if has_shapes && negb (t =? invalid) then
        match shape_of t (lo - f) (hi - f) with
        | ([], _) => stops
        | (sh, true) => pos lo :: sh ++ [pos (hi - 1)%nat]
        | (sh, false) => sh
        end
      else stops
    else [].

  (** consume_pos, frun.cc:707-714; [out] reversed *)
  Definition consume (out : list P) (p : P) : list P :=
    match out with
    | [] => [p]
    | q :: _ => if P_eqb p q then out else p :: out
    end.

  (** for_each_shape_point, frun.cc:682-750; [secs] as above, absolute range
      [a, b). None is the failed verify. *)
  Definition shape_points (secs : list Z) (a b : nat) : option (list P) :=
    if Nat.ltb (b - a) 2 then None
    else
      let out := rev (fold_left consume (flat_map (piece a b) (for_each_trip secs)) []) in
      Some match out with
           | [] => [pos a; pos (b - 1)%nat]
           | [x] => [x; pos (b - 1)%nat]
           | _ => out
           end.
End Polyline.
Arguments piece {P}. Arguments consume {P}. Arguments shape_points {P}.
