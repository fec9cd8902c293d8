(** Model of the bounding boxes of routes: src/loader/gtfs/shape_prepare.cc
    (process_task, assign_bounding_boxes), src/shapes_storage.cc
    (get_bounding_box). *)
From Coq Require Import ZArith List Lia Bool.
From Verif Require Import Shapes_Model.
Import ListNotations.
Local Open Scope Z_scope.

(** geo::latlng; coordinates as integers (only their order is used) *)
Definition pt := (Z * Z)%type.
(** geo::box: min x, min y, max x, max y; None is the empty box geo::box{} *)
Definition box := option (Z * Z * Z * Z).

(** geo::box::extend(latlng) *)
Definition extend (b : box) (p : pt) : box :=
  match b with
  | None => Some (fst p, snd p, fst p, snd p)
  | Some (x0, y0, x1, y1) =>
    Some (Z.min x0 (fst p), Z.min y0 (snd p), Z.max x1 (fst p), Z.max y1 (snd p))
  end.
(** geo::box::extend(box) *)
Definition merge (b c : box) : box :=
  match c with
  | None => b
  | Some (x0, y0, x1, y1) => extend (extend b (x0, y0)) (x1, y1)
  end.
(** geo::box::contains(box) *)
Definition contains_box (b c : box) : bool :=
  match b, c with
  | Some (a0, b0, a1, b1), Some (x0, y0, x1, y1) =>
    (a0 <=? x0) && (b0 <=? y0) && (x1 <=? a1) && (y1 <=? b1)
  | _, None => true
  | None, _ => false
  end.
(** geo::make_box *)
Definition make_box (l : list pt) : box := fold_left extend l None.

(** process_task, shape_prepare.cc:184-211: the box of the trip and the boxes
    of its segments, for the offsets of a task and the positions of its
    stops *)
Definition task_boxes (shp : list pt) (offs : list Z) (stops : list pt) : box * list box :=
  match offs with
  | [] => (make_box stops, [])
  | _ =>
    let idx := seq 0 (length offs - 1) in
    let part i := subspan shp (nth i offs 0) (nth (i + 1) offs 0 - nth i offs 0 + 1) in
    let segs := map (fun i => make_box (part i)) idx in
    let trip_box := fold_left extend (flat_map part idx) None in
    let is_trivial := forallb (fun i =>
      contains_box (make_box [nth i stops (0, 0); nth (i + 1) stops (0, 0)]) (nth i segs None)) idx in
    (trip_box, if is_trivial then [] else segs)
  end.

(** shape_prepare.cc:307-311: the segments of a trip that starts at stop
    [from] of the route; None is the exception of at(). *)
Definition add_segments (from : nat) (sb segs : list box) : option (list box) :=
  match sb with
  | [] => Some segs
  | _ => if Nat.ltb (length segs) (from + length sb) then None
         else Some (map (fun k => if Nat.leb from k then merge (nth k segs None) (nth (k - from) sb None)
                                  else nth k segs None) (seq 0 (length segs)))
  end.

Section Boxes.
  Variable best_segment : pt -> list pt -> nat.
  Variable sqdist : pt -> pt -> Z.
  Variable shapes : list (shape pt).
  Variable loc : Z -> pt.
  Variable trips : list trip.

  (** A trip of a transport with the index of its first stop in the route
      (frun::for_each_trip), shape_prepare.cc:286-312. The task of a trip is
      found by its offset index, which belongs to one task only. *)
  Definition add_trip (st : option (box * list box)) (x : nat * trip) : option (box * list box) :=
    match st with
    | None => None
    | Some (b, segs) =>
      match trip_offsets best_segment sqdist shapes loc (0, 0) trips (snd x) with
      | None => Some (b, segs)
      | Some (sh, offs) =>
        match nth_error shapes sh with
        | None => Some (b, segs)
        | Some h =>
          let r := task_boxes (h_poly h) offs (map loc (t_stops (snd x))) in
          match add_segments (fst x) (snd r) segs with
          | None => None
          | Some segs' => Some (merge b (fst r), segs')
          end
        end
      end
    end.

  (** assign_bounding_boxes for a route with stops [sq], shape_prepare.cc:263-316;
      [runs] are the trips of all its transports. The loop over the stops
      extends segment i by stop i and stop i+1. *)
  Definition route_boxes (sq : list Z) (runs : list (nat * trip)) : option (box * list box) :=
    let stops := map loc sq in
    let segs := map (fun i => make_box [nth i stops (0, 0); nth (i + 1) stops (0, 0)])
                    (seq 0 (length sq - 1)) in
    fold_left add_trip runs (Some (make_box stops, segs)).
End Boxes.

(** get_bounding_box(route, segment), shapes_storage.cc:172-180 *)
Definition segment_box (segs : list box) (k : nat) : option box := nth_error segs k.
