(** Model of the shapes of trips: src/loader/gtfs/shape.cc,
    src/loader/gtfs/shape_prepare.cc (matching of stops to points),
    src/shapes_storage.cc (lookup). *)
From Coq Require Import ZArith List Lia Bool.
Import ListNotations.
Local Open Scope Z_scope.

Section Shapes.
  (** Points (geo::latlng) are abstract. *)
  Variable P : Type.

  (** A row of shapes.txt (shape.cc:22-28). Distances (finite doubles) are
      modelled as integers: only the comparison with 0 and the order are
      used. *)
  Record srow := SRow { s_id : Z; s_pt : P; s_seq : Z; s_dist : Z }.

  (** One shape while loading: its entry of `shapes`, `seq`,
      `states.distances_` (shape.cc:17-33). The hash map from ids to indices
      with its one-element cache (cached_lookup.h) is the position of the id in
      the list. *)
  Record shape := Shape { h_id : Z; h_poly : list P; h_seq : list Z; h_dist : list Z }.

  (** shape.cc:48-63 (distances; [poly] after the push) *)
  Definition push_dist (poly : list P) (ds : list Z) (d : Z) : list Z :=
    match ds with
    | [] => if d =? 0 then [] else repeat 0 (length poly - 1) ++ [d]
    | _ => ds ++ [d]
    end.

  (** shape.cc:45-64, an entry added to its shape *)
  Definition push_point (h : shape) (r : srow) : shape :=
    let poly := h_poly h ++ [s_pt r] in
    Shape (h_id h) poly (h_seq h ++ [s_seq r]) (push_dist poly (h_dist h) (s_dist r)).

  (** shape.cc:41-64 *)
  Fixpoint add_row (hs : list shape) (r : srow) : list shape :=
    match hs with
    | [] => [push_point (Shape (s_id r) [] [] []) r]
    | h :: t => if h_id h =? s_id r then push_point h r :: t else h :: add_row t r
    end.

  (** std::is_sorted (shape.cc:70) *)
  Fixpoint is_sorted (l : list Z) : bool :=
    match l with
    | a :: ((b :: _) as t) => (a <=? b) && is_sorted t
    | _ => true
    end.

  (** sort_by.h:10-19 *)
  Definition apply_permutation {A} (p : list nat) (l : list A) : list A :=
    match l with
    | [] => []
    | x :: _ => map (fun i => nth i l x) p
    end.

  (** The permutation std::sort finds for the sequence numbers
      (sort_by.h:25-31): any function, constrained in the theorems. *)
  Variable sort_perm : list Z -> list nat.

  (** shape.cc:66-84 *)
  Definition reorder (h : shape) : shape :=
    if is_sorted (h_seq h) then h
    else let p := sort_perm (h_seq h) in
         Shape (h_id h) (apply_permutation p (h_poly h))
               (apply_permutation p (h_seq h)) (apply_permutation p (h_dist h)).

  (** parse_shapes, shape.cc:15-86 *)
  Definition parse_shapes (rows : list srow) : list shape :=
    map reorder (fold_left add_row rows []).

  (** The segment of a polyline nearest to a position
      (geo::approx_squared_distance_to_polyline) and the squared distance:
      abstract geometry. *)
  Variable best_segment : P -> list P -> nat.
  Variable sqdist : P -> P -> Z.

  (** get_closest, shape_prepare.cc:28-43 *)
  Definition get_closest (pos : P) (sh : list P) : nat :=
    if Nat.ltb (length sh) 2 then O
    else let b := best_segment pos sh in
         let from := nth b sh pos in
         let to := nth (b + 1) sh pos in
         if sqdist pos from <=? sqdist pos to then b else (b + 1)%nat.

  (** std::span::subspan *)
  Definition subspan {A} (l : list A) (from len : Z) : list A :=
    firstn (Z.to_nat len) (skipn (Z.to_nat from) l).

  (** match_stop, shape_prepare.cc:78-87 *)
  Definition match_stop (shp : list P) (pos : Z -> P) (s start len : Z) : Z :=
    start + Z.of_nat (get_closest (pos s) (subspan shp start len)).

  (** bisect, shape_prepare.cc:45-61. Each element of `offsets` is written
      once: the elements are returned in the order of the stops. The recursion
      carries fuel ([seg_end - seg_start + 1] is enough). *)
  Fixpoint bisect (fuel : nat) (ms : Z -> Z -> Z -> Z) (s e a b : Z) : list Z :=
    match fuel with
    | O => []
    | S f =>
      if s >? e then []
      else
        let c := (s + e) / 2 in
        let sub_start := a + (c - s) in
        let sub_len := b - a + 1 - (e - s) in
        let m := ms c sub_start sub_len in
        bisect f ms s (c - 1) a (m - 1) ++ [m] ++ bisect f ms (c + 1) e (m + 1) b
    end.

  (** get_offsets_by_stops, shape_prepare.cc:63-98; [stops] are the positions
      of the stops. *)
  Definition get_offsets_by_stops (shp : list P) (stops : list P) (dflt : P) : list Z :=
    let n := Z.of_nat (length stops) in
    let size := Z.of_nat (length shp) in
    if n <? 2 then []
    else 0 :: bisect (length stops) (match_stop shp (fun s => nth (Z.to_nat s) stops dflt))
                     1 (n - 2) 1 (size - 2) ++ [size - 1].

  (** std::lower_bound over [first, first + len) *)
  Fixpoint lower_bound (fuel : nat) (l : list Z) (first len d : Z) : Z :=
    match fuel with
    | O => first
    | S f =>
      if len <=? 0 then first
      else let half := len / 2 in
           let mid := first + half in
           if nth (Z.to_nat mid) l 0 <? d
           then lower_bound f l (mid + 1) (len - half - 1) d
           else lower_bound f l first half d
    end.

  (** get_offsets_by_dist_traveled, shape_prepare.cc:100-121 *)
  Fixpoint offsets_by_dist (ds : list Z) (edges : list Z) (begin_ : Z) : list Z :=
    match ds with
    | [] => []
    | d :: t =>
      let last := Z.of_nat (length edges) - 1 in
      let o := lower_bound (length edges) edges begin_ (last - begin_) d in
      o :: offsets_by_dist t edges o
    end.
  Definition get_offsets_by_dist_traveled (ds edges : list Z) : list Z :=
    offsets_by_dist ds edges 0.

  (** process_task, shape_prepare.cc:177-182; the stop sequence is given with
      the positions of its stops; no distances = [] (shape_prepare.cc:157). *)
  Definition offsets_of (shp : list P) (edges : list Z) (stops : list P)
             (ds : list Z) (dflt : P) : list Z :=
    if Nat.ltb (length shp) (length stops) then []
    else match edges, ds with
         | _ :: _, _ :: _ => get_offsets_by_dist_traveled ds edges
         | _, _ => get_offsets_by_stops shp stops dflt
         end.

  (** A trip: its shape (None = invalid), stop sequence (packed stops), and
      distances travelled (trip.h:107-113). *)
  Record trip := Trip { t_shape : option nat; t_stops : list Z; t_dist : list Z }.

  (** operator< of stop_seq_t *)
  Fixpoint seq_lt (a b : list Z) : bool :=
    match a, b with
    | [], [] => false
    | [], _ :: _ => true
    | _ :: _, [] => false
    | x :: a', y :: b' => if x <? y then true else if y <? x then false else seq_lt a' b'
    end.

  (** utl::insert_sorted on stop_seq_dist (shape_prepare.cc:123-155): the
      first entry of a stop sequence stays. *)
  Fixpoint insert_sorted (x : list Z * list Z) (t : list (list Z * list Z)) :=
    match t with
    | [] => [x]
    | y :: r => if seq_lt (fst y) (fst x) then y :: insert_sorted x r
                else if seq_lt (fst x) (fst y) then x :: t else t
    end.

  (** create_offset_tasks for the shape [sh], shape_prepare.cc:145-160 *)
  Definition task_of (trips : list trip) (sh : nat) : list (list Z * list Z) :=
    fold_left (fun t tr => match t_shape tr with
                           | Some s => if Nat.eqb s sh then insert_sorted (t_stops tr, t_dist tr) t else t
                           | None => t
                           end) trips [].

  (** std::ranges::lower_bound by stop sequence, shape_prepare.cc:236-239.
      [task] is sorted: the first element that is not less. *)
  Fixpoint find_task (q : list Z) (t : list (list Z * list Z)) : option (list Z * list Z) :=
    match t with
    | [] => None
    | y :: r => if seq_lt (fst y) q then find_task q r else Some y
    end.

  (** process_task and assign_shape_offsets for a trip
      (shape_prepare.cc:162-182, 214-253): the shape and the offsets stored
      for it. [loc] gives the position of a packed stop. *)
  Definition trip_offsets (shapes : list shape) (loc : Z -> P) (dflt : P)
             (trips : list trip) (tr : trip) : option (nat * list Z) :=
    match t_shape tr with
    | None => None
    | Some sh =>
      match find_task (t_stops tr) (task_of trips sh) with
      | None => None
      | Some (sq, ds) =>
        match nth_error shapes sh with
        | None => None
        | Some h =>
          match offsets_of (h_poly h) (h_dist h) (map loc sq) ds dflt with
          | [] => None
          | offs => Some (sh, offs)
          end
        end
      end
    end.

  (** get_subshape, shapes_storage.cc:103-112: stops [from, to) *)
  Definition get_subshape (shp : list P) (offs : list Z) (from to : nat) : list P :=
    let a := nth from offs 0 in
    let b := nth (to - 1) offs 0 in
    subspan shp a (b - a + 1).

  (** shapes_storage::get_shape(trip, range), shapes_storage.cc:114-122 *)
  Definition get_shape (shapes : list shape) (loc : Z -> P) (dflt : P)
             (trips : list trip) (tr : trip) (from to : nat) : list P :=
    match trip_offsets shapes loc dflt trips tr with
    | None => []
    | Some (sh, offs) =>
      match nth_error shapes sh with
      | None => []
      | Some h => get_subshape (h_poly h) offs from to
      end
    end.
End Shapes.
Arguments SRow {P}. Arguments s_id {P}. Arguments s_pt {P}. Arguments s_seq {P}. Arguments s_dist {P}.
Arguments Shape {P}. Arguments h_id {P}. Arguments h_poly {P}. Arguments h_seq {P}. Arguments h_dist {P}.
Arguments push_dist {P}. Arguments push_point {P}. Arguments add_row {P}. Arguments reorder {P}. Arguments parse_shapes {P}.
Arguments get_closest {P}. Arguments match_stop {P}. Arguments get_offsets_by_stops {P}. Arguments offsets_of {P}.
Arguments trip_offsets {P}. Arguments get_subshape {P}. Arguments get_shape {P}.
Arguments subspan {A}.
