(** Model of src/loader/build_footpaths.cc: the footpath graph of the timetable is closed transitively. *)
From Coq Require Import List ZArith Bool Arith.
From Verif Require Import Base Time_Model Raptor_Model Query_Model Dial_Model Dijkstra_Model.
Import ListNotations.
Local Open Scope Z_scope.

(** A footpath is a pair (target, minutes), minutes up to 511 (C05).  [n]: number of locations, [raw]: the
    preprocessing_footpaths_out_, [ttime]: transfer_time_ (uint8), [max_len]: max_footpath_length (uint16). *)
Section Foot.
  Variable n : nat.
  Variable raw : nat -> list (nat * Z).
  Variable ttime : nat -> Z.
  Variable max_len : Z.
  (** adjust_footpaths off: [None].  Otherwise the minutes needed for the beeline at walking speed, rounded down; [None] if that
      is too far to walk (geo::distance is not modelled). *)
  Variable beeline : option (nat -> nat -> option Z).

  (** :66-84 [get_footpath_graph].  [erase_duplicates] sorts by target and keeps the first of each target; [std::sort] is not stable,
      here the first inserted one wins. *)
  Fixpoint insert_target (e : nat * Z) (l : list (nat * Z)) : list (nat * Z) :=
    match l with
    | [] => [e]
    | x :: l' => if (fst e <? fst x)%nat then e :: l else if Nat.eqb (fst e) (fst x) then l else x :: insert_target e l'
    end.
  Definition fgraph (a : nat) : list (nat * Z) :=
    fold_left (fun l e => insert_target e l) (filter (fun e => negb (Nat.eqb (fst e) a)) (raw a)) [].

  (** :86-118 [find_components].  [None]: component_idx_t::invalid(). *)
  Definition comps := nat -> option nat.
  Definition is_comp (c : comps) (j i : nat) : bool := match c j with Some k => Nat.eqb k i | None => false end.
  (** :103-115: the depth first search with its stack (top = head). *)
  Fixpoint dfs (fuel : nat) (i : nat) (c : comps) (stack : list nat) : comps :=
    match stack with
    | [] => c
    | j :: stack' =>
        match fuel with
        | O => c
        | S fuel' =>
            if is_comp c j i then dfs fuel' i c stack'
            else
              let c' := upd c j (Some i) in
              dfs fuel' i c' (rev (filter (fun t => negb (is_comp c' t i)) (map fst (fgraph j))) ++ stack')
        end
    end.
  (** More iterations than this are not possible (every location is assigned once per root). *)
  Definition dfs_fuel : nat := S (list_sum (map (fun l => length (fgraph l)) (seq 0 n))).
  Definition find_components : comps :=
    fold_left (fun c i =>
                 match c i, fgraph i with
                 | None, _ :: _ => dfs dfs_fuel i c [i]
                 | _, _ => c
                 end) (seq 0 n) (fun _ => None).
  (** :239-240, :250-263: sorting the assignments by (component, location) and splitting them into ranges of equal component
      yields, per component in ascending order, its locations in ascending order. *)
  Definition members (c : comps) (i : nat) : list nat := filter (fun l => is_comp c l i) (seq 0 n).
  Definition components (c : comps) : list (list nat) :=
    filter (fun m => negb (Nat.eqb (length m) 0)) (map (members c) (seq 0 n)).

  (** :120-144 [adjust_to_walk_speed] as used at :158-166, :331-340; [None]: the footpath is not written. *)
  Definition adjusted (a b : nat) (d : Z) : option Z :=
    match beeline with
    | None => Some d
    | Some f => match f a b with None => None | Some m => Some (to_u8 (Z.max d m)) end
    end.
  Definition max3 (a b c : Z) : Z := Z.max (Z.max a b) c.
  Definition write (from to : nat) (d : Z) : list (nat * nat * Z) :=
    match adjusted from to d with Some x => [(from, to, x)] | None => [] end.
  (** :146-182 [process_2_node_component]: the footpaths written, as (from, to, minutes). *)
  Definition process_2 (a b : nat) : list (nat * nat * Z) :=
    match fgraph a with e :: _ => write a b (max3 (to_u8 (snd e)) (ttime a) (ttime b)) | [] => [] end ++
    match fgraph b with e :: _ => write b a (max3 (to_u8 (snd e)) (ttime a) (ttime b)) | [] => [] end.

  (** :184-227 [build_component_graph]; [None]: exception ("invalid size") or an edge leaving the component (assertion, out of
      range).  :204-206: the iterator only moves forward. *)
  Fixpoint advance (fuel : nat) (m : list nat) (pos t : nat) : nat :=
    match fuel with
    | O => pos
    | S fuel' => match nth_error m pos with
                 | None => pos
                 | Some x => if Nat.eqb x t then pos else advance fuel' m (S pos) t
                 end
    end.
  (** Edges (i, j, minutes) of the component node [i] = location [from_l]. *)
  Fixpoint node_edges (m : list nat) (i from_l pos : nat) (es : list (nat * Z)) : list (nat * nat * Z) :=
    match es with
    | [] => []
    | e :: es' =>
        let j := advance (length m) m pos (fst e) in
        (i, j, max3 (ttime from_l) (ttime (fst e)) (to_u8 (snd e))) :: node_edges m i from_l j es'
    end.
  Definition comp_edges (m : list nat) : list (nat * nat * Z) :=
    flat_map (fun x => node_edges m (fst x) (snd x) 0 (fgraph (snd x))) (combine (seq 0 (length m)) m).
  (** :214-219: both directions; :222-225: [erase_duplicates] on (target, duration) does not change the set of edges, it is the
      identity here. *)
  Definition tmp_graph (es : list (nat * nat * Z)) (k : nat) : list edge :=
    flat_map (fun e => let '(i, j, d) := e in (if Nat.eqb i k then [(j, d)] else []) ++ (if Nat.eqb j k then [(i, d)] else [])) es.
  Definition build_component_graph (m : list nat) : option (nat -> list edge) :=
    if (length m <=? 2)%nat then None
    else
      let es := comp_edges m in
      if forallb (fun e => (snd (fst e) <? length m)%nat) es then Some (tmp_graph es) else None.

  (** :287-314: shortest paths from node [k]; [n_buckets(max_footpath_length)] buckets. *)
  Definition node_dists (fuel : nat) (g : nat -> list edge) (k : nat) : option (nat -> Z) :=
    match dial_push get_bucket (mk_dial 0 0 (repeat [] (Z.to_nat max_len))) (k, 0) with
    | None => None
    | Some pq =>
        match loop g max_len fuel (upd (fun _ => 65535) k 0) pq with
        | Done d => Some d
        | _ => None
        end
    end.
  (** :307-314 and :319-346: [footpath] saturates at 511, [duration_cast<u8_minutes>] keeps 8 bits. *)
  Definition node_writes (m : list nat) (k : nat) (dists : nat -> Z) : list (nat * nat * Z) :=
    flat_map (fun x =>
                let d := dists (fst x) in
                if (d =? 65535) || Nat.eqb (fst x) k then []
                else let from := nth k m 0%nat in
                     write from (snd x) (max3 (to_u8 (Z.min d fp_max_duration)) (ttime from) (ttime (snd x))))
             (combine (seq 0 (length m)) m).
  Definition opt_concat {A} (l : list (option (list A))) : option (list A) :=
    fold_right (fun x acc => match x, acc with Some a, Some b => Some (a ++ b) | _, _ => None end) (Some []) l.
  Definition process_component (fuel : nat) (m : list nat) : option (list (nat * nat * Z)) :=
    match build_component_graph m with
    | None => None
    | Some g => opt_concat (map (fun k => option_map (node_writes m k) (node_dists fuel g k)) (seq 0 (length m)))
    end.
  (** :229-347 [connect_components]: two-node components are written first. *)
  Definition is_pair (m : list nat) : bool := (length m =? 2)%nat.
  Definition connect_components (fuel : nat) : option (list (nat * nat * Z)) :=
    let ms := components find_components in
    let two := flat_map (fun m => match m with [a; b] => process_2 a b | _ => [] end) (filter is_pair ms) in
    match opt_concat (map (process_component fuel) (filter (fun m => negb (is_pair m)) ms)) with
    | Some rest => Some (two ++ rest)
    | None => None
    end.

  (** :402-414 [sort_footpaths] by duration ([std::sort]; here stable). *)
  Fixpoint insert_duration (e : nat * Z) (l : list (nat * Z)) : list (nat * Z) :=
    match l with
    | [] => [e]
    | x :: l' => if snd e <? snd x then e :: l else x :: insert_duration e l'
    end.
  Definition sort_duration (l : list (nat * Z)) : list (nat * Z) := fold_left (fun acc e => insert_duration e acc) l [].
  (** :416-440 [write_footpaths]: footpaths_out_ and footpaths_in_ of the default profile. *)
  Definition out_of (ws : list (nat * nat * Z)) (l : nat) : list (nat * Z) :=
    sort_duration (flat_map (fun w => let '(a, b, d) := w in if Nat.eqb a l then [(b, d)] else []) ws).
  Definition in_of (ws : list (nat * nat * Z)) (l : nat) : list (nat * Z) :=
    sort_duration (flat_map (fun w => let '(a, b, d) := w in if Nat.eqb b l then [(a, d)] else []) ws).
  Definition build_footpaths (fuel : nat) : option ((nat -> list (nat * Z)) * (nat -> list (nat * Z))) :=
    match connect_components fuel with
    | Some ws => Some (out_of ws, in_of ws)
    | None => None
    end.
End Foot.
