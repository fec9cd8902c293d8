(** Model of the import of GTFS stops and transfers: src/loader/gtfs/stop.cc.  Not modelled: CSV parsing, coordinates and
    distances (functions of abstract coordinates), translations, time zones, wheelchair flags, Lua scripts that drop a stop
    (a dropped stop would index the location containers with an invalid index).  Stops are named by their id; the location of a
    stop is the stop itself.  Names are numbers, 0 is the empty name. *)
From Coq Require Import List ZArith Bool Arith.
From Verif Require Import Base Time_Model.
Import ListNotations.
Local Open Scope Z_scope.

Definition sset {A} (f : nat -> A) (k : nat) (v : A) : nat -> A := fun x => if Nat.eqb x k then v else f x.
Definition smem (x : nat) (l : list nat) : bool := existsb (Nat.eqb x) l.
Definition sadd (x : nat) (l : list nat) : list nat := if smem x l then l else l ++ [x].

(** Rows of stops.txt (stop.cc:213-226) and transfers.txt (stop.cc:123-130). *)
Record srow := { r_type : nat; r_id : nat; r_name : nat; r_coord : nat; r_parent : option nat }.
Record trow := { t_from : nat; t_to : nat; t_type : Z; t_time : Z; t_ftrip : option nat; t_ttrip : option nat }.
(** stop.cc:25-110 [stop]; coordinate 0 is the default (0, 0). *)
Record gstop := { g_name : nat; g_coord : nat; g_parent : option nat; g_children : list nat }.
Definition no_stop : gstop := {| g_name := 0; g_coord := 0; g_parent := None; g_children := [] |}.
(** [st_names]: equal_names. *)
Record stops := { st_keys : list nat; st_get : nat -> gstop; st_names : nat -> list nat }.
Definition no_stops : stops := {| st_keys := []; st_get := fun _ => no_stop; st_names := fun _ => [] |}.
(** stop.cc:241-257: the stop of the row. *)
Definition row_stop (st : stops) (r : srow) : stops :=
  let g := st_get st (r_id r) in
  {| st_keys := sadd (r_id r) (st_keys st);
     st_get := sset (st_get st) (r_id r) {| g_name := r_name r; g_coord := r_coord r; g_parent := g_parent g; g_children := g_children g |};
     st_names := st_names st |}.
(** stop.cc:259-267: its parent [p]. *)
Definition row_parent (st : stops) (id p : nat) : stops :=
  let gp := st_get st p in
  let get' := sset (st_get st) p {| g_name := g_name gp; g_coord := g_coord gp; g_parent := g_parent gp; g_children := sadd id (g_children gp) |} in
  let gs := get' id in
  {| st_keys := sadd p (st_keys st);
     st_get := sset get' id {| g_name := g_name gs; g_coord := g_coord gs; g_parent := Some p; g_children := g_children gs |};
     st_names := st_names st |}.
(** stop.cc:269-271: equal_names. *)
Definition row_name (st : stops) (id name : nat) : stops :=
  if Nat.eqb name 0 then st else {| st_keys := st_keys st; st_get := st_get st; st_names := sset (st_names st) name (st_names st name ++ [id]) |}.
(** stop.cc:234-273: one row of stops.txt. *)
Definition add_row (st : stops) (r : srow) : stops :=
  if Nat.eqb (r_type r) 2 || Nat.eqb (r_type r) 3 then st
  else
    let st1 := row_stop st r in
    let st2 := match r_parent r with Some p => row_parent st1 (r_id r) p | None => st1 end in
    row_name st2 (r_id r) (r_name r).

(** read_transfers (stop.cc:117-204). *)
Record transfers := { tf_foot : nat -> list (nat * Z); tf_time : nat -> option Z; tf_seated : nat -> list nat }.
Definition no_transfers : transfers := {| tf_foot := fun _ => []; tf_time := fun _ => None; tf_seated := fun _ => [] |}.
Definition row_minutes (r : trow) : Z := to_i16 (Z.quot (t_time r) 60).
Definition add_transfer (keys : list nat) (tf : transfers) (r : trow) : transfers :=
  let type := t_type r mod 256 in
  if type =? 3 then tf
  else if type =? 4 then
    match t_ftrip r, t_ttrip r with
    | Some a, Some b => {| tf_foot := tf_foot tf; tf_time := tf_time tf; tf_seated := sset (tf_seated tf) a (tf_seated tf a ++ [b]) |}
    | _, _ => tf
    end
  else if negb (smem (t_from r) keys) then tf
  else if negb (smem (t_to r) keys) then tf
  else if Nat.eqb (t_from r) (t_to r) then
    {| tf_foot := tf_foot tf;
       tf_time := sset (tf_time tf) (t_from r) (Some (match tf_time tf (t_from r) with Some x => Z.min (row_minutes r) x | None => row_minutes r end));
       tf_seated := tf_seated tf |}
  else if existsb (fun fp => Nat.eqb (fst fp) (t_to r)) (tf_foot tf (t_from r)) then tf
  else {| tf_foot := sset (tf_foot tf) (t_from r) (tf_foot tf (t_from r) ++ [(t_to r, row_minutes r)]); tf_time := tf_time tf; tf_seated := tf_seated tf |}.

(** The constructor of footpath (footpath.h:35-40): 9 bits of minutes. *)
Definition fp_minutes (d : Z) : Z := (if d >? 511 then 511 else d) mod 512.
(** stop.cc:336-343 *)
Definition add_if_not_exists (f : nat -> list (nat * Z)) (l target : nat) (d : Z) : nat -> list (nat * Z) :=
  if existsb (fun x => Nat.eqb (fst x) target) (f l) then f else sset f l (f l ++ [(target, fp_minutes d)]).
Definition push (f : nat -> list (nat * Z)) (l target : nat) (d : Z) : nat -> list (nat * Z) := sset f l (f l ++ [(target, fp_minutes d)]).
Record foots := { f_out : nat -> list (nat * Z); f_in : nat -> list (nat * Z); f_eq : nat -> list nat }.

Section Stops.
  (** Geometry: close to (0, 0); within link_stop_distance ([false] if that is 0); squared distance in square metres (more
      precisely: any number that compares alike with 500 and 2000 metres) as seen from the first argument; minutes to walk,
      at least 2. *)
  Variable near_origin : nat -> bool.
  Variable in_radius : nat -> nat -> bool.
  Variable dist2 : nat -> nat -> Z.
  Variable walk : nat -> nat -> Z.

  Section Metas.
    Variable st : stops.
    (** stop.cc:278-285 *)
    Definition same_name (s : nat) : list nat :=
      if Nat.eqb (g_name (st_get st s)) 0 then [] else filter (fun x => negb (Nat.eqb x s)) (st_names st (g_name (st_get st s))).
    (** stop.cc:31-40 [compute_close_stations] *)
    Definition close_stops (s : nat) : list nat :=
      if near_origin (g_coord (st_get st s)) then [] else filter (fun x => in_radius (g_coord (st_get st s)) (g_coord (st_get st x))) (st_keys st).
    (** stop.cc:56-69: the closure over parents and children; [todo] and [done] are hash sets, here without duplicates. *)
    Definition todo_add (done todo : list nat) (x : nat) : list nat := if smem x done then todo else sadd x todo.
    Fixpoint closure (fuel : nat) (todo done : list nat) : list nat :=
      match todo with
      | [] => done
      | x :: todo' =>
          match fuel with
          | O => done
          | S fuel' =>
              let done' := done ++ [x] in
              let todo1 := match g_parent (st_get st x) with Some p => todo_add done' todo' p | None => todo' end in
              closure fuel' (fold_left (todo_add done') (g_children (st_get st x)) todo1) done'
          end
      end.
    (** stop.cc:71-84 *)
    Definition keep (s x : nat) : bool :=
      let is_parent := match g_parent (st_get st s) with Some p => Nat.eqb p x | None => false end in
      let is_child := smem x (g_children (st_get st s)) in
      let d := dist2 (g_coord (st_get st s)) (g_coord (st_get st x)) in
      negb (((d >? 250000) && negb is_parent && negb is_child) || (d >? 4000000)).
    (** stop.cc:42-93 [get_metas].  The last loop inserts into the set it iterates over; here it iterates over the elements that
        are there at its start. *)
    Definition get_metas (s : nat) : list nat :=
      let todo := fold_left (fun t x => sadd x t) (same_name s ++ close_stops s) [s] in
      let done := filter (keep s) (closure (length (st_keys st)) todo []) in
      fold_left (fun l d => fold_left (fun l c => sadd c l) (g_children (st_get st d)) l) done done.

    (** stop.cc:346-368: GTFS footpaths; [order]: iteration order of the hash map. *)
    Variable tf : transfers.
    Variable order : list nat.
    Definition gtfs_foot (f : foots) (s : nat) : foots :=
      fold_left (fun f fp => {| f_out := push (f_out f) s (fst fp) (snd fp); f_in := push (f_in f) (fst fp) s (snd fp); f_eq := f_eq f |}) (tf_foot tf s) f.
    (** stop.cc:371-380 *)
    Definition symm_foot (f : foots) (s : nat) : foots :=
      fold_left (fun f fp => {| f_out := add_if_not_exists (f_out f) (fst fp) s (snd fp); f_in := add_if_not_exists (f_in f) s (fst fp) (snd fp); f_eq := f_eq f |}) (tf_foot tf s) f.
    (** stop.cc:383-410 *)
    Definition gen_one (s : nat) (f : foots) (e : nat) : foots :=
      let d := walk (g_coord (st_get st s)) (g_coord (st_get st e)) in
      if d >? 511 then f
      else {| f_out := add_if_not_exists (add_if_not_exists (f_out f) s e d) e s d;
              f_in := add_if_not_exists (add_if_not_exists (f_in f) e s d) s e d;
              f_eq := sset (f_eq f) s (f_eq f s ++ [e]) |}.
    Definition gen_foot (f : foots) (s : nat) : foots := fold_left (gen_one s) (get_metas s) f.
    Definition all_foots : foots :=
      let f0 := {| f_out := fun _ => []; f_in := fun _ => []; f_eq := fun _ => [] |} in
      fold_left gen_foot order (fold_left symm_foot order (fold_left gtfs_foot order f0)).
  End Metas.

  (** stop.cc:206-416 [read_stops]: stops, transfers, footpaths and equivalences; and the transfer time (8 bits). *)
  Definition read_rows (rows : list srow) : stops := fold_left add_row rows no_stops.
  Definition read_transfers (st : stops) (trows : list trow) : transfers := fold_left (add_transfer (st_keys st)) trows no_transfers.
  Definition transfer_time (tf : transfers) (default : Z) (s : nat) : Z := match tf_time tf s with Some x => x mod 256 | None => default mod 256 end.
  Definition read_stops (rows : list srow) (trows : list trow) (order : list nat) : foots :=
    let st := read_rows rows in all_foots st (read_transfers st trows) order.
End Stops.
