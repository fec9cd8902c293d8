(** Model of src/routing/get_fastest_direct.cc: duration of the fastest direct (footpath only) connection of a query. *)
From Coq Require Import List ZArith Bool Arith Reals.
From Flocq Require Import Core.
From Verif Require Import Base Time_Model Raptor_Model Dial_Model Dijkstra_Model Query_Model.
Import ListNotations.
Local Open Scope Z_scope.

(** get_fastest_direct.h:10-11 [kUnreachableDirect]; also the default of [get_dist] (get_fastest_direct.cc:21-24). *)
Definition kUnreachableDirect : Z := 32767.

(** The parts of a query that are read.  The offsets are [(target, duration)]. *)
Record fd_query := mk_fdq {
  f_fixed : option Z;                       (* q.fastest_direct_ *)
  f_start : list (nat * Z);
  f_start_mode : Dijkstra_Model.match_mode;
  f_dest : list (nat * Z);
  f_tts : tts;                              (* q.transfer_time_settings_ *)
  f_factor : R }.                           (* q.fastest_direct_factor_, a double *)

(** [double] multiplication rounds to nearest even with 53 bit precision (Flocq); overflow is not modelled. *)
Definition rnd64 (x : R) : R := Generic_fmt.round radix2 (FLT_exp (-1074) 53) ZnearestE x.

Section FastestDirect.
  Variable L : Dijkstra_Model.locations.
  Variable footpaths_out footpaths_in : nat -> list (nat * Z).   (* of the profile q.prf_idx_ *)
  Variable kEnd : nat.                                            (* get_special_station(special_station::kEnd) *)
  Variable q : fd_query.
  Variable fwd : bool.
  Variable max_dist : Z.

  (** :26-37.  The hash map [dists] is a total function with default 32767; [keys] lists its entries.  [static_cast<dist_t>] is the
      conversion to uint16. *)
  Definition start_entries : list (nat * Z) :=
    flat_map (fun s : nat * Z => map (fun l => (l, snd s)) (Dijkstra_Model.metas L (f_start_mode q) (fst s))) (f_start q).
  Definition start_dists : nat -> Z :=
    fold_left (fun dists (e : nat * Z) => upd dists (fst e) (Z.min (to_u16 (snd e)) (dists (fst e))))
              start_entries (fun _ => kUnreachableDirect).
  (** :26-27 [dial()] followed by [n_buckets(max_dist)] (dial.h:54 [resize]). *)
  Definition new_queue : dial label := mk_dial 0 0 (repeat [] (Z.to_nat max_dist)).
  (** :35-37 for the entries of the hash map in iteration order [keys]. *)
  Definition push_starts (keys : list nat) : option (dial label) :=
    fold_left (fun pq l => match pq with Some pq => dial_push get_bucket pq (l, start_dists l) | None => None end)
              keys (Some new_queue).

  (** :39-48 [dest_offsets] as an association list: a repeated target keeps the smaller offset. *)
  Fixpoint add_dest (m : list (nat * Z)) (t : nat) (d : Z) : list (nat * Z) :=
    match m with
    | [] => [(t, d)]
    | (x, y) :: m' => if Nat.eqb x t then (x, if d <? y then d else y) :: m' else (x, y) :: add_dest m' t d
    end.
  Definition dest_offsets : list (nat * Z) :=
    fold_left (fun m (o : nat * Z) => add_dest m (fst o) (to_u16 (snd o))) (f_dest q) [].
  Definition dest_offset (l : nat) : option Z := option_map snd (find (fun x : nat * Z => Nat.eqb (fst x) l) dest_offsets).

  (** :68-71: [adjusted_transfer_time<dist_t>]. *)
  Definition hop_time (d : Z) : Z := adjusted_transfer_time to_u16 (f_tts q) (to_u16 d).

  (** :67-86, one footpath; [None]: a push outside the bucket array. *)
  Definition relax (d : Z) (st : option ((nat -> Z) * dial label)) (fp : nat * Z) : option ((nat -> Z) * dial label) :=
    match st with
    | None => None
    | Some (dists, pq) =>
        let new_dist := d + hop_time (snd fp) in
        if max_dist <? new_dist then st else
        match dest_offset (fst fp) with
        | None => st
        | Some _ =>
            if (new_dist <? dists (fst fp)) && (new_dist <? Z.of_nat (length (q_buckets pq))) && (new_dist <? max_dist)
            then match dial_push get_bucket pq (fst fp, new_dist) with
                 | Some pq' => Some (upd dists (fst fp) new_dist, pq')
                 | None => None
                 end
            else st
        end
    end.
  (** :88-93 *)
  Definition reach_end (l : nat) (d end_dist : Z) : Z :=
    match dest_offset l with
    | Some o => if (d + o <? max_dist) && (d + o <? end_dist) then d + o else end_dist
    | None => end_dist
    end.
  (** :52-94 *)
  Fixpoint fd_loop (fuel : nat) (dists : nat -> Z) (pq : dial label) (end_dist : Z) : outcome Z :=
    if dial_empty pq then Done end_dist else
    match fuel with
    | O => OutOfFuel
    | S fuel' =>
        match dial_top pq with
        | None => Undefined
        | Some (l, pq1) =>
            match dial_pop pq1 with
            | None => Undefined
            | Some pq2 =>
                if Nat.eqb (fst l) kEnd then Done end_dist
                else if dists (fst l) <? snd l then fd_loop fuel' dists pq2 end_dist
                else match fold_left (relax (snd l)) ((if fwd then footpaths_out else footpaths_in) (fst l)) (Some (dists, pq2)) with
                     | Some (dists', pq3) => fd_loop fuel' dists' pq3 (reach_end (fst l) (snd l) end_dist)
                     | None => Undefined
                     end
            end
        end
    end.

  (** :96-99; the conversion of the result to int16 is undefined outside its range. *)
  Definition fd_result (end_dist : Z) : Z :=
    if end_dist =? kUnreachableDirect then kUnreachableDirect
    else Zceil (rnd64 (IZR end_dist * f_factor q)).

  (** :12-100; [keys]: iteration order of the hash map of start locations. *)
  Definition get_fastest_direct (keys : list nat) (fuel : nat) : outcome Z :=
    match f_fixed q with
    | Some d => Done d
    | None =>
        match push_starts keys with
        | None => Undefined
        | Some pq =>
            match fd_loop fuel start_dists pq kUnreachableDirect with
            | Done e => Done (fd_result e)
            | OutOfFuel => OutOfFuel
            | Undefined => Undefined
            end
        end
    end.
End FastestDirect.
