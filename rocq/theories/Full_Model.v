(** The whole routing of a query put together: start labels (Start_Model), interval search driver (Search_Model), round-based search
    (Raptor_Model) and reconstruction (Rec_Model).  No vias, no real-time data, no time-dependent offsets. *)
From Coq Require Import List ZArith Bool Arith.
From Verif Require Import Base Time_Model Pareto_Model Seq_Model Raptor_Model Rec_Model Search_Model.
From Verif Require Query_Model Dijkstra_Model Start_Model.
Import ListNotations.
Local Open Scope Z_scope.

(** The locations of the timetable as seen by the generation of start labels. *)
Definition start_locations (L : Dijkstra_Model.locations) : Query_Model.locations :=
  Query_Model.mk_locs (Dijkstra_Model.lo_parent L) (Dijkstra_Model.lo_children L) (Dijkstra_Model.lo_equiv L)
                      (Dijkstra_Model.lo_generated_track L).

Section Full.
  Variable P : params.                          (* set up by search.h:82-171, see [query_setup] in P_LowerBounds *)
  Variable L : Dijkstra_Model.locations.
  Variable first_day : Z.                       (* internal_interval_days().from_ *)
  Variable q : iquery.
  Variable smode : Query_Model.match_mode.      (* start_match_mode_ *)
  Variable use_fp : bool.                       (* use_start_footpaths_ *)
  Variable starts : list Query_Model.offset.    (* start_ *)
  Variable dest : list (nat * Z).               (* destination_ *)
  Variable max_start_offset : Z.
  Variable START : nat.                         (* special station *)
  Variable max_transfers : nat.
  Variable fastest_direct : Z.

  (** What the reconstruction reads of the query (reconstruct.cc). *)
  Definition rec_query : rquery :=
    mk_rquery (match iq_time q with Start_Model.Ontrip _ => true | _ => false end)
              (match smode with Query_Model.kIntermodal => true | _ => false end)
              (match smode with Query_Model.kEquivalent => true | _ => false end)
              (map (fun o => (Query_Model.o_target o, Query_Model.o_duration o)) starts) dest
              (Query_Model.matches (start_locations L) smode) (Dijkstra_Model.metas L Dijkstra_Model.kIntermodal) START.

  (** raptor.h:426-428 [base()]; types.h [unix_to_delta], [delta_to_unix]. *)
  Definition base_day : Z := first_day + p_base P.
  Definition rel (t : Z) : Z := unix_to_delta base_day t.
  Definition unix (d : Z) : Z := delta_to_unix base_day d.

  (** search.h:437-455 with raptor.h:185-199 [add_start] and :204-214, :393-414 [execute]: one start time. *)
  Definition group_of (t : Z) (ss : list Start_Model.start) (worst : Z) : group :=
    mk_group (rel t) (rel worst) (map (fun s => (Start_Model.st_loc s, rel (Start_Model.st_at_stop s))) ss).
  Definition algo_execute (s : state) (t : Z) (ss : list Start_Model.start) (worst : Z) : state * list journey :=
    let g := group_of t ss worst in
    let s' := run_group P max_transfers s g in
    (s', map (fun j => mk_journey t (unix (j_dest j)) (j_transfers j)) (reported P max_transfers g s')).
  (** raptor.h:416-423 -> reconstruct.cc:799-862.  The journey object carries its destination: raptor.h:393-414 reports the
      destinations in ascending order and a later destination with the same values is rejected by the result set, so the one it
      carries is the first whose label has the reported value. *)
  Definition reconstruct (s : state) (j : journey) : bool :=
    let k := Z.to_nat (j_transfers j) in
    match find (fun l => p_is_dest P l && (s_rt s (k + 1)%nat l =? rel (j_dest j))) (seq 0 (tt_n_locations (p_tt P))) with
    | Some l => match reconstruct_legs P rec_query (s_rt s) l k (rel (j_start j)) with Some _ => true | None => false end
    | None => false
    end.
  (** start_times.cc:244-323; [shortest]: the entries of the hash map of shortest offsets in iteration order. *)
  Definition shortest_offsets : list (nat * Z) :=
    Start_Model.shortest_start []
      (Start_Model.start_candidates (p_fwd P) (p_tt P) (start_locations L) smode use_fp (p_adjust P) starts).
  Definition start_labels (shortest : list (nat * Z)) (t : Start_Model.start_time) (add_ontrip : bool) (acc : list Start_Model.start)
    : list Start_Model.start :=
    Start_Model.get_starts (p_fwd P) (p_require P 2) (p_tt P) first_day (fun _ => []) t shortest [] max_start_offset add_ontrip acc.

  (** search.h:204-345: a search with a fresh state. *)
  Definition route_query (shortest : list (nat * Z)) (timeout : nat -> bool) (slow_direct : interval -> list journey) (fuel : nat)
    : option (list result * interval) :=
    execute q state (fun _ => reset_arrivals P) algo_execute reconstruct (start_labels shortest) fastest_direct timeout slow_direct fuel
            (reset_arrivals P).
End Full.
