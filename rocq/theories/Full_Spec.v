(** Specification of a complete interval query: what a traveller can do, and the assumptions on timetable and query.  Times are unix
    minutes; [minute] converts to minutes relative to the base day, the unit of [Raptor_Spec] and [Rec_Spec]. *)
From Coq Require Import List ZArith Bool Arith.
From Verif Require Import Base Time_Model Seq_Model Raptor_Model Raptor_Spec Rec_Model Rec_Spec Raptor_Final Search_Model P_Search P_Rec Full_Model P_LowerBounds.
From Verif Require Query_Model Dijkstra_Model Start_Model.
Import ListNotations.
Local Open Scope Z_scope.

Section Spec.
  Variable P : params.
  Variable L : Dijkstra_Model.locations.
  Variable first_day : Z.
  Variable smode : Query_Model.match_mode.
  Variable use_fp : bool.
  Variable starts : list Query_Model.offset.

  Definition minute (t : Z) : Z := t - (first_day + p_base P) * 1440.
  (** The traveller can get from the start of the query to location [l] in [d] minutes: by an offset of the query to one of the
      locations its match mode allows, optionally followed by a footpath. *)
  Definition start_option (l : nat) (d : Z) : Prop :=
    exists s l0, In s starts /\ In l0 (Query_Model.metas (start_locations L) smode (Query_Model.o_target s)) /\
      ((l = l0 /\ d = Query_Model.o_duration s) \/
       (use_fp = true /\ exists d0, In (l, d0) (if p_fwd P then tt_footpaths_out (p_tt P) l0 else tt_footpaths_in (p_tt P) l0) /\
                                    d = Query_Model.o_duration s + p_adjust P d0)).
  (** Leaving (backward search: arriving at) the start at time [t]. *)
  Definition leaving (t : Z) (l : nat) (x : Z) : Prop := exists d, start_option l d /\ x = after P (minute t) d.
  (** [a] is no later than [b] in search direction. *)
  Definition at_least_as_early (a b : Z) : Prop := if p_fwd P then a <= b else b <= a.
End Spec.

(** A well-formed timetable without overtaking inside a route and without real-time transports. *)
Record timetable_ok (P : params) : Prop := mk_timetable_ok {
  to_static : static_only P; to_vehicles : all_vehicles_wf P; to_durations : durations_ok P; to_end : end_ok P; to_locations : locations_ok P;
  to_columns : columns_sorted P; to_index : index_ok P; to_fifo : fifo P;
  to_rides : p_fwd P = false -> rides_take_time P }.

(** The query: a fixed interval of at most two weeks, travel times of at most five days, offsets below 511 minutes on the destination
    side, no start that is a destination; the base day is the one the search chooses. *)
Record query_is (P : params) (L : Dijkstra_Model.locations) (first_day : Z) (q : iquery) (smode : Query_Model.match_mode) (use_fp : bool)
       (starts : list Query_Model.offset) (dmode : Dijkstra_Model.match_mode) (dest : list (nat * Z)) (max_offset : Z) (START : nat)
       (B : Z) (iv : interval) : Prop := mk_query_is {
  qi_setup : exists cars bikes, query_setup L dmode dest [] cars bikes P;
  qi_fwd : iq_fwd q = p_fwd P;
  qi_time : iq_time q = Start_Model.Pretrip iv;
  qi_interval : iv_from iv < iv_to iv <= iv_from iv + 14 * 1440;
  qi_fixed : fixed_interval q = true;
  qi_base : (first_day + p_base P) * 1440 = base_time q;
  qi_travel : 0 <= iq_max_travel q <= 7200;
  qi_range : first_day * 1440 <= iv_from iv - max_offset /\ iv_to iv + max_offset < (first_day + 65536) * 1440 /\ max_offset <= 7200;
  qi_offsets : forall l d, start_option P L smode use_fp starts l d -> 0 <= d <= max_offset /\ d <> 511;
  qi_locations : forall l d, start_option P L smode use_fp starts l d -> (l < tt_n_locations (p_tt P))%nat /\ p_is_dest P l = false;
  qi_kind : if Query_Model.is_intermodal smode then use_fp = false else forall s, In s starts -> Query_Model.o_duration s = 0;
  qi_reach : starts_reach_ok P (fun l _ => exists d, start_option P L smode use_fp starts l d);
  qi_dest : forall x d, In (x, d) dest -> d < 511;
  qi_walks : walks_ok P (rec_query L q smode starts dest START) B;
  qi_B : B <= 5000 }.
