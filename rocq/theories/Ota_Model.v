(** Model of the one-to-all search: src/routing/one_to_all.cc (the whole file), with the round-based search of
    include/nigiri/routing/raptor/raptor.h in the instance [search_mode::kOneToAll] (Raptor_Model): no destination, lower bounds 0, no
    journeys reported (raptor.h:389-391), the caller reads the labels of the search state.  Times of the API are unix minutes.
    Without vias (the code rejects them, one_to_all.cc:57-58); real-time transports are part of [tt_routes] (Raptor_Model). *)
From Coq Require Import List ZArith Bool Arith.
From Verif Require Import Base Time_Model Raptor_Model Search_Model.
From Verif Require Query_Model.
Import ListNotations.
Local Open Scope Z_scope.

(** The part of the query the one-to-all search reads (query.h:76-100). *)
Record ota_query := mk_ota_query {
  oq_start_time : Z;                            (* start_time_, a point in time *)
  oq_starts : list Query_Model.offset;          (* start_ *)
  oq_mode : Query_Model.match_mode;             (* start_match_mode_ *)
  oq_max_travel : Z;                            (* max_travel_time_ *)
  oq_max_transfers : nat;                       (* max_transfers_ *)
  oq_allowed : nat -> bool;                     (* allowed_claszes_ *)
  oq_require : nat -> bool;                     (* require_bike/car, wheelchair profile, no_compulsory_reservation_ *)
  oq_adjust : Z -> Z }.                         (* transfer_time_settings_ *)

Section OneToAll.
  Variable fwd : bool.                          (* SearchDir *)
  Variable tt : timetable.
  Variable L : Query_Model.locations.
  Variable first_day : Z.                       (* internal_interval().from_ in days *)
  Variable q : ota_query.

  (** one_to_all.cc:18-23 [make_base]. *)
  Definition make_base (start_time : Z) : Z := round_days start_time / 1440 - first_day.
  (** one_to_all.cc:59-88: the search object.  [is_dest] empty, [dist_to_dest] empty (not intermodal), [lb] all 0. *)
  Definition ota_params : params :=
    mk_params fwd tt (fun _ => false) None 0%nat (fun _ => 0) (make_base (oq_start_time q)) (oq_allowed q) (oq_require q) (oq_adjust q).
  (** raptor.h:426-428 [base()]. *)
  Definition ota_base : Z := first_day + make_base (oq_start_time q).
  Definition shift (t d : Z) : Z := if fwd then t + d else t - d.
  (** one_to_all.cc:31-49 [run_raptor]: start labels, upper bound, [execute]. *)
  Definition ota_group : group :=
    mk_group (unix_to_delta ota_base (oq_start_time q))
             (unix_to_delta ota_base (shift (oq_start_time q) (oq_max_travel q)))
             (flat_map (fun s => map (fun l => (l, unix_to_delta ota_base (shift (oq_start_time q) (Query_Model.o_duration s))))
                                     (Query_Model.metas L (oq_mode q) (Query_Model.o_target s))) (oq_starts q)).
  (** one_to_all.cc:51-91: the result is the state of the search; its labels are [s_rt]. *)
  Definition one_to_all : state := run_group ota_params (oq_max_transfers q) (reset_arrivals ota_params) ota_group.

  (** one_to_all.cc:104-131 [get_fastest_one_to_all_offsets]: k from transfers + 1 down to 0, first valid label.  [None] is the default
      value (duration 32767, k 255).  [duration_] is a 16 bit number. *)
  Fixpoint fastest_from (rt : nat -> nat -> Z) (l : nat) (start_time : Z) (n : nat) : option (Z * nat) :=
    match n with
    | O => None
    | S k => if negb (rt k l =? (if fwd then i16_max else i16_min))
             then Some (to_i16 (delta_to_unix (first_day + make_base start_time) (rt k l) - start_time), k)
             else fastest_from rt l start_time k
    end.
  Definition get_fastest_one_to_all_offsets (rt : nat -> nat -> Z) (l : nat) (start_time : Z) (transfers : nat) : option (Z * nat) :=
    fastest_from rt l start_time (transfers + 2).

  (** one_to_all.cc:133-158 [for_each_one_to_all_round_time]: the calls of the callback in order ([duration_t]: 16 bit minutes). *)
  Definition for_each_one_to_all_round_time (rt : nat -> nat -> Z) (l : nat) (start_time : Z) (transfers : nat) : list (nat * Z) :=
    flat_map (fun k => if negb (rt k l =? (if fwd then i16_max else i16_min))
                       then let end_time := delta_to_unix (first_day + make_base start_time) (rt k l) in
                            [(k, to_i16 (if fwd then end_time - start_time else start_time - end_time))]
                       else [])
             (seq 0 (transfers + 2)).
End OneToAll.
