(** Specification of loading: well-formed inputs, and what a vehicle of the input offers to a passenger (independent of routes, arrays,
    bit fields and indices). *)
From Coq Require Import List ZArith Bool Arith.
From Verif Require Import Base Time_Model Raptor_Model Raptor_Spec Routes_Model P_Routes Foot_Proofs Loaded_Model.
Import ListNotations.
Local Open Scope Z_scope.

(** Location of the [i]-th stop of a stop sequence. *)
Definition place (value : Z) : nat := Z.to_nat (s_loc (stop_of_value value)).
(** Restriction [f] (0 bikes, 1 cars, 2 wheelchair, 3 no reservation) on section [sec] of the vehicles of key [k]: one value for all
    sections or one per section. *)
Definition flag_on (k : route_key) (f sec : nat) : bool :=
  match nth f (rk_flags k) [] with [b] => b | l => nth sec l false end.

(** A vehicle of the input: at least two stops, times in order (below 22.7 days), stops at known locations, one value per section for the
    restrictions, all events within the 512 days of the timetable. *)
Record vehicle_ok (n : nat) (k : route_key) (s : service) : Prop := mk_vehicle_ok {
  vo_fits : fits k s;
  vo_chrono : chronological s;
  vo_size : Z.of_nat (length (rk_stops k)) < 32768;
  vo_places : forall v, In v (rk_stops k) -> (place v < n)%nat;
  vo_days : forall day t, sv_days s day = true -> In t (sv_times s) -> 0 <= day /\ day + t / 1440 < 512;
  vo_flags : forall f, (f < 4)%nat -> length (nth f (rk_flags k) []) = 1%nat \/ length (nth f (rk_flags k) []) = (length (rk_stops k) - 1)%nat }.
Record input_ok (su : setup) (ins : list (route_key * service)) : Prop := mk_input_ok {
  io_vehicles : forall k s, In (k, s) ins -> vehicle_ok (su_n su) k s;
  io_size : Z.of_nat (length (a_stop_times (write_routes no_arrays (routes_of (add_all ins))))) < 2 ^ 32;
  io_links : graph_ok (su_n su) (su_links su) (su_ttime su);
  io_foot : 1 <= su_max_foot su <= 256 }.

(** Boarding a vehicle of the input at location [a] at minute [x] and leaving it at [b] at minute [y] (minutes relative to the base day of
    the query), respecting the query's class filter and restrictions. *)
Inductive offered (P : params) (ins : list (route_key * service)) (a : nat) (x : Z) (b : nat) (y : Z) : Prop :=
| offered_intro : forall k s day i j vi vj,
    In (k, s) ins -> sv_days s day = true -> (i < j)%nat ->
    nth_error (rk_stops k) i = Some vi -> nth_error (rk_stops k) j = Some vj -> place vi = a -> place vj = b ->
    (if p_require P 2 then s_win (stop_of_value vi) else s_in (stop_of_value vi)) = true ->
    (if p_require P 2 then s_wout (stop_of_value vj) else s_out (stop_of_value vj)) = true ->
    p_allowed_clasz P (rk_clasz k) = true ->
    (forall f sec, (f < 4)%nat -> p_require P f = true -> (i <= sec < j)%nat -> flag_on k f sec = true) ->
    x = (day - p_base P) * 1440 + nth (2 * i) (sv_times s) 0 -> y = (day - p_base P) * 1440 + nth (2 * j - 1) (sv_times s) 0 ->
    offered P ins a x b y.

(** Sufficient conditions for the absence of overtaking in every route.  Either: vehicles with the same stops reach each stop on the same
    day of their run. *)
Definition same_days (ins : list (route_key * service)) : Prop :=
  forall k s s' c, In (k, s) ins -> In (k, s') ins -> (c < length (sv_times s))%nat -> nth c (sv_times s) 0 / 1440 = nth c (sv_times s') 0 / 1440.
(** Or: no vehicle overtakes another one (run [m] days later) with the same stops; if two are at a stop at the same minute, they are at every
    stop on the same calendar day. *)
Definition no_overtaking (ins : list (route_key * service)) : Prop :=
  forall k s s' m c c', In (k, s) ins -> In (k, s') ins -> (c < length (sv_times s))%nat -> (c' < length (sv_times s))%nat ->
    let t i := nth i (sv_times s) 0 in let t' i := nth i (sv_times s') 0 + m * 1440 in
    (t c < t' c -> (c < c')%nat -> t c' <= t' c') /\ (t c = t' c -> t c' / 1440 = t' c' / 1440).

(** The query's side of [timetable_ok]: transfer time settings, destinations, the virtual end. *)
Record query_side_ok (P : params) (su : setup) (ins : list (route_key * service)) : Prop := mk_query_side {
  qs_adjust : forall d, 0 <= d -> 0 <= p_adjust P d;
  qs_offsets : forall off l d, p_dist_to_end P = Some off -> off l = Some d -> 0 <= d;
  qs_dest : forall l, p_is_dest P l = true -> (l < su_n su)%nat;
  qs_end : p_dist_to_end P <> None ->
    (forall l, p_is_dest P l = true <-> l = p_end P) /\
    (forall k s v, In (k, s) ins -> In v (rk_stops k) -> place v <> p_end P) /\
    (forall l d, ~ In (p_end P, d) (su_links su l)) }.
(** Every section takes at least a minute (needed for backward searches). *)
Definition moving (ins : list (route_key * service)) : Prop :=
  forall k s i, In (k, s) ins -> (S i < length (rk_stops k))%nat -> nth (2 * i) (sv_times s) 0 < nth (2 * i + 1) (sv_times s) 0.
(** No two equivalent locations between which duplicates may be merged: merging within a source is off or no location has an equivalent
    one of its own source; merging across sources is off or none has one of another source. *)
Definition nothing_to_merge (su : setup) : Prop :=
  forall l e sl se, In e (Query_Model.ls_equiv (su_locs su) l) -> su_src su l = Some sl -> su_src su e = Some se ->
    (sl = se -> su_intra su = false) /\ (sl <> se -> su_inter su = false).
