(** Specification of travelling with real-time data (independent of the search and of its data structures): a scheduled vehicle is
    available on the days that are active in the real-time timetable, a real-time vehicle at the times and stops recorded there. *)
From Coq Require Import List ZArith Bool Arith.
From Verif Require Import Base Time_Model Raptor_Model Raptor_Spec Rt_Model RtSearch_Model.
Import ListNotations.
Local Open Scope Z_scope.

Section Spec.
  Variable S : stt.
  Variable rt : rtt.
  Variable X : rt_extra.
  Variable number : nat -> nat -> nat.
  Variable P : params.                              (* the query; its timetable is the static one *)
  Notation fwd := (p_fwd P).

  (** Times of real-time data: minutes relative to the base day of the real-time timetable, here relative to the one of the search. *)
  Definition rt_time (x s : nat) (arr : bool) : Z := (x_base X - p_base P) * 1440 + Rt_Model.event_time rt x s arr.
  (** A ride as it is possible now: enter at [l] at [tb], leave at [l'] at [ta]. *)
  Inductive possible_now (l : nat) (tb : Z) (l' : nat) (ta : Z) : Prop :=
  | now_scheduled : forall ri r vi v day s s' st st',
      nth_error (tt_routes (p_tt P)) ri = Some r -> nth_error (r_vehicles r) vi = Some v ->
      0 <= day < 512 -> Rt_Model.is_transport_active S rt (number ri vi) day = true ->
      nth_error (r_stops r) s = Some st -> nth_error (r_stops r) s' = Some st' ->
      (if fwd then (s < s')%nat else (s' < s)%nat) ->
      Z.to_nat (s_loc st) = l -> Z.to_nat (s_loc st') = l' ->
      get_on_allowed P st = true -> get_off_allowed P st' = true -> p_allowed_clasz P (r_clasz r) = true ->
      (forall f sec, (f < 4)%nat -> p_require P f = true -> (Nat.min s s' <= sec < Nat.max s s')%nat -> section_has r sec f) ->
      tb = Raptor_Spec.event_time P v day s (if fwd then kDep else kArr) ->
      ta = Raptor_Spec.event_time P v day s' (if fwd then kArr else kDep) ->
      possible_now l tb l' ta
  | now_realtime : forall x s s' w w',
      (x < length (rt_static rt))%nat ->
      nth_error (nth x (rt_stops rt) []) s = Some w -> nth_error (nth x (rt_stops rt) []) s' = Some w' ->
      (if fwd then (s < s')%nat else (s' < s)%nat) ->
      Z.to_nat (s_loc (stop_of_value w)) = l -> Z.to_nat (s_loc (stop_of_value w')) = l' ->
      get_on_allowed P (stop_of_value w) = true -> get_off_allowed P (stop_of_value w') = true -> p_allowed_clasz P (x_clasz X x) = true ->
      (forall f sec, (f < 4)%nat -> p_require P f = true -> (Nat.min s s' <= sec < Nat.max s s')%nat ->
         x_all X x f = true \/ (x_some X x f = true /\ x_section X x f sec = true)) ->
      tb = rt_time x s (negb fwd) -> ta = rt_time x s' fwd ->
      possible_now l tb l' ta.

  (** Real-time data that fits the static timetable: no day is active that is not in the static timetable; every real-time vehicle has
      stops of the timetable, an entry in the index of each, times that never decrease and lie within the days of the timetable. *)
  Record rt_data_ok : Prop := mk_rt_data_ok {
    rd_days : forall ri r vi v d, nth_error (tt_routes (p_tt P)) ri = Some r -> nth_error (r_vehicles r) vi = Some v ->
      0 <= d < 512 -> Rt_Model.is_transport_active S rt (number ri vi) d = true -> v_days v d = true;
    rd_stops : forall x, (x < length (rt_static rt))%nat -> (2 <= length (nth x (rt_stops rt) []))%nat;
    rd_times : forall x, length (nth x (rt_times rt) []) = (2 * length (nth x (rt_stops rt) []) - 2)%nat;
    rd_sorted : forall x i j, (i <= j < length (nth x (rt_times rt) []))%nat -> nth i (nth x (rt_times rt) []) 0 <= nth j (nth x (rt_times rt) []) 0;
    rd_range : forall x t, (x < length (rt_static rt))%nat -> In t (nth x (rt_times rt) []) -> 0 <= x_base X + t / 1440 < 512;
    rd_span : forall x t, (x < length (rt_static rt))%nat -> In t (nth x (rt_times rt) []) ->
      t - 1440 * (nth 0 (nth x (rt_times rt) []) 0 / 1440) <= 32767;
    rd_locations : forall x w, (x < length (rt_static rt))%nat -> In w (nth x (rt_stops rt) []) ->
      (Z.to_nat (s_loc (stop_of_value w)) < tt_n_locations (p_tt P))%nat /\
      (p_dist_to_end P <> None -> Z.to_nat (s_loc (stop_of_value w)) <> p_end P) /\
      In x (x_index X (Z.to_nat (s_loc (stop_of_value w)))) }.

  (** The query on the timetable with real-time data, with bounds [lb]. *)
  Definition now (lb : nat -> Z) : params :=
    mk_params (p_fwd P) (with_rt S rt X number (p_tt P)) (p_is_dest P) (p_dist_to_end P) (p_end P) lb (p_base P)
              (p_allowed_clasz P) (p_require P) (p_adjust P).
End Spec.

(** ** Connections with real-time data: rides as they are possible now, chained by transfers and footpaths. *)
Section ConnectionsNow.
  Variable S : stt.
  Variable rt : rtt.
  Variable X : rt_extra.
  Variable number : nat -> nat -> nat.
  Variable P : params.
  Variable starts : nat -> Z -> Prop.               (* where and when the traveller may start *)
  Variable tr : nat -> Z.                            (* transfer times *)
  Inductive ready_now : nat -> nat -> Z -> Prop :=
  | rn_start l t : starts l t -> ready_now 0 l t
  | rn_transfer k l t : arrived_now k l t -> ready_now k l (after P t (tr l))
  | rn_walk k l t l' d : arrived_now k l t -> walk P l l' d -> ready_now k l' (after P t d)
  with arrived_now : nat -> nat -> Z -> Prop :=
  | an_ride k l t tb l' ta : ready_now k l t -> no_later P t tb -> possible_now S rt X number P l tb l' ta -> arrived_now (Datatypes.S k) l' ta.
  Inductive connection_now (k : nat) (l : nat) (t : Z) : Prop :=
  | cn_station : p_dist_to_end P = None -> p_is_dest P l = true -> arrived_now k l t -> connection_now k l t
  | cn_walk l0 t0 d : p_dist_to_end P = None -> p_is_dest P l = true ->
      arrived_now k l0 t0 -> walk P l0 l d -> t = after P t0 d -> connection_now k l t
  | cn_offset off l0 t0 d : p_dist_to_end P = Some off -> p_is_dest P l = true -> l = p_end P ->
      arrived_now k l0 t0 -> off l0 = Some d -> t = after P t0 d -> connection_now k l t.
End ConnectionsNow.
