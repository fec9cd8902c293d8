(** Specification of alternatives to a ride of a journey, independent of how they are found. *)
From Coq Require Import List ZArith Bool Arith.
From Verif Require Import Time_Model Raptor_Model Raptor_Spec Rec_Model Rec_Spec Direct_Model Direct_Spec.
From Verif Require Query_Model.
Import ListNotations.
Local Open Scope Z_scope.

Definition is_ride (g : leg) : Prop := exists ri vi day a b, l_uses g = Ride ri vi day a b.
(** [p] is the last ride before / the first ride after position [i] of the journey. *)
Definition ride_before (j : list leg) (i : nat) (p : leg) : Prop :=
  exists k, (k < i)%nat /\ nth_error j k = Some p /\ is_ride p /\ forall m h, (k < m < i)%nat -> nth_error j m = Some h -> ~ is_ride h.
Definition ride_after (j : list leg) (i : nat) (p : leg) : Prop :=
  exists k, (i < k)%nat /\ nth_error j k = Some p /\ is_ride p /\ forall m h, (i < m < k)%nat -> nth_error j m = Some h -> ~ is_ride h.
Definition no_ride_before (j : list leg) (i : nat) : Prop := forall m h, (m < i)%nat -> nth_error j m = Some h -> ~ is_ride h.
Definition no_ride_after (j : list leg) (i : nat) : Prop := forall m h, (i < m)%nat -> nth_error j m = Some h -> ~ is_ride h.

(** Queries whose ends are stations: no additional durations, the station itself is one of its stops; an exact start allows footpaths. *)
Definition ends_ok (L : Query_Model.locations) (DQ : dquery) (front : bool) : Prop :=
  mode_of DQ front = Query_Model.kIntermodal \/
  ((forall o d, In (o, d) (offsets_of DQ front) -> d = 0 /\ In o (Query_Model.metas L (mode_of DQ front) o)) /\
   (front = true -> dq_use_start_footpaths DQ = true \/ mode_of DQ true <> Query_Model.kExact)).

Section Spec.
  Variable P : params.
  (** The legs between ride [p] and the later ride [g]: one transfer as in any journey (property C48), begun after the arrival of [p]
      and finished when [g] departs / begun when [g] arrives and finished before [n] departs. *)
  Definition reached_from (p : leg) (pre : list leg) (g : leg) : Prop :=
    exists w, pre = [w] /\ change_leg P w /\ l_from w = l_to p /\ l_arr p <= l_dep w /\ l_to w = l_from g /\ l_arr w = l_dep g.
  Definition leads_to (g : leg) (post : list leg) (n : leg) : Prop :=
    exists w, post = [w] /\ change_leg P w /\ l_from w = l_to g /\ l_dep w = l_arr g /\ l_to w = l_from n /\ l_arr w <= l_dep n.
  (** The footpaths of the timetable can be looked up from both ends. *)
  Definition footpaths_both_ways : Prop := forall a b d, In (b, d) (tt_footpaths_out (p_tt P) a) <-> In (a, d) (tt_footpaths_in (p_tt P) b).
  (** The transfer time settings are monotone (C07). *)
  Definition settings_monotone : Prop := forall x y, 0 <= x -> x <= y -> p_adjust P x <= p_adjust P y.
  Definition no_flags_required : Prop := forall f, (f < 4)%nat -> p_require P f = false.
End Spec.
