(** Specification of the lookup by trip descriptor, in terms of local schedules. *)
From Coq Require Import List ZArith Bool Arith Permutation.
From Verif Require Import Base Time_Model Calendar_Model Utc_Model Utc_Proofs P_Utc Resolve_Model.
Import ListNotations.
Local Open Scope Z_scope.

(** What is seen of a run: the absolute times of all events of its vehicle (minutes since the first day), and the stops of the trip. *)
Definition seen {key} (T : schedule key) (r : found) : list Z * (nat * nat) :=
  (map (fun t => fo_day r * 1440 + t) (ve_times (vehicle_of T (fo_transport r))), fo_range r).

(** The trips of a chain: id, stops in the vehicle, local time of the first departure (minutes after midnight of the service day). *)
Fixpoint chain_parts (prev : nat) (tos : list (gtfs_trip * Z)) : list (nat * (nat * nat) * Z) :=
  match tos with
  | [] => []
  | (t, o) :: l => let e := (prev + length (gt_stop_seq t))%nat in (gt_id t, (prev, e), front_dep t - o) :: chain_parts (e - 1) l
  end.

Section Spec.
  Variable n_days : nat.
  Variable noon : Z -> Z.
  Variable sel : interval.
  (** The descriptor asks for the service day [D] of a trip with first local departure [dep]: the date alone names the service day; date and
      start time together name the moment of the first departure (so 01:30 on one day is 25:30 on the day before). *)
  Definition wanted (date : Z) (time : option Z) (dep D : Z) : bool :=
    match time with None => D =? date | Some s => D * 1440 + dep =? date * 1440 + s end.
  (** The runs of one chain of trips: one per service day on which it operates. *)
  Definition chain_runs (traffic : bitfield) (f : freq_trip) (date : Z) (time : option Z) (id : nat) : list (list Z * (nat * nat)) :=
    flat_map (fun p => map (fun D => (map (fun t => D * 1440 + t - noon D) (local_schedule f), snd (fst p)))
                           (filter (fun D => wanted date time (snd p) D && operates sel traffic noon (local_schedule f) D) (map Z.of_nat (seq 0 n_days))))
             (filter (fun p => Nat.eqb (fst (fst p)) id) (chain_parts 0 (usable_trips f))).
  (** Chains as in C23, with as many stops as events. *)
  Record good_chain (f : freq_trip) : Prop := {
    gc_offset : forall to to', In to (usable_trips f) -> In to' (usable_trips f) -> snd to = snd to';
    gc_order : increasing 0 (local_schedule f);
    gc_max : forall t, In t (local_schedule f) -> t <= 30000;
    gc_some : usable_trips f <> [];
    gc_stops : forall to, In to (usable_trips f) -> length (gt_stop_seq (fst to)) = length (gt_events (fst to)) }.
End Spec.
