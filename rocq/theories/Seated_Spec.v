(** Specification of stay-seated transfers, independent of how the transports are found. *)
From Coq Require Import List ZArith Bool Arith Sorted.
From Verif Require Import Calendar_Model Seated_Model.
Import ListNotations.
Local Open Scope Z_scope.

Section Spec.
  Variable E : expanded_seated.
  (** Trip (UTC variant) [i] runs on day [d]. *)
  Definition runs (i : nat) (d : Z) : Prop := exists t, nth_error (es_trips E) i = Some t /\ ut_days t d = true.
  Definition departs (i : nat) (t : Z) : Prop := exists u x l, nth_error (es_trips E) i = Some u /\ ut_times u = x :: l /\ t = x.
  Definition arrives (i : nat) (t : Z) : Prop := exists u l x, nth_error (es_trips E) i = Some u /\ ut_times u = l ++ [x] /\ t = x.
  (** A rule says that passengers of [u] can stay seated for [v]. *)
  Definition follows (u v : nat) : Prop := (u < length (es_trips E))%nat /\ (v < length (es_trips E))%nat /\ In (es_rule E v) (es_out E (es_rule E u)).
  (** [v], running [o] days after [u], departs within two hours after [u] arrived. *)
  Definition meets (u v : nat) (o : Z) : Prop := exists a d, arrives u a /\ departs v d /\ 0 <= d + o * 1440 - a < 120.

  (** A transport made of trips: each part is a trip and the number of days it runs after the day of the transport. *)
  Definition joined (parts : list (nat * Z)) (j : utc_trip) : Prop :=
    exists first rest, parts = (first, 0) :: rest /\
      ut_trips j = flat_map (fun p => ut_trips (nth (fst p) (es_trips E) no_trip)) parts /\
      ut_times j = flat_map (fun p => map (fun x => x + snd p * 1440) (ut_times (nth (fst p) (es_trips E) no_trip))) parts /\
      ut_stops j = ut_stops (nth first (es_trips E) no_trip) ++ flat_map (fun p => tl (ut_stops (nth (fst p) (es_trips E) no_trip))) rest /\
      (forall l1 u o v o' l2, parts = l1 ++ (u, o) :: (v, o') :: l2 -> follows u v) /\
      (forall d p, ut_days j d = true -> In p parts -> runs (fst p) (d + snd p)).

  (** The input is what the expansion of trips delivers. *)
  Record input_ok : Prop := {
    ok_trip : forall t, In t (es_trips E) -> exists x, ut_trips t = [x];
    ok_times : forall t, In t (es_trips E) -> StronglySorted Z.le (ut_times t) /\ exists x l, ut_times t = x :: l /\ 0 <= x < 1440;
    ok_days : forall t d, In t (es_trips E) -> ut_days t d = true -> 0 <= d < 512;
    ok_rules : forall a b, In b (es_out E a) <-> In a (es_in E b);
    ok_nodup : forall a, NoDup (es_out E a) }.
  (** Every trip runs at all, and no trip is followed - directly or not - by itself. *)
  Definition all_run : Prop := forall i, (i < length (es_trips E))%nat -> exists d, runs i d.
  Definition acyclic : Prop := exists rank : nat -> nat, forall a b, In b (es_out E a) -> (rank a < rank b)%nat.
  (** The rules describe one vehicle each day: all trips can be put on a common calendar such that trips which meet run [pos v - pos u] days
      apart, trips which follow each other on a common day do meet, and of the variants of one trip only one runs on a common day. *)
  Definition on_calendar (pos : nat -> Z) : Prop :=
    (forall u v o, follows u v -> meets u v o -> pos v = pos u + o) /\
    (forall u v d, follows u v -> runs u (d + pos u) -> runs v (d + pos v) -> exists o, meets u v o) /\
    (forall u v d, es_rule E u = es_rule E v -> runs u (d + pos u) -> runs v (d + pos v) -> u = v).
  Definition consistent : Prop := exists pos, on_calendar pos.
End Spec.

(** The [k]-th transport of [out] is made of the [k]-th list of parts. *)
Definition carried (pp : list (list (nat * Z))) (out : list utc_trip) (p : list (nat * Z)) (j : utc_trip) : Prop := exists k, nth_error pp k = Some p /\ nth_error out k = Some j.
