(** The ping-pong search with the two searches filled in: src/routing/raptor/pong.cc:228-350 on top of the models of
    raptor.h ([Raptor_Model] for the ping, [Prune_Model] for the pong with the bounds of the ping). *)
From Coq Require Import List ZArith Bool Arith.
From Verif Require Import Base Time_Model Raptor_Model Prune_Model Pong_Model.
Import ListNotations.
Local Open Scope Z_scope.

(** get_starts with one start time (get_starts / add_starts_in_interval, property C29_ontrip_starts): the start locations with
    their offsets, [time_at_stop = start_time +- offset]. *)
Definition end_starts (P : params) (acc : list (nat * Z)) (T : Z) : list (nat * Z) :=
  map (fun x => (fst x, T + dir P (snd x))) acc.

Section Inst.
  Variable q : pquery.
  Variables P Q : params.                (* ping and pong search *)
  Variables accP accQ : list (nat * Z).  (* start of the query / destination of the query, with offsets *)
  Variable mt : nat.                     (* max_transfers_ *)

  (** pong.cc:244-264 *)
  Definition ping_group (T : Z) : group := mk_group T (worst_time_at_dest q T) (end_starts P accP T).
  Definition ping_state (T : Z) : state := run_group P mt (reset_arrivals P) (ping_group T).
  Definition ping_search (T : Z) : list journey := snd (raptor P mt [ping_group T]).
  (** State of the pong search: the round times of the ping that make up the bounds, the arrivals. *)
  Definition pstate : Type := ((nat -> nat -> Z) * state)%type.
  (** pong.cc:288-293: fill_bounds, reset_arrivals *)
  Definition pong_start (T : Z) (js : list journey) : pstate := (s_rt (ping_state T), reset_arrivals Q).
  (** pong.cc:294-312, :345-347: set_bounds(transfers + 1), starts at the arrival, execute(dest_time, transfers, start_time);
      [ping_j.start_time_] is still the start time of the ping at this point. *)
  Definition pong_rounds (j : journey) : nat := Z.to_nat (j_transfers j + 1).
  Definition pong_group (T : Z) (j : journey) : group := mk_group (j_dest j) T (end_starts Q accQ (j_dest j)).
  Definition pong_state (rt : nat -> nat -> Z) (T : Z) (s : state) (j : journey) : state :=
    prun_group Q (within_bounds P Q rt (pong_rounds j)) (Z.to_nat (j_transfers j)) s (pong_group T j).
  Definition pong_exec (a : pstate) (T : Z) (j : journey) : pstate * list journey :=
    let s' := pong_state (fst a) T (snd a) j in
    ((fst a, s'), reported Q (Z.to_nat (j_transfers j)) (pong_group T j) s').

  (** The whole search; [rec] and [timeout] as in [Pong_Model]. *)
  Definition pong_journeys (rec : pstate -> journey -> bool) (timeout : nat -> bool) : outcome (list journey * interval) :=
    pong_search q pstate ping_search pong_start pong_exec rec timeout.
End Inst.
