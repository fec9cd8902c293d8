(** Model of GTFS-RT vehicle positions: src/rt/gtfsrt_update.cc:517-640 [handle_vehicle_position], 652-840 [gtfsrt_update_msg].
    Not modelled: protobuf parsing, coordinates (which stop locations the position is near to is a parameter; the code asks for an
    approximated squared distance below 10), statistics, alerts. *)
From Coq Require Import List ZArith Bool Arith.
From Verif Require Import Base Time_Model Calendar_Model Query_Model Rt_Model.
Import ListNotations.
Local Open Scope Z_scope.

(** :548-555 [utl::find_if]: the first stop of the vehicle the position is near to. *)
Fixpoint find_near (near : nat -> bool) (words : list Z) : option nat :=
  match words with
  | [] => None
  | w :: ws => if near (word_loc w) then Some 0%nat else option_map S (find_near near ws)
  end.
Section Position.
  Variables (tt : stt) (x : run) (i : nat) (delay : Z).
  Definition put (r : rtt) (stop : nat) (arr : bool) : rtt := fst (update_delay tt r x i stop arr delay None).
  (** :588-593: departure at [first], arrival at [first + 1], ...; [n] pairs left. *)
  Fixpoint forward (n first : nat) (r : rtt) : rtt :=
    match n with
    | O => r
    | S n' => forward n' (S first) (put (put r first false) (S first) true)
    end.
  (** :596-617: from stop [curr] back to the first stop. *)
  Fixpoint backward (curr : nat) (r : rtt) : rtt :=
    match curr with
    | O => r
    | S prev =>
        if unix_event_time r i curr true <? unix_event_time r i prev false then
          let r1 := put r prev false in
          if negb (Nat.eqb prev 0) && (unix_event_time r1 i prev false <? unix_event_time r1 i prev true) then backward prev (put r1 prev true)
          else r1
        else r
    end.
End Position.
(** :563-617, for the real-time vehicle [i]; [time]: the position's (or the message's) time, in minutes (floor, 566-571). *)
Definition position_at (tt : stt) (r : rtt) (x : run) (i : nat) (t : nat) (day : Z) (k : nat) (time : Z) : rtt :=
  let delay := to_i16 (time - s_event tt t day k (negb (Nat.eqb k 0))) in
  let n := length (s_seq tt t) in
  let r1 := if Nat.eqb k 0 then r else put tt x i delay r k true in
  let r2 := forward tt x i delay (n - 1 - k) k r1 in
  backward tt x i delay k r2.
(** :517-617; [t] is not the invalid transport (528-532). *)
Definition handle_vehicle_position (tt : stt) (r : rtt) (src : nat) (t : nat) (day : Z) (near : nat -> bool) (time : Z) : rtt :=
  let x := resolve_rt_run r (mk_run (Some (t, day)) 0 0 None) 0 src in
  let (r1, i) := match r_rt x with Some i => (r, i) | None => add_rt_transport tt r src (Some (t, day)) [] [] None end in
  match find_near near (s_seq tt t) with
  | None => r1
  | Some k => position_at tt r1 (mk_run (Some (t, day)) 0 (length (s_seq tt t)) (Some i)) i t day k time
  end.

(** :652-840: the entities of a feed: trip updates (with cancellations and added trips) or vehicle positions (resolved runs). *)
Inductive entity :=
| E_trip (m : msg)
| E_position (src : nat) (t : nat) (day : Z) (near : nat -> bool) (time : Z).
Definition apply_entity (tt : stt) (r : rtt) (e : entity) : rtt :=
  match e with
  | E_trip m => apply_msg tt r m
  | E_position src t day near time => handle_vehicle_position tt r src t day near time
  end.
Definition apply_entities (tt : stt) (es : list entity) (r : rtt) : rtt := fold_left (apply_entity tt) es r.
