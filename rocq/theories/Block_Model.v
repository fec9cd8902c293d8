(** Model of [block::rule_services] (src/loader/gtfs/trip.cc:31-108): chains of trips of one vehicle (block).
    A trip is given by its departure at the first stop, the locations of its first and last stop and its
    service days.  std::sort (order of equal elements unspecified) is modelled by a stable sort; no result below
    depends on the order of ties. *)
From Coq Require Import List ZArith Bool Arith.
From Verif Require Import Base Calendar_Model.
Import ListNotations.
Local Open Scope Z_scope.

Record block_trip := mk_bt {
  bt_idx : nat;             (* gtfs_trip_idx_t *)
  bt_has_stops : bool;      (* !stop_seq_.empty() *)
  bt_dep : Z;               (* event_times_.front().dep_ *)
  bt_first_loc : Z; bt_last_loc : Z;
  bt_service : bitfield }.

(** trip.cc:50-55 *)
Fixpoint insert_trip (t : block_trip) (l : list block_trip) : list block_trip :=
  match l with
  | [] => [t]
  | x :: rest => if bt_dep t <? bt_dep x then t :: l else x :: insert_trip t rest
  end.
Definition sort_trips (l : list block_trip) : list block_trip := fold_left (fun acc t => insert_trip t acc) l [].

(** bitset operators *)
Definition bf_and (a b : bitfield) : bitfield := fun d => a d && b d.
Definition bf_andnot (a b : bitfield) : bitfield := fun d => a d && negb (b d).
Definition bf_any (a : bitfield) : bool := existsb a (map Z.of_nat (seq 0 512)).

(** Mutable state: [rule_trip::traffic_days_] per position, and the emitted combinations (positions, days) in
    order of emission. *)
Record block_state := mk_bs { bs_days : nat -> bitfield; bs_out : list (list nat * bitfield) }.

(** trip.cc:79-98: the loop over the successors of position [cur]; returns the remaining traffic days and the pushed
    entries, last pushed first (std::stack). *)
Fixpoint successors (trips : list block_trip) (days : nat -> bitfield) (cur : block_trip) (succs : list nat)
         (td : bitfield) (pushed : list (nat * bitfield)) : bitfield * list (nat * bitfield) :=
  match succs with
  | [] => (td, pushed)
  | j :: rest =>
      if negb (bt_last_loc cur =? bt_first_loc (nth j trips cur)) then successors trips days cur rest td pushed
      else
        let inter := bf_and td (days j) in
        successors trips days cur rest (bf_andnot td (days j)) (if bf_any inter then (j, inter) :: pushed else pushed)
  end.

(** trip.cc:70-107: one stack entry together with everything pushed above it.  The stack is popped last-in first-out
    and the entries pushed while processing an entry are processed before the entries below it; hence the loop is
    this recursion.  [fuel]: successors are at later positions, depth is at most the number of trips. *)
Fixpoint process (fuel : nat) (trips : list block_trip) (i : nat) (collected : list nat) (td : bitfield) (s : block_state)
  : block_state :=
  match fuel with
  | O => s
  | S fuel' =>
      match nth_error trips i with
      | None => s
      | Some cur =>
          let chain := collected ++ [i] in
          let (rest, pushed) := successors trips (bs_days s) cur (seq (S i) (length trips - S i)) td [] in
          let s1 := if bf_any rest
                    then mk_bs (fun k => if existsb (Nat.eqb k) chain then bf_andnot (bs_days s k) rest else bs_days s k)
                               (bs_out s ++ [(chain, rest)])
                    else s in
          fold_left (fun st jd => process fuel' trips (fst jd) chain (snd jd) st) pushed s1
      end
  end.

(** trip.cc:31-108; result: chains of trip indices with their traffic days. *)
Definition rule_services (block : list block_trip) : list (list nat * bitfield) :=
  match filter bt_has_stops block with
  | [t] => [([bt_idx t], bt_service t)]
  | ts =>
      let trips := sort_trips ts in
      let init := mk_bs (fun k => match nth_error trips k with Some t => bt_service t | None => bf_empty end) [] in
      let s := fold_left (fun st i => process (length trips) trips i [] (bs_days st i) st) (seq 0 (length trips)) init in
      map (fun cd => (map (fun i => match nth_error trips i with Some t => bt_idx t | None => 0%nat end) (fst cd), snd cd)) (bs_out s)
  end.
