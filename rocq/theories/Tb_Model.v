(** Model of data structures of the trip based search: include/nigiri/routing/tb/reached.h, queue.h, and the tables
    of src/routing/tb/preprocess.cc (reached_reduction, reached_line_based).  Unsigned bit field members are stored modulo their
    width; debug assertions are not modelled. *)
From Coq Require Import List ZArith Bool Arith.
From Verif Require Import Base Pareto_Model Calendar_Model Finish_Model.
Import ListNotations.
Local Open Scope Z_scope.

Definition upd {A} (f : nat -> A) (k : nat) (v : A) : nat -> A := fun x => if Nat.eqb x k then v else f x.

(** ** reached.h *)
(** :18-23 [to_transport]: day and vehicle packed into 16 bit. *)
Definition to_transport (transport_offset query_day_offset : Z) : Z :=
  Z.lor (Z.shiftl query_day_offset 12 mod 65536) transport_offset.
(** :31-40 [entry] *)
Record tb_entry := mk_te { te_transport : Z; te_segment : Z; te_k : Z }.
Definition te_dominates (a b : tb_entry) : bool :=
  (te_k a <=? te_k b) && (te_transport a <=? te_transport b) && (te_segment a <=? te_segment b).
(** :42-113: one Pareto set per route *)
Definition reached := nat -> list tb_entry.
Definition reached_empty : reached := fun _ => [].
(** :56-77 [update]; members [segment_offset_ : 12], [k_ : 4]. *)
Definition reached_update (s : reached) (r : nat) (transport_offset segment_offset query_day_offset k : Z) : reached :=
  upd s r (fst (add tb_entry te_dominates (s r) (mk_te (to_transport transport_offset query_day_offset) (segment_offset mod 4096) (k mod 16)))).
(** :79-95 [query]; [n_stops]: length of the route's stop sequence. *)
Definition reached_query (s : reached) (n_stops : nat -> nat) (r : nat) (transport_offset query_day_offset k : Z) : Z :=
  let transport := to_transport transport_offset query_day_offset in
  fold_left (fun m e => if (te_k e <=? k) && (te_transport e <=? transport) && (te_segment e <? m) then te_segment e else m)
            (s r) ((Z.of_nat (n_stops r) - 1) mod 65536).
(** A history of updates: (route, vehicle, segment, day, round). *)
Record tb_update := mk_tu { tu_route : nat; tu_transport : Z; tu_segment : Z; tu_day : Z; tu_k : Z }.
Definition reached_all (us : list tb_update) : reached :=
  fold_left (fun s u => reached_update s (tu_route u) (tu_transport u) (tu_segment u) (tu_day u) (tu_k u)) us reached_empty.

(** ** preprocess.cc:92-166 [reached_reduction]: per location a list of (time, days) *)
Record rr_entry := mk_rr { rr_time : Z; rr_bf : bitfield }.
(** :113-144: the loop over the entries of the location; state: remaining new days, entries so far (rewritten), position of an entry
    with the same time, position of an entry without days.  [None]: the "return" of :115-118, taken when no new days are left. *)
Fixpoint rr_loop (time_new : Z) (es : list rr_entry) (i : nat) (bf_new : bitfield) (same over : option nat)
  : list rr_entry * bitfield * option nat * option nat * bool :=
  match es with
  | [] => ([], bf_new, same, over, false)
  | e :: es' =>
      if bfNone bf_new then (es, bf_new, same, over, true)
      else
        let better := time_new <? rr_time e in
        let e' := if better then mk_rr (rr_time e) (bfAnd (rr_bf e) (bfNot bf_new)) else e in
        let bf' := if better then bf_new else bfAnd bf_new (bfNot (rr_bf e)) in
        let same' := if negb better && (time_new =? rr_time e) then Some i else same in
        let over' := if bfNone (rr_bf e') then Some i else over in
        let '(rest, b, s, o, ret) := rr_loop time_new es' (S i) bf' same' over' in (e' :: rest, b, s, o, ret)
  end.
(** :98-161 [update]; the improvement is the set of days or-ed into [*impr]. *)
Definition rr_update_list (es : list rr_entry) (time_new : Z) (bf : bitfield) : list rr_entry * bitfield :=
  let '(es', bf_new, same, over, ret) := rr_loop time_new es 0 bf None None in
  if ret then (es', bf_empty)
  else if bfNone bf_new then (es', bf_empty)
  else
    (match same, over with
     | Some p, _ => set_nth es' p (mk_rr (rr_time (nth p es' (mk_rr 0 bf_empty))) (bfOr (rr_bf (nth p es' (mk_rr 0 bf_empty))) bf_new))
     | None, Some p => set_nth es' p (mk_rr time_new bf_new)
     | None, None => es' ++ [mk_rr time_new bf_new]
     end, bf_new).
(** The whole table: location -> entries. *)
Definition rr_table := nat -> list rr_entry.
Definition rr_update (t : rr_table) (l : nat) (time : Z) (bf : bitfield) : rr_table * bitfield :=
  let (es, impr) := rr_update_list (t l) time bf in (upd t l es, impr).
