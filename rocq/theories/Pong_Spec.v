(** Specification for the forward-backward ("ping-pong") search: two searches in opposite directions over the same
    timetable, how the two ends of a query are used by them, and what a trip from door to door is.  Only the data types of
    the model and the specification of connections ([Raptor_Spec]) are used.  Times are minutes relative to the base day. *)
From Coq Require Import List ZArith Bool Arith.
From Verif Require Import Time_Model Raptor_Model Raptor_Spec.
Import ListNotations.
Local Open Scope Z_scope.

(** [Q] searches in the direction opposite to [P]: same timetable, same filters, same transfer settings; a footpath from
    [l] to [l'] is listed at [l] (outgoing) exactly if it is listed at [l'] (incoming), see property C39. *)
Record opposite (P Q : params) : Prop := mk_opposite {
  op_dir : p_fwd Q = negb (p_fwd P);
  op_tt : p_tt Q = p_tt P;
  op_base : p_base Q = p_base P;
  op_clasz : forall c, p_allowed_clasz Q c = p_allowed_clasz P c;
  op_require : forall f, p_require Q f = p_require P f;
  op_adjust : forall d, p_adjust Q d = p_adjust P d;
  op_foot : forall l l' d, In (l', d) (tt_footpaths_out (p_tt P) l) <-> In (l, d) (tt_footpaths_in (p_tt P) l') }.

(** Getting from the last vehicle, left at [l], to the end of the search takes [d] minutes: [l] is a destination itself,
    there is a footpath to one, or an offset to the virtual end. *)
Inductive egress (P : params) (l : nat) (d : Z) : Prop :=
| eg_here : p_dist_to_end P = None -> p_is_dest P l = true -> d = 0 -> egress P l d
| eg_walk l' : p_dist_to_end P = None -> p_is_dest P l' = true -> walk P l l' d -> egress P l d
| eg_offset off : p_dist_to_end P = Some off -> p_is_dest P (p_end P) = true -> off l = Some d -> egress P l d.

(** [acc] lists the ways to begin: [(l, d)] = reach [l] after [d] minutes.  Starting at time [T] means: *)
Definition start_at (P : params) (acc : list (nat * Z)) (T : Z) (l : nat) (t : Z) : Prop :=
  exists d, In (l, d) acc /\ t = after P T d.

(** One end of the query is used the same way by the search that begins there and by the one that ends there. *)
Definition end_matches (acc : list (nat * Z)) (Q : params) : Prop :=
  (forall l d, In (l, d) acc -> exists d', d' <= d /\ egress Q l d') /\
  (forall l d, egress Q l d -> exists d', d' <= d /\ In (l, d') acc).

(** A door-to-door trip in the direction of [P]: begin at [T], [K] rides, reach the end at [a]. *)
Definition trip (P : params) (acc : list (nat * Z)) (T : Z) (K : nat) (a : Z) : Prop :=
  exists l, connection P (start_at P acc T) (transfer_time P) K l a.
