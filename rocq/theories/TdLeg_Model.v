(** Model of src/routing/raptor/specify_td_offsets.cc: after the reconstruction the first and the last leg of a journey
    get the walking time of the time dependent offset that is used at that moment.
    Simplifications: td_offset (query.h:49-57) is the record of Seq_Model without a mode (the target field is not used);
    the hash maps [td_start_]/[td_dest_] are association lists with one entry per key; times and durations do not wrap
    around; the use of a leg that is not an offset (ride or footpath) is opaque. *)
From Coq Require Import ZArith List Bool.
From Verif Require Import Seq_Model.
Import ListNotations.
Local Open Scope Z_scope.

(** query.h:31-47 [offset]: target, duration, transport mode; journey.h: the other alternatives of [uses_]. *)
Inductive uses := Offset (target : nat) (duration : Z) (mode : nat) | Other (what : nat).
(** journey.h [leg] *)
Record leg := mk_leg { lg_from : nat; lg_to : nat; lg_dep : Z; lg_arr : Z; lg_uses : uses }.
Definition td_map := list (nat * list td_footpath).

Fixpoint td_find (m : td_map) (l : nat) : option (list td_footpath) :=
  match m with
  | [] => None
  | (k, v) :: m' => if Nat.eqb k l then Some v else td_find m' l
  end.

(** specify_td_offsets.cc:13-26 *)
Definition specify_first (m : td_map) (l : leg) : leg :=
  match lg_uses l with
  | Offset tgt _ mode =>
      match td_find m tgt with
      | Some offs =>
          match get_td_duration true offs (lg_dep l) with
          | Some (_, e) => mk_leg (lg_from l) (lg_to l) (lg_dep l) (lg_dep l + td_duration e) (Offset tgt (td_duration e) mode)
          | None => l
          end
      | None => l
      end
  | Other _ => l
  end.
(** :28-41 *)
Definition specify_last (m : td_map) (l : leg) : leg :=
  match lg_uses l with
  | Offset tgt _ mode =>
      match td_find m tgt with
      | Some offs =>
          match get_td_duration false offs (lg_arr l) with
          | Some (_, e) => mk_leg (lg_from l) (lg_to l) (lg_arr l - td_duration e) (lg_arr l) (Offset tgt (td_duration e) mode)
          | None => l
          end
      | None => l
      end
  | Other _ => l
  end.
Fixpoint map_last (f : leg -> leg) (l : list leg) : list leg :=
  match l with
  | [] => []
  | [x] => [f x]
  | x :: l' => x :: map_last f l'
  end.
(** :9-42: [front()] first, [back()] only if [size() > 1]. *)
Definition specify_td_offsets (td_start td_dest : td_map) (legs : list leg) : list leg :=
  match legs with
  | [] => []
  | [x] => [specify_first td_start x]
  | x :: l' => specify_first td_start x :: map_last (specify_last td_dest) l'
  end.
