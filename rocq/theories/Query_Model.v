(** Models of query preparation: location matching (include/nigiri/for_each_meta.h), via-stop merging, sanitising and
    flipping of queries (src/routing/query.cc) and transfer time settings
    (include/nigiri/routing/transfer_time_settings.h, search.h:102-107). *)
From Coq Require Import List ZArith Bool Arith Reals.
From Flocq Require Import Core.
From Verif Require Import Base Time_Model.
Import ListNotations.
Local Open Scope Z_scope.

(** ** Locations (include/nigiri/timetable.h:60-100): parent, children, equivalences and location type per index. *)
Record locations := mk_locs {
  ls_parent : nat -> option nat;
  ls_children : nat -> list nat;
  ls_equiv : nat -> list nat;
  ls_generated : nat -> bool }.   (* types_ == kGeneratedTrack *)

(** timetable.h:62-75 [get_root_idx]: follow parents; gives up on a cycle through [idx] or after more than 20 steps. *)
Fixpoint root_loop (fuel : nat) (L : locations) (idx l : nat) (i : nat) : nat :=
  match fuel with
  | O => l
  | S fuel' =>
      match ls_parent L l with
      | None => l
      | Some p => if Nat.eqb p idx || Nat.ltb 20 i then match ls_parent L idx with Some q => q | None => l end
                  else root_loop fuel' L idx p (S i)
      end
  end.
Definition get_root_idx (L : locations) (idx : nat) : nat := root_loop 23 L idx idx 0.

Inductive match_mode := kExact | kOnlyChildren | kEquivalent | kIntermodal.
(** for_each_meta.h:14-21 [handle_children]: two levels. *)
Definition with_children (L : locations) (l : nat) : list nat :=
  flat_map (fun c => c :: ls_children L c) (ls_children L l).
(** for_each_meta.h:9-48; the list of locations [fn] is called with, in order. *)
Definition metas (L : locations) (mode : match_mode) (l : nat) : list nat :=
  match mode with
  | kExact => [l]
  | kIntermodal => l :: filter (ls_generated L) (ls_children L l)
  | kOnlyChildren => l :: with_children L l
  | kEquivalent =>
      let root := get_root_idx L l in
      (root :: with_children L root) ++ flat_map (fun eq => eq :: with_children L eq) (ls_equiv L l)
  end.
(** for_each_meta.h:50-73 *)
Definition matches (L : locations) (mode : match_mode) (a b : nat) : bool :=
  match mode with
  | kExact => Nat.eqb a b
  | _ => Nat.eqb a b || existsb (fun c => Nat.eqb c b) (metas L mode a)
  end.

(** ** Queries (include/nigiri/routing/query.h:30-105) *)
Record offset := mk_offset { o_target : nat; o_duration : Z; o_mode : Z }.
Record td_offset := mk_tdo { tdo_from : Z; tdo_duration : Z; tdo_mode : Z }.
Record via_stop := mk_via { via_loc : nat; via_stay : Z }.

(** query.cc:32-52, the inner for loop: first adjacent pair whose second location matches the first; duration_t is a
    16 bit minute count, [+=] wraps. *)
Fixpoint merge_first (L : locations) (vs : list via_stop) : option (list via_stop) :=
  match vs with
  | a :: ((b :: rest) as tl) =>
      if matches L kEquivalent (via_loc a) (via_loc b)
      then Some (mk_via (via_loc a) (to_i16 (via_stay a + via_stay b)) :: rest)
      else match merge_first L tl with Some tl' => Some (a :: tl') | None => None end
  | _ => None
  end.
(** query.cc:33-51, the outer while loop; [None] if it has not finished after [fuel] iterations. *)
Fixpoint sanitize_via_loop (fuel : nat) (L : locations) (vs : list via_stop) : option (list via_stop) :=
  match fuel with
  | O => None
  | S fuel' => match merge_first L vs with Some vs' => sanitize_via_loop fuel' L vs' | None => Some vs end
  end.
(** One iteration per merge plus the final one. *)
Definition sanitize_via_stops (L : locations) (vs : list via_stop) : option (list via_stop) :=
  sanitize_via_loop (S (length vs)) L vs.

(** query.cc:26-30, limits.h:10 *)
Definition sanitize_travel_time (t : Z) : Z := if (t <? 0) || (7200 <? t) then 7200 else t.

(** utl::sort(start_), utl::sort(destination_) (query.cc:65-66) with offset::operator< (query.h:42-44): order by
    duration.  std::sort leaves the order of equal durations open; modelled by a stable insertion sort. *)
Fixpoint insert_offset (o : offset) (l : list offset) : list offset :=
  match l with [] => [o] | x :: r => if o_duration o <? o_duration x then o :: l else x :: insert_offset o r end.
Definition sort_offsets (l : list offset) : list offset := fold_left (fun acc o => insert_offset o acc) l [].

(** The fields of [query] that flip_dir and sanitize read or write; [q_rest] stands for all other members (start time,
    transfer limit, profile, filters, ...), which no function below touches. *)
Record query (rest : Type) := mk_query {
  q_start_mode : match_mode; q_dest_mode : match_mode;
  q_use_start_footpaths : bool;
  q_start : list offset; q_dest : list offset;
  q_td_start : list (nat * list td_offset); q_td_dest : list (nat * list td_offset);
  q_max_travel_time : Z;
  q_via : list via_stop;
  q_rest : rest }.
Arguments mk_query {rest}. Arguments q_start_mode {rest}. Arguments q_dest_mode {rest}. Arguments q_use_start_footpaths {rest}.
Arguments q_start {rest}. Arguments q_dest {rest}. Arguments q_td_start {rest}. Arguments q_td_dest {rest}.
Arguments q_max_travel_time {rest}. Arguments q_via {rest}. Arguments q_rest {rest}.

(** query.cc:54-59 *)
Definition flip_dir {rest} (q : query rest) : query rest :=
  mk_query (q_dest_mode q) (q_start_mode q) (q_use_start_footpaths q) (q_dest q) (q_start q) (q_td_dest q) (q_td_start q)
           (q_max_travel_time q) (rev (q_via q)) (q_rest q).

(** query.cc:61-67; [None] = exception ("intermodal start is incompatible with use_start_footpaths") or no termination. *)
Definition is_intermodal (m : match_mode) : bool := match m with kIntermodal => true | _ => false end.
Definition sanitize {rest} (L : locations) (q : query rest) : option (query rest) :=
  if is_intermodal (q_start_mode q) && q_use_start_footpaths q then None
  else match sanitize_via_stops L (q_via q) with
       | None => None
       | Some via =>
           Some (mk_query (q_start_mode q) (q_dest_mode q) (q_use_start_footpaths q) (sort_offsets (q_start q))
                          (sort_offsets (q_dest q)) (q_td_start q) (q_td_dest q)
                          (sanitize_travel_time (q_max_travel_time q)) via (q_rest q))
       end.

(** ** Transfer time settings.  Floats are IEEE binary32: [rnd32] is rounding to nearest even with 24 bit precision and
    minimal exponent -149 (Flocq); overflow to infinity is not modelled. *)
Definition rnd32 (x : R) : R := round radix2 (FLT_exp (-149) 24) ZnearestE x.
Record tts := mk_tts { t_default : bool; t_min : Z; t_add : Z; t_factor : R }.

(** transfer_time_settings.h:19-31 / 33-48.  [cast] is the conversion to T (or Rep): the identity for int as long as values
    stay in range, [to_i16] for duration_t, [to_u8] for the uint8_t count of a u8_minutes transfer time. *)
Definition to_u8 (z : Z) : Z := z mod 256.
Definition adjusted_transfer_time (cast : Z -> Z) (s : tts) (d : Z) : Z :=
  if t_default s then d
  else cast (cast (t_add s) + Z.max (cast (t_min s)) (cast (Ztrunc (rnd32 (rnd32 (IZR d) * t_factor s))))).

(** search.h:102-107: normalisation in search::init. *)
Definition init_tts (s : tts) : tts :=
  let f := Rmax (t_factor s) 1 in
  let mn := Z.max (t_min s) 0 in
  let ad := Z.max (t_add s) 0 in
  mk_tts ((if Req_EM_T f 1 then true else false) && (mn =? 0) && (ad =? 0)) mn ad f.

(** transfer_time_settings.h:8-12 [operator==]; note that [additional_time_] of the left operand is compared to itself. *)
Definition tts_eq (a b : tts) : bool :=
  eqb (t_default a) (t_default b) ||
  ((t_min a =? t_min b) && (t_add a =? t_add a) && (if Req_EM_T (t_factor a) (t_factor b) then true else false)).
