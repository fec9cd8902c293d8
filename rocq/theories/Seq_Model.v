(** Models of the stop sequence number codec (src/loader/gtfs/stop_seq_number_encoding.cc,
    include/nigiri/loader/gtfs/stop_seq_number_encoding.h) and of time dependent footpaths
    (include/nigiri/td_footpath.h). *)
From Coq Require Import ZArith List Bool.
From Verif Require Import Time_Model.
Import ListNotations.
Local Open Scope Z_scope.

(** ** Encoder; [stop_idx_t] is a uint16 (types.h), additions wrap. *)
(** stop_seq_number_encoding.cc:5-14 [is_based].  The loop counter is a uint16 as well; lists are assumed to be
    shorter than 65536 (stop_idx_t). *)
Fixpoint is_based (l : list Z) (start inc : Z) : bool :=
  match l with
  | [] => true
  | x :: l' => if negb (x =? start) then false else is_based l' (to_u16 (start + inc)) inc
  end.
(** :16-29 *)
Definition encode_seq_numbers (l : list Z) : list Z :=
  if is_based l 0 1 then []
  else if is_based l 1 1 then [1]
  else if is_based l 10 10 then [10]
  else l.

(** ** Decoder (stop_seq_number_encoding.h:11-176) *)
Inductive seq_type := kZeroBased | kOneBased | kTenBased | kFullySpecified | kInvalid.
(** :157-169 [type()] *)
Definition seq_type_of (enc : list Z) : seq_type :=
  match enc with
  | [] => kZeroBased
  | [x] => if x =? 1 then kOneBased else if x =? 10 then kTenBased else kInvalid
  | _ => kFullySpecified
  end.
(** :20-39 iterator: variant of [compact] and [fully_specified] (all iterators refer to the same span). *)
Inductive seq_iter := Compact (curr inc num_stops : Z) | Full (idx : nat) (seq : list Z).
(** :100-112, 22-25, 30-33 [operator==] *)
Definition iter_eqb (a b : seq_iter) : bool :=
  match a, b with
  | Compact c i n, Compact c' i' n' => (c =? c') && (i =? i') && (n =? n')
  | Full i s, Full i' s' => Nat.eqb i i' && Nat.eqb (length s) (length s')
  | _, _ => false
  end.
(** :55-60 [operator*]; [None]: read past the span *)
Definition iter_deref (a : seq_iter) : option Z :=
  match a with Compact c _ _ => Some c | Full i s => nth_error s i end.
(** :62-74 [operator++]; [None]: utl::verify failure *)
Definition iter_next (a : seq_iter) : option seq_iter :=
  match a with
  | Compact c i n => if n >=? 1 then Some (Compact (to_u16 (c + i)) i (n - 1)) else None
  | Full i s => if Nat.ltb i (length s) then Some (Full (S i) s) else None
  end.
(** :121-154 [begin], [end]; [None]: std::runtime_error{"invalid seq"} *)
Definition seq_begin (enc : list Z) (num_stops : Z) : option seq_iter :=
  match seq_type_of enc with
  | kZeroBased => Some (Compact 0 1 num_stops)
  | kOneBased => Some (Compact 1 1 num_stops)
  | kTenBased => Some (Compact 10 10 num_stops)
  | kFullySpecified => Some (Full 0 enc)
  | kInvalid => None
  end.
Definition seq_end (enc : list Z) (num_stops : Z) : option seq_iter :=
  match seq_type_of enc with
  | kZeroBased => Some (Compact num_stops 1 0)
  | kOneBased => Some (Compact (to_u16 (num_stops + 1)) 1 0)
  | kTenBased => Some (Compact (to_u16 (10 + 10 * num_stops)) 10 0)
  | kFullySpecified => Some (Full (length enc) enc)
  | kInvalid => None
  end.
(** Range based for loop over [begin, end); [fuel] bounds the number of iterations. *)
Fixpoint iterate (fuel : nat) (it e : seq_iter) : option (list Z) :=
  if iter_eqb it e then Some [] else
  match fuel with
  | O => None
  | S f =>
      match iter_deref it, iter_next it with
      | Some x, Some it' => match iterate f it' e with Some l => Some (x :: l) | None => None end
      | _, _ => None
      end
  end.
(** All numbers a caller sees for a trip with [num_stops] stops. *)
Definition decode_seq_numbers (enc : list Z) (num_stops : Z) : option (list Z) :=
  match seq_begin enc num_stops, seq_end enc num_stops with
  | Some b, Some e => iterate (Z.to_nat num_stops + length enc) b e
  | _, _ => None
  end.

(** ** Time dependent footpaths (td_footpath.h:19-68) *)
Record td_footpath := mk_td { td_target : nat; td_valid_from : Z; td_duration : Z }.
Definition kMaxTravelTimeMin : Z := 7200.       (* limits.h:11 *)

(** :31-43 forward: [Some None] would be [break]. Result: (duration, entry). *)
Fixpoint get_td_duration_fwd (c : list td_footpath) (t : Z) : option (Z * td_footpath) :=
  match c with
  | [] => None
  | i :: c' =>
      if (td_duration i =? fp_max_duration) ||
         ((td_valid_from i <? t) && match c' with [] => false | n :: _ => td_valid_from n <=? t end)
      then get_td_duration_fwd c' t
      else if td_valid_from i - t >? kMaxTravelTimeMin then None
      else Some (Z.max (td_valid_from i) t + td_duration i - t, i)
  end.
(** :45-63 backward: [next] is the entry visited before (= the following one in time), if any. *)
Fixpoint get_td_duration_bwd_rev (c : list td_footpath) (next : option td_footpath) (t : Z) : option (Z * td_footpath) :=
  match c with
  | [] => None
  | i :: c' =>
      if (td_duration i =? fp_max_duration) || (td_valid_from i + td_duration i >? t)
      then get_td_duration_bwd_rev c' (Some i) t
      else
        let latest_arr := match next with
                          | None => t
                          | Some n => Z.min t (td_valid_from n - 1 + td_duration i)
                          end in
        if t - latest_arr >? kMaxTravelTimeMin then None
        else Some (t - (latest_arr - td_duration i), i)
  end.
Definition get_td_duration_bwd (c : list td_footpath) (t : Z) := get_td_duration_bwd_rev (rev c) None t.
(** :71-78 *)
Definition get_td_duration (fwd : bool) (c : list td_footpath) (t : Z) :=
  if fwd then get_td_duration_fwd c t else get_td_duration_bwd c t.

(** :80-94 [for_each_footpath]: maximal runs of equal targets (utl::equal_ranges_linear); the callback receives
    footpath{target, duration} (C05: the duration saturates at 511). *)
Fixpoint td_groups (c : list td_footpath) : list (list td_footpath) :=
  match c with
  | [] => []
  | x :: c' =>
      match td_groups c' with
      | [] => [[x]]
      | [] :: gs => [x] :: gs
      | (y :: g) :: gs => if Nat.eqb (td_target x) (td_target y) then (x :: y :: g) :: gs else [x] :: (y :: g) :: gs
      end
  end.
Definition for_each_footpath (fwd : bool) (c : list td_footpath) (t : Z) : list (nat * Z) :=
  flat_map (fun g => match g with
                     | [] => []
                     | x :: _ => match get_td_duration fwd g t with
                                 | Some (d, _) => [(td_target x, Z.min d fp_max_duration)]
                                 | None => []
                                 end
                     end) (td_groups c).
