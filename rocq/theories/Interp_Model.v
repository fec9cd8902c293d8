(** Model of src/loader/gtfs/trip.cc:134-201 [interpolate]: missing stop times are interpolated between the neighbouring given
    times.  Times are int16 minutes, [kInterpolate] marks a missing one.  Doubles: IEEE binary64, every operation rounds to
    nearest even (Flocq); [std::round] rounds halves away from zero. *)
From Coq Require Import List ZArith Bool Arith Reals.
From Flocq Require Import Core.
From Verif Require Import Base Time_Model.
Import ListNotations.
Local Open Scope Z_scope.

(** parse_time.h:9-10 *)
Definition kInterpolate : Z := -32768.
(** trip.h:61-63 [stop_events] *)
Record stop_events := mk_se { se_arr : Z; se_dep : Z }.
Definition rnd64 (x : R) : R := round radix2 (FLT_exp (-1074) 53) ZnearestE x.
(** trip.cc:135-147 [bound] *)
Record bound := mk_bound { b_min : Z; b_max : Z; b_min_idx : Z; b_max_idx : Z }.
(** :137-143 [bound::interpolate] *)
Definition bound_interpolate (b : bound) (idx : Z) : Z :=
  let denom := b_max_idx b - b_min_idx b in
  let p := if 0 <? denom then rnd64 (IZR (idx - b_min_idx b) / IZR denom) else 0%R in
  to_i16 (b_min b + to_i16 (ZnearestA (rnd64 (IZR (to_i16 (b_max b - b_min b)) * p)))).
(** :149-154: arrival and departure of every stop, in order. *)
Fixpoint flatten (es : list stop_events) : list Z :=
  match es with [] => [] | e :: es' => se_arr e :: se_dep e :: flatten es' end.
(** :156-166: the backward loop; element [f] belongs to stop [f / 2].  Second component: (max, max_idx) at its begin. *)
Fixpoint back_pass (f : nat) (ts : list Z) : list (Z * Z) * (Z * Z) :=
  match ts with
  | [] => ([], (0, 0))
  | t :: ts' =>
      let '(bs, (mx, mi)) := back_pass (S f) ts' in
      if t =? kInterpolate then ((mx, mi) :: bs, (mx, mi)) else ((t, -1) :: bs, (t, Z.of_nat (f / 2)))
  end.
(** :171-182: the forward loop with state (min, min_idx); [max_] of a given time is the time itself. *)
Fixpoint fwd_pass (f : nat) (ts : list Z) (mn mi : Z) : list (Z * Z) :=
  match ts with
  | [] => []
  | t :: ts' => if t =? kInterpolate then (mn, mi) :: fwd_pass (S f) ts' mn mi else (t, -1) :: fwd_pass (S f) ts' t (Z.of_nat (f / 2))
  end.
Inductive interpolate_result := kOk (es : list stop_events) | kErrorLastMissing | kErrorFirstMissing.
Definition mk_bounds (mins maxs : list (Z * Z)) : list bound :=
  map (fun x => mk_bound (fst (fst x)) (fst (snd x)) (snd (fst x)) (snd (snd x))) (combine mins maxs).
(** :187-198 *)
Fixpoint fill (idx : nat) (es : list stop_events) (bs : list bound) : list stop_events :=
  match es, bs with
  | e :: es', arr :: dep :: bs' =>
      mk_se (if se_arr e =? kInterpolate then bound_interpolate arr (Z.of_nat idx) else se_arr e)
            (if se_dep e =? kInterpolate then bound_interpolate dep (Z.of_nat idx) else se_dep e) :: fill (S idx) es' bs'
  | _, _ => []
  end.
Definition interpolate (es : list stop_events) : interpolate_result :=
  let ts := flatten es in
  let maxs := fst (back_pass 0 ts) in
  (* :167-169 *)
  if (length ts <=? 1)%nat || (snd (nth (length ts - 2) maxs (0, 0)) =? 0) then kErrorLastMissing
  else
    let last := Z.of_nat (length es) - 1 in
    let mins := fwd_pass 0 ts 0 last in
    (* :183-185 *)
    if snd (nth 1 mins (0, 0)) =? last then kErrorFirstMissing
    else kOk (fill 0 es (mk_bounds mins maxs)).
