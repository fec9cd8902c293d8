(** Model of [nigiri::routing::pareto_set] (include/nigiri/routing/pareto_set.h:10-56). *)
From Coq Require Import List Arith.
From Verif Require Import Base.
Import ListNotations.

Section Pareto.
  (** Element type and its [dominates] member. *)
  Variable T : Type.
  Variable dom : T -> T -> bool.

  (** Result of [add]: [{false, end(), pos-of-dominating}] or [{true, pos-of-new, end()}]. *)
  Inductive add_result := Rejected (dominated_by : nat) | Added (pos : nat).

  (** pareto_set.h:18-20 [is_dominated]. *)
  Definition is_dominated (els : list T) (el : T) : bool := existsb (fun x => dom x el) els.

  (** pareto_set.h:22-37: the [for] loop over the vector, on the array itself: [i] is the loop counter,
      [n_removed] the number of elements skipped so far, [fuel] = size - i.  The in-place move
      [els_[i - n_removed] = els_[i]] is [set_nth].  An early return leaves the array as it is at that
      point, exactly as the code does. *)
  Fixpoint add_loop (fuel i n_removed : nat) (els : list T) (el : T) : list T * add_result :=
    match fuel with
    | O => (* resize(size - n_removed + 1); back() = el *)
        let keep := length els - n_removed in
        (firstn keep els ++ [el], Added keep)
    | S fuel' =>
        match nth_error els i with
        | None => (els, Added 0) (* unreachable: i < size *)
        | Some x =>
            if dom x el then (els, Rejected i)
            else if dom el x then add_loop fuel' (S i) (S n_removed) els el
            else add_loop fuel' (S i) n_removed (set_nth els (i - n_removed) x) el
        end
    end.

  (** pareto_set.h:22 [add]. *)
  Definition add (els : list T) (el : T) : list T * add_result := add_loop (length els) 0 0 els el.

  (** A history of [add] calls on a fresh set. *)
  Definition add_all (xs : list T) : list T := fold_left (fun s x => fst (add s x)) xs [].
End Pareto.
