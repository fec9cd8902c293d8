(** Model of the bucket queue and the string store. *)
From Coq Require Import List Arith Bool.
From Verif Require Import Base.
Import ListNotations.

(** * Bucket queue: include/nigiri/common/dial.h:11-80 *)
Section Dial.
  Variable T : Type.
  (** The template parameter [GetBucketFn] (dial.h:9-10). *)
  Variable bucket : T -> nat.

  (** Fields (dial.h:74-77).  [std::vector::back] is the head of a bucket list, so [emplace_back] is cons.
      Simplification: [current_bucket_] is a [nat]; it is bounded by the number of buckets, which is at most
      the range of [dist_t] for every instantiation in the code (kMaxTravelTime + 1 = 7201 < 2^16). *)
  Record dial := mk_dial { q_cur : nat; q_size : nat; q_buckets : list (list T) }.

  (** dial.h:19-24: [buckets_(max_bucket + 1)]. *)
  Definition dial_new (max_bucket : nat) : dial := mk_dial 0 0 (repeat [] (max_bucket + 1)).

  (** dial.h:26-34.  [None]: the index is out of range (assertion, undefined behaviour). *)
  Definition dial_push (d : dial) (el : T) : option dial :=
    let dist := bucket el in
    if dist <? length (q_buckets d)
    then Some (mk_dial (Nat.min (q_cur d) dist) (S (q_size d))
                       (set_nth (q_buckets d) dist (el :: nth dist (q_buckets d) [])))
    else None.

  (** dial.h:66-73: first non-empty bucket at or after [bucket]; [fuel] buckets left to look at. *)
  Fixpoint next_bucket (bs : list (list T)) (b : nat) (fuel : nat) : nat :=
    match fuel with
    | O => b
    | S fuel' => match nth b bs [] with
                 | [] => next_bucket bs (S b) fuel'
                 | _ => b
                 end
    end.
  Definition get_next_bucket (d : dial) : nat :=
    next_bucket (q_buckets d) (q_cur d) (length (q_buckets d) - q_cur d).

  (** dial.h:36-41.  [None]: empty queue (assertion). *)
  Definition dial_top (d : dial) : option (T * dial) :=
    let b := get_next_bucket d in
    match nth b (q_buckets d) [] with
    | x :: _ => Some (x, mk_dial b (q_size d) (q_buckets d))
    | [] => None
    end.

  (** dial.h:43-48.  [None]: empty queue (assertion). *)
  Definition dial_pop (d : dial) : option dial :=
    let b := get_next_bucket d in
    match nth b (q_buckets d) [] with
    | _ :: rest => Some (mk_dial b (q_size d - 1) (set_nth (q_buckets d) b rest))
    | [] => None
    end.

  (** dial.h:50-52 *)
  Definition dial_empty (d : dial) : bool := Nat.eqb (q_size d) 0.
  (** dial.h:54-60 *)
  Definition dial_clear (d : dial) : dial := mk_dial 0 0 (map (fun _ => []) (q_buckets d)).
End Dial.
Arguments mk_dial {T}. Arguments q_cur {T}. Arguments q_size {T}. Arguments q_buckets {T}.
Arguments dial_new {T}. Arguments dial_push {T}. Arguments dial_top {T}. Arguments dial_pop {T}.
Arguments dial_empty {T}. Arguments dial_clear {T}. Arguments next_bucket {T}. Arguments get_next_bucket {T}.

(** * String store: include/nigiri/string_store.h *)
Section StringStore.
  (** Strings, their equality and the hash function (string_store.h:13-33). *)
  Variable str : Type.
  Variable str_eqb : str -> str -> bool.
  Variable hash : str -> nat.

  (** [strings_] and [cache_] (string_store.h:122-123).  The hash set is a table of [n] chains of indices;
      hashing and comparing an index means hashing / comparing the string it refers to (transparent
      functors :13-33).  Growing the table is [rehash] (all entries are re-inserted). *)
  Record store := mk_store { st_strings : list str; st_slots : list (list nat) }.

  Definition slot_of (n : nat) (s : str) : nat := hash s mod n.
  Definition store_empty (n : nat) : store := mk_store [] (repeat [] n).

  (** Entry [b] of a chain is equal to the searched string (:24-26). *)
  Definition entry_eq (strings : list str) (s : str) (b : nat) : bool :=
    match nth_error strings b with Some x => str_eqb s x | None => false end.

  (** cache_.find(s) (:95, :107-110) *)
  Definition store_find (st : store) (s : str) : option nat :=
    find (entry_eq (st_strings st) s) (nth (slot_of (length (st_slots st)) s) (st_slots st) []).

  Definition slot_insert (slots : list (list nat)) (k : nat) (i : nat) : list (list nat) :=
    set_nth slots k (i :: nth k slots []).

  (** Rebuild with [n] chains: every index is hashed through the string it refers to. *)
  Definition rehash (st : store) (n : nat) : store :=
    mk_store (st_strings st)
      (fold_left (fun sl i => match nth_error (st_strings st) i with
                              | Some s => slot_insert sl (slot_of n s) i | None => sl end)
                 (concat (st_slots st)) (repeat [] n)).

  (** string_store.h:94-105; [grow] is the table size the hash set uses for this insertion. *)
  Definition store_store (grow : nat) (st : store) (s : str) : nat * store :=
    match store_find st s with
    | Some i => (i, st)
    | None =>
        let next := length (st_strings st) in
        let st1 := mk_store (st_strings st ++ [s]) (st_slots st) in       (* strings_.emplace_back(s) *)
        let st2 := if Nat.eqb grow (length (st_slots st)) then st1 else rehash st1 grow in
        (next, mk_store (st_strings st2)
                        (slot_insert (st_slots st2) (slot_of (length (st_slots st2)) s) next))
    end.

  (** string_store.h:84-88 [get], :90-92 [try_get]; the invalid index is [None]. *)
  Definition store_get (st : store) (i : nat) : option str := nth_error (st_strings st) i.
  Definition store_size (st : store) : nat := length (st_strings st).

  (** A history of stores; each insertion may choose a new table size. *)
  Definition store_run (n0 : nat) (h : list (nat * str)) : store :=
    fold_left (fun st gs => snd (store_store (fst gs) st (snd gs))) h (store_empty n0).
End StringStore.
Arguments mk_store {str}. Arguments st_strings {str}. Arguments st_slots {str}.
