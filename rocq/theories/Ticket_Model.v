(** Model of the lookup of agencies (src/timetable.cc:169-186,
    src/loader/register.cc:722-729, src/loader/init_finish.cc:214-221) and of
    the ticketing extension (src/loader/gtfs/ticketing.cc). *)
From Coq Require Import ZArith List Lia Bool.
Import ListNotations.
Local Open Scope Z_scope.

(** string_store: strings (as numbers) by index (C09) *)
Fixpoint find_string (ss : list Z) (s : Z) (i : nat) : option nat :=
  match ss with
  | [] => None
  | x :: t => if x =? s then Some i else find_string t s (i + 1)
  end.
Definition store_string (ss : list Z) (s : Z) : list Z * nat :=
  match find_string ss s 0 with
  | Some i => (ss, i)
  | None => (ss ++ [s], length ss)
  end.

(** provider: source and string index of the id *)
Definition provider := (nat * nat)%type.
(** tuple {src, id} < {src, id} *)
Definition key_lt (a b : nat * nat) : bool :=
  Nat.ltb (fst a) (fst b) || (Nat.eqb (fst a) (fst b) && Nat.ltb (snd a) (snd b)).

(** The part of the timetable used here: strings, providers,
    provider_id_to_idx_. *)
Record tt := TT { strings : list Z; providers : list provider; by_id : list nat }.

(** register_agency, register.cc:722-729 *)
Definition register_agency (t : tt) (src : nat) (id : Z) : tt :=
  let '(ss, i) := store_string (strings t) id in
  TT ss (providers t ++ [(src, i)]) (by_id t ++ [length (providers t)]).

(** std::lower_bound over [first, first + len), with the comparison of the
    element as a function of its position *)
Fixpoint lower_bound (fuel : nat) (less : nat -> bool) (first len : nat) : nat :=
  match fuel with
  | O => first
  | S f =>
    match len with
    | O => first
    | _ => let half := Nat.div len 2 in
           let mid := (first + half)%nat in
           if less mid then lower_bound f less (mid + 1) (len - half - 1)
           else lower_bound f less first half
    end
  end.

(** get_provider_idx, timetable.cc:169-186; None is invalid() *)
Definition get_provider_idx (t : tt) (id : Z) (src : nat) : option nat :=
  match find_string (strings t) id 0 with
  | None => None
  | Some i =>
    let prov k := nth (nth k (by_id t) 0%nat) (providers t) (0%nat, 0%nat) in
    let it := lower_bound (length (by_id t)) (fun k => key_lt (prov k) (src, i)) 0 (length (by_id t)) in
    if Nat.eqb it (length (by_id t)) then None
    else if Nat.eqb (fst (prov it)) src && Nat.eqb (snd (prov it)) i
         then Some (nth it (by_id t) 0%nat) else None
  end.

(** finalize, init_finish.cc:214-221: std::sort puts the entries in some order
    that ascends. *)
Definition finalized (t t' : tt) (order : list nat) : Prop :=
  t' = TT (strings t) (providers t) order.

(** ticketing_identifiers.txt: ticketing_stop_id, stop_id, agency_id *)
Record irow := IRow { i_ticket : Z; i_stop : Z; i_agency : Z }.

Section Ticketing.
  (** stops_map_t *)
  Variable stops : Z -> option nat.
  (** any result of utl::sort by provider (ticketing.cc:47) *)
  Variable sort_bucket : list (option nat * Z) -> list (option nat * Z).

  (** ticketing.cc:34-43; string indices as the strings *)
  Definition add_identifier (t : tt) (src : nat) (ids : nat -> list (option nat * Z)) (r : irow)
    : nat -> list (option nat * Z) :=
    match stops (i_stop r) with
    | None => ids
    | Some l => fun l' => if Nat.eqb l' l then ids l' ++ [(get_provider_idx t (i_agency r) src, i_ticket r)]
                          else ids l'
    end.

  (** read_ticketing_identifiers, ticketing.cc:20-49, buckets empty before *)
  Definition read_identifiers (t : tt) (src : nat) (rows : list irow) : nat -> list (option nat * Z) :=
    let ids := fold_left (add_identifier t src) rows (fun _ => []) in
    fun l => sort_bucket (ids l).
End Ticketing.

(** ticketing_deep_links.txt: id and urls *)
Definition lrow := (Z * (Z * Z * Z))%type.

(** read_ticketing_deep_links, ticketing.cc:51-82: the links of the timetable
    grow by one per row; emplace keeps the first row of an id. *)
Fixpoint link_map (rows : list lrow) (next : nat) : list (Z * nat) :=
  match rows with
  | [] => []
  | (id, _) :: t => (id, next) :: link_map t (next + 1)
  end.
Fixpoint at_ (m : list (Z * nat)) (id : Z) : option nat :=
  match m with
  | [] => None
  | (k, v) :: t => if k =? id then Some v else at_ t id
  end.
Definition read_links (links : list (Z * Z * Z)) (rows : list lrow) : list (Z * Z * Z) * list (Z * nat) :=
  (links ++ map snd rows, link_map rows (length links)).

(** The link of a route, ticketing.cc:107-112: Some None = none, None = the
    exception of at() *)
Definition route_link (m : list (Z * nat)) (deep_link : option Z) : option (option nat) :=
  match deep_link with
  | None => Some None
  | Some id => match at_ m id with Some i => Some (Some i) | None => None end
  end.
