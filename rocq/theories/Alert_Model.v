(** Model of service alerts: src/rt/gtfsrt_alert.cc (handle_alert) and include/nigiri/rt/service_alert.h (get_alerts).
    Ids are [nat], an [invalid()] index is [None]; strings and translations are one opaque payload per alert. *)
From Coq Require Import List ZArith Lia Bool Arith.
From Verif Require Import Base Time_Model Calendar_Model Query_Model Rt_Model.
Import ListNotations.
Local Open Scope Z_scope.

(** transit_realtime::EntitySelector after the lookups of its ids in the timetable:
    [e_stop], [e_route], [e_agency]: None = field absent, Some None = id not found;
    [e_trip]: None = absent, Some f = [f rtt] is what gtfsrt_resolve_run finds in the current real-time timetable
    (None: no valid run); route types are int32, direction ids uint32. *)
Record entity := {
  e_stop : option (option nat);
  e_trip : option (rtt -> option run);
  e_route : option (option nat); e_dir : option Z;
  e_agency : option (option nat); e_type : option Z }.
(** transit_realtime::Alert; periods are (start, end) in minutes, [end] = 0 if absent; [al_text]: all texts, images, cause,
    effect, severity. *)
Record alert := { al_entities : list entity; al_active : list (Z * Z); al_comm : list (Z * Z); al_impact : list (Z * Z); al_text : nat }.
(** service_alert.h:82-146, 148-168 [alerts]; [by_direction] = None: any.  [al_types]: per source one list per route type
    (paged_vecvec, so [resize] can shorten it). *)
Record alerts := {
  as_rt : nat -> list (option nat * nat);
  as_route : nat -> nat -> list (option Z * option nat * nat);
  as_agency : nat -> list (option Z * option nat * nat);
  as_type : nat -> list (list (option nat * nat));
  as_loc : nat -> list nat;
  as_comm : list (list (Z * Z)); as_impact : list (list (Z * Z)); as_text : list nat }.
Definition no_alerts : alerts :=
  {| as_rt := fun _ => []; as_route := fun _ _ => []; as_agency := fun _ => []; as_type := fun _ => []; as_loc := fun _ => [];
     as_comm := []; as_impact := []; as_text := [] |}.
(** route_type_t is uint16_t (65535 = invalid), direction_id_t uint8_t (255 = invalid). *)
Definition to_type (z : Z) : option Z := if z mod 65536 =? 65535 then None else Some (z mod 65536).
Definition to_dir (z : Z) : option Z := if z mod 256 =? 255 then None else Some (z mod 256).

(** What one informed entity is stored as (gtfsrt_alert.cc:95-174). *)
Inductive selector :=
| SelTrip (rt : nat) (stop : option nat)
| SelRoute (src r : nat) (dir : option Z) (stop : option nat)
| SelAgency (ag : nat) (ty : option Z) (stop : option nat)
| SelType (src : nat) (ty : Z) (stop : option nat)
| SelStop (stop : nat).
(** gtfsrt_alert.cc:96-170: the lookups of one entity; a trip without a real-time twin gets one (add_rt_transport). *)
Definition resolve_entity (tt : stt) (r : rtt) (src : nat) (e : entity) : rtt * option selector :=
  match e_stop e with
  | Some None => (r, None)
  | es =>
      let stop := match es with Some s => s | None => None end in
      match e_trip e with
      | Some f =>
          match f r with
          | None => (r, None)
          | Some x =>
              match r_rt x with
              | Some i => (r, Some (SelTrip i stop))
              | None => let '(r', i) := add_rt_transport tt r src (r_t x) [] [] None in (r', Some (SelTrip i stop))
              end
          end
      | None =>
          match e_route e with
          | Some None => (r, None)
          | Some (Some ro) => (r, Some (SelRoute src ro (match e_dir e with Some d => to_dir d | None => None end) stop))
          | None =>
              match e_agency e with
              | Some None => (r, None)
              | Some (Some ag) => (r, Some (SelAgency ag (match e_type e with Some t => to_type t | None => None end) stop))
              | None =>
                  match e_type e with
                  | Some t => if (1702 <? t) || (t <? 0) then (r, None) else (r, Some (SelType src t stop))
                  | None => match stop with Some s => (r, Some (SelStop s)) | None => (r, None) end
                  end
              end
          end
      end
  end.
(** gtfsrt_alert.cc:119-167: the push_back of one resolved entity.  [route_type_[src].resize(route_type + 1)] cuts or
    extends the list (gtfsrt_alert.cc:162). *)
Definition resize {A : Type} (l : list (list A)) (n : nat) : list (list A) := firstn n l ++ repeat [] (n - length l).
Definition push_nth {A : Type} (l : list (list A)) (i : nat) (x : A) : list (list A) := set_nth l i (nth i l [] ++ [x]).
Definition push (a : alerts) (i : nat) (s : selector) : alerts :=
  match s with
  | SelTrip rt stop =>
      {| as_rt := upd (as_rt a) rt (as_rt a rt ++ [(stop, i)]); as_route := as_route a; as_agency := as_agency a; as_type := as_type a; as_loc := as_loc a;
         as_comm := as_comm a; as_impact := as_impact a; as_text := as_text a |}
  | SelRoute src r d stop =>
      {| as_rt := as_rt a; as_route := upd (as_route a) src (upd (as_route a src) r (as_route a src r ++ [(d, stop, i)])); as_agency := as_agency a; as_type := as_type a;
         as_loc := as_loc a; as_comm := as_comm a; as_impact := as_impact a; as_text := as_text a |}
  | SelAgency ag ty stop =>
      {| as_rt := as_rt a; as_route := as_route a; as_agency := upd (as_agency a) ag (as_agency a ag ++ [(ty, stop, i)]); as_type := as_type a; as_loc := as_loc a;
         as_comm := as_comm a; as_impact := as_impact a; as_text := as_text a |}
  | SelType src ty stop =>
      {| as_rt := as_rt a; as_route := as_route a; as_agency := as_agency a;
         as_type := upd (as_type a) src (push_nth (resize (as_type a src) (S (Z.to_nat ty))) (Z.to_nat ty) (stop, i)); as_loc := as_loc a;
         as_comm := as_comm a; as_impact := as_impact a; as_text := as_text a |}
  | SelStop s =>
      {| as_rt := as_rt a; as_route := as_route a; as_agency := as_agency a; as_type := as_type a; as_loc := upd (as_loc a) s (as_loc a s ++ [i]);
         as_comm := as_comm a; as_impact := as_impact a; as_text := as_text a |}
  end.
Fixpoint resolve_entities (tt : stt) (r : rtt) (src : nat) (es : list entity) : rtt * list selector :=
  match es with
  | [] => (r, [])
  | e :: t =>
      let '(r1, s) := resolve_entity tt r src e in
      let '(r2, ss) := resolve_entities tt r1 src t in
      (r2, match s with Some x => x :: ss | None => ss end)
  end.
(** gtfsrt_alert.cc:77-300 handle_alert: the index is the number of communication periods so far; nothing else is stored if
    no entity was resolved.  (The pushes of different entities do not look at each other, so they are done after all lookups.) *)
Definition handle_alert (tt : stt) (st : rtt * alerts) (src : nat) (a : alert) : rtt * alerts :=
  let i := length (as_comm (snd st)) in
  let '(r, sels) := resolve_entities tt (fst st) src (al_entities a) in
  match sels with
  | [] => (r, snd st)
  | _ =>
      let b := fold_left (fun b s => push b i s) sels (snd st) in
      (r, {| as_rt := as_rt b; as_route := as_route b; as_agency := as_agency b; as_type := as_type b; as_loc := as_loc b;
             as_comm := as_comm b ++ [match al_comm a with [] => al_active a | c => c end];
             as_impact := as_impact b ++ [match al_impact a with [] => al_active a | c => c end];
             as_text := as_text b ++ [al_text a] |})
  end.
(** Alerts of several feeds, one after the other. *)
Definition handle_alerts (tt : stt) (st : rtt * alerts) (h : list (nat * alert)) : rtt * alerts :=
  fold_left (fun st e => handle_alert tt st (fst e) (snd e)) h st.

(** service_alert.h:82-146 get_alerts.  [q_parent]: locations_.parents_; [q_route], [q_type], [q_agency], [q_dir]: route id,
    route type, agency of the route and direction bit of the trip. *)
Record query := { q_src : nat; q_route : nat; q_type : Z; q_agency : nat; q_dir : Z; q_rt : option nat; q_loc : option nat; q_fuzzy : bool }.
Definition oeq (a b : option nat) : bool := match a, b with Some x, Some y => Nat.eqb x y | None, None => true | _, _ => false end.
Definition matches_location (parent : nat -> option nat) (q : query) (x : option nat) : bool :=
  let p := match q_loc q with Some l => parent l | None => None end in
  let g := match p with Some p => parent p | None => None end in
  (if q_fuzzy q then oeq x None || oeq x (q_loc q) else oeq x (q_loc q)) ||
  (match p with Some _ => oeq p x | None => false end) || (match g with Some _ => oeq g x | None => false end).
Definition opt_is (a : option Z) (v : Z) : bool := match a with None => true | Some x => x =? v end.
(** The result is a set: a list here. *)
Definition get_alerts (parent : nat -> option nat) (a : alerts) (q : query) : list nat :=
  match q_rt q with Some rt => map snd (filter (fun e => matches_location parent q (fst e)) (as_rt a rt)) | None => [] end ++
  map snd (filter (fun e => opt_is (fst (fst e)) (q_dir q) && matches_location parent q (snd (fst e))) (as_route a (q_src q) (q_route q))) ++
  map snd (filter (fun e => opt_is (fst (fst e)) (q_type q) && matches_location parent q (snd (fst e))) (as_agency a (q_agency q))) ++
  match q_loc q with
  | Some l => as_loc a l ++ match parent l with Some p => as_loc a p | None => [] end
  | None => []
  end.
