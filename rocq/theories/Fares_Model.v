(** Model of fares: src/fares.cc (get_fares) and the parts of src/loader/gtfs/fares.cc that build the tables it
    reads.  Ids are [nat], an [invalid()] id is [None]; times are minutes ([Z]). *)
From Coq Require Import List ZArith Lia Bool Arith.
From Verif Require Import Base.
Import ListNotations.
Local Open Scope Z_scope.

(** include/nigiri/fares.h:55-70 [fares::fare_leg_rule]. *)
Record leg_rule := {
  lr_prio : Z;
  lr_net : option nat;
  lr_from : option nat; lr_to : option nat;        (* areas *)
  lr_ftf : option nat; lr_ttf : option nat;        (* timeframe groups *)
  lr_product : nat;                                 (* the loader drops rules without a product (loader/gtfs/fares.cc:178-183) *)
  lr_group : option nat;
  lr_exact : option nat; lr_contains : option nat  (* area sets *)
}.
(** fares.h:72-78 [fares::fare_leg_join_rule]. *)
Record join_rule := { jr_from_net : nat; jr_to_net : nat; jr_from_stop : option nat; jr_to_stop : option nat }.
(** fares.h:86-91 [duration_limit_type]. *)
Inductive limit_type := CurrDepNextArr | CurrDepNextDep | CurrArrNextDep | CurrArrNextArr.
(** fares.h:80-113 [fares::fare_transfer_rule] ([fare_transfer_type], [fare_product] are only copied to the output). *)
Record transfer_rule := {
  tr_from : option nat; tr_to : option nat;         (* leg groups *)
  tr_count : Z;                                     (* int8_t, -1 = no limit *)
  tr_limit : option Z; tr_limit_type : limit_type;  (* None = kNoDurationLimit *)
  tr_product : option nat
}.
(** fares.h:121-126 [timeframe]: minutes of the day and service days. *)
Record timeframe := { tf_start : Z; tf_end : Z; tf_service : list bool }.
(** fares.h:148-153 [fare_leg_rule_key]. *)
Record rule_key := { k_net : option nat; k_from : option nat; k_to : option nat; k_ftf : option nat; k_ttf : option nat }.
(** fares.h:158-179: the members of [fares] that get_fares reads.  [fs_rider], [fs_amount], [fs_name]: rider category,
    amount and name of the FIRST entry of a product (fares.cc:539-540 [.front()]); amounts are floats in the code,
    integers here; names are compared as strings in the code, by an integer rank here. *)
Record fares := {
  fs_groups : list (list leg_rule);
  fs_keys : list (rule_key * nat);
  fs_joins : list join_rule;
  fs_transfers : list transfer_rule;
  fs_frames : list (list timeframe);
  fs_sets : nat -> list nat;
  fs_cnets : list nat; fs_cfroms : list nat; fs_ctos : list nat;
  fs_rider : nat -> option nat; fs_rider_default : nat -> bool;
  fs_amount : nat -> Z; fs_name : nat -> Z
}.
(** The timetable: parents, areas, timezone of a stop, [tt_local tz t] = local minutes since the epoch of a unixtime
    (to_local_time), the first day of the timetable (internal_interval_days().from_). *)
Record ftt := {
  ft_parent : nat -> option nat;
  ft_areas : nat -> list nat;
  ft_stop_tz : nat -> option nat;
  ft_local : nat -> Z -> Z;
  ft_first : Z;
  ft_fares : nat -> fares
}.
(** A transit leg of a journey (journey.h run_enter_exit) with the data get_fares reads through rt::frun:
    [l_sched] is_scheduled, [l_src] source of the trip, [l_net] get_network (fares.cc:212-219), [l_stops] the
    locations of the stop range [from_, to_), [l_tz] timezone of the provider of its first section,
    [l_dep], [l_arr] the leg's dep_time_/arr_time_, [l_fdep], [l_farr] the times the run reports at the two stops. *)
Record leg := {
  l_id : nat; l_sched : bool; l_src : nat; l_net : option nat; l_stops : list nat; l_tz : nat;
  l_dep : Z; l_arr : Z; l_fdep : Z; l_farr : Z
}.
Definition oeqb (a b : option nat) : bool :=
  match a, b with Some x, Some y => Nat.eqb x y | None, None => true | _, _ => false end.
Definition memb (x : nat) (l : list nat) : bool := existsb (Nat.eqb x) l.

(** * Loading: loader/gtfs/fares.cc:161-272 *)
(** [find(m, id)].value_or(invalid()): an id that does not exist is loaded like an empty field. *)
Definition find_id (m : list (nat * nat)) (id : option nat) : option nat :=
  match id with None => None | Some s => option_map snd (find (fun kv => Nat.eqb (fst kv) s) m) end.
Definition key_of (r : leg_rule) : rule_key :=
  {| k_net := lr_net r; k_from := lr_from r; k_to := lr_to r; k_ftf := lr_ftf r; k_ttf := lr_ttf r |}.
(** fares.h:61 / hashing of the key: member-wise equality. *)
Definition key_eqb (a b : rule_key) : bool :=
  oeqb (k_net a) (k_net b) && oeqb (k_from a) (k_from b) && oeqb (k_to a) (k_to b) &&
  oeqb (k_ftf a) (k_ftf b) && oeqb (k_ttf a) (k_ttf b).
Definition find_key (ks : list (rule_key * nat)) (k : rule_key) : option nat :=
  option_map snd (find (fun e => key_eqb (fst e) k) ks).
Definition push_at (l : list (list leg_rule)) (i : nat) (r : leg_rule) : list (list leg_rule) :=
  firstn i l ++ (nth i l [] ++ [r]) :: skipn (S i) l.
(** loader/gtfs/fares.cc:240-252: get_or_create of the key's group, then push_back. *)
Definition add_rule (s : list (rule_key * nat) * list (list leg_rule)) (r : leg_rule) :=
  let '(ks, gs) := s in
  match find_key ks (key_of r) with
  | Some i => (ks, push_at gs i r)
  | None => (ks ++ [(key_of r, length gs)], push_at (gs ++ [[]]) (length gs) r)
  end.
(** loader/gtfs/fares.cc:233-270 ([utl::sort] of the rules by priority before is left out: nothing below depends on
    the order of the rules).  [has_priority]: the file has a rule_priority column. *)
Definition load_groups (rules : list leg_rule) := fold_left add_rule rules ([], []).
Definition somes (l : list (option nat)) : list nat := flat_map (fun o => match o with Some x => [x] | None => [] end) l.
Definition load_rules (f : fares) (has_priority : bool) (rules : list leg_rule) : fares :=
  let '(ks, gs) := load_groups rules in
  {| fs_groups := gs; fs_keys := ks; fs_joins := fs_joins f; fs_transfers := fs_transfers f; fs_frames := fs_frames f;
     fs_sets := fs_sets f;
     fs_cnets := if has_priority then [] else somes (map lr_net rules);
     fs_cfroms := if has_priority then [] else somes (map lr_from rules);
     fs_ctos := if has_priority then [] else somes (map lr_to rules);
     fs_rider := fs_rider f; fs_rider_default := fs_rider_default f; fs_amount := fs_amount f; fs_name := fs_name f |}.
(** loader/gtfs/fares.cc:515-550: static_cast<int8_t> of the count, seconds to minutes; a row with count 0 is dropped. *)
Definition to_int8 (z : Z) : Z := (z + 128) mod 256 - 128.
Definition load_transfer (fg tg : option nat) (count limit : option Z) (lt : limit_type) (p : option nat) : option transfer_rule :=
  if match count with Some c => c =? 0 | None => false end then None
  else Some {| tr_from := fg; tr_to := tg; tr_count := to_int8 (match count with Some c => c | None => -1 end);
               tr_limit := option_map (fun s => Z.quot s 60) limit; tr_limit_type := lt; tr_product := p |}.

(** * Effective legs: fares.cc:206-320 *)
Definition parent_of (tt : ftt) (l : nat) : nat := match ft_parent tt l with Some p => p | None => l end.
(** fares.cc:221-225 get_areas. *)
Definition areas_of (tt : ftt) (l : nat) : list nat :=
  match ft_areas tt l with [] => ft_areas tt (parent_of tt l) | a => a end.
Definition first_stop (l : leg) : nat := hd O (l_stops l).
Definition last_stop (l : leg) : nat := last (l_stops l) O.
Definition is_stop (o : option nat) (station stop : nat) : bool :=
  match o with Some x => Nat.eqb x station || Nat.eqb x stop | None => false end.
(** fares.cc:227-269 join; the rules come from the source of the first leg. *)
Definition join (tt : ftt) (a b : leg) : bool :=
  if negb (l_sched a) || negb (l_sched b) then false
  else match l_net a, l_net b with
       | Some na, Some nb =>
           let fs := last_stop a in let ts := first_stop b in
           existsb (fun jr =>
             (Nat.eqb (jr_from_net jr) na && Nat.eqb (jr_to_net jr) nb) &&
             ((match jr_from_stop jr, jr_to_stop jr with None, None => true | _, _ => false end) ||
              (is_stop (jr_from_stop jr) (parent_of tt fs) fs && is_stop (jr_to_stop jr) (parent_of tt ts) ts)))
             (fs_joins (ft_fares tt (l_src a)))
       | _, _ => false
       end.
(** fares.cc:283-299 has_equal_src ([a_l == b_l] compares pointers: [l_id] is the position in the journey). *)
Definition equal_src (a b : leg) : bool :=
  if negb (l_sched a) || negb (l_sched b) then Nat.eqb (l_id a) (l_id b) else Nat.eqb (l_src a) (l_src b).
(** utl::equal_ranges_linear: maximal ranges of elements that are equal to the first one of the range. *)
Section Ranges.
  Context {A : Type}.
  Variable eq : A -> A -> bool.
  Fixpoint span (p : A -> bool) (l : list A) : list A * list A :=
    match l with
    | [] => ([], [])
    | x :: t => if p x then let '(a, b) := span p t in (x :: a, b) else ([], l)
    end.
  Fixpoint ranges (fuel : nat) (l : list A) : list (list A) :=
    match fuel, l with
    | S n, x :: t => let '(a, b) := span (eq x) t in (x :: a) :: ranges n b
    | _, _ => []
    end.
  Definition equal_ranges (l : list A) : list (list A) := ranges (length l) l.
End Ranges.
(** fares.cc:301-318: walk over one range, [cur] = the legs since [join_from] (reversed). *)
Fixpoint join_range (tt : ftt) (cur : list leg) (pred : leg) (l : list leg) : list (list leg) :=
  match l with
  | [] => [rev cur]
  | x :: t => if join tt pred x then join_range tt (x :: cur) x t else rev cur :: join_range tt [x] x t
  end.
Definition join_legs (tt : ftt) (legs : list leg) : list (list leg) :=
  flat_map (fun r => match r with [] => [] | x :: t => join_range tt [x] x t end) (equal_ranges equal_src legs).

(** * Matching leg rules: fares.cc:322-563 *)
(** fares.cc:322-353 match_timeframe: the FIRST timeframe group with a timeframe that covers the local time. *)
Definition in_frame (tt : ftt) (tz : nat) (time : Z) (tf : timeframe) : bool :=
  let local := ft_local tt tz time in
  let day := local / 1440 in
  let base := ft_local tt tz (ft_first tt) / 1440 in
  (day * 1440 + tf_start tf <=? local) && (local <? day * 1440 + tf_end tf) &&
  (0 <=? day - base) && nth (Z.to_nat (day - base)) (tf_service tf) false.
Fixpoint first_frame (tt : ftt) (tz : nat) (time : Z) (i : nat) (fr : list (list timeframe)) : option nat :=
  match fr with
  | [] => None
  | g :: t => if existsb (in_frame tt tz time) g then Some i else first_frame tt tz time (S i) t
  end.
Definition frame_tz (tt : ftt) (stop tz : nat) : nat := match ft_stop_tz tt stop with Some z => z | None => tz end.
Definition match_timeframe (tt : ftt) (f : fares) (stop tz : nat) (time : Z) : option nat :=
  first_frame tt (frame_tz tt stop tz) time 0 (fs_frames f).
(** fares.cc:406-445 has_area / has_other_area over all stops of all joined legs. *)
Definition all_stops (e : list leg) : list nat := flat_map l_stops e.
Definition has_area (tt : ftt) (e : list leg) (x : nat) : bool := existsb (fun s => memb x (areas_of tt s)) (all_stops e).
Definition has_other_area (tt : ftt) (e : list leg) (xs : list nat) : bool :=
  existsb (fun s => existsb (fun a => negb (memb a xs)) (areas_of tt s)) (all_stops e).
(** fares.cc:458-466 area_set_matches. *)
Definition area_set_matches (tt : ftt) (f : fares) (e : list leg) (r : leg_rule) : bool :=
  match lr_contains r with None => true | Some s => forallb (has_area tt e) (fs_sets f s) end &&
  match lr_exact r with
  | None => true
  | Some s => forallb (has_area tt e) (fs_sets f s) && negb (has_other_area tt e (fs_sets f s))
  end.
(** fares.cc:468-480, 492-506: [array{x, invalid} | take(num_opts)]. *)
Definition opts (v : option nat) (concrete : list nat) : list (option nat) :=
  match v with Some x => if memb x concrete then [v] else [v; None] | None => [None] end.
Definition tf_opts (v : option nat) : list (option nat) := match v with Some _ => [v; None] | None => [None] end.
(** fares.cc:447-456 for_each_area. *)
Definition area_opts (tt : ftt) (l : nat) : list (option nat) :=
  match areas_of tt l with [] => [None] | a => map Some a end.
Definition rules_of (f : fares) (k : rule_key) : list leg_rule :=
  match find_key (fs_keys f) k with Some i => nth i (fs_groups f) [] | None => [] end.
(** fares.cc:391-404 network, timeframes; 482-532 the nested loops. *)
Definition leg_net (e : list leg) (d : leg) : option nat :=
  let a := l_net (hd d e) in let b := l_net (last e d) in if oeqb a b then a else None.
Definition candidates (tt : ftt) (f : fares) (e : list leg) (d : leg) : list leg_rule :=
  let a := hd d e in let b := last e d in
  let ftf := match_timeframe tt f (first_stop a) (l_tz a) (l_fdep a) in
  let ttf := match_timeframe tt f (last_stop b) (l_tz b) (l_farr b) in
  flat_map (fun from_area => flat_map (fun to_area =>
    flat_map (fun nw => flat_map (fun fa => flat_map (fun ta => flat_map (fun ftg => flat_map (fun ttg =>
      filter (area_set_matches tt f e)
        (rules_of f {| k_net := nw; k_from := fa; k_to := ta; k_ftf := ftg; k_ttf := ttg |}))
      (tf_opts ttf)) (tf_opts ftf)) (opts to_area (fs_ctos f))) (opts from_area (fs_cfroms f)))
      (opts (leg_net e d) (fs_cnets f)))
    (area_opts tt (last_stop b))) (area_opts tt (first_stop a)).
(** fares.cc:533-553: the comparison (rules loaded from a feed always have a product): (-priority, rider category is
    not the default one, rider category, amount, name).  An invalid rider category is the largest index. *)
Definition rider_key (f : fares) (r : leg_rule) : Z :=
  match fs_rider f (lr_product r) with Some c => Z.of_nat c | None => 4294967295 end.
Definition not_default (f : fares) (r : leg_rule) : Z :=
  match fs_rider f (lr_product r) with Some c => if fs_rider_default f c then 0 else 1 | None => 1 end.
Definition sort_key (f : fares) (r : leg_rule) : list Z :=
  [- lr_prio r; not_default f r; rider_key f r; fs_amount f (lr_product r); fs_name f (lr_product r)].
Fixpoint lexlt (a b : list Z) : bool :=
  match a, b with
  | x :: s, y :: t => (x <? y) || ((x =? y) && lexlt s t)
  | _, _ => false
  end.
(** [utl::sort] = std::sort: insertion sort here. *)
Fixpoint insert (f : fares) (r : leg_rule) (l : list leg_rule) : list leg_rule :=
  match l with
  | [] => [r]
  | x :: t => if lexlt (sort_key f x) (sort_key f r) then x :: insert f r t else r :: l
  end.
Definition sort_rules (f : fares) (l : list leg_rule) : list leg_rule := fold_right (insert f) [] l.
(** fares.cc:555-560: keep the rules of the highest priority. *)
Definition keep_best (l : list leg_rule) : list leg_rule :=
  match l with [] => [] | x :: _ => filter (fun y => negb (lr_prio y <? lr_prio x)) l end.
Definition match_leg_rule (tt : ftt) (e : list leg) : nat * list leg_rule :=
  match e with
  | [] => (O, [])
  | d :: _ =>
      let src := l_src d in
      if negb (l_sched d) || negb (l_sched (last e d)) then (src, [])
      else (src, keep_best (sort_rules (ft_fares tt src) (candidates tt (ft_fares tt src) e d)))
  end.

(** * Transfers: fares.cc:565-747 *)
(** fares.h:187-191 [fare_leg]. *)
Record fare_leg := { fl_src : nat; fl_legs : list leg; fl_rules : list leg_rule }.
(** fares.h:193-196 [fare_transfer]. *)
Definition ticket := (option transfer_rule * list fare_leg)%type.
Definition dleg : leg := {| l_id := O; l_sched := false; l_src := O; l_net := None; l_stops := []; l_tz := O; l_dep := 0; l_arr := 0; l_fdep := 0; l_farr := 0 |}.
Definition e_dep (x : fare_leg) : Z := l_dep (hd dleg (fl_legs x)).
Definition e_arr (x : fare_leg) : Z := l_arr (last (fl_legs x) dleg).
(** fares.cc:587-613: start and end of the limited duration. *)
Definition limit_start (r : transfer_rule) (from : fare_leg) : Z :=
  match tr_limit_type r with CurrDepNextDep | CurrDepNextArr => e_dep from | _ => e_arr from end.
Definition limit_end (r : transfer_rule) (b : fare_leg) : Z :=
  match tr_limit_type r with CurrDepNextDep | CurrArrNextDep => e_dep b | _ => e_arr b end.
Definition concrete (sel : transfer_rule -> option nat) (rs : list transfer_rule) : list nat := somes (map sel rs).
(** fares.cc:618-625: an empty leg group of the rule matches every leg group that no transfer rule names in that field. *)
Definition group_ok (rule_group leg_group : option nat) (conc : list nat) : bool :=
  (match rule_group with None => negb (match leg_group with Some g => memb g conc | None => false end) | Some _ => false end)
  || oeqb rule_group leg_group.
(** fares.cc:565-659 matches. *)
Definition matches (rs : list transfer_rule) (r : transfer_rule) (from a b : fare_leg) : bool :=
  match fl_rules a, fl_rules b with
  | ra :: _, rb :: _ =>
      match tr_limit r with None => true | Some lim => limit_end r b - limit_start r from <=? lim end &&
      group_ok (tr_from r) (lr_group ra) (concrete tr_from rs) &&
      group_ok (tr_to r) (lr_group rb) (concrete tr_to rs)
  | _, _ => false
  end.
(** int8_t decrement. *)
Definition dec8 (z : Z) : Z := to_int8 (z - 1).
(** fares.cc:706-718: the inner loop; [it] is the current leg, [rest] the legs from [next] on.  Returns the legs added
    to the ticket, and [it], [rest] where the loop stopped. *)
Fixpoint extend (rs : list transfer_rule) (r : transfer_rule) (from it : fare_leg) (rest : list fare_leg) (remaining : Z)
  : list fare_leg * (fare_leg * list fare_leg) :=
  match rest with
  | [] => ([], (it, rest))
  | nx :: t =>
      if remaining =? 0 then ([], (it, rest))
      else if matches rs r from it nx then
        let '(m, s) := extend rs r from nx t (dec8 remaining) in (nx :: m, s)
      else ([], (it, rest))
  end.
(** fares.cc:687-731: the outer loop over one range.  [--it; --next] together with the increments of the [for] leave
    [it], [next] where the inner loop stopped.  [last]: last_matched.  None: out of fuel. *)
Fixpoint walk (rs : list transfer_rule) (fuel : nat) (it : fare_leg) (rest : list fare_leg) (last : bool) : option (list ticket) :=
  match fuel with
  | O => None
  | S n =>
      match rest with
      | [] => Some (if last then [] else [(None, [it])])
      | nx :: t =>
          match find (fun r => matches rs r it it nx) rs with
          | None => option_map (cons (None, [it])) (walk rs n nx t false)
          | Some r =>
              let '(m, (it', rest')) := extend rs r it it rest (tr_count r) in
              option_map (cons (Some r, it :: m)) (walk rs n it' rest' true)
          end
      end
  end.
Definition range_tickets (tt : ftt) (range : list fare_leg) : option (list ticket) :=
  match range with
  | [] => Some []
  | [x] => Some [(None, [x])]
  | x :: t => walk (fs_transfers (ft_fares tt (fl_src x))) (length range) x t false
  end.
Fixpoint all_some {A : Type} (l : list (option (list A))) : option (list A) :=
  match l with
  | [] => Some []
  | Some x :: t => option_map (app x) (all_some t)
  | None :: _ => None
  end.
(** fares.cc:661-733 join_transfers. *)
Definition join_transfers (tt : ftt) (fl : list fare_leg) : option (list ticket) :=
  all_some (map (range_tickets tt) (equal_ranges (fun a b => Nat.eqb (fl_src a) (fl_src b)) fl)).
(** fares.cc:735-745 get_fares over the transit legs of the journey (get_transit_legs, fares.cc:272-280: the legs that
    are a run_enter_exit, in order). *)
Definition get_fares (tt : ftt) (legs : list leg) : option (list ticket) :=
  join_transfers tt (map (fun e => let '(src, rules) := match_leg_rule tt e in {| fl_src := src; fl_legs := e; fl_rules := rules |}) (join_legs tt legs)).
