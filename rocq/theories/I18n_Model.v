(** Model of src/loader/gtfs/translations.cc (translator, read_translations) and of the registration and lookup of
    translated texts in src/timetable.cc:42-99.
    Strings are numbers, 0 is the empty string; the field name is taken after [parse_field_name] (it knows all fields),
    table names are strings. A hash map is an association list. *)
From Coq Require Import List Bool Arith String.
Import ListNotations.
Local Open Scope nat_scope.

Definition str := nat.
(** translations.h:15-27 [t]; translations.h:104-124 [translation_key] *)
Inductive table := kAgency | kStops | kRoutes | kTrips | kStopTimes | kPathways | kLevels | kFeedInfo | kAttributions
                 | kLocationGroups | kBookingRules.
Definition table_eq_dec (a b : table) : {a = b} + {a <> b}. Proof. decide equality. Defined.
Inductive key := Rec (t : table) (f : nat) (id sub : str) | Val (t : table) (f : nat) (value : str).
Definition key_eq_dec (a b : key) : {a = b} + {a <> b}.
Proof. decide equality; try apply Nat.eq_dec; apply table_eq_dec. Defined.
(** types.h:253-268 (language, text) *)
Definition translation := (str * str)%type.
(** translations.h:128-131 *)
Record entry := mk_entry { e_trs : list translation; e_idx : option nat }.
(** The parts of the timetable and of the translator: [languages_], [translations_] with [translation_language_]
    (language index, text), [i18n_], [untranslated_]. *)
Record state := mk_state { langs : list str; reg : list (list (nat * str)); i18n : list (key * entry); untr : list (str * nat) }.

(** translations.cc:68-83: [kLocationGroups] and [kBookingRules] have no name. *)
Definition parse_table (s : string) : option table :=
  if string_dec s "agency" then Some kAgency else
  if string_dec s "stops" then Some kStops else
  if string_dec s "routes" then Some kRoutes else
  if string_dec s "trips" then Some kTrips else
  if string_dec s "stop_times" then Some kStopTimes else
  if string_dec s "pathways" then Some kPathways else
  if string_dec s "levels" then Some kLevels else
  if string_dec s "feed_info" then Some kFeedInfo else
  if string_dec s "attributions" then Some kAttributions else None.

(** A row of translations.txt (:140-151) *)
Record row := mk_row { r_table : string; r_field : option nat; r_lang : str; r_text : str;
                       r_record : option str; r_sub : option str; r_value : option str }.
(** :157-185 *)
Definition row_key (a : row) : option key :=
  match parse_table (r_table a) with
  | None => None
  | Some t =>
      match r_field a with
      | None => None
      | Some f =>
          match r_record a with
          | Some id => Some (Rec t f id (match r_sub a with Some s => s | None => 0 end))
          | None => match r_value a with Some v => Some (Val t f v) | None => None end
          end
      end
  end.
Fixpoint kfind (m : list (key * entry)) (k : key) : option entry :=
  match m with [] => None | (k', e) :: m' => if key_eq_dec k' k then Some e else kfind m' k end.
Fixpoint kset (m : list (key * entry)) (k : key) (e : entry) : list (key * entry) :=
  match m with
  | [] => [(k, e)]
  | (k', e') :: m' => if key_eq_dec k' k then (k, e) :: m' else (k', e') :: kset m' k e
  end.
(** :187-190 *)
Definition read_row (m : list (key * entry)) (a : row) : list (key * entry) :=
  match row_key a with
  | None => m
  | Some k =>
      let e := match kfind m k with Some e => e | None => mk_entry [] None end in
      kset m k (mk_entry (e_trs e ++ [(r_lang a, r_text a)]) (e_idx e))
  end.
Definition read_translations (rows : list row) : list (key * entry) := fold_left read_row rows [].

(** ** timetable.cc *)
Fixpoint find_pos (l : list str) (x : str) : option nat :=
  match l with [] => None | y :: l' => if Nat.eqb y x then Some 0 else option_map S (find_pos l' x) end.
(** string_store: [languages_.store] *)
Definition store_lang (l : list str) (x : str) : list str * nat :=
  match find_pos l x with Some i => (l, i) | None => (l ++ [x], List.length l) end.
Fixpoint store_all (l : list str) (ts : list translation) : list str * list (nat * str) :=
  match ts with
  | [] => (l, [])
  | (lang, text) :: ts' =>
      let (l1, i) := store_lang l lang in
      let (l2, r) := store_all l1 ts' in (l2, (i, text) :: r)
  end.
(** timetable.cc:54-71 *)
Definition register_translations (st : state) (ts : list translation) : state * nat :=
  let (l, r) := store_all (langs st) ts in
  (mk_state l (reg st ++ [r]) (i18n st) (untr st), List.length (reg st)).
(** timetable.cc:46-52, kDefaultLang = 0 *)
Definition register_text (st : state) (s : str) : state * nat :=
  (mk_state (langs st) (reg st ++ [[(0, s)]]) (i18n st) (untr st), List.length (reg st)).

(** ** translator::get, translations.cc:12-65 *)
(** :17-36; [sortf] is utl::sort with the key "not the default language", which need not be stable *)
Definition build (sortf : list translation -> list translation) (def : str) (st : state) (k : key) (e : entry) (value : str)
    : state * nat :=
  match e_idx e with
  | Some i => (st, i)
  | None =>
      let has_default := existsb (fun tr => Nat.eqb (fst tr) def) (e_trs e) in
      let ts := if negb has_default && negb (Nat.eqb value 0) then e_trs e ++ [(def, value)] else e_trs e in
      let (st1, i) := register_translations st (sortf ts) in
      (mk_state (langs st1) (reg st1) (kset (i18n st1) k (mk_entry (e_trs e) (Some i))) (untr st1), i)
  end.
Record call := mk_call { c_t : table; c_f : nat; c_value : str; c_id : str; c_sub : str }.
Fixpoint ufind (m : list (str * nat)) (v : str) : option nat :=
  match m with [] => None | (v', i) :: m' => if Nat.eqb v' v then Some i else ufind m' v end.
Definition get (sortf : list translation -> list translation) (def : str) (st : state) (c : call) : state * nat :=
  match kfind (i18n st) (Rec (c_t c) (c_f c) (c_id c) (c_sub c)) with
  | Some e => build sortf def st (Rec (c_t c) (c_f c) (c_id c) (c_sub c)) e (c_value c)
  | None =>
      match kfind (i18n st) (Val (c_t c) (c_f c) (c_value c)) with
      | Some e => build sortf def st (Val (c_t c) (c_f c) (c_value c)) e (c_value c)
      | None =>
          if Nat.eqb (c_value c) 0 then (st, 0)     (* kEmptyTranslation *)
          else match ufind (untr st) (c_value c) with
               | Some i => (st, i)
               | None =>
                   let (st1, i) := register_text st (c_value c) in
                   (mk_state (langs st1) (reg st1) (i18n st1) (untr st1 ++ [(c_value c, i)]), i)
               end
      end
  end.
Fixpoint gets sortf def (st : state) (h : list call) : state :=
  match h with [] => st | c :: h' => gets sortf def (fst (get sortf def st c)) h' end.

(** ** timetable::translate, timetable.cc:73-99 *)
Definition get_default_translation (st : state) (i : nat) : str :=
  match nth_error (reg st) i with Some ((_, x) :: _) => x | _ => 0 end.
Fixpoint text_of (r : list (nat * str)) (li : nat) : option str :=
  match r with [] => None | (l, x) :: r' => if Nat.eqb l li then Some x else text_of r' li end.
Fixpoint translate_pref (st : state) (prefs : list str) (i : nat) : str :=
  match prefs with
  | [] => get_default_translation st i
  | p :: prefs' =>
      match find_pos (langs st) p with
      | None => translate_pref st prefs' i
      | Some li => match text_of (nth i (reg st) []) li with Some x => x | None => translate_pref st prefs' i end
      end
  end.
Definition translate (st : state) (lang : option (list str)) (i : nat) : str :=
  match lang with None => get_default_translation st i | Some prefs => translate_pref st prefs i end.

(** The translator of a feed is created for a timetable [st] that may already have other feeds. *)
Definition start_feed (l : list str) (r : list (list (nat * str))) (rows : list row) : state :=
  mk_state l r (read_translations rows) [].
