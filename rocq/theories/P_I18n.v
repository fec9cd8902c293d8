(** C78: translated texts of a GTFS feed. *)
From Coq Require Import List Bool Lia Arith String Permutation.
From Verif Require Import I18n_Model.
Import ListNotations.
Local Open Scope nat_scope.

(** ** Specification *)
(** Names of the tables in translations.txt; location groups and booking rules have none. *)
Definition table_name (t : table) : option string :=
  match t with
  | kAgency => Some "agency" | kStops => Some "stops" | kRoutes => Some "routes" | kTrips => Some "trips"
  | kStopTimes => Some "stop_times" | kPathways => Some "pathways" | kLevels => Some "levels"
  | kFeedInfo => Some "feed_info" | kAttributions => Some "attributions" | kLocationGroups => None | kBookingRules => None
  end%string.
(** The row translates the field of the record, respectively of all records whose field has the value. *)
Definition Names (a : row) (k : key) : Prop :=
  match k with
  | Rec t f id sub => table_name t = Some (r_table a) /\ r_field a = Some f /\ r_record a = Some id /\
                      sub = match r_sub a with Some s => s | None => 0 end
  | Val t f v => table_name t = Some (r_table a) /\ r_field a = Some f /\ r_record a = None /\ r_value a = Some v
  end.
Definition RowFor (rows : list row) (k : key) (l x : str) : Prop :=
  exists a, In a rows /\ Names a k /\ l = r_lang a /\ x = r_text a.
(** Which rows count for a field: those of the record, otherwise those of the value. *)
Definition Applies (rows : list row) (c : call) (k : key) : Prop :=
  (exists l x, RowFor rows k l x) /\
  (k = Rec (c_t c) (c_f c) (c_id c) (c_sub c) \/
   k = Val (c_t c) (c_f c) (c_value c) /\ forall l x, ~ RowFor rows (Rec (c_t c) (c_f c) (c_id c) (c_sub c)) l x).
(** The texts of a field with value [v]: those of the rows, and the value itself for the default language of the feed if no
    row has that language. *)
Definition Text (rows : list row) (def : str) (k : key) (v l x : str) : Prop :=
  RowFor rows k l x \/ (l = def /\ x = v /\ v <> 0 /\ forall y, ~ RowFor rows k def y).
(** What a user with preferred languages [prefs] (best first) sees. *)
Definition Shown (rows : list row) (def : str) (c : call) (prefs : list str) (x : str) : Prop :=
  ((forall k, ~ Applies rows c k) -> x = c_value c) /\
  forall k, Applies rows c k ->
    (forall pre L post, prefs = pre ++ L :: post ->
       (forall p y, In p pre -> ~ Text rows def k (c_value c) p y) -> (exists y, Text rows def k (c_value c) L y) ->
       Text rows def k (c_value c) L x) /\
    ((forall p y, In p prefs -> ~ Text rows def k (c_value c) p y) ->
       (exists l, Text rows def k (c_value c) l x) /\
       ((exists y, Text rows def k (c_value c) def y) -> Text rows def k (c_value c) def x)).
(** Sorting that puts the default language first, in any order otherwise. *)
Definition default_first (def : str) (s : list translation) : Prop :=
  exists a b, s = a ++ b /\ Forall (fun tr => fst tr = def) a /\ Forall (fun tr => fst tr <> def) b.
Definition sort_ok (def : str) (sortf : list translation -> list translation) : Prop :=
  forall s, Permutation (sortf s) s /\ default_first def (sortf s).
Definition same_record (a b : call) : Prop := c_t a = c_t b /\ c_f a = c_f b /\ c_id a = c_id b /\ c_sub a = c_sub b.
(** A field of a record has one value. *)
Definition consistent (h : list call) : Prop :=
  forall a b, In a h -> In b h -> same_record a b -> c_value a = c_value b.
(** Later in time: languages and texts have been added (by this or by other feeds). *)
Definition extends (st st' : state) : Prop :=
  NoDup (langs st') /\ (exists l, langs st' = langs st ++ l) /\ (exists r, reg st' = reg st ++ r).

(** ** Languages *)
Lemma find_pos_spec l x i : find_pos l x = Some i -> nth_error l i = Some x.
Proof.
  revert i. induction l as [|y l IH]; cbn; [discriminate|]. intros i. destruct (Nat.eqb_spec y x) as [->|]; [intros [= <-]; reflexivity|].
  destruct (find_pos l x) as [j|]; [|discriminate]. intros [= <-]. cbn. auto.
Qed.
Lemma find_pos_none l x : find_pos l x = None -> ~ In x l.
Proof.
  induction l as [|y l IH]; cbn; [intros _ []|]. destruct (Nat.eqb_spec y x) as [->|Hne]; [discriminate|].
  destruct (find_pos l x); [discriminate|]. intros _ [H|H]; [congruence|]. exact (IH eq_refl H).
Qed.
Definition Encodes (l : list str) (r : list (nat * str)) (ts : list translation) : Prop :=
  Forall2 (fun p q => nth_error l (fst p) = Some (fst q) /\ snd p = snd q) r ts.
Lemma nth_error_app_l {A} (l l' : list A) i x : nth_error l i = Some x -> nth_error (l ++ l') i = Some x.
Proof. intros H. rewrite nth_error_app1; [exact H|]. apply nth_error_Some. congruence. Qed.
Lemma Encodes_mono l l' r ts : Encodes l r ts -> Encodes (l ++ l') r ts.
Proof. unfold Encodes. induction 1 as [|p q r ts [H1 H2] H IH]; constructor; auto. split; [now apply nth_error_app_l|exact H2]. Qed.
Lemma store_lang_spec l x l' i : NoDup l -> store_lang l x = (l', i) ->
  NoDup l' /\ (exists e, l' = l ++ e) /\ nth_error l' i = Some x.
Proof.
  unfold store_lang. intros Hn. destruct (find_pos l x) as [j|] eqn:E; intros [= <- <-].
  - split; [exact Hn|]. split; [exists []; now rewrite app_nil_r|]. now apply find_pos_spec.
  - apply find_pos_none in E. split.
    + apply (Permutation_NoDup (l := x :: l)); [apply Permutation_cons_append|]. now constructor.
    + split; [eauto|]. rewrite nth_error_app2, Nat.sub_diag by lia. reflexivity.
Qed.
Lemma store_all_spec ts : forall l l' r, NoDup l -> store_all l ts = (l', r) ->
  NoDup l' /\ (exists e, l' = l ++ e) /\ Encodes l' r ts.
Proof.
  induction ts as [|[g x] ts IH]; intros l l' r Hn; cbn [store_all].
  - intros [= <- <-]. split; [exact Hn|]. split; [exists []; now rewrite app_nil_r|]. constructor.
  - destruct (store_lang l g) as [l1 i] eqn:E1. destruct (store_all l1 ts) as [l2 r2] eqn:E2. intros [= <- <-].
    destruct (store_lang_spec _ _ _ _ Hn E1) as (N1 & (e1 & ->) & H1).
    destruct (IH _ _ _ N1 E2) as (N2 & (e2 & ->) & H2).
    split; [exact N2|]. split; [exists (e1 ++ e2); now rewrite app_assoc|]. constructor; [|exact H2]. cbn.
    split; [now apply nth_error_app_l|reflexivity].
Qed.

(** ** The map of translations *)
Lemma kfind_kset m k e k' : kfind (kset m k e) k' = if key_eq_dec k k' then Some e else kfind m k'.
Proof.
  induction m as [|[k0 e0] m IH]; cbn [kset kfind]; [reflexivity|].
  destruct (key_eq_dec k0 k) as [->|Hne]; cbn [kfind].
  - destruct (key_eq_dec k k'); reflexivity.
  - rewrite IH. destruct (key_eq_dec k0 k') as [->|]; [|reflexivity]. destruct (key_eq_dec k k') as [->|]; [congruence|reflexivity].
Qed.
Lemma parse_table_name s t : parse_table s = Some t <-> table_name t = Some s.
Proof.
  unfold parse_table. split.
  - repeat (destruct (string_dec s _) as [->|]; [intros [= <-]; reflexivity|]). discriminate.
  - destruct t; cbn; intros [= <-]; reflexivity.
Qed.
Lemma row_key_spec a k : row_key a = Some k <-> Names a k.
Proof.
  unfold row_key. split.
  - destruct (parse_table (r_table a)) as [t|] eqn:Et; [|discriminate]. apply parse_table_name in Et.
    destruct (r_field a) as [f|] eqn:Ef; [|discriminate].
    destruct (r_record a) as [id|] eqn:Er; [intros [= <-]; cbn; auto|].
    destruct (r_value a) as [v|] eqn:Ev; [|discriminate]. intros [= <-]; cbn; auto.
  - destruct k as [t f id sub|t f v]; cbn; intros (H1 & H2 & H3 & H4); apply parse_table_name in H1; rewrite H1, H2, H3.
    + now subst.
    + now rewrite H4.
Qed.
Lemma read_rows_spec rows : forall k,
  match kfind (read_translations rows) k with
  | None => forall l x, ~ RowFor rows k l x
  | Some e => e_idx e = None /\ e_trs e <> [] /\ forall l x, In (l, x) (e_trs e) <-> RowFor rows k l x
  end.
Proof.
  unfold read_translations.
  induction rows as [|a rows IH] using rev_ind; intros k.
  - cbn. intros l x (a & [] & _).
  - rewrite fold_left_app. cbn [fold_left]. set (m := fold_left read_row rows []) in *. unfold read_row.
    assert (Hsplit : forall k l x, RowFor (rows ++ [a]) k l x <-> RowFor rows k l x \/ (Names a k /\ l = r_lang a /\ x = r_text a)).
    { intros k0 l x. unfold RowFor. split.
      - intros (b & Hb & H). apply in_app_or in Hb. destruct Hb as [Hb|[<-|[]]]; [left; eauto|right; exact H].
      - intros [(b & Hb & H)|H]; [exists b|exists a]; (split; [apply in_or_app; cbn; auto|exact H]). }
    destruct (row_key a) as [k1|] eqn:Ek.
    + apply row_key_spec in Ek.
      assert (Huniq : forall k2, Names a k2 -> k2 = k1).
      { intros k2 H. apply row_key_spec in H. apply row_key_spec in Ek. congruence. }
      rewrite kfind_kset. destruct (key_eq_dec k1 k) as [->|Hne].
      * cbn [e_idx e_trs]. specialize (IH k). destruct (kfind m k) as [e|].
        -- destruct IH as (I1 & I2 & I3). split; [exact I1|]. split; [destruct (e_trs e); discriminate|].
           intros l x. rewrite in_app_iff, I3, Hsplit. cbn. split.
           ++ intros [H|[[= <- <-]|[]]]; [now left|right; auto].
           ++ intros [H|(_ & -> & ->)]; [now left|right; now left].
        -- cbn [e_trs app]. split; [reflexivity|]. split; [discriminate|].
           intros l x. rewrite Hsplit. cbn. split.
           ++ intros [[= <- <-]|[]]. right. auto.
           ++ intros [H|(_ & -> & ->)]; [exfalso; exact (IH _ _ H)|now left].
      * specialize (IH k). destruct (kfind m k) as [e|].
        -- destruct IH as (I1 & I2 & I3). split; [exact I1|]. split; [exact I2|]. intros l x. rewrite I3, Hsplit. split; [now left|].
           intros [H|(H & _)]; [exact H|]. apply Huniq in H. congruence.
        -- intros l x H. apply Hsplit in H. destruct H as [H|(H & _)]; [exact (IH _ _ H)|]. apply Huniq in H. congruence.
    + assert (Hno : forall k2, ~ Names a k2). { intros k2 H. apply row_key_spec in H. congruence. }
      specialize (IH k). destruct (kfind m k) as [e|].
      * destruct IH as (I1 & I2 & I3). split; [exact I1|]. split; [exact I2|]. intros l x. rewrite I3, Hsplit. split; [now left|].
        intros [H|(H & _)]; [exact H|]. exfalso. exact (Hno _ H).
      * intros l x H. apply Hsplit in H. destruct H as [H|(H & _)]; [exact (IH _ _ H)|exact (Hno _ H)].
Qed.

(** ** Invariant *)
Definition Built (rows : list row) (def : str) (h : list call) (st : state) (k : key) (v : str) (i : nat) : Prop :=
  (exists enc s, nth_error (reg st) i = Some enc /\ Encodes (langs st) enc s /\ default_first def s /\
     forall l x, In (l, x) s <-> Text rows def k v l x) /\
  match k with
  | Val _ _ v' => v = v'
  | Rec t f id sub => exists c, In c h /\ Rec (c_t c) (c_f c) (c_id c) (c_sub c) = k /\ v = c_value c
  end.
Definition Inv (rows : list row) (def : str) (h : list call) (st : state) : Prop :=
  NoDup (langs st) /\ nth_error (reg st) 0 = Some [(0, 0)] /\
  (forall k, match kfind (i18n st) k with
             | None => forall l x, ~ RowFor rows k l x
             | Some e => e_trs e <> [] /\ (forall l x, In (l, x) (e_trs e) <-> RowFor rows k l x) /\
                         forall i, e_idx e = Some i -> exists v, Built rows def h st k v i
             end) /\
  (forall v i, ufind (untr st) v = Some i -> nth_error (reg st) i = Some [(0, v)]).

Lemma Built_mono rows def h st h' st' k v i : Built rows def h st k v i -> extends st st' -> incl h h' -> Built rows def h' st' k v i.
Proof.
  intros [(enc & s & H1 & H2 & H3) H4] (_ & (l & El) & (r & Er)) Hh. split.
  - exists enc, s. rewrite El, Er. split; [now apply nth_error_app_l|]. split; [now apply Encodes_mono|exact H3].
  - destruct k; [|exact H4]. destruct H4 as (c & Hc & H). exists c. auto.
Qed.
Lemma extends_refl st : NoDup (langs st) -> extends st st.
Proof. intros H. split; [exact H|]. split; exists []; now rewrite app_nil_r. Qed.
Lemma extends_trans a b c : extends a b -> extends b c -> extends a c.
Proof.
  intros (_ & (l1 & H1) & (r1 & R1)) (N & (l2 & H2) & (r2 & R2)). split; [exact N|].
  split; [exists (l1 ++ l2)|exists (r1 ++ r2)]; now rewrite app_assoc, <- ?H1, <- ?R1.
Qed.
Lemma Inv_mono rows def h h' st : Inv rows def h st -> incl h h' -> Inv rows def h' st.
Proof.
  intros (I1 & I2 & I3 & I4) Hh. split; [exact I1|]. split; [exact I2|]. split; [|exact I4].
  intros k. specialize (I3 k). destruct (kfind (i18n st) k) as [e|]; [|exact I3].
  destruct I3 as (A & B & C). split; [exact A|]. split; [exact B|]. intros i Hi. destruct (C i Hi) as (v & Hv). exists v.
  eapply Built_mono; [exact Hv|now apply extends_refl|exact Hh].
Qed.

Lemma build_spec rows def sortf h st k e v st' i :
  sort_ok def sortf -> Inv rows def h st -> kfind (i18n st) k = Some e ->
  match k with Val _ _ v' => v = v' | Rec t f id sub => exists c, In c h /\ Rec (c_t c) (c_f c) (c_id c) (c_sub c) = k /\ v = c_value c end ->
  build sortf def st k e v = (st', i) ->
  Inv rows def h st' /\ extends st st' /\ exists v0, Built rows def h st' k v0 i.
Proof.
  intros Hs HI Hk Hv. pose proof HI as (I1 & I2 & I3 & I4). unfold build.
  pose proof (I3 k) as Ik. rewrite Hk in Ik. destruct Ik as (A & B & C).
  destruct (e_idx e) as [j|] eqn:Ej.
  - intros [= <- <-]. split; [exact HI|]. split; [now apply extends_refl|]. exact (C _ eq_refl).
  - set (ts := if negb (existsb (fun tr => Nat.eqb (fst tr) def) (e_trs e)) && negb (Nat.eqb v 0) then e_trs e ++ [(def, v)] else e_trs e).
    cbv zeta. unfold register_translations. destruct (store_all (langs st) (sortf ts)) as [l' r] eqn:Es.
    intros [= <- <-]. cbn [langs reg i18n untr].
    destruct (store_all_spec _ _ _ _ I1 Es) as (N' & (le & El) & Henc).
    destruct (Hs ts) as [Hperm Hdef].
    set (st' := mk_state l' (reg st ++ [r]) (kset (i18n st) k (mk_entry (e_trs e) (Some (List.length (reg st))))) (untr st)).
    assert (Hext : extends st st'). { split; [exact N'|]. split; [exists le; exact El|exists [r]; reflexivity]. }
    assert (Hts : forall l x, In (l, x) ts <-> Text rows def k v l x).
    { intros l x. unfold ts, Text.
      destruct (existsb (fun tr => Nat.eqb (fst tr) def) (e_trs e)) eqn:Ex; cbn [negb andb].
      - apply existsb_exists in Ex. destruct Ex as ([d y] & Hin & Hd). apply Nat.eqb_eq in Hd. cbn in Hd. subst d.
        rewrite B. split; [now left|]. intros [H|(_ & _ & _ & H)]; [exact H|]. exfalso. apply (H y). now apply B.
      - assert (Hno : forall y, ~ RowFor rows k def y).
        { intros y Hy. apply B in Hy. assert (existsb (fun tr => Nat.eqb (fst tr) def) (e_trs e) = true); [|congruence].
          apply existsb_exists. exists (def, y). split; [exact Hy|]. cbn. apply Nat.eqb_refl. }
        destruct (Nat.eqb_spec v 0) as [E0|E0]; cbn [negb].
        + rewrite B. split; [now left|]. intros [H|(_ & _ & H & _)]; [exact H|congruence].
        + rewrite in_app_iff, B. cbn. split.
          * intros [H|[[= <- <-]|[]]]; [now left|right; auto].
          * intros [H|(-> & -> & _)]; [now left|right; now left]. }
    assert (HB : Built rows def h st' k v (List.length (reg st))).
    { split; [|exact Hv]. exists r, (sortf ts). cbn [reg langs st']. split; [|split; [|split]].
      - rewrite nth_error_app2, Nat.sub_diag by lia. reflexivity.
      - exact Henc.
      - exact Hdef.
      - intros l x. rewrite <- Hts. split; intros H; eapply Permutation_in; try exact H; [exact Hperm|now symmetry]. }
    split; [|split; [exact Hext|eauto]].
    split; [exact N'|]. split; [exact (nth_error_app_l _ _ _ _ I2)|]. split.
    + intros k'. cbn [i18n st']. rewrite kfind_kset. destruct (key_eq_dec k k') as [<-|Hne].
      * cbn [e_trs e_idx]. split; [exact A|]. split; [exact B|]. intros i [= <-]. eauto.
      * specialize (I3 k'). destruct (kfind (i18n st) k') as [e'|]; [|exact I3]. destruct I3 as (A' & B' & C').
        split; [exact A'|]. split; [exact B'|]. intros i Hi. destruct (C' i Hi) as (v' & Hv'). exists v'.
        eapply Built_mono; [exact Hv'|exact Hext|apply incl_refl].
    + cbn [untr reg st']. intros v' i H. now apply nth_error_app_l, I4.
Qed.

Lemma get_spec rows def sortf h st c st' i :
  sort_ok def sortf -> Inv rows def h st -> get sortf def st c = (st', i) ->
  Inv rows def (c :: h) st' /\ extends st st' /\
  ((exists k v, Applies rows c k /\ Built rows def (c :: h) st' k v i) \/
   ((forall k, ~ Applies rows c k) /\ nth_error (reg st') i = Some [(0, c_value c)])).
Proof.
  intros Hs HI0 Hg. assert (HI : Inv rows def (c :: h) st) by (eapply Inv_mono; [exact HI0|apply incl_tl, incl_refl]).
  pose proof HI as (I1 & I2 & I3 & I4). unfold get in Hg.
  pose proof (I3 (Rec (c_t c) (c_f c) (c_id c) (c_sub c))) as IR. pose proof (I3 (Val (c_t c) (c_f c) (c_value c))) as IV.
  destruct (kfind (i18n st) (Rec (c_t c) (c_f c) (c_id c) (c_sub c))) as [e|] eqn:Er.
  { destruct IR as (A & B & _).
    destruct (build_spec rows def sortf (c :: h) st _ e (c_value c) st' i Hs HI Er ltac:(cbn; exists c; auto) Hg) as (J1 & J2 & (v & J3)).
    split; [exact J1|]. split; [exact J2|]. left. eexists _, v. split; [|exact J3]. split; [|now left].
    destruct (e_trs e) as [|[l x] ts] eqn:Et; [congruence|]. exists l, x. apply B. now left. }
  destruct (kfind (i18n st) (Val (c_t c) (c_f c) (c_value c))) as [e|] eqn:Ev.
  { destruct IV as (A & B & _).
    destruct (build_spec rows def sortf (c :: h) st _ e (c_value c) st' i Hs HI Ev eq_refl Hg) as (J1 & J2 & (v & J3)).
    split; [exact J1|]. split; [exact J2|]. left. eexists _, v. split; [|exact J3]. split; [|right; split; [reflexivity|exact IR]].
    destruct (e_trs e) as [|[l x] ts] eqn:Et; [congruence|]. exists l, x. apply B. now left. }
  assert (Hno : forall k, ~ Applies rows c k).
  { intros k [(l & x & H) [->|[-> _]]]; [exact (IR _ _ H)|exact (IV _ _ H)]. }
  destruct (Nat.eqb_spec (c_value c) 0) as [E0|E0].
  { injection Hg as <- <-. split; [exact HI|]. split; [now apply extends_refl|]. right. split; [exact Hno|]. now rewrite E0. }
  destruct (ufind (untr st) (c_value c)) as [j|] eqn:Eu.
  { injection Hg as <- <-. split; [exact HI|]. split; [now apply extends_refl|]. right. split; [exact Hno|]. now apply I4. }
  cbn [register_text] in Hg. injection Hg as <- <-. cbn [langs reg i18n untr].
  set (st' := mk_state (langs st) (reg st ++ [[(0, c_value c)]]) (i18n st) (untr st ++ [(c_value c, List.length (reg st))])).
  assert (Hext : extends st st'). { split; [exact I1|]. split; [exists []; cbn; now rewrite app_nil_r|eexists; reflexivity]. }
  assert (Hnew : nth_error (reg st') (List.length (reg st)) = Some [(0, c_value c)]).
  { cbn. rewrite nth_error_app2, Nat.sub_diag by lia. reflexivity. }
  split; [|split; [exact Hext|right; split; [exact Hno|exact Hnew]]].
  split; [exact I1|]. split; [exact (nth_error_app_l _ _ _ _ I2)|]. split.
  - intros k'. cbn [i18n st']. specialize (I3 k'). destruct (kfind (i18n st) k') as [e'|]; [|exact I3]. destruct I3 as (A' & B' & C').
    split; [exact A'|]. split; [exact B'|]. intros i Hi. destruct (C' i Hi) as (v' & Hv'). exists v'.
    eapply Built_mono; [exact Hv'|exact Hext|apply incl_refl].
  - intros v i. cbn [untr st'].
    assert (Hu : forall m, ufind (m ++ [(c_value c, List.length (reg st))]) v =
              match ufind m v with Some j => Some j | None => if Nat.eqb (c_value c) v then Some (List.length (reg st)) else None end).
    { induction m as [|[v0 j] m IH]; cbn; [reflexivity|]. destruct (Nat.eqb v0 v); auto. }
    rewrite Hu. destruct (ufind (untr st) v) as [j|] eqn:Ej.
    + intros [= <-]. cbn. now apply nth_error_app_l, I4.
    + destruct (Nat.eqb_spec (c_value c) v) as [<-|]; [|discriminate]. intros [= <-]. exact Hnew.
Qed.

Lemma gets_spec rows def sortf hs : forall h st,
  sort_ok def sortf -> Inv rows def h st ->
  Inv rows def (rev hs ++ h) (gets sortf def st hs) /\ extends st (gets sortf def st hs).
Proof.
  induction hs as [|c hs IH]; intros h st Hs HI; cbn [gets rev app].
  - split; [exact HI|]. apply extends_refl. now destruct HI.
  - destruct (get sortf def st c) as [st1 i] eqn:Eg. cbn [fst].
    destruct (get_spec _ _ _ _ _ _ _ _ Hs HI Eg) as (J1 & J2 & _). destruct (IH _ _ Hs J1) as (K1 & K2).
    rewrite <- app_assoc. cbn [app]. split; [exact K1|]. eapply extends_trans; eassumption.
Qed.

(** ** Lookup *)
Fixpoint first_text (s : list translation) (L : str) : option str :=
  match s with [] => None | (l, x) :: s' => if Nat.eqb l L then Some x else first_text s' L end.
Lemma first_text_some s L x : first_text s L = Some x -> In (L, x) s.
Proof. induction s as [|[l y] s IH]; cbn; [discriminate|]. destruct (Nat.eqb_spec l L) as [->|]; [intros [= ->]; now left|right; auto]. Qed.
Lemma first_text_none s L : first_text s L = None -> forall x, ~ In (L, x) s.
Proof.
  induction s as [|[l y] s IH]; cbn; [intros _ x []|]. destruct (Nat.eqb_spec l L) as [->|Hne]; [discriminate|].
  intros H x [[= E _]|Hin]; [congruence|]. exact (IH H x Hin).
Qed.
Lemma text_of_first l r s L li : NoDup l -> Encodes l r s -> nth_error l li = Some L -> text_of r li = first_text s L.
Proof.
  intros Hn He Hl. induction He as [|[a x] [g y] r s [H1 H2] He IH]; [reflexivity|]. cbn in *. subst y.
  destruct (Nat.eqb_spec a li) as [->|Hne].
  - assert (g = L) by congruence. subst g. now rewrite Nat.eqb_refl.
  - destruct (Nat.eqb_spec g L) as [->|]; [|exact IH]. exfalso. apply Hne.
    eapply (proj1 (NoDup_nth_error l)); [exact Hn|apply nth_error_Some; congruence|congruence].
Qed.
Lemma encodes_known l r s g y : Encodes l r s -> In (g, y) s -> In g l.
Proof.
  intros He. induction He as [|[a x] [g' y'] r s [H1 H2] He IH]; [intros []|]. cbn in *. intros [[= -> ->]|H]; [|auto].
  eapply nth_error_In, H1.
Qed.
Lemma translate_pref_spec st prefs i enc s : NoDup (langs st) -> nth_error (reg st) i = Some enc -> Encodes (langs st) enc s ->
  (exists pre L post x, prefs = pre ++ L :: post /\ (forall p y, In p pre -> ~ In (p, y) s) /\ In (L, x) s /\ translate_pref st prefs i = x) \/
  ((forall p y, In p prefs -> ~ In (p, y) s) /\ translate_pref st prefs i = get_default_translation st i).
Proof.
  intros Hn Hr He. induction prefs as [|p prefs IH].
  - right. split; [intros p y []|reflexivity].
  - cbn [translate_pref].
    assert (Hstep : (forall y, ~ In (p, y) s) ->
      (exists pre L post x, p :: prefs = pre ++ L :: post /\ (forall p0 y, In p0 pre -> ~ In (p0, y) s) /\ In (L, x) s /\ translate_pref st prefs i = x) \/
      ((forall p0 y, In p0 (p :: prefs) -> ~ In (p0, y) s) /\ translate_pref st prefs i = get_default_translation st i)).
    { intros Hno. destruct IH as [(pre & L & post & x & -> & H1 & H2 & H3)|(H1 & H2)].
      - left. exists (p :: pre), L, post, x. split; [reflexivity|]. split; [|auto]. intros q y [<-|Hq]; [apply Hno|now apply H1].
      - right. split; [|exact H2]. intros q y [<-|Hq]; [apply Hno|now apply H1]. }
    destruct (find_pos (langs st) p) as [li|] eqn:Ep.
    + apply find_pos_spec in Ep. rewrite (nth_error_nth _ _ [] Hr), (text_of_first _ _ _ _ _ Hn He Ep).
      destruct (first_text s p) as [x|] eqn:Ef.
      * left. exists [], p, prefs, x. split; [reflexivity|]. split; [intros q y []|]. split; [now apply first_text_some|reflexivity].
      * apply Hstep. now apply first_text_none.
    + apply Hstep. intros y Hy. apply (find_pos_none _ _ Ep). eapply encodes_known; eassumption.
Qed.

(** * C78 *)
(** A field of a record that is looked up while the feed is read is shown, then and after any further lookups and feeds, in
    the best preferred language for which there is a text, otherwise in the default language of the feed if there is a text
    in it, otherwise in some language; the value itself if there are no translations for the record or value. *)
Theorem C78_shown_in_preferred_language :
  forall (sortf : list translation -> list translation) (def : str) (l : list str) (r : list (list (nat * str)))
         (rows : list row) (h : list call) (c : call) (st2 st3 : state) (i : nat) (prefs : list str),
  sort_ok def sortf -> NoDup l -> nth_error r 0 = Some [(0, 0)] -> consistent (h ++ [c]) ->
  get sortf def (gets sortf def (start_feed l r rows) h) c = (st2, i) ->
  extends st2 st3 ->
  Shown rows def c prefs (translate st3 (Some prefs) i) /\ Shown rows def c [] (translate st3 None i).
Proof.
  intros sortf def l r rows h c st2 st3 i prefs Hs Hn Hr Hcons Hg He.
  assert (H0 : Inv rows def [] (start_feed l r rows)).
  { split; [exact Hn|]. split; [exact Hr|]. split; [|intros v j; discriminate].
    intros k. cbn [i18n start_feed]. pose proof (read_rows_spec rows k) as H. destruct (kfind (read_translations rows) k) as [e|]; [|exact H].
    destruct H as (A & B & C). split; [exact B|]. split; [exact C|]. rewrite A. discriminate. }
  destruct (gets_spec rows def sortf h [] _ Hs H0) as (H1 & _). rewrite app_nil_r in H1.
  destruct (get_spec _ _ _ _ _ _ _ _ Hs H1 Hg) as (_ & _ & Hres).
  assert (Hnone : translate st3 None i = translate st3 (Some []) i) by reflexivity. rewrite Hnone. cbn [translate].
  destruct Hres as [(k & v & Hap & HB)|(Hno & Hreg)].
  - assert (HB' : Built rows def (c :: rev h) st3 k v i) by (eapply Built_mono; [exact HB|exact He|apply incl_refl]).
    assert (Hcv : v = c_value c).
    { destruct HB as [_ HB]. destruct Hap as [_ [->|[-> _]]]; [|exact HB]. destruct HB as (c0 & Hin & [= E1 E2 E3 E4] & ->).
      apply Hcons; [| |unfold same_record; auto].
      - apply in_or_app. destruct Hin as [<-|Hin]; [right; now left|left; now apply in_rev].
      - apply in_or_app. right. now left. }
    subst v. destruct HB' as [(enc & s & Henc & HE & (a & b & -> & Ha & Hb) & Hs') _]. destruct He as (Hn3 & _).
    assert (Hkk : forall k', Applies rows c k' -> k' = k).
    { intros k' [(l0 & x0 & H') [->|[-> Hno']]]; destruct Hap as [(l1 & x1 & H'') [->|[-> Hno'']]]; try reflexivity.
      - exfalso. exact (Hno'' _ _ H').
      - exfalso. exact (Hno' _ _ H''). }
    assert (Hall : forall prefs, Shown rows def c prefs (translate_pref st3 prefs i)); [|split; apply Hall].
    intros prefs'. split; [intros H; exfalso; exact (H _ Hap)|]. intros k' Hap'. rewrite (Hkk _ Hap'). clear k' Hap'.
    assert (Hdef : (exists l0, Text rows def k (c_value c) l0 (get_default_translation st3 i)) /\
                   ((exists y, Text rows def k (c_value c) def y) -> Text rows def k (c_value c) def (get_default_translation st3 i))).
    { unfold get_default_translation. rewrite Henc.
      destruct enc as [|[li x] enc].
      - assert (Z : a ++ b = []) by (inversion HE; auto). exfalso. destruct Hap as [(l0 & x0 & H') _].
        assert (Hin : In (l0, x0) (a ++ b)) by (apply Hs'; now left). rewrite Z in Hin. destruct Hin.
      - assert (Hx : exists l0 s', a ++ b = (l0, x) :: s').
        { inversion HE as [|p q r0 s0 [_ Hq] _ E1 E2]. destruct q as [l0 x']. cbn in Hq. subst x'. eauto. }
        destruct Hx as (l0 & s' & Es). split.
        + exists l0. apply Hs'. rewrite Es. now left.
        + intros (y & Hy). apply Hs' in Hy. apply Hs'. rewrite Es.
          destruct a as [|[la xa] a].
          * cbn in *. exfalso. rewrite Forall_forall in Hb. exact (Hb _ Hy eq_refl).
          * assert (Hla : la = def) by (inversion Ha; auto). cbn in Es. injection Es as <- <- _. rewrite Hla. now left. }
    destruct (translate_pref_spec st3 prefs' i enc (a ++ b) Hn3 Henc HE) as [(pre & L & post & x & Ep & Hpre & HL & Ex)|(Hno & Ex)].
    + rewrite Ex. split.
      * intros pre' L' post' Ep' Hpre' (y & HyL). 
        assert (E : pre = pre' /\ L = L').
        { clear - Ep Ep' Hpre Hpre' HL HyL Hs'. subst prefs'. revert pre' Ep' Hpre'. induction pre as [|p pre IH]; intros pre' Ep' Hpre'.
          - destruct pre' as [|p' pre']; cbn in *; [injection Ep' as <- _; auto|]. exfalso. injection Ep' as <- _.
            apply (Hpre' L x); [now left|now apply Hs'].
          - destruct pre' as [|p' pre']; cbn in Ep'; injection Ep' as <- Ep'.
            + exfalso. apply (Hpre p y); [now left|now apply Hs'].
            + destruct (IH ltac:(intros; apply Hpre; now right) pre' Ep' ltac:(intros; apply Hpre'; now right)) as [<- <-]. auto. }
        destruct E as [_ <-]. now apply Hs'.
      * intros Hall'. exfalso. apply (Hall' L x); [rewrite Ep; apply in_elt|now apply Hs'].
    + rewrite Ex. split.
      * intros pre' L' post' Ep' _ (y & HyL). exfalso. apply (Hno L' y); [rewrite Ep'; apply in_elt|now apply Hs'].
      * intros _. exact Hdef.
  - destruct He as (Hn3 & _ & (r3 & Er3)).
    assert (Hreg3 : nth_error (reg st3) i = Some [(0, c_value c)]) by (rewrite Er3; now apply nth_error_app_l).
    assert (Ht : forall prefs, translate_pref st3 prefs i = c_value c).
    { induction prefs0 as [|p ps IH]; cbn [translate_pref]; [unfold get_default_translation; now rewrite Hreg3|].
      destruct (find_pos (langs st3) p) as [li|]; [|exact IH]. rewrite (nth_error_nth _ _ [] Hreg3). cbn.
      destruct li; [reflexivity|exact IH]. }
    rewrite !Ht. split; (split; [reflexivity|]); intros k Hk; exfalso; exact (Hno _ Hk).
Qed.

(** Lookups only add languages and texts, so that what was shown stays. *)
Theorem C78_lookups_extend : forall (sortf : list translation -> list translation) (def : str) (l : list str)
    (r : list (list (nat * str))) (rows : list row) (h h' : list call),
  sort_ok def sortf -> NoDup l -> nth_error r 0 = Some [(0, 0)] ->
  extends (gets sortf def (start_feed l r rows) h) (gets sortf def (start_feed l r rows) (h ++ h')) /\
  extends (start_feed l r rows) (gets sortf def (start_feed l r rows) h).
Proof.
  intros sortf def l r rows h h' Hs Hn Hr.
  assert (H0 : Inv rows def [] (start_feed l r rows)).
  { split; [exact Hn|]. split; [exact Hr|]. split; [|intros v j; discriminate].
    intros k. cbn [i18n start_feed]. pose proof (read_rows_spec rows k) as H. destruct (kfind (read_translations rows) k) as [e|]; [|exact H].
    destruct H as (A & B & C). split; [exact B|]. split; [exact C|]. rewrite A. discriminate. }
  destruct (gets_spec rows def sortf h [] _ Hs H0) as (H1 & H2). split; [|exact H2].
  assert (E : forall a st, gets sortf def st (a ++ h') = gets sortf def (gets sortf def st a) h').
  { induction a as [|c a IH]; intros st; cbn; [reflexivity|apply IH]. }
  rewrite E. eapply gets_spec; eassumption.
Qed.

(** ** Cases *)
Definition split_sort (def : str) (s : list translation) : list translation :=
  filter (fun tr => Nat.eqb (fst tr) def) s ++ filter (fun tr => negb (Nat.eqb (fst tr) def)) s.
Lemma split_sort_ok def : sort_ok def (split_sort def).
Proof.
  intros s. split.
  - unfold split_sort. induction s as [|[g x] s IH]; [constructor|]. cbn [filter fst]. destruct (Nat.eqb g def); cbn [negb app].
    + now apply perm_skip.
    + rewrite <- Permutation_middle. now apply perm_skip.
  - eexists _, _. split; [reflexivity|]. split; apply Forall_forall; intros tr H; apply filter_In in H; destruct H as [_ H].
    + now apply Nat.eqb_eq.
    + apply negb_true_iff in H. now apply Nat.eqb_neq.
Qed.
(** Default language 1; stop 5 is translated to the languages 2 and 3 (texts 52, 53), every stop named 70 to 2 (text 72),
    stop 6 to the default language (61) and 2 (62). A stop: its id, field 0 is the name. *)
Definition ex_row lang text id v := mk_row "stops" (Some 0) lang text id None v.
Definition ex_rows : list row :=
  [ex_row 2 52 (Some 5) None; ex_row 2 72 None (Some 70); ex_row 2 62 (Some 6) None; ex_row 3 53 (Some 5) None; ex_row 1 61 (Some 6) None;
   mk_row "booking_rules" (Some 0) 2 92 (Some 9) None None].
Definition ex_stop (id name : str) : call := mk_call kStops 0 name id 0.
Definition ex_show (st : state) (c : call) (prefs : list str) : str :=
  let (st', i) := get (split_sort 1) 1 st c in translate st' (Some prefs) i.
Definition ex_start := start_feed [0] [[(0, 0)]] ex_rows.
Definition ex_later := gets (split_sort 1) 1 ex_start [ex_stop 5 70; ex_stop 8 70; ex_stop 6 60; ex_stop 7 80; ex_stop 7 0].
Example C78_example :
  map (fun p => ex_show ex_later (ex_stop 5 70) p) [[3; 2]; [4; 2; 3]; [1; 2]; [9]; []] = [53; 52; 70; 70; 70] /\
  map (fun p => ex_show ex_later (ex_stop 8 70) p) [[3; 2]; [3]; [1]] = [72; 70; 70] /\
  map (fun p => ex_show ex_later (ex_stop 6 60) p) [[3; 2]; [3]; [1]] = [62; 61; 61] /\
  map (fun p => ex_show ex_later (ex_stop 7 80) p) [[3; 2]; [0]] = [80; 80] /\
  map (fun p => ex_show ex_later (ex_stop 7 0) p) [[3; 2]; [0]] = [0; 0].
Proof. vm_compute. repeat split; reflexivity. Qed.
Example C78_example_hypotheses :
  NoDup [0] /\ nth_error [[(0, 0)]] 0 = Some [(0, 0)] /\ consistent [ex_stop 5 70; ex_stop 8 70; ex_stop 6 60] /\
  Applies ex_rows (ex_stop 5 70) (Rec kStops 0 5 0) /\ Applies ex_rows (ex_stop 8 70) (Val kStops 0 70).
Proof.
  split; [repeat constructor; intros []|]. split; [reflexivity|]. split.
  { intros a b Ha Hb (_ & _ & H & _). cbn in Ha, Hb. intuition (subst; cbn in *; congruence). }
  split.
  - split; [|now left]. exists 2, 52, (ex_row 2 52 (Some 5) None). split; [now left|]. cbn. auto 8.
  - split; [|right].
    + exists 2, 72, (ex_row 2 72 None (Some 70)). split; [now (right; left)|]. cbn. auto 8.
    + split; [reflexivity|]. intros l x (a & Ha & Hn & _). cbn in Ha, Hn.
      destruct Ha as [<-|[<-|[<-|[<-|[<-|[<-|[]]]]]]]; cbn in Hn; destruct Hn as (H1 & _ & H3 & _); congruence.
Qed.
(** Refuted without [consistent]: the second value 71 of a record is never shown, the first one is. *)
Example C78_second_value_refuted :
  ex_show (gets (split_sort 1) 1 ex_start [ex_stop 5 70]) (ex_stop 5 71) [] = 70.
Proof. reflexivity. Qed.
(** Refuted: "translations of booking rules are shown": the table has no name in translations.txt. *)
Example C78_booking_rules_refuted :
  In (mk_row "booking_rules" (Some 0) 2 92 (Some 9) None None) ex_rows /\
  ex_show ex_start (mk_call kBookingRules 0 90 9 0) [2] = 90.
Proof. split; [cbn; auto 10|reflexivity]. Qed.
(** Without a text in the default language some other language is shown: stop 5 without a name. *)
Example C78_no_default : ex_show ex_start (ex_stop 5 0) [9] = 52.
Proof. reflexivity. Qed.
