(** C82: lookup of agencies, ticketing identifiers and links. *)
From Coq Require Import ZArith List Lia Bool Permutation.
From Verif Require Import Ticket_Model.
Import ListNotations.
Local Open Scope Z_scope.

(** ** Specification *)
(** An agency as it was given: feed and id. *)
Definition Loaded (agencies : list (nat * Z)) (t : tt) : Prop :=
  length (providers t) = length agencies /\
  forall k src id, nth_error agencies k = Some (src, id) ->
    exists i, nth_error (providers t) k = Some (src, i) /\ nth_error (strings t) i = Some id.

Definition key_le (a b : nat * nat) : Prop :=
  (fst a < fst b)%nat \/ (fst a = fst b /\ (snd a <= snd b)%nat).

(** ** Strings *)
Lemma find_string_some : forall ss s k i, find_string ss s k = Some i ->
  (k <= i)%nat /\ nth_error ss (i - k) = Some s.
Proof.
  induction ss as [|x ss IH]; intros s k i H; cbn in H; [discriminate|].
  destruct (Z.eqb_spec x s) as [->|N].
  - inversion H; subst. rewrite Nat.sub_diag. split; [lia|reflexivity].
  - destruct (IH s (k + 1)%nat i H) as [A B]. split; [lia|].
    replace (i - k)%nat with (Datatypes.S (i - (k + 1))) by lia. exact B.
Qed.

Lemma find_string_none : forall ss s k, find_string ss s k = None -> ~ In s ss.
Proof.
  induction ss as [|x ss IH]; intros s k H; cbn in H; [intros []|].
  destruct (Z.eqb_spec x s); [discriminate|]. intros [K|K]; [congruence|]. exact (IH s _ H K).
Qed.

Lemma store_ok : forall ss s ss' i, NoDup ss -> store_string ss s = (ss', i) ->
  NoDup ss' /\ nth_error ss' i = Some s /\ forall k x, nth_error ss k = Some x -> nth_error ss' k = Some x.
Proof.
  intros ss s ss' i ND H. unfold store_string in H. destruct (find_string ss s 0) as [j|] eqn:E.
  - inversion H; subst. destruct (find_string_some _ _ _ _ E) as [_ B]. rewrite Nat.sub_0_r in B. auto.
  - inversion H; subst. pose proof (find_string_none _ _ _ E) as N. split; [|split].
    + apply NoDup_Add with (a := s) (l := ss); [rewrite <- (app_nil_r ss) at 1; apply Add_app|auto].
    + rewrite nth_error_app2, Nat.sub_diag by lia. reflexivity.
    + intros k x K. rewrite nth_error_app1; auto. apply nth_error_Some. congruence.
Qed.

(** ** Binary search *)
Lemma lower_bound_spec : forall fuel less first len, (len <= fuel)%nat ->
  (forall i j, (first <= i <= j)%nat -> (j < first + len)%nat -> less j = true -> less i = true) ->
  let r := lower_bound fuel less first len in
  (first <= r <= first + len)%nat /\
  (forall i, (first <= i < r)%nat -> less i = true) /\
  (r < first + len -> less r = false)%nat.
Proof.
  induction fuel as [|f IH]; intros less first len L M; cbn [lower_bound].
  - split; [lia|]. split; intros; lia.
  - destruct len as [|n]; [split; [lia|]; split; intros; lia|].
    set (len := Datatypes.S n) in *. set (half := Nat.div len 2).
    assert (HH : (half < len)%nat) by (apply Nat.div_lt; unfold len; lia).
    destruct (less (first + half)%nat) eqn:E.
    + destruct (IH less (first + half + 1)%nat (len - half - 1)%nat ltac:(lia)) as [A [B C]].
      { intros i j I J. apply M; lia. }
      split; [lia|]. split.
      * intros i I. destruct (le_lt_dec i (first + half)); [|apply B; lia].
        apply (M i (first + half)%nat); [lia|lia|exact E].
      * intro. apply C. lia.
    + destruct (IH less first half ltac:(lia)) as [A [B C]].
      { intros i j I J. apply M; lia. }
      split; [lia|]. split; [exact B|].
      intro K. destruct (Nat.eq_dec (lower_bound f less first half) (first + half)) as [Q|Q]; [rewrite Q; exact E|].
      apply C. lia.
Qed.

(** ** Lookup of an agency *)
Definition tt_ok (agencies : list (nat * Z)) (t : tt) : Prop :=
  NoDup (strings t) /\ Loaded agencies t /\ by_id t = seq 0 (length (providers t)).

Lemma register_ok : forall agencies t src id, tt_ok agencies t ->
  tt_ok (agencies ++ [(src, id)]) (register_agency t src id).
Proof.
  intros ag t src id [ND [[L H] B]]. unfold register_agency.
  destruct (store_string (strings t) id) as [ss i] eqn:E.
  destruct (store_ok _ _ _ _ ND E) as [N1 [N2 N3]].
  split; [exact N1|]. split; [split|]; cbn [providers strings by_id].
  - rewrite !app_length. cbn. lia.
  - intros k s x K. destruct (Nat.eq_dec k (length ag)) as [->|Q].
    + rewrite nth_error_app2, Nat.sub_diag in K by lia. inversion K; subst.
      exists i. split; [|exact N2]. rewrite <- L, nth_error_app2, Nat.sub_diag by lia. reflexivity.
    + assert (k < length ag)%nat.
      { assert (k < length (ag ++ [(src, id)]))%nat by (apply nth_error_Some; congruence).
        rewrite app_length in H0. cbn in H0. lia. }
      rewrite nth_error_app1 in K by lia. destruct (H k s x K) as [j [J1 J2]]. exists j.
      split; [rewrite nth_error_app1; auto; lia|apply N3; exact J2].
  - rewrite app_length, B. cbn [length]. rewrite Nat.add_1_r, seq_S. reflexivity.
Qed.

(** The timetable after the agencies are registered one after the other. *)
Definition load_agencies (agencies : list (nat * Z)) : tt :=
  fold_left (fun t a => register_agency t (fst a) (snd a)) agencies (TT [] [] []).

Lemma load_ok : forall agencies, tt_ok agencies (load_agencies agencies).
Proof.
  intro ag. unfold load_agencies.
  assert (G : forall rest done t, tt_ok done t ->
    tt_ok (done ++ rest) (fold_left (fun t a => register_agency t (fst a) (snd a)) rest t)).
  { induction rest as [|[s x] rest IH]; intros dn t H; cbn [fold_left]; [rewrite app_nil_r; exact H|].
    replace (dn ++ (s, x) :: rest) with ((dn ++ [(s, x)]) ++ rest) by (rewrite <- app_assoc; reflexivity).
    apply IH. apply register_ok. exact H. }
  apply (G ag [] (TT [] [] [])). split; [constructor|]. split; [|reflexivity]. split; [reflexivity|].
  intros [|k] s x K; discriminate.
Qed.

Definition key_of (t : tt) (k : nat) : nat * nat := nth k (providers t) (0%nat, 0%nat).

(** After the timetable is finalised (the index sorted by feed and id, in any
    order among equals), the lookup finds an agency of the feed with the id,
    if there is one, and only then. *)
Theorem C82_agency_lookup : forall agencies order t src id,
  finalized (load_agencies agencies) t order ->
  Permutation order (seq 0 (length agencies)) ->
  (forall i j, (i < j < length order)%nat -> key_le (key_of t (nth i order 0%nat)) (key_of t (nth j order 0%nat))) ->
  (forall k, get_provider_idx t id src = Some k -> nth_error agencies k = Some (src, id)) /\
  (In (src, id) agencies -> exists k, get_provider_idx t id src = Some k) /\
  (~ In (src, id) agencies -> get_provider_idx t id src = None).
Proof.
  intros ag order t src id F PO SO. destruct (load_ok ag) as [ND [[L H] _]]. unfold finalized in F.
  set (t0 := load_agencies ag) in *. clearbody t0.
  assert (FOUND : forall k, get_provider_idx t id src = Some k -> nth_error ag k = Some (src, id)).
  { intros k. unfold get_provider_idx. subst t. cbn [strings providers by_id].
    destruct (find_string (strings t0) id 0) as [i|] eqn:E; [|discriminate].
    destruct (find_string_some _ _ _ _ E) as [_ E2]. rewrite Nat.sub_0_r in E2.
    match goal with |- context [lower_bound ?a ?b ?c ?d] => set (it := lower_bound a b c d) end.
    destruct (Nat.eqb_spec it (length order)) as [|NE]; [discriminate|].
    destruct (Nat.eqb_spec (fst (nth (nth it order 0%nat) (providers t0) (0%nat, 0%nat))) src) as [E3|]; [|discriminate].
    destruct (Nat.eqb_spec (snd (nth (nth it order 0%nat) (providers t0) (0%nat, 0%nat))) i) as [E4|]; [|discriminate].
    cbn [andb]. intro Q. inversion Q as [Q']. clear Q. 
    assert (LK : (nth it order 0 < length ag)%nat).
    { destruct (le_lt_dec (length order) it) as [G|G].
      - exfalso. assert (it <= length order)%nat; [|lia].
        assert (W : forall fuel less first len, (len <= fuel -> lower_bound fuel less first len <= first + len)%nat).
        { clear. induction fuel as [|f IH]; intros less first len K; cbn [lower_bound]; [lia|].
          destruct len as [|n]; [lia|]. 
          assert (HH : (Nat.div (Datatypes.S n) 2 < Datatypes.S n)%nat) by (apply Nat.div_lt; lia).
          destruct (less _).
          - specialize (IH less (first + Nat.div (Datatypes.S n) 2 + 1)%nat (Datatypes.S n - Nat.div (Datatypes.S n) 2 - 1)%nat). lia.
          - specialize (IH less first (Nat.div (Datatypes.S n) 2)). lia. }
        unfold it. apply (W _ _ 0%nat). lia.
      - assert (I : In (nth it order 0%nat) order) by (apply nth_In; exact G).
        apply (Permutation_in _ PO) in I. apply in_seq in I. lia. }
    subst k. destruct (nth_error ag (nth it order 0%nat)) as [[s x]|] eqn:EA; [|apply nth_error_None in EA; lia].
    destruct (H _ s x EA) as [j [J1 J2]].
    unfold provider in *. rewrite (nth_error_nth _ _ (0%nat, 0%nat) J1) in E3, E4. cbn [fst snd] in E3, E4. subst s j.
    rewrite J2 in E2. inversion E2. subst x. reflexivity. }
  assert (EX : In (src, id) ag -> exists k, get_provider_idx t id src = Some k).
  { intro I. destruct (In_nth_error _ _ I) as [k K]. destruct (H k src id K) as [i [I1 I2]].
    unfold get_provider_idx. subst t. cbn [strings providers by_id].
    destruct (find_string (strings t0) id 0) as [i'|] eqn:E.
    2: { elim (find_string_none _ _ _ E). eapply nth_error_In; eauto. }
    destruct (find_string_some _ _ _ _ E) as [_ E2]. rewrite Nat.sub_0_r in E2.
    assert (i' = i).
    { apply (proj1 (NoDup_nth_error (strings t0)) ND); [apply nth_error_Some; congruence|congruence]. }
    subst i'.
    set (prov := fun k0 => nth (nth k0 order 0%nat) (providers t0) (0%nat, 0%nat)).
    fold (prov (lower_bound (length order) (fun k0 => key_lt (prov k0) (src, i)) 0 (length order))).
    cbn [key_of providers] in SO. unfold key_of in SO. cbn [providers] in SO.
    assert (LP : length order = length ag) by (rewrite (Permutation_length PO), seq_length; reflexivity).
    assert (IK : In k order).
    { apply (Permutation_in _ (Permutation_sym PO)). apply in_seq.
      assert (k < length ag)%nat by (apply nth_error_Some; congruence). lia. }
    destruct (In_nth_error _ _ IK) as [m M]. assert (ML : (m < length order)%nat) by (apply nth_error_Some; congruence).
    assert (PM : prov m = (src, i)).
    { unfold prov. rewrite (nth_error_nth _ _ 0%nat M). apply nth_error_nth. exact I1. }
    assert (LT : forall a b, key_lt a b = true <-> (fst a < fst b \/ (fst a = fst b /\ snd a < snd b))%nat).
    { intros a b. unfold key_lt. rewrite orb_true_iff, andb_true_iff, !Nat.ltb_lt, Nat.eqb_eq. reflexivity. }
    destruct (lower_bound_spec (length order) (fun k0 => key_lt (prov k0) (src, i)) 0 (length order) ltac:(lia)) as [A [B C]].
    { intros x y X Y Z0. apply LT in Z0. apply LT. destruct (Nat.eq_dec x y); [subst; exact Z0|].
      pose proof (SO x y ltac:(lia)) as Q. unfold key_le in Q. fold (prov x) (prov y) in Q.
      cbn [fst snd] in *. lia. }
    change (fun k0 => key_lt (nth (nth k0 order 0%nat) (providers t0) (0%nat, 0%nat)) (src, i)) with (fun k0 => key_lt (prov k0) (src, i)) in *.
    set (it := lower_bound (length order) (fun k0 => key_lt (prov k0) (src, i)) 0 (length order)) in *. clearbody it.
    assert (ITM : (it <= m)%nat).
    { destruct (le_lt_dec it m) as [G|G]; auto. specialize (B m ltac:(lia)). cbn in B. apply LT in B. rewrite PM in B. cbn in B. lia. }
    specialize (C ltac:(lia)). cbn beta in C.
    assert (PIT : prov it = (src, i)).
    { destruct (Nat.eq_dec it m) as [->|Q]; [exact PM|].
      pose proof (SO it m ltac:(lia)) as Q1. unfold key_le in Q1. fold (prov it) (prov m) in Q1. rewrite PM in Q1. cbn [fst snd] in Q1.
      assert (~ (fst (prov it) < src \/ (fst (prov it) = src /\ snd (prov it) < i))%nat).
      { intro Z0. assert (key_lt (prov it) (src, i) = true) by (apply LT; exact Z0). congruence. }
      destruct (prov it) as [p1 p2]. cbn [fst snd] in *. f_equal; lia. }
    destruct (Nat.eqb_spec it (length order)); [lia|]. unfold prov in PIT. unfold provider in *. rewrite PIT. cbn [fst snd]. rewrite !Nat.eqb_refl. cbn [andb].
    eexists. reflexivity. }
  split; [exact FOUND|]. split; [exact EX|].
  intro N. destruct (get_provider_idx t id src) as [k|] eqn:E; auto.
  elim N. eapply nth_error_In. apply FOUND. reflexivity.
Qed.

(** F115: the ticketing identifiers are read before the index is sorted; with
    a second feed the lookup misses an agency whose id was used before. *)
Theorem C82_lookup_while_loading_refuted :
  exists agencies src id, In (src, id) agencies /\
    get_provider_idx (load_agencies agencies) id src = None.
Proof.
  exists [(0%nat, 11); (1%nat, 12); (1%nat, 11)], 1%nat, 11.
  split; [cbn; tauto|]. vm_compute. reflexivity.
Qed.

(** ** Ticketing *)
Section Ticketing.
  Variable stops : Z -> option nat.
  Variable sort_bucket : list (option nat * Z) -> list (option nat * Z).

  (** The identifiers of a location: those of the rows of its stops, each with
      the agency the lookup gives, ordered by agency; rows of unknown stops are
      skipped. For any result of the sort. *)
  Theorem C82_identifiers : forall (le : option nat -> option nat -> Prop) t src rows,
    (forall b, Permutation (sort_bucket b) b /\
       forall i j x y, (i < j)%nat -> nth_error (sort_bucket b) i = Some x -> nth_error (sort_bucket b) j = Some y -> le (fst x) (fst y)) ->
    forall l, let ids := read_identifiers stops sort_bucket t src rows l in
      Permutation ids (map (fun r => (get_provider_idx t (i_agency r) src, i_ticket r))
                           (filter (fun r => match stops (i_stop r) with Some l' => Nat.eqb l l' | None => false end) rows)) /\
      forall i j x y, (i < j)%nat -> nth_error ids i = Some x -> nth_error ids j = Some y -> le (fst x) (fst y).
  Proof.
    intros le t src rows HS l. unfold read_identifiers. cbv zeta.
    set (b := fold_left (add_identifier stops t src) rows (fun _ => []) l).
    destruct (HS b) as [H1 H2]. split; [|exact H2]. rewrite H1.
    assert (G : forall rows ids, fold_left (add_identifier stops t src) rows ids l = ids l ++
        map (fun r => (get_provider_idx t (i_agency r) src, i_ticket r))
          (filter (fun r => match stops (i_stop r) with Some l' => Nat.eqb l l' | None => false end) rows)).
    { clear. induction rows as [|r rows IH]; intros ids; cbn [fold_left filter map]; [rewrite app_nil_r; reflexivity|].
      rewrite IH. unfold add_identifier. destruct (stops (i_stop r)) as [l'|]; [|reflexivity].
      destruct (Nat.eqb l l'); [|reflexivity]. cbn [map]. rewrite <- app_assoc. reflexivity. }
    unfold b. rewrite G. reflexivity.
  Qed.
End Ticketing.

(** The link of a route is the one of the first row with its id, as it stands
    in ticketing_deep_links.txt, after the links of earlier feeds, which stay;
    an unknown id fails the load. *)
Theorem C82_links : forall links rows deep_link,
  let '(links', m) := read_links links rows in
  firstn (length links) links' = links /\
  match deep_link with
  | None => route_link m deep_link = Some None
  | Some id =>
    (~ In id (map fst rows) -> route_link m deep_link = None) /\
    (forall pre urls post, rows = pre ++ (id, urls) :: post -> ~ In id (map fst pre) ->
       exists i, route_link m deep_link = Some (Some i) /\ nth_error links' i = Some urls)
  end.
Proof.
  intros links rows deep_link. unfold read_links. split.
  { rewrite firstn_app, Nat.sub_diag, firstn_all. cbn. apply app_nil_r. }
  destruct deep_link as [id|]; [|reflexivity]. unfold route_link. split.
  - intro N. assert (G : forall rows next, ~ In id (map fst rows) -> at_ (link_map rows next) id = None).
    { clear. induction rows as [|[k u] rows IH]; intros next N; cbn; auto. cbn in N.
      destruct (Z.eqb_spec k id); [tauto|]. apply IH. tauto. }
    rewrite G by exact N. reflexivity.
  - intros pre urls post -> N.
    assert (G : forall pre next, ~ In id (map fst pre) ->
              at_ (link_map (pre ++ (id, urls) :: post) next) id = Some (next + length pre)%nat).
    { clear. induction pre as [|[k u] pre IH]; intros next N; cbn.
      - rewrite Z.eqb_refl. f_equal. lia.
      - cbn in N. destruct (Z.eqb_spec k id); [tauto|]. rewrite IH by tauto. f_equal. lia. }
    rewrite G by exact N. eexists. split; [reflexivity|].
    rewrite nth_error_app2 by lia. replace (length links + length pre - length links)%nat with (length pre) by lia.
    rewrite map_app, nth_error_app2 by (rewrite map_length; lia). rewrite map_length, Nat.sub_diag. reflexivity.
Qed.

(** ** Examples *)
Module Ticket_Examples.
  Definition agencies : list (nat * Z) := [(0%nat, 11); (1%nat, 12); (1%nat, 11); (1%nat, 13)].
  (** The index sorted by feed and string index. *)
  Definition order : list nat := [0; 2; 1; 3]%nat.
  Definition t : tt := TT (strings (load_agencies agencies)) (providers (load_agencies agencies)) order.
  Example lookups : map (fun id => get_provider_idx t id 1) [11; 12; 13; 14] = [Some 2; Some 1; Some 3; None]%nat
    /\ get_provider_idx t 12 0 = None.
  Proof. vm_compute. split; reflexivity. Qed.
  Example applies : exists k, get_provider_idx t 11 1 = Some k.
  Proof.
    destruct (C82_agency_lookup agencies order t 1 11) as [_ [H _]].
    - reflexivity.
    - change (Permutation [0; 2; 1; 3]%nat [0; 1; 2; 3]%nat). constructor. apply perm_swap.
    - intros i j L. cbn [length order] in L.
      do 4 (destruct i as [|i]; [do 4 (destruct j as [|j]; [try (exfalso; lia); vm_compute; auto; lia|]); exfalso; lia|]); exfalso; lia.
    - apply H. cbn. tauto.
  Qed.

  (** Sorting by agency, the missing agency last. *)
  Definition le (a b : option nat) : Prop :=
    match a, b with Some x, Some y => (x <= y)%nat | _, None => True | None, Some _ => False end.
  Definition leb (a b : option nat) : bool :=
    match a, b with Some x, Some y => Nat.leb x y | _, None => true | None, Some _ => false end.
  Fixpoint ins (x : option nat * Z) (l : list (option nat * Z)) :=
    match l with
    | [] => [x]
    | y :: t => if leb (fst x) (fst y) then x :: l else y :: ins x t
    end.
  Definition sort (l : list (option nat * Z)) := fold_right ins [] l.
  Lemma leb_le : forall a b, leb a b = true <-> le a b.
  Proof. intros [a|] [b|]; cbn; try rewrite Nat.leb_le; intuition congruence. Qed.
  Lemma ins_perm : forall x l, Permutation (ins x l) (x :: l).
  Proof. induction l as [|y l IH]; cbn; auto. destruct (leb _ _); auto. rewrite IH. apply perm_swap. Qed.
  Inductive sorted : list (option nat * Z) -> Prop :=
  | s_nil : sorted []
  | s_cons : forall x l, (forall y, In y l -> le (fst x) (fst y)) -> sorted l -> sorted (x :: l).
  Lemma ins_sorted : forall x l, sorted l -> sorted (ins x l).
  Proof.
    intros x l H. induction H as [|y l F H IH]; cbn [ins]; [constructor; [intros y []|constructor]|].
    destruct (leb (fst x) (fst y)) eqn:E.
    - apply leb_le in E. constructor; [|constructor; auto].
      intros z [<-|Z0]; auto. specialize (F z Z0). destruct (fst x), (fst y), (fst z); cbn in *; try lia; auto.
    - constructor; auto. intros z Z0. apply (Permutation_in _ (ins_perm x l)) in Z0. destruct Z0 as [<-|Z0]; auto.
      destruct (fst x), (fst y); cbn in *; try congruence; auto. apply Nat.leb_gt in E. lia.
  Qed.
  Lemma sorted_nth : forall l, sorted l -> forall i j x y, (i < j)%nat -> nth_error l i = Some x -> nth_error l j = Some y -> le (fst x) (fst y).
  Proof.
    induction 1 as [|a l F H IH]; intros i j x y L X Y; [destruct i; discriminate|].
    destruct j as [|j]; [lia|]. destruct i as [|i]; cbn in X, Y.
    - inversion X; subst. apply F. eapply nth_error_In; eauto.
    - apply (IH i j); auto. lia.
  Qed.
  Example sorts : forall b, Permutation (sort b) b /\
       forall i j x y, (i < j)%nat -> nth_error (sort b) i = Some x -> nth_error (sort b) j = Some y -> le (fst x) (fst y).
  Proof.
    intro b. split.
    - induction b as [|x b IH]; cbn; auto. rewrite ins_perm. auto.
    - apply sorted_nth. induction b as [|x b IH]; [constructor|]. cbn. apply ins_sorted. exact IH.
  Qed.
  Definition stops (s : Z) : option nat := if s =? 1 then Some 5%nat else if s =? 2 then Some 6%nat else None.
  Example ids : read_identifiers stops sort t 1 [IRow 100 1 99; IRow 101 1 13; IRow 102 2 11; IRow 103 3 11; IRow 104 1 12] 5 =
    [(Some 1%nat, 104); (Some 3%nat, 101); (None, 100)].
  Proof. vm_compute. reflexivity. Qed.
  Example links : let '(l, m) := read_links [(1, 2, 3)] [(7, (4, 5, 6)); (8, (7, 8, 9)); (7, (0, 0, 0))] in
    length l = 4%nat /\ map (route_link m) [None; Some 7; Some 8; Some 9] = [Some None; Some (Some 1%nat); Some (Some 2%nat); None].
  Proof. vm_compute. split; reflexivity. Qed.
End Ticket_Examples.
