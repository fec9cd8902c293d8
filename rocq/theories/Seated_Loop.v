(** Proofs about the resolution of stay-seated transfers, part 3: transports and the outer loop. *)
From Coq Require Import List ZArith Bool Arith Sorted Permutation Lia.
From Verif Require Import Base Calendar_Model Block_Model Seated_Model Seated_Spec Seated_Proofs Seated_Dfs.
Import ListNotations.
Local Open Scope Z_scope.

Lemma last_snoc {A} (l : list A) x d : last (l ++ [x]) d = x.
Proof. apply last_last. Qed.

Section Transport.
  Variable E : expanded_seated.
  Hypothesis Hok : input_ok E.
  Variable days : bitfield.
  Notation n := (length (es_trips E)).
  Notation rule x := (es_rule E (fst x)).

  Lemma parts_snoc x l e : parts_of (x :: l ++ [e]) = parts_of (l ++ [e]) ++ [(fst x, snd x - snd e)].
  Proof.
    unfold parts_of. change (x :: l ++ [e]) with ((x :: l) ++ [e]). rewrite !last_snoc. cbn [app]. cbn [rev]. rewrite map_app. reflexivity.
  Qed.
  Lemma parts_cons l e : exists rest, parts_of (l ++ [e]) = (fst e, 0) :: rest.
  Proof. unfold parts_of. rewrite last_snoc, rev_unit. cbn [map]. exists (map (fun x => (fst x, snd x - snd e)) (rev l)). f_equal. f_equal. lia. Qed.
  Lemma conc_shape : forall l e, (forall x, In x (l ++ [e]) -> (fst x < n)%nat) ->
    exists t r rest, conc E days (l ++ [e]) = (t, r, - snd e) /\ parts_of (l ++ [e]) = (fst e, 0) :: rest /\
      ut_trips t = flat_map (fun p => ut_trips (nth (fst p) (es_trips E) no_trip)) (parts_of (l ++ [e])) /\
      ut_times t = flat_map (fun p => map (fun x => x + snd p * 1440) (ut_times (nth (fst p) (es_trips E) no_trip))) (parts_of (l ++ [e])) /\
      ut_stops t = ut_stops (nth (fst e) (es_trips E) no_trip) ++ flat_map (fun p => tl (ut_stops (nth (fst p) (es_trips E) no_trip))) rest /\
      ut_days t = shift days (snd e).
  Proof.
    induction l as [|x l IH]; intros e HB.
    - cbn [app]. unfold parts_of, conc, start_entry. cbn [rev app map last fst snd flat_map ut_trips ut_times ut_stops ut_days].
      eexists _, _, []. split; [reflexivity|]. split; [f_equal; f_equal; lia|]. rewrite !app_nil_r. split; [reflexivity|]. split; [|split; reflexivity].
      cbn [ut_times]. rewrite <- (map_id (ut_times (trip_of E (fst e)))) at 1. apply map_ext. intros a. lia.
    - destruct (IH e) as (t & r & rest & C & P & T1 & T2 & T3 & T4); [intros y Hy; apply HB; right; exact Hy|].
      assert (Lx : (fst x < n)%nat) by (apply HB; left; reflexivity).
      exists (append_trip E t (- snd e) x), (rule x), (rest ++ [(fst x, snd x - snd e)]).
      split; [|split; [|split; [|split; [|split]]]].
      + change ((x :: l) ++ [e]) with (x :: l ++ [e]). destruct (l ++ [e]) as [|y d] eqn:Ed; [destruct l; discriminate|]. cbn [conc]. cbn [conc] in C. rewrite C. reflexivity.
      + change ((x :: l) ++ [e]) with (x :: l ++ [e]). rewrite parts_snoc, P. reflexivity.
      + change ((x :: l) ++ [e]) with (x :: l ++ [e]). rewrite parts_snoc, flat_map_app, <- T1. cbn [append_trip ut_trips flat_map fst]. rewrite app_nil_r. f_equal.
        destruct (ok_trip E Hok (trip_of E (fst x))) as (z & Hz); [apply nth_In, Lx|]. unfold trip_of in *. rewrite Hz. reflexivity.
      + change ((x :: l) ++ [e]) with (x :: l ++ [e]). rewrite parts_snoc, flat_map_app, <- T2. cbn [append_trip ut_times flat_map fst snd]. rewrite app_nil_r. f_equal.
        apply map_ext. intros a. lia.
      + rewrite flat_map_app, app_assoc, <- T3. cbn [append_trip ut_stops flat_map fst]. rewrite app_nil_r. reflexivity.
      + exact T4.
  Qed.
End Transport.

Lemma remove_spec comp days : forall rem i d, remove_days comp days rem i d = true <->
  rem i d = true /\ forall x, In x comp -> fst x = i -> shift days (snd x) d = false.
Proof.
  unfold remove_days. induction comp as [|y comp IH]; intros rem i d; cbn [fold_left].
  - split; [intros H; split; [exact H|intros x []]|intros (H & _); exact H].
  - rewrite IH. destruct (Nat.eqb_spec i (fst y)) as [->|N].
    + unfold bf_andnot. rewrite andb_true_iff, negb_true_iff. split.
      * intros ((H1 & H2) & H3). split; [exact H1|]. intros x [<-|Hx] Ex; auto.
      * intros (H1 & H2). split; [split; [exact H1|apply H2; [now left|reflexivity]]|]. intros x Hx Ex. apply H2; [now right|exact Ex].
    + split; intros (H1 & H2); (split; [exact H1|]); intros x Hx Ex.
      * destruct Hx as [<-|Hx]; [congruence|auto].
      * apply H2; [now right|exact Ex].
Qed.
Lemma clear_spec comp rem : forall bits i, clear_bits comp rem bits i = true <-> bits i = true /\ (In i (map fst comp) -> bf_any (rem i) = true).
Proof.
  unfold clear_bits. induction comp as [|y comp IH]; intros bits i; cbn [fold_left map].
  - split; [intros H; split; [exact H|intros []]|intros (H & _); exact H].
  - rewrite IH. destruct (Nat.eqb_spec i (fst y)) as [->|N]; cbn [andb].
    + destruct (bf_any (rem (fst y))); cbn [negb]; split; try (intros (H1 & H2); split; auto; fail).
      * intros (H1 & _). discriminate.
      * intros (_ & H). discriminate H. now left.
    + split; intros (H1 & H2); (split; [exact H1|]); intros H.
      * destruct H as [H|H]; [congruence|auto].
      * apply H2. now right.
Qed.

Section Loop.
  Variable E : expanded_seated.
  Variable order : nat -> nat -> list (nat * Z) -> list (nat * Z).
  Hypothesis Horder : forall it k l, Permutation (order it k l) l.
  Hypothesis Hok : input_ok E.
  Notation n := (length (es_trips E)).
  Notation rule x := (es_rule E (fst x)).
  Notation orig i := (ut_days (trip_of E i)).

  (** The state of the outer loop. *)
  Record inv (next : option nat) (rem : nat -> bitfield) (bits : nat -> bool) : Prop := {
    iv_sub : forall i d, (i < n)%nat -> rem i d = true -> orig i d = true;
    iv_bits : forall i, (i < n)%nat -> (bits i = true <-> bf_any (rem i) = true);
    iv_next : match next with
              | Some i => (i < n)%nat /\ bits i = true /\ forall j, (j < i)%nat -> bits j = false
              | None => forall j, (j < n)%nat -> bits j = false
              end }.
  Lemma orig_range i d : (i < n)%nat -> orig i d = true -> 0 <= d < 512.
  Proof. intros L. apply (ok_days E Hok), nth_In, L. Qed.
  Lemma next_spec bits from : (forall j, (j < from)%nat -> bits j = false) -> (forall j, (n <= j)%nat -> bits j = false \/ True) ->
    match next_set_bit E bits from with
    | Some i => (i < n)%nat /\ bits i = true /\ forall j, (j < i)%nat -> bits j = false
    | None => forall j, (j < n)%nat -> bits j = false
    end.
  Proof.
    intros H _. unfold next_set_bit.
    assert (K : forall k from, (forall j, (j < from)%nat -> bits j = false) ->
      match find bits (seq from k) with
      | Some i => (i < from + k)%nat /\ bits i = true /\ forall j, (j < i)%nat -> bits j = false
      | None => forall j, (j < from + k)%nat -> bits j = false
      end).
    { clear. induction k as [|k IH]; intros from H; cbn.
      - intros j Hj. apply H. lia.
      - destruct (bits from) eqn:B; [split; [lia|auto]|]. specialize (IH (S from)). replace (S from + k)%nat with (from + S k)%nat in IH by lia. apply IH.
        intros j Hj. destruct (Nat.eq_dec j from) as [->|N]; [exact B|apply H; lia]. }
    specialize (K (n - from)%nat from H). destruct (find bits (seq from (n - from))) as [i|] eqn:F.
    - destruct K as (K1 & K2 & K3). split; [|auto]. apply find_some in F. destruct F as (F & _). apply in_seq in F. lia.
    - intros j Hj. destruct (le_lt_dec from n) as [L|L]; [apply K; lia|apply H; lia].
  Qed.

  (** One iteration: everything that does not need the calendar. *)
  Section Iteration.
    Variable it i : nat.
    Variable rem : nat -> bitfield.
    Variable bits : nat -> bool.
    Hypothesis Hinv : inv (Some i) rem bits.
    Variable fuel : nat.
    Variable comp0 : list (nat * Z).
    Variable days : bitfield.
    Hypothesis Hgrow : grow E order fuel it 0 rem [(i, 0)] [] (rem i) = Some (comp0, days).
    Notation comp := (order it 0 comp0).
    Notation rem' := (remove_days comp days rem).
    Notation bits' := (clear_bits comp rem' bits).

    Lemma it_i : (i < n)%nat /\ bf_any (rem i) = true.
    Proof. destruct Hinv as [A B (C1 & C2 & C3)]. split; [exact C1|]. apply B; auto. Qed.
    Lemma it_comp : In (i, 0) comp /\ NoDup (map fst comp) /\ (forall x, In x comp -> (fst x < n)%nat) /\
      (forall x d, In x comp -> days d = true -> 0 <= d < 512 /\ 0 <= d + snd x < 512 /\ rem (fst x) (d + snd x) = true) /\ exists d, 0 <= d < 512 /\ days d = true.
    Proof.
      destruct it_i as (L & A). destruct (grow_start E order Horder Hok it rem fuel 0 i comp0 days L A Hgrow) as (HI & [_ B _ C D F]).
      pose proof (Horder it 0 comp0) as P. split; [apply (Permutation_in _ (Permutation_sym P)), HI|].
      split; [apply (Permutation_NoDup (Permutation_map fst (Permutation_sym P))), C|].
      split; [intros x Hx; apply B, (Permutation_in _ P), Hx|]. split; [intros x d Hx; apply D, (Permutation_in _ P), Hx|exact F].
    Qed.
    Lemma shift_days x d : In x comp -> shift days (snd x) d = true <-> days (d - snd x) = true.
    Proof.
      intros Hx. rewrite shift_spec. split; [intros (_ & _ & H); exact H|]. intros H. destruct it_comp as (_ & _ & _ & D & _).
      destruct (D x _ Hx H) as (A & B & _). replace (d - snd x + snd x) with d in B by lia. auto.
    Qed.
    Lemma it_inv : inv (next_set_bit E bits' i) rem' bits'.
    Proof.
      destruct Hinv as [A B (C1 & C2 & C3)]. split.
      - intros j d L H. apply remove_spec in H. apply A; [exact L|apply H].
      - intros j L. rewrite clear_spec. split.
        + intros (H1 & H2). destruct (in_dec Nat.eq_dec j (map fst comp)) as [N|N]; [auto|].
          apply (B j L) in H1. apply bf_any_spec in H1. destruct H1 as (d & Hd & Hr). apply bf_any_spec. exists d. split; [exact Hd|].
          apply remove_spec. split; [exact Hr|]. intros x Hx <-. destruct N. apply in_map, Hx.
        + intros H. split; [|auto]. apply (B j L). apply bf_any_spec in H. destruct H as (d & Hd & Hr). apply bf_any_spec. exists d. split; [exact Hd|].
          apply remove_spec in Hr. apply Hr.
      - apply next_spec; [|auto]. intros j Hj. destruct (bits' j) eqn:Z; [|reflexivity]. apply clear_spec in Z. destruct Z as (Z & _). now rewrite C3 in Z.
    Qed.
    (** A day of the first trip is used up. *)
    Lemma it_progress : exists d, 0 <= d < 512 /\ rem i d = true /\ rem' i d = false.
    Proof.
      destruct it_comp as (HI & _ & _ & D & (d & Hd & Hdd)). exists d. split; [exact Hd|]. destruct (D _ _ HI Hdd) as (_ & _ & R). cbn [fst snd] in R. rewrite Z.add_0_r in R.
      split; [exact R|]. destruct (rem' i d) eqn:Z; [|reflexivity]. apply remove_spec in Z. destruct Z as (_ & Z). specialize (Z (i, 0) HI eq_refl). cbn [snd] in Z.
      assert (X : shift days 0 d = true) by (apply (shift_days (i, 0) d HI); cbn [snd]; rewrite Z.sub_0_r; exact Hdd). congruence.
    Qed.

    Variable fuel' : nat.
    Variable part : list utc_trip.
    Hypothesis Hdfs : dfs E fuel' comp (rev (starts E comp days)) = Some part.
    Lemma it_chains : exists chains, gd E comp fuel' (rev (map (fun e => [e]) (entries E comp))) = Some chains /\ part = map (transport_of E days) chains /\
      forall c, In c chains -> walk E comp c.
    Proof.
      assert (S : rev (starts E comp days) = map (conc E days) (rev (map (fun e => [e]) (entries E comp)))).
      { unfold starts, entries. rewrite map_rev, map_map. f_equal. }
      rewrite S, dfs_gd in Hdfs.
      - destruct (gd E comp fuel' (rev (map (fun e => [e]) (entries E comp)))) as [chains|] eqn:G; [|discriminate]. injection Hdfs as <-. exists chains. split; [reflexivity|].
        split; [reflexivity|]. refine (gd_walk E comp _ _ _ _ G). intros c Hc. apply in_rev in Hc. apply in_map_iff in Hc. destruct Hc as (e & <- & He).
        unfold entries in He. apply filter_In in He. apply walk_one; apply He.
      - intros c Hc. apply in_rev in Hc. apply in_map_iff in Hc. destruct Hc as (e & <- & _). discriminate.
    Qed.
    Lemma walk_snoc c : walk E comp c -> exists l e, c = l ++ [e] /\ is_entry E comp (fst e) = true.
    Proof.
      intros H. induction H as [e He Hi|r x c H (l & e & -> & Hi) Hr]; [exists [], e; auto|]. exists (r :: l), e. auto.
    Qed.
    Lemma walk_adjacent c l1 v u l2 : walk E comp c -> c = l1 ++ v :: u :: l2 -> In (rule v) (es_out E (rule u)).
    Proof.
      intros H. revert l1. induction H as [e He Hi|r x c H IH Hr]; intros [|y l1] Eq.
      - discriminate.
      - injection Eq as -> Eq. destruct l1; discriminate.
      - injection Eq as -> -> ->. apply succ_spec in Hr. apply Hr.
      - injection Eq as -> Eq. exact (IH _ Eq).
    Qed.
    Lemma transport_days c l e d : walk E comp c -> c = l ++ [e] -> ut_days (transport_of E days c) d = true <-> days (d - snd e) = true.
    Proof.
      intros W ->. destruct it_comp as (_ & _ & B & _). destruct (conc_shape E Hok days l e) as (t & r & rest & C & _ & _ & _ & _ & T).
      { intros x Hx. apply B, (walk_In E comp _ _ W Hx). }
      unfold transport_of. rewrite C. cbn [fst]. rewrite T. apply shift_days. apply (walk_In E comp _ _ W). apply in_or_app. right. left. reflexivity.
    Qed.
    Lemma parts_In c l e x : c = l ++ [e] -> In x c -> In (fst x, snd x - snd e) (parts_of c).
    Proof. intros -> H. unfold parts_of. rewrite last_snoc. apply in_map_iff. exists x. split; [reflexivity|]. now apply -> in_rev. Qed.
    Lemma In_parts c l e p : c = l ++ [e] -> In p (parts_of c) -> exists x, In x c /\ p = (fst x, snd x - snd e).
    Proof. intros -> H. unfold parts_of in H. rewrite last_snoc in H. apply in_map_iff in H. destruct H as (x & <- & Hx). apply in_rev in Hx. eauto. Qed.
    Lemma parts_adjacent c l e l1 u o v o' l2 : c = l ++ [e] -> parts_of c = l1 ++ (u, o) :: (v, o') :: l2 ->
      exists x y m1 m2, c = m1 ++ y :: x :: m2 /\ fst x = u /\ fst y = v /\ o = snd x - snd e /\ o' = snd y - snd e.
    Proof.
      intros -> H. unfold parts_of in H. rewrite last_snoc in H. apply map_eq_app in H. destruct H as (r1 & r2 & R & H1 & H2).
      destruct r2 as [|x r2]; [discriminate|]. destruct r2 as [|y r2]; [discriminate|]. cbn [map] in H2. injection H2 as H2 H3 H4 H5 H6.
      exists x, y, (rev r2), (rev r1). split; [|auto]. rewrite <- (rev_involutive (l ++ [e])), R, rev_app_distr. cbn [rev]. rewrite <- !app_assoc. reflexivity.
    Qed.
    Lemma adjacent_parts c l e x y m1 m2 : c = l ++ [e] -> c = m1 ++ y :: x :: m2 ->
      exists l1 l2, parts_of c = l1 ++ (fst x, snd x - snd e) :: (fst y, snd y - snd e) :: l2.
    Proof.
      intros H1 H2. unfold parts_of. assert (L : last c (0%nat, 0) = e) by (rewrite H1; apply last_snoc). rewrite L, H2, rev_app_distr. cbn [rev]. rewrite <- !app_assoc. cbn [app].
      rewrite map_app. cbn [map]. eexists _, _. reflexivity.
    Qed.
    Lemma it_days c p d : walk E comp c -> ut_days (transport_of E days c) d = true -> In p (parts_of c) -> (fst p < n)%nat /\ rem (fst p) (d + snd p) = true.
    Proof.
      intros W Hd Hp. destruct (walk_snoc _ W) as (l & e & Ec & _). destruct (In_parts _ _ _ _ Ec Hp) as (x & Hx & ->). apply (transport_days c l e d W Ec) in Hd.
      destruct it_comp as (_ & _ & B & D & _). pose proof (walk_In E comp _ _ W Hx) as Hc. split; [exact (B x Hc)|]. destruct (D x _ Hc Hd) as (_ & _ & R). cbn [fst snd].
      replace (d + (snd x - snd e)) with (d - snd e + snd x) by lia. exact R.
    Qed.
    Lemma it_joined c : walk E comp c -> joined E (parts_of c) (transport_of E days c).
    Proof.
      intros W. destruct (walk_snoc _ W) as (l & e & Ec & _). destruct it_comp as (_ & _ & B & D & _).
      destruct (conc_shape E Hok days l e) as (t & r & rest & C & P & T1 & T2 & T3 & T4); [intros x Hx; apply B, (walk_In E comp _ _ W); rewrite Ec; exact Hx|].
      assert (Et : transport_of E days c = t) by (unfold transport_of; rewrite Ec, C; reflexivity).
      exists (fst e), rest. split; [rewrite Ec; exact P|]. split; [rewrite Et, Ec; exact T1|]. split; [rewrite Et, Ec; exact T2|]. split; [rewrite Et; exact T3|]. split.
      - intros l1 u o v o' l2 Hp. destruct (parts_adjacent _ _ _ _ _ _ _ _ _ Ec Hp) as (x & y & m1 & m2 & Hc & <- & <- & _).
        split; [|split]; [apply B, (walk_In E comp _ _ W); rewrite Hc; apply in_or_app; right; right; left; reflexivity
                         |apply B, (walk_In E comp _ _ W); rewrite Hc; apply in_or_app; right; left; reflexivity|].
        exact (walk_adjacent _ _ _ _ _ W Hc).
      - intros d p Hd Hp. destruct (it_days c p d W Hd Hp) as (L & R). apply (runs_iff E). split; [exact L|]. exact (iv_sub _ _ _ Hinv _ _ L R).
    Qed.
    (** The first trip of a transport loses the days of the transport. *)
    Lemma it_removed c d p rest : walk E comp c -> ut_days (transport_of E days c) d = true -> parts_of c = p :: rest -> rem' (fst p) d = false.
    Proof.
      intros W Hd Hp. destruct (walk_snoc _ W) as (l & e & Ec & _). destruct (parts_cons l e) as (rest' & Hp'). rewrite Ec, Hp' in Hp. injection Hp as <- _. cbn [fst].
      apply (transport_days c l e d W Ec) in Hd.
      assert (He : In e comp) by (apply (walk_In E comp _ _ W); rewrite Ec; apply in_or_app; right; left; reflexivity).
      destruct (rem' (fst e) d) eqn:Z; [|reflexivity]. apply remove_spec in Z. destruct Z as (_ & Z). specialize (Z e He eq_refl). apply (shift_days e d He) in Hd. congruence.
    Qed.

    (** With a common calendar. *)
    Variable rank : nat -> nat.
    Hypothesis Hrank : forall a b, In b (es_out E a) -> (rank a < rank b)%nat.
    Variable pos : nat -> Z.
    Hypothesis Hcal : on_calendar E pos.
    Lemma it_pos x : In x comp -> snd x = pos (fst x) - pos i.
    Proof.
      intros Hx. destruct it_i as (L & A). destruct (grow_closed E order Horder Hok it rem pos (proj1 Hcal) i fuel 0 comp0 days L A Hgrow) as (K & _). apply K.
      apply (Permutation_in _ (Horder it 0 comp0)), Hx.
    Qed.
    Lemma comp_runs x d : In x comp -> days d = true -> runs E (fst x) (d - pos i + pos (fst x)).
    Proof.
      intros Hx Hd. destruct it_comp as (_ & _ & B & D & _). destruct (D x d Hx Hd) as (_ & _ & R). rewrite (it_pos x Hx) in R.
      apply (runs_iff E). split; [apply B, Hx|]. apply (iv_sub _ _ _ Hinv); [apply B, Hx|]. replace (d - pos i + pos (fst x)) with (d + (pos (fst x) - pos i)) by lia. exact R.
    Qed.
    Lemma it_unique x y : In x comp -> In y comp -> rule x = rule y -> x = y.
    Proof.
      intros Hx Hy Hr. destruct it_comp as (_ & _ & _ & _ & (d & _ & Hd)). destruct Hcal as (_ & _ & H3).
      assert (F : fst x = fst y) by exact (H3 _ _ _ Hr (comp_runs x d Hx Hd) (comp_runs y d Hy Hd)).
      pose proof (it_pos x Hx). pose proof (it_pos y Hy). rewrite F in *. destruct x, y; cbn in *; congruence.
    Qed.
    Lemma it_complete : exists chains, part = map (transport_of E days) chains /\ (forall c, In c chains -> walk E comp c) /\ NoDup chains /\
      forall e c', In e comp -> is_entry E comp (fst e) = true -> ends E comp [e] c' -> In c' chains.
    Proof.
      destruct it_chains as (chains & G & Hp & W). exists chains. split; [exact Hp|]. split; [exact W|].
      destruct it_comp as (_ & Nd & _). destruct (explore_all E Hok comp rank Hrank Nd) as (f & outs & G' & N & X). specialize (G' 0%nat).
      rewrite (gd_det E comp _ _ _ _ _ G G') in *. split; [exact N|]. intros e c' H1 H2 H3. apply X. eauto.
    Qed.
    (** A day taken from a trip is on a transport. *)
    Lemma it_covers j d chains : part = map (transport_of E days) chains -> (forall c, In c chains -> walk E comp c) ->
      (forall e c', In e comp -> is_entry E comp (fst e) = true -> ends E comp [e] c' -> In c' chains) ->
      rem j d = true -> rem' j d = false -> exists c o, In c chains /\ In (j, o) (parts_of c) /\ ut_days (transport_of E days c) (d - o) = true.
    Proof.
      intros Hp W HC H1 H2.
      assert (X : exists x, In x comp /\ fst x = j /\ days (d - snd x) = true).
      { assert (Y : ~ forall x, In x comp -> fst x = j -> shift days (snd x) d = false) by (intros Y; assert (rem' j d = true) by (apply remove_spec; auto); congruence).
        assert (Z : forall l, (forall x, In x l -> In x comp) -> (exists x, In x l /\ fst x = j /\ days (d - snd x) = true) \/ (forall x, In x l -> fst x = j -> shift days (snd x) d = false)).
        { induction l as [|x l IH]; intros Hl; [right; intros x []|]. destruct IH as [(y & A & B)|IH]; [intros y Hy; apply Hl; now right|left; exists y; split; [now right|exact B]|].
          destruct (Nat.eq_dec (fst x) j) as [Ej|Ej]; [|right; intros y [<-|Hy] Ey; [congruence|auto]].
          destruct (shift days (snd x) d) eqn:S; [left; exists x; split; [now left|]; split; [exact Ej|]; apply shift_days in S; [exact S|apply Hl; now left]|].
          right. intros y [<-|Hy] Ey; auto. }
        destruct (Z comp (fun x H => H)) as [Q|Q]; [exact Q|contradiction]. }
      destruct X as (x & Hx & Ej & Hd).
      destruct (member_on_chain E Hok comp rank Hrank it_unique x Hx) as (e & l & c & A & B & C). pose proof (HC _ _ A B C) as HIn. pose proof (W _ HIn) as Wc.
      destruct (walk_snoc _ Wc) as (l' & e' & Ec & _). exists (l ++ x :: c), (snd x - snd e'). split; [exact HIn|]. split.
      - rewrite <- Ej. apply (parts_In _ _ _ x Ec). apply in_or_app. right. left. reflexivity.
      - apply (transport_days _ _ _ _ Wc Ec). replace (d - (snd x - snd e') - snd e') with (d - snd x) by lia. exact Hd.
    Qed.
    (** Trips that meet are kept together. *)
    Lemma it_links u v o d chains : part = map (transport_of E days) chains -> (forall c, In c chains -> walk E comp c) ->
      (forall e c', In e comp -> is_entry E comp (fst e) = true -> ends E comp [e] c' -> In c' chains) ->
      follows E u v -> meets E u v o -> rem u d = true -> rem v (d + o) = true -> rem' u d = false \/ rem' v (d + o) = false ->
      exists c l1 l2 o1, In c chains /\ parts_of c = l1 ++ (u, o1) :: (v, o1 + o) :: l2 /\ ut_days (transport_of E days c) (d - o1) = true.
    Proof.
      intros Hp W HC F M Ru Rv H. pose proof F as (Lu & Lv & Fr). destruct it_i as (Li & Ai). pose proof (proj1 Hcal _ _ _ F M) as Po.
      destruct (grow_closed E order Horder Hok it rem pos (proj1 Hcal) i fuel 0 comp0 days Li Ai Hgrow) as (_ & CL).
      assert (Bu : 0 <= d < 512) by (apply (orig_range u); [exact Lu|exact (iv_sub _ _ _ Hinv _ _ Lu Ru)]).
      assert (Bv : 0 <= d + o < 512) by (apply (orig_range v); [exact Lv|exact (iv_sub _ _ _ Hinv _ _ Lv Rv)]).
      assert (C0 : forall w, In w (map fst comp0) <-> In w (map fst comp)) by (intros w; split; apply Permutation_in; [apply Permutation_sym|]; apply Permutation_map, Horder).
      assert (In1 : forall w, In w (map fst comp) -> In (w, pos w - pos i) comp).
      { intros w Hw. apply in_map_iff in Hw. destruct Hw as (x & <- & Hx). rewrite <- (it_pos x Hx). destruct x; exact Hx. }
      assert (X : days (d - (pos u - pos i)) = true /\ In u (map fst comp) /\ In v (map fst comp)).
      { destruct H as [H|H].
        - destruct (it_covers u d chains Hp W HC Ru H) as (c & o1 & Hc & Hpp & Hd). pose proof (W _ Hc) as Wc. destruct (walk_snoc _ Wc) as (l & e & Ec & _).
          destruct (In_parts _ _ _ _ Ec Hpp) as (x & Hx & [= -> ->]). pose proof (walk_In E comp _ _ Wc Hx) as Hxc. apply (transport_days _ _ _ _ Wc Ec) in Hd.
          rewrite <- (it_pos x Hxc). replace (d - snd x) with (d - (snd x - snd e) - snd e) by lia. split; [exact Hd|]. assert (Iu : In (fst x) (map fst comp)) by (apply in_map, Hxc). split; [exact Iu|].
          destruct (CL (fst x) v o) as [Y|Y]; [apply C0, Iu|left; auto|apply C0, Y|]. exfalso.
          replace (d - (snd x - snd e) - snd e) with (d - snd x) in Hd by lia. pose proof (it_pos x Hxc) as Px.
          specialize (Y _ Hd). replace (d - snd x + (pos v - pos i)) with (d + o) in Y by lia. rewrite (Y Bv) in Rv. discriminate.
        - destruct (it_covers v (d + o) chains Hp W HC Rv H) as (c & o1 & Hc & Hpp & Hd). pose proof (W _ Hc) as Wc. destruct (walk_snoc _ Wc) as (l & e & Ec & _).
          destruct (In_parts _ _ _ _ Ec Hpp) as (x & Hx & [= -> ->]). pose proof (walk_In E comp _ _ Wc Hx) as Hxc. apply (transport_days _ _ _ _ Wc Ec) in Hd.
          pose proof (it_pos x Hxc) as Px. replace (d + o - (snd x - snd e) - snd e) with (d - (pos u - pos i)) in Hd by lia. split; [exact Hd|].
          assert (Iv : In (fst x) (map fst comp)) by (apply in_map, Hxc). split; [|exact Iv].
          destruct (CL (fst x) u (- o)) as [Y|Y]; [apply C0, Iv|right; rewrite Z.opp_involutive; auto|apply C0, Y|]. exfalso.
          specialize (Y _ Hd). replace (d - (pos u - pos i) + (pos u - pos i)) with d in Y by lia. rewrite (Y Bu) in Ru. discriminate. }
      destruct X as (Hd & Iu & Iv). apply In1 in Iu. apply In1 in Iv.
      destruct (link_on_chain E Hok comp rank Hrank it_unique (u, pos u - pos i) (v, pos v - pos i) Iu Iv Fr) as (e & l & c & A & B & C). pose proof (HC _ _ A B C) as HIn. pose proof (W _ HIn) as Wc.
      destruct (walk_snoc _ Wc) as (l' & e' & Ec & _). destruct (adjacent_parts _ _ _ (u, pos u - pos i) (v, pos v - pos i) l c Ec eq_refl) as (l1 & l2 & Hpp). cbn [fst snd] in Hpp.
      eexists _, l1, l2, (pos u - pos i - snd e'). split; [exact HIn|]. split; [rewrite Hpp; do 3 f_equal; f_equal; lia|].
      apply (transport_days _ _ _ _ Wc Ec). replace (d - (pos u - pos i - snd e') - snd e') with (d - (pos u - pos i)) by lia. exact Hd.
    Qed.
    (** Consecutive trips of a transport meet. *)
    Lemma it_meets c l1 u o v o' l2 : walk E comp c -> parts_of c = l1 ++ (u, o) :: (v, o') :: l2 -> meets E u v (o' - o).
    Proof.
      intros W Hp. destruct (walk_snoc _ W) as (l & e & Ec & _). destruct (parts_adjacent _ _ _ _ _ _ _ _ _ Ec Hp) as (x & y & m1 & m2 & Hc & <- & <- & -> & ->).
      assert (Hx : In x comp) by (apply (walk_In E comp _ _ W); rewrite Hc; apply in_or_app; right; right; left; reflexivity).
      assert (Hy : In y comp) by (apply (walk_In E comp _ _ W); rewrite Hc; apply in_or_app; right; left; reflexivity).
      destruct it_comp as (_ & _ & B & _ & (d & _ & Hd)).
      assert (F : follows E (fst x) (fst y)) by (split; [apply B, Hx|split; [apply B, Hy|exact (walk_adjacent _ _ _ _ _ W Hc)]]).
      destruct (proj1 (proj2 Hcal) _ _ _ F (comp_runs x d Hx Hd) (comp_runs y d Hy Hd)) as (q & M). pose proof (proj1 Hcal _ _ _ F M) as Po.
      pose proof (it_pos x Hx). pose proof (it_pos y Hy). replace (snd y - snd e - (snd x - snd e)) with q by lia. exact M.
    Qed.
  End Iteration.
End Loop.
