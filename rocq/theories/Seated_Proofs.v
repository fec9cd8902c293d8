(** Proofs about the resolution of stay-seated transfers, part 1: meeting trips, bit shifts, the component search. *)
From Coq Require Import List ZArith Bool Arith Sorted Permutation Lia.
From Verif Require Import Base Calendar_Model Block_Model Seated_Model Seated_Spec.
Import ListNotations.
Local Open Scope Z_scope.

Lemma shift_spec b o d : shift b o d = true <-> 0 <= d < 512 /\ 0 <= d - o < 512 /\ b (d - o) = true.
Proof.
  unfold shift. rewrite !andb_true_iff, !Z.leb_le, !Z.ltb_lt. split.
  - intros ((((A & B) & C) & D) & F). repeat split; assumption.
  - intros ((A & B) & (C & D) & F). repeat split; assumption.
Qed.
Lemma bf_any_spec b : bf_any b = true <-> exists d, 0 <= d < 512 /\ b d = true.
Proof.
  unfold bf_any. rewrite existsb_exists. split.
  - intros (x & Hx & Hb). apply in_map_iff in Hx. destruct Hx as (k & <- & Hk). apply in_seq in Hk. exists (Z.of_nat k). split; [lia|exact Hb].
  - intros (d & Hd & Hb). exists d. split; [|exact Hb]. apply in_map_iff. exists (Z.to_nat d). split; [lia|]. apply in_seq. lia.
Qed.

Lemma has_spec m i : has m i = true <-> In i (map fst m).
Proof.
  unfold has. rewrite existsb_exists, in_map_iff. split; intros (x & H1 & H2); exists x.
  - apply Nat.eqb_eq in H2. auto.
  - split; [auto|]. apply Nat.eqb_eq. auto.
Qed.
Lemma emplace_In m x y : In y (emplace m x) -> In y m \/ y = x.
Proof. unfold emplace. destruct (has m (fst x)); [auto|]. intros H. apply in_app_or in H. destruct H as [H|[<-|[]]]; auto. Qed.
Lemma emplace_incl m x y : In y m -> In y (emplace m x).
Proof. unfold emplace. destruct (has m (fst x)); [auto|]. intros H. apply in_or_app. auto. Qed.
Lemma emplace_has m x : In (fst x) (map fst (emplace m x)).
Proof.
  unfold emplace. destruct (has m (fst x)) eqn:H; [now apply has_spec|]. rewrite map_app. apply in_or_app. right. left. reflexivity.
Qed.
Lemma NoDup_snoc {A} (l : list A) x : NoDup l -> ~ In x l -> NoDup (l ++ [x]).
Proof. intros H N. apply (Permutation_NoDup (Permutation_cons_append l x)). now constructor. Qed.
Lemma emplace_NoDup m x : NoDup (map fst m) -> NoDup (map fst (emplace m x)).
Proof.
  intros H. unfold emplace. destruct (has m (fst x)) eqn:E; [auto|]. rewrite map_app. apply NoDup_snoc; [auto|].
  intros N. apply has_spec in N. congruence.
Qed.
Lemma emplaces_In l : forall m y, In y (fold_left emplace l m) -> In y m \/ In y l.
Proof. induction l as [|x l IH]; intros m y H; cbn in *; [auto|]. apply IH in H. destruct H as [H|H]; [|auto]. apply emplace_In in H. destruct H as [H | ->]; auto. Qed.
Lemma emplaces_incl l : forall m y, In y m -> In y (fold_left emplace l m).
Proof. induction l as [|x l IH]; intros m y H; cbn in *; [auto|]. apply IH, emplace_incl, H. Qed.
Lemma emplaces_has l : forall m x, In x l -> In (fst x) (map fst (fold_left emplace l m)).
Proof.
  induction l as [|y l IH]; intros m x H; [destruct H|]. cbn. destruct H as [->|H]; [|apply IH, H].
  pose proof (emplace_has m x) as K. apply in_map_iff in K. destruct K as (z & E & Hz). apply in_map_iff. exists z. split; [exact E|]. apply emplaces_incl, Hz.
Qed.
Lemma emplaces_NoDup l : forall m, NoDup (map fst m) -> NoDup (map fst (fold_left emplace l m)).
Proof. induction l as [|x l IH]; intros m H; cbn; [auto|]. apply IH, emplace_NoDup, H. Qed.

Section Seated.
  Variable E : expanded_seated.
  Variable order : nat -> nat -> list (nat * Z) -> list (nat * Z).
  Hypothesis Horder : forall it k l, Permutation (order it k l) l.
  Notation n := (length (es_trips E)).
  Notation trip_of := (trip_of E).
  Hypothesis Hok : input_ok E.

  Lemma trip_at i : (i < n)%nat -> nth_error (es_trips E) i = Some (trip_of i) /\ In (trip_of i) (es_trips E).
  Proof. intros H. split; [apply nth_error_nth'; exact H|apply nth_In, H]. Qed.
  Lemma runs_iff i d : runs E i d <-> (i < n)%nat /\ ut_days (trip_of i) d = true.
  Proof.
    split.
    - intros (t & H & D). assert (L : (i < n)%nat) by (apply nth_error_Some; congruence). destruct (trip_at i L) as (N & _). rewrite N in H. injection H as <-. auto.
    - intros (L & D). exists (trip_of i). destruct (trip_at i L). auto.
  Qed.
  Lemma times_shape i : (i < n)%nat -> exists x l y l', ut_times (trip_of i) = x :: l /\ ut_times (trip_of i) = l' ++ [y] /\ first_dep E i = x /\ last_arr E i = y /\
    0 <= x < 1440 /\ x <= y.
  Proof.
    intros L. destruct (trip_at i L) as (_ & HI). destruct (ok_times E Hok _ HI) as (Hs & x & l & Hx & B).
    destruct (@exists_last _ (x :: l)) as (l' & y & Hy); [discriminate|].
    exists x, l, y, l'. unfold first_dep, last_arr. rewrite Hx. split; [reflexivity|]. split; [exact Hy|]. split; [reflexivity|].
    split; [rewrite Hy; apply last_last|]. split; [exact B|].
    rewrite Hx in Hs. assert (Hin : In y (x :: l)) by (rewrite Hy; apply in_or_app; right; left; reflexivity).
    destruct Hin as [->|Hin]; [lia|]. inversion Hs as [|a b S1 F]; subst. rewrite Forall_forall in F. apply F, Hin.
  Qed.
  (** The two predicates of the code say exactly that the trips meet. *)
  Lemma meets_iff u v o : (u < n)%nat -> (v < n)%nat -> meets E u v o <-> valid_dwell E u v = true /\ o = day_change E u v.
  Proof.
    intros Lu Lv. destruct (times_shape u Lu) as (xu & lu & yu & lu' & U1 & U2 & U3 & U4 & U5 & U6). destruct (times_shape v Lv) as (xv & lv & yv & lv' & V1 & V2 & V3 & V4 & V5 & V6).
    assert (K : meets E u v o <-> 0 <= first_dep E v + o * 1440 - last_arr E u < 120).
    { split.
      - intros (a & d & (tu & l & x & Hu & Hl & ->) & (tv & x' & l' & Hv & Hl' & ->) & B).
        destruct (trip_at u Lu) as (Nu & _). destruct (trip_at v Lv) as (Nv & _). rewrite Nu in Hu. rewrite Nv in Hv. injection Hu as <-. injection Hv as <-.
        rewrite V1 in Hl'. injection Hl' as -> ->. rewrite U2 in Hl. apply app_inj_tail in Hl. destruct Hl as (_ & ->). rewrite U4, V3. exact B.
      - intros B. exists (last_arr E u), (first_dep E v). split; [|split; [|exact B]].
        + exists (trip_of u), lu', yu. destruct (trip_at u Lu). auto.
        + exists (trip_of v), xv, lv. destruct (trip_at v Lv). auto. }
    rewrite K. unfold valid_dwell, day_change. rewrite U3, U4, V3.
    assert (Q : yu = 1440 * Z.quot yu 1440 + Z.rem yu 1440) by (apply Z.quot_rem'; lia).
    assert (R : 0 <= Z.rem yu 1440 < 1440) by (apply Z.rem_bound_pos; lia).
    assert (Q0 : Z.quot xu 1440 = 0) by (apply Z.quot_small; lia). rewrite Q0.
    set (q := Z.quot yu 1440) in *. set (r := Z.rem yu 1440) in *. clearbody q r.
    destruct (Z.ltb_spec (xv - r) 0), (Z.ltb_spec xv r); try lia; rewrite Z.ltb_lt; split; intros H1; try lia.
  Qed.

  Lemma get_remaining_spec t i : In i (get_remaining E t) <-> (i < n)%nat /\ es_rule E i = t.
  Proof. unfold get_remaining. rewrite filter_In, in_seq, Nat.eqb_eq. lia. Qed.

  (** [v] is a neighbour of [u] at day offset [o]. *)
  Definition neighbour (u v : nat) (o : Z) : Prop := (follows E u v /\ meets E u v o) \/ (follows E v u /\ meets E v u (- o)).
  Lemma out_In comp cur offset x : (cur < n)%nat ->
    In x (out_neighbours E comp cur offset) <-> ~ In (fst x) (map fst comp) /\ follows E cur (fst x) /\ meets E cur (fst x) (snd x - offset).
  Proof.
    intros L. unfold out_neighbours. rewrite in_flat_map. split.
    - intros (t & Ht & H). apply in_flat_map in H. destruct H as (o & Ho & H). destruct (has comp o || negb (valid_dwell E cur o)) eqn:C; [destruct H|].
      destruct H as [<-|[]]. cbn [fst snd]. apply orb_false_iff in C. destruct C as (C1 & C2). apply negb_false_iff in C2. apply get_remaining_spec in Ho.
      split; [intros N; apply has_spec in N; congruence|]. split; [split; [exact L|split; [apply Ho|]]; destruct Ho as (_ & ->); exact Ht|].
      apply meets_iff; [exact L|apply Ho|]. split; [exact C2|lia].
    - intros (N & (_ & Lv & Hr) & M). exists (es_rule E (fst x)). split; [exact Hr|]. apply in_flat_map. exists (fst x). split; [apply get_remaining_spec; auto|].
      apply meets_iff in M; auto. destruct M as (V & M). rewrite V. cbn [negb]. rewrite orb_false_r.
      destruct (has comp (fst x)) eqn:C; [apply has_spec in C; contradiction|]. left. destruct x as (a, b). cbn in *. f_equal. lia.
  Qed.
  Lemma in_In comp cur offset x : (cur < n)%nat ->
    In x (in_neighbours E comp cur offset) <-> ~ In (fst x) (map fst comp) /\ follows E (fst x) cur /\ meets E (fst x) cur (offset - snd x).
  Proof.
    intros L. unfold in_neighbours. rewrite in_flat_map. split.
    - intros (t & Ht & H). apply in_flat_map in H. destruct H as (o & Ho & H). destruct (has comp o || negb (valid_dwell E o cur)) eqn:C; [destruct H|].
      destruct H as [<-|[]]. cbn [fst snd]. apply orb_false_iff in C. destruct C as (C1 & C2). apply negb_false_iff in C2. apply get_remaining_spec in Ho.
      split; [intros N; apply has_spec in N; congruence|]. split; [split; [apply Ho|split; [exact L|]]; destruct Ho as (_ & ->); apply (ok_rules E Hok); exact Ht|].
      apply meets_iff; [apply Ho|exact L|]. split; [exact C2|lia].
    - intros (N & (Lv & _ & Hr) & M). exists (es_rule E (fst x)). split; [apply (ok_rules E Hok); exact Hr|]. apply in_flat_map. exists (fst x). split; [apply get_remaining_spec; auto|].
      apply meets_iff in M; auto. destruct M as (V & M). rewrite V. cbn [negb]. rewrite orb_false_r.
      destruct (has comp (fst x)) eqn:C; [apply has_spec in C; contradiction|]. left. destruct x as (a, b). cbn in *. f_equal. lia.
  Qed.

  (** * The component search *)
  Section Grow.
    Variable it : nat.
    Variable rem : nat -> bitfield.
    Notation state := (list (nat * Z) -> list (nat * Z) -> bitfield -> Prop).
    Definition next_days (x : nat * Z) (days : bitfield) : bitfield := bf_and (shift (rem (fst x)) (- snd x)) days.
    Definition next_queue (x : nat * Z) (q comp : list (nat * Z)) : list (nat * Z) :=
      fold_left emplace (in_neighbours E (emplace comp x) (fst x) (snd x)) (fold_left emplace (out_neighbours E (emplace comp x) (fst x) (snd x)) q).

    Lemma grow_inv (I : state) :
      (forall x q q' comp days, I q comp days -> Permutation (x :: q') q -> bf_any (next_days x days) = false -> I q' comp days) ->
      (forall x q q' comp days, I q comp days -> Permutation (x :: q') q -> bf_any (next_days x days) = true -> I (next_queue x q' comp) (emplace comp x) (next_days x days)) ->
      forall fuel k q comp days comp' days', I q comp days -> grow E order fuel it k rem q comp days = Some (comp', days') -> I [] comp' days'.
    Proof.
      intros H1 H2. induction fuel as [|fuel IH]; intros k q comp days comp' days' HI H; [discriminate|]. cbn [grow] in H.
      pose proof (Horder it k q) as HP. destruct (order it k q) as [|(cur, offset) q'] eqn:Eq.
      - injection H as <- <-. apply Permutation_nil in HP. now subst q.
      - change (bf_and (shift (rem cur) (- offset)) days) with (next_days (cur, offset) days) in H.
        destruct (bf_any (next_days (cur, offset) days)) eqn:C; cbn [negb] in H.
        + eapply IH; [|exact H]. eapply (H2 (cur, offset)); eauto.
        + eapply IH; [|exact H]. eapply (H1 (cur, offset)); eauto.
    Qed.

    Lemma emplace_new comp x : ~ In (fst x) (map fst comp) -> emplace comp x = comp ++ [x].
    Proof. intros N. unfold emplace. destruct (has comp (fst x)) eqn:C; [apply has_spec in C; contradiction|reflexivity]. Qed.
    Lemma next_queue_In x q comp y : (fst x < n)%nat -> In y (next_queue x q comp) ->
      In y q \/ (~ In (fst y) (map fst (emplace comp x)) /\ neighbour (fst x) (fst y) (snd y - snd x)).
    Proof.
      intros L H. unfold next_queue in H. apply emplaces_In in H. destruct H as [H|H]; [apply emplaces_In in H; destruct H as [H|H]; [auto|]|].
      - apply out_In in H; [|exact L]. right. split; [apply H|]. left. split; apply H.
      - apply in_In in H; [|exact L]. right. split; [apply H|]. right. replace (- (snd y - snd x)) with (snd x - snd y) by lia. split; apply H.
    Qed.
    Lemma next_queue_has x q comp v o : (fst x < n)%nat -> neighbour (fst x) v o ->
      In v (map fst (emplace comp x)) \/ In v (map fst (next_queue x q comp)).
    Proof.
      intros L H. destruct (in_dec Nat.eq_dec v (map fst (emplace comp x))) as [N|N]; [auto|]. right. unfold next_queue. destruct H as [(F & M)|(F & M)].
      - assert (K : In (v, snd x + o) (out_neighbours E (emplace comp x) (fst x) (snd x))).
        { apply out_In; [exact L|]. cbn [fst snd]. replace (snd x + o - snd x) with o by lia. auto. }
        apply (emplaces_has _ q) in K. apply in_map_iff in K. destruct K as (z & Ez & Hz). apply in_map_iff. exists z. split; [exact Ez|]. apply emplaces_incl, Hz.
      - assert (K : In (v, snd x + o) (in_neighbours E (emplace comp x) (fst x) (snd x))).
        { apply in_In; [exact L|]. cbn [fst snd]. replace (snd x - (snd x + o)) with (- o) by lia. auto. }
        exact (emplaces_has _ _ _ K).
    Qed.
    Lemma next_queue_incl x q comp y : In y q -> In y (next_queue x q comp).
    Proof. intros H. unfold next_queue. now apply emplaces_incl, emplaces_incl. Qed.
    Lemma neighbour_lt u v o : neighbour u v o -> (v < n)%nat.
    Proof. intros [((_ & H & _) & _)|((H & _) & _)]; exact H. Qed.
    Lemma next_days_spec x days d : next_days x days d = true <-> days d = true /\ 0 <= d < 512 /\ 0 <= d + snd x < 512 /\ rem (fst x) (d + snd x) = true.
    Proof. unfold next_days, bf_and. rewrite andb_true_iff, shift_spec. replace (d - - snd x) with (d + snd x) by lia. tauto. Qed.

    (** Keys are unique trips; the days of the component are days of all its trips. *)
    Record inv_basic (q comp : list (nat * Z)) (days : bitfield) : Prop := {
      ib_q : forall x, In x q -> (fst x < n)%nat /\ ~ In (fst x) (map fst comp);
      ib_c : forall x, In x comp -> (fst x < n)%nat;
      ib_nq : NoDup (map fst q);
      ib_nc : NoDup (map fst comp);
      ib_days : forall x d, In x comp -> days d = true -> 0 <= d < 512 /\ 0 <= d + snd x < 512 /\ rem (fst x) (d + snd x) = true;
      ib_some : exists d, 0 <= d < 512 /\ days d = true }.
    Lemma perm_keys (x : nat * Z) (q q' : list (nat * Z)) : Permutation (x :: q') q -> NoDup (map fst q) -> NoDup (map fst q') /\ ~ In (fst x) (map fst q').
    Proof. intros P H. apply (Permutation_map fst), Permutation_sym in P. apply (Permutation_NoDup P) in H. cbn in H. inversion H; subst. auto. Qed.
    Lemma inv_basic_discard x q q' comp days : inv_basic q comp days -> Permutation (x :: q') q -> inv_basic q' comp days.
    Proof.
      intros [A B C D F G] P. destruct (perm_keys _ _ _ P C). split; auto. intros y Hy. apply A. apply (Permutation_in _ P). right. exact Hy.
    Qed.
    Lemma inv_basic_accept x q q' comp days : inv_basic q comp days -> Permutation (x :: q') q -> bf_any (next_days x days) = true ->
      inv_basic (next_queue x q' comp) (emplace comp x) (next_days x days).
    Proof.
      intros [A B C D F G] P HA. destruct (perm_keys _ _ _ P C) as (C1 & C2).
      destruct (A x) as (L & N); [apply (Permutation_in _ P); left; reflexivity|]. pose proof (emplace_new _ _ N) as Ec. split.
      - intros y Hy. apply next_queue_In in Hy; [|exact L]. destruct Hy as [Hy|(X & Hy)]; [|split; [eapply neighbour_lt, Hy|exact X]].
        destruct (A y) as (L2 & N2); [apply (Permutation_in _ P); right; exact Hy|]. split; [exact L2|]. rewrite Ec, map_app. intros X. apply in_app_or in X.
        destruct X as [X|[X|[]]]; [contradiction|]. apply C2. rewrite X. apply in_map, Hy.
      - intros y Hy. apply emplace_In in Hy. destruct Hy as [Hy | ->]; auto.
      - unfold next_queue. now apply emplaces_NoDup, emplaces_NoDup.
      - now apply emplace_NoDup.
      - intros y d Hy Hd. apply next_days_spec in Hd. apply emplace_In in Hy. destruct Hy as [Hy | ->]; [apply F; [exact Hy|apply Hd]|apply Hd].
      - apply bf_any_spec in HA. exact HA.
    Qed.

    Lemma keys_bound (m : list (nat * Z)) : NoDup (map fst m) -> (forall x, In x m -> (fst x < n)%nat) -> (length m <= n)%nat.
    Proof.
      intros H B. rewrite <- (map_length fst m). pose proof (seq_length n 0) as SL.
      assert (K : (length (map fst m) <= length (seq 0 n))%nat); [|lia]. apply NoDup_incl_length; [exact H|].
      intros i Hi. apply in_map_iff in Hi. destruct Hi as (x & <- & Hx). apply in_seq. specialize (B x Hx). lia.
    Qed.
    Lemma grow_total : forall fuel k q comp days, inv_basic q comp days -> ((n - length comp) * (n + 1) + length q < fuel)%nat ->
      exists r, grow E order fuel it k rem q comp days = Some r.
    Proof.
      induction fuel as [|fuel IH]; intros k q comp days HI HF; [destruct (Nat.nlt_0_r _ HF)|]. cbn [grow].
      pose proof (Horder it k q) as HP. destruct (order it k q) as [|(cur, offset) q'] eqn:Eq; [eexists; reflexivity|].
      change (bf_and (shift (rem cur) (- offset)) days) with (next_days (cur, offset) days).
      pose proof (Permutation_length HP) as HL. cbn in HL.
      destruct (bf_any (next_days (cur, offset) days)) eqn:C; cbn [negb].
      - pose proof (inv_basic_accept _ _ _ _ _ HI HP C) as HI'. apply (IH _ (next_queue (cur, offset) q' comp) (emplace comp (cur, offset))); [exact HI'|].
        assert (Q : (length (next_queue (cur, offset) q' comp) <= n)%nat) by (apply keys_bound; [apply (ib_nq _ _ _ HI')|intros y Hy; apply (ib_q _ _ _ HI' y Hy)]).
        assert (K : (length (emplace comp (cur, offset)) <= n)%nat) by (apply keys_bound; [apply (ib_nc _ _ _ HI')|apply (ib_c _ _ _ HI')]).
        rewrite emplace_new in *; try (apply (ib_q _ _ _ HI (cur, offset)); apply (Permutation_in _ HP); left; reflexivity).
        rewrite app_length in K |- *. cbn [length] in *. 
        assert (Z : (n - length comp = S (n - (length comp + 1)))%nat) by lia. rewrite Z in HF. cbn in HF. lia.
      - apply IH; [exact (inv_basic_discard _ _ _ _ _ HI HP)|lia].
    Qed.

    Lemma start_inv i : (i < n)%nat -> bf_any (rem i) = true -> inv_basic [(i, 0)] [] (rem i).
    Proof.
      intros L H. split.
      - intros x [<-|[]]. split; [exact L|intros []].
      - intros x [].
      - constructor; [intros []|constructor].
      - constructor.
      - intros x d [].
      - apply bf_any_spec, H.
    Qed.
    (** The first trip is in the component. *)
    Lemma grow_start fuel k i comp days : (i < n)%nat -> bf_any (rem i) = true -> grow E order fuel it k rem [(i, 0)] [] (rem i) = Some (comp, days) ->
      In (i, 0) comp /\ inv_basic [] comp days.
    Proof.
      intros L H HG. split; [|exact (grow_inv _ (fun x q q' c dd HI P _ => inv_basic_discard x q q' c dd HI P) inv_basic_accept _ _ _ _ _ _ _ (start_inv i L H) HG)].
      destruct fuel as [|fuel]; [discriminate|]. cbn [grow] in HG. pose proof (Horder it k [(i, 0)]) as HP. apply Permutation_sym, Permutation_length_1_inv in HP. rewrite HP in HG.
      change (bf_and (shift (rem i) (- 0)) (rem i)) with (next_days (i, 0) (rem i)) in HG.
      assert (C : bf_any (next_days (i, 0) (rem i)) = true).
      { apply bf_any_spec in H. destruct H as (d & Hd & Hr). apply bf_any_spec. exists d. split; [exact Hd|]. apply next_days_spec. cbn [fst snd]. rewrite Z.add_0_r. auto. }
      rewrite C in HG. cbn [negb] in HG.
      assert (G : forall fuel k q comp0 dd, In (i, 0) comp0 -> grow E order fuel it k rem q comp0 dd = Some (comp, days) -> In (i, 0) comp).
      { clear - Horder Hok. intros fuel k q comp0 dd H HG. refine (grow_inv (fun _ c _ => In (i, 0) c) _ _ fuel k q comp0 dd comp days H HG).
        - auto.
        - intros. now apply emplace_incl. }
      eapply G; [|exact HG]. left. reflexivity.
    Qed.

    (** With a common calendar, offsets are calendar differences and the component is closed. *)
    Section Calendar.
      Variable pos : nat -> Z.
      Hypothesis Hpos : forall u v o, follows E u v -> meets E u v o -> pos v = pos u + o.
      Variable s : nat.
      Lemma neighbour_pos u v o : neighbour u v o -> o = pos v - pos u.
      Proof. intros [(F & M)|(F & M)]; specialize (Hpos _ _ _ F M); lia. Qed.
      Definition inv_pos (q comp : list (nat * Z)) (days : bitfield) : Prop :=
        inv_basic q comp days /\
        (forall x, In x (q ++ comp) -> snd x = pos (fst x) - pos s) /\
        (forall u v o, In u (map fst comp) -> neighbour u v o ->
           In v (map fst comp) \/ In v (map fst q) \/ forall d, days d = true -> 0 <= d + (pos v - pos s) < 512 -> rem v (d + (pos v - pos s)) = false).
      Lemma inv_pos_discard x q q' comp days : inv_pos q comp days -> Permutation (x :: q') q -> bf_any (next_days x days) = false -> inv_pos q' comp days.
      Proof.
        intros (A & B & C) P HA. split; [exact (inv_basic_discard _ _ _ _ _ A P)|]. split.
        - intros y Hy. apply B. apply in_app_or in Hy. apply in_or_app. destruct Hy as [Hy|Hy]; [left|auto]. apply (Permutation_in _ P). right. exact Hy.
        - intros u v o Hu Hn. destruct (C u v o Hu Hn) as [H|[H|H]]; [auto| |auto]. apply (Permutation_in _ (Permutation_map fst (Permutation_sym P))) in H. cbn in H.
          destruct H as [<-|H]; [|auto]. right. right. intros d Hd R.
          assert (Ex : snd x = pos (fst x) - pos s) by (apply B, in_or_app; left; apply (Permutation_in _ P); left; reflexivity).
          destruct (rem (fst x) (d + (pos (fst x) - pos s))) eqn:Z; [|reflexivity]. exfalso.
          assert (K : bf_any (next_days x days) = true); [|congruence]. destruct (ib_some _ _ _ A) as (d0 & _).
          assert (Y : 0 <= d < 512).
          { destruct comp as [|c comp]; [destruct Hu|]. apply (ib_days _ _ _ A c d); [left; reflexivity|exact Hd]. }
          apply bf_any_spec. exists d. split; [exact Y|]. apply next_days_spec. rewrite Ex. auto.
      Qed.
      Lemma inv_pos_accept x q q' comp days : inv_pos q comp days -> Permutation (x :: q') q -> bf_any (next_days x days) = true ->
        inv_pos (next_queue x q' comp) (emplace comp x) (next_days x days).
      Proof.
        intros (A & B & C) P HA. pose proof (inv_basic_accept _ _ _ _ _ A P HA) as A'. split; [exact A'|].
        assert (Ix : In x q) by (apply (Permutation_in _ P); left; reflexivity). destruct (ib_q _ _ _ A x Ix) as (L & N).
        assert (Ex : snd x = pos (fst x) - pos s) by (apply B, in_or_app; auto). split.
        - intros y Hy. apply in_app_or in Hy. destruct Hy as [Hy|Hy].
          + apply next_queue_In in Hy; [|exact L]. destruct Hy as [Hy|(_ & Hy)]; [apply B, in_or_app; left; apply (Permutation_in _ P); right; exact Hy|].
            apply neighbour_pos in Hy. lia.
          + apply emplace_In in Hy. destruct Hy as [Hy | ->]; [apply B, in_or_app; auto|exact Ex].
        - intros u v o Hu Hn. rewrite emplace_new in Hu by exact N. rewrite map_app in Hu. apply in_app_or in Hu. destruct Hu as [Hu|[<-|[]]].
          + destruct (C u v o Hu Hn) as [H|[H|H]].
            * left. apply in_map_iff in H. destruct H as (z & Ez & Hz). apply in_map_iff. exists z. split; [exact Ez|apply emplace_incl, Hz].
            * apply (Permutation_in _ (Permutation_map fst (Permutation_sym P))) in H. cbn in H. destruct H as [<-|H]; [left; apply emplace_has|].
              right. left. apply in_map_iff in H. destruct H as (z & Ez & Hz). apply in_map_iff. exists z. split; [exact Ez|apply next_queue_incl, Hz].
            * right. right. intros d Hd. apply H. apply next_days_spec in Hd. apply Hd.
          + destruct (next_queue_has x q' comp v o L Hn) as [H|H]; auto.
      Qed.
      Lemma grow_closed fuel k comp days : (s < n)%nat -> bf_any (rem s) = true -> grow E order fuel it k rem [(s, 0)] [] (rem s) = Some (comp, days) ->
        (forall x, In x comp -> snd x = pos (fst x) - pos s) /\
        (forall u v o, In u (map fst comp) -> neighbour u v o -> In v (map fst comp) \/ forall d, days d = true -> 0 <= d + (pos v - pos s) < 512 -> rem v (d + (pos v - pos s)) = false).
      Proof.
        intros L H HG. assert (I0 : inv_pos [(s, 0)] [] (rem s)).
        { split; [exact (start_inv s L H)|]. split; [intros x [<-|[]]; cbn; lia|intros u v o []]. }
        destruct (grow_inv _ inv_pos_discard inv_pos_accept _ _ _ _ _ _ _ I0 HG) as (_ & B & C).
        split; [exact B|]. intros u v o Hu Hn. destruct (C u v o Hu Hn) as [X|[[]|X]]; auto.
      Qed.
    End Calendar.
  End Grow.
End Seated.
