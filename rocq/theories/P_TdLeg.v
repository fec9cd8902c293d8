(** C75: the time dependent offsets shown in a journey. *)
From Coq Require Import ZArith List Bool Lia Arith Sorted.
From Verif Require Import Time_Model Seq_Model P_Seq TdLeg_Model.
Import ListNotations.
Local Open Scope Z_scope.

(** ** Specification *)
(** [m] has exactly one list for target [l] and it is [c]. *)
Definition Offsets (m : td_map) (l : nat) (c : list td_footpath) : Prop := In (l, c) m.
Definition keys_distinct (m : td_map) : Prop := NoDup (map fst m).
Definition all_sorted (m : td_map) : Prop := forall l c, In (l, c) m -> strictly_sorted c.
(** A leg that is walked, cycled, ... between the start or destination and a stop with time dependent offsets [c]. *)
Definition OffsetLeg (m : td_map) (x : leg) (c : list td_footpath) : Prop :=
  exists tgt d mode, lg_uses x = Offset tgt d mode /\ Offsets m tgt c.
(** The leg is really possible: the offset can be started at the leg's departure, takes the duration noted in the leg and
    the leg ends then. *)
Definition Walkable (c : list td_footpath) (x : leg) : Prop :=
  exists tgt d mode, lg_uses x = Offset tgt d mode /\ can_walk c (lg_dep x) d /\ lg_arr x = lg_dep x + d.
(** Start of the earliest walk at or after [t], latest start of a walk that ends by [t]. *)
Definition EarliestWalk (c : list td_footpath) (t x d : Z) : Prop :=
  t <= x /\ can_walk c x d /\ forall x' d', t <= x' -> can_walk c x' d' -> x <= x'.
Definition LatestWalk (c : list td_footpath) (t x d : Z) : Prop :=
  x + d <= t /\ can_walk c x d /\ forall x' d', can_walk c x' d' -> x' + d' <= t -> x' <= x.
(** What may change in a leg: one of its times and the duration of the offset. *)
Definition same_but_times (a b : leg) : Prop :=
  lg_from a = lg_from b /\ lg_to a = lg_to b /\
  match lg_uses a, lg_uses b with
  | Offset t _ m, Offset t' _ m' => t = t' /\ m = m'
  | Other w, Other w' => w = w'
  | _, _ => False
  end.
(** No leg departs before the previous one arrived. *)
Definition connected (j : list leg) : Prop :=
  forall i a b, nth_error j i = Some a -> nth_error j (S i) = Some b -> lg_arr a <= lg_dep b.

(** ** Lemmas *)
Lemma td_find_spec m l c : keys_distinct m -> td_find m l = Some c <-> Offsets m l c.
Proof.
  unfold keys_distinct, Offsets. induction m as [|[k v] m IH]; cbn; intros Hn; [split; [discriminate|tauto]|].
  inversion Hn as [|? ? H1 H2]; subst. specialize (IH H2).
  destruct (Nat.eqb_spec k l) as [->|Hne].
  - split; [intros [= ->]; now left|]. intros [[= ->]|H]; [reflexivity|]. exfalso. apply H1. apply (in_map fst) in H. exact H.
  - rewrite IH. split; [now right|]. intros [[= -> _]|H]; [congruence|exact H].
Qed.
Lemma map_last_len f l : length (map_last f l) = length l.
Proof. induction l as [|x [|y l] IH]; cbn in *; auto. Qed.
Lemma map_last_nth f l : forall i,
  nth_error (map_last f l) i = if Nat.eqb (S i) (length l) then option_map f (nth_error l i) else nth_error l i.
Proof.
  induction l as [|x [|y l] IH]; intros i.
  - cbn. destruct i; reflexivity.
  - destruct i; cbn; [reflexivity|]. destruct i; reflexivity.
  - destruct i as [|i]; [reflexivity|].
    change (nth_error (map_last f (y :: l)) i = if Nat.eqb (S i) (length (y :: l)) then option_map f (nth_error (y :: l) i) else nth_error (y :: l) i).
    apply IH.
Qed.
Lemma specify_nth ts td j i :
  nth_error (specify_td_offsets ts td j) i =
  match i with
  | O => option_map (specify_first ts) (nth_error j 0)
  | S _ => if Nat.eqb (S i) (length j) then option_map (specify_last td) (nth_error j i) else nth_error j i
  end.
Proof.
  destruct j as [|x [|y l]]; cbn [specify_td_offsets].
  - destruct i; reflexivity.
  - destruct i as [|i]; [reflexivity|]. cbn. destruct i; reflexivity.
  - destruct i as [|i]; [reflexivity|]. cbn [nth_error]. rewrite map_last_nth. reflexivity.
Qed.
Lemma specify_first_same m x : same_but_times (specify_first m x) x /\ lg_dep (specify_first m x) = lg_dep x.
Proof.
  unfold specify_first, same_but_times. destruct (lg_uses x) as [t d mo|w] eqn:E; [|rewrite E; auto].
  destruct (td_find m t) as [c|]; [|rewrite E; auto].
  destruct (get_td_duration true c (lg_dep x)) as [[w e]|]; cbn; [|rewrite E]; auto.
Qed.
Lemma specify_last_same m x : same_but_times (specify_last m x) x /\ lg_arr (specify_last m x) = lg_arr x.
Proof.
  unfold specify_last, same_but_times. destruct (lg_uses x) as [t d mo|w] eqn:E; [|rewrite E; auto].
  destruct (td_find m t) as [c|]; [|rewrite E; auto].
  destruct (get_td_duration false c (lg_arr x)) as [[w e]|]; cbn; [|rewrite E]; auto.
Qed.

(** Walks available at a moment have one duration. *)
Lemma can_walk_fun c x d d' : strictly_sorted c -> can_walk c x d -> can_walk c x d' -> d = d'.
Proof. intros Hs (e & H & _ & <-) (e' & H' & _ & <-). now rewrite (in_force_fun _ _ _ _ Hs H H'). Qed.
(** There is an earliest walk at or after [t], if there is any. *)
Lemma earliest_exists c t x d : strictly_sorted c -> t <= x <= t + 7200 -> can_walk c x d ->
  exists x0 d0, EarliestWalk c t x0 d0 /\ x0 <= t + 7200 /\ exists w e, get_td_duration true c t = Some (w, e) /\ td_duration e = d0.
Proof.
  intros Hs Hx Hc. destruct (C13_forward_earliest_start c t Hs) as [H1 H2].
  destruct (get_td_duration true c t) as [[w e]|] eqn:E; [|exfalso; exact (H2 eq_refl x d Hx Hc)].
  destruct (H1 w e eq_refl) as (x0 & Hr & Hw & _ & Hm). exists x0, (td_duration e). split; [split; [lia|split; [exact Hw|exact Hm]]|].
  split; [lia|]. eauto.
Qed.

(** * C75 *)
(** Only an offset at the first place, and at the last one of at least two, is touched; a leg keeps everything but one of
    its times and the duration: the first leg its departure, the last leg its arrival. *)
Theorem C75_only_the_ends : forall (ts td : td_map) (j : list leg),
  length (specify_td_offsets ts td j) = length j /\
  forall i x y, nth_error j i = Some x -> nth_error (specify_td_offsets ts td j) i = Some y ->
    same_but_times y x /\
    (i = 0%nat -> lg_dep y = lg_dep x) /\
    ((0 < i)%nat -> lg_arr y = lg_arr x) /\
    ((0 < i)%nat -> (S i < length j)%nat -> y = x) /\
    ((exists w, lg_uses x = Other w) -> y = x).
Proof.
  intros ts td j. split.
  - destruct j as [|x [|y l]]; [reflexivity..|]. cbn [specify_td_offsets length]. now rewrite map_last_len.
  - intros i x y Hx Hy. rewrite specify_nth in Hy.
    assert (Hid : same_but_times x x). { unfold same_but_times. destruct (lg_uses x); auto. }
    destruct i as [|i].
    + rewrite Hx in Hy. injection Hy as <-. destruct (specify_first_same ts x) as [H1 H2].
      split; [exact H1|]. split; [auto|]. split; [lia|]. split; [lia|]. intros [w Hw]. unfold specify_first. now rewrite Hw.
    + destruct (Nat.eqb_spec (S (S i)) (length j)) as [El|El]; rewrite Hx in Hy; injection Hy as <-.
      * destruct (specify_last_same td x) as [H1 H2].
        split; [exact H1|]. split; [lia|]. split; [auto|]. split; [lia|]. intros [w Hw]. unfold specify_last. now rewrite Hw.
      * split; [exact Hid|]. split; [lia|]. auto.
Qed.

(** The first leg: if its target has time dependent offsets, it lasts as long as the earliest walk that can be started at
    or after its departure takes, and it is untouched if no walk starts within five days. *)
Theorem C75_first_leg : forall (ts td : td_map) (j : list leg) (x : leg) (c : list td_footpath),
  keys_distinct ts -> all_sorted ts -> hd_error j = Some x -> OffsetLeg ts x c ->
  exists y, hd_error (specify_td_offsets ts td j) = Some y /\
  (forall s d, EarliestWalk c (lg_dep x) s d -> s <= lg_dep x + 7200 ->
     lg_arr y = lg_dep y + d /\ exists tgt mode, lg_uses y = Offset tgt d mode) /\
  ((forall s d, lg_dep x <= s <= lg_dep x + 7200 -> ~ can_walk c s d) -> y = x).
Proof.
  intros ts td j x c Hk Hs Hh (tgt & d0 & mode & Hu & Ho). exists (specify_first ts x). split.
  { destruct j as [|x' [|y l]]; [discriminate| |]; cbn in *; congruence. }
  assert (Hc : strictly_sorted c) by exact (Hs _ _ Ho). apply td_find_spec in Ho; [|exact Hk].
  unfold specify_first. rewrite Hu, Ho. destruct (C13_forward_earliest_start c (lg_dep x) Hc) as [H1 H2].
  split.
  - intros s d (E1 & E2 & E3) Hle.
    destruct (get_td_duration true c (lg_dep x)) as [[w e]|] eqn:E; [|exfalso; exact (H2 eq_refl s d ltac:(lia) E2)].
    destruct (H1 w e eq_refl) as (x0 & Hr & Hw & _ & Hm).
    assert (x0 = s). { specialize (Hm _ _ E1 E2). specialize (E3 x0 (td_duration e) ltac:(lia) Hw). lia. } subst x0.
    assert (Ed : d = td_duration e) by (eapply can_walk_fun; eassumption). rewrite Ed. cbn. split; [reflexivity|]. eauto.
  - intros Hno. destruct (get_td_duration true c (lg_dep x)) as [[w e]|] eqn:E; [|reflexivity].
    exfalso. destruct (H1 w e eq_refl) as (x0 & Hr & Hw & _). exact (Hno _ _ Hr Hw).
Qed.

(** If the offset is available at the departure of the first leg, the leg that is shown is really possible; conversely it is
    possible only then. *)
Theorem C75_first_leg_walkable : forall (ts td : td_map) (j : list leg) (x : leg) (c : list td_footpath),
  keys_distinct ts -> all_sorted ts -> hd_error j = Some x -> OffsetLeg ts x c ->
  forall y, hd_error (specify_td_offsets ts td j) = Some y ->
  (Walkable c y <-> exists d, can_walk c (lg_dep x) d).
Proof.
  intros ts td j x c Hk Hs Hh Hol y Hy.
  destruct (C75_first_leg ts td j x c Hk Hs Hh Hol) as (y' & Hy' & Ha & _).
  assert (y' = y) by congruence. subst y'.
  assert (Hdep : lg_dep y = lg_dep x).
  { destruct (C75_only_the_ends ts td j) as [_ H].
    destruct j as [|x0 j]; [discriminate|]. cbn in Hh. injection Hh as ->.
    destruct (specify_td_offsets ts td (x :: j)) as [|y0 l] eqn:E; [discriminate|]. cbn in Hy. injection Hy as ->.
    destruct (H 0%nat x y eq_refl eq_refl) as (_ & H0 & _). auto. }
  split.
  - intros (tgt & d & mode & _ & Hw & _). rewrite Hdep in Hw. eauto.
  - intros (d & Hw). destruct (Ha (lg_dep x) d) as (H1 & tgt & mode & H2).
    { split; [lia|]. split; [exact Hw|]. intros; lia. }
    { lia. }
    exists tgt, d, mode. rewrite Hdep in *. auto.
Qed.

Lemma last_error_nth {A} (j : list A) x : nth_error j (length j - 1) = Some x -> (0 < length j)%nat.
Proof. destruct j; [discriminate|cbn; lia]. Qed.

(** The last leg of at least two lasts as long as the latest walk that ends by its arrival takes. *)
Theorem C75_last_leg : forall (ts td : td_map) (j : list leg) (x : leg) (c : list td_footpath),
  keys_distinct td -> all_sorted td -> (1 < length j)%nat -> nth_error j (length j - 1) = Some x -> OffsetLeg td x c ->
  exists y, nth_error (specify_td_offsets ts td j) (length j - 1) = Some y /\
  (forall s d, LatestWalk c (lg_arr x) s d -> lg_arr x - (s + d) <= 7200 ->
     lg_dep y = lg_arr x - d /\ s <= lg_dep y /\ lg_arr y = lg_dep y + d /\ (exists tgt mode, lg_uses y = Offset tgt d mode) /\
     (s + d = lg_arr x -> Walkable c y)) /\
  ((forall s d, can_walk c s d -> lg_arr x < s + d) -> y = x).
Proof.
  intros ts td j x c Hk Hs Hl Hx (tgt & d0 & mode & Hu & Ho). exists (specify_last td x). split.
  { rewrite specify_nth. destruct (length j - 1)%nat as [|i] eqn:Ei; [lia|].
    replace (Nat.eqb (S (S i)) (length j)) with true by (symmetry; apply Nat.eqb_eq; lia). now rewrite Hx. }
  assert (Hc : strictly_sorted c) by exact (Hs _ _ Ho). apply td_find_spec in Ho; [|exact Hk].
  unfold specify_last. rewrite Hu, Ho. destruct (C13_backward_latest_departure c (lg_arr x) Hc) as [H1 H2].
  split.
  - intros s d (E1 & E2 & E3) Hle.
    destruct (get_td_duration false c (lg_arr x)) as [[w e]|] eqn:E.
    + destruct (H1 w e eq_refl) as (Hw & Hr & Hm).
      assert (Es : lg_arr x - w = s). { specialize (Hm _ _ E2 E1). specialize (E3 _ _ Hw Hr). lia. }
      rewrite Es in *. assert (Ed : d = td_duration e) by (eapply can_walk_fun; eassumption). rewrite <- Ed. cbn.
      split; [reflexivity|]. split; [lia|]. split; [lia|]. split; [eauto|].
      intros Hsd. exists tgt, d, mode. cbn. replace (lg_arr x - d) with s by lia. split; [reflexivity|]. split; [exact E2|lia].
    + exfalso. destruct (H2 eq_refl) as [H|(s' & d' & Hw & Hlt & Hm)]; [exact (H _ _ E2 E1)|].
      assert (Es : s' = s). { specialize (Hm _ _ E2 E1). specialize (E3 s' d' Hw ltac:(lia)). lia. } subst s'.
      assert (d' = d) by (eapply can_walk_fun; eassumption). lia.
  - intros Hno. destruct (get_td_duration false c (lg_arr x)) as [[w e]|] eqn:E; [|reflexivity].
    exfalso. destruct (H1 w e eq_refl) as (Hw & Hr & _). specialize (Hno _ _ Hw). lia.
Qed.

(** The journey stays connected: if the earliest walk from the start (at or after the departure) reaches the second leg in
    time, and a walk that can be started after the leg before the last one has arrived ends by the arrival of the journey,
    no leg departs before the previous one has arrived. *)
Theorem C75_stays_connected : forall (ts td : td_map) (j : list leg),
  keys_distinct ts -> all_sorted ts -> keys_distinct td -> all_sorted td ->
  connected j ->
  (forall x n c, nth_error j 0 = Some x -> nth_error j 1 = Some n -> OffsetLeg ts x c ->
     exists s d, EarliestWalk c (lg_dep x) s d /\ s + d <= lg_dep n /\
       (length j = 2%nat -> forall c', OffsetLeg td n c' -> False)) ->
  (forall p x c, nth_error j (length j - 2) = Some p -> nth_error j (length j - 1) = Some x -> (1 < length j)%nat ->
     OffsetLeg td x c -> exists s d, lg_arr p <= s /\ can_walk c s d /\ s + d <= lg_arr x /\
       (length j = 2%nat -> forall c', OffsetLeg ts p c' -> False)) ->
  connected (specify_td_offsets ts td j).
Proof.
  intros ts td j Hks Hss Hkd Hsd Hco Hf Hla i a b Ha Hb.
  rewrite specify_nth in Ha. rewrite specify_nth in Hb.
  assert (Hnooff : forall m x, keys_distinct m -> (forall c, OffsetLeg m x c -> False) -> specify_first m x = x /\ specify_last m x = x).
  { intros m x Hk Hno. unfold specify_first, specify_last. destruct (lg_uses x) as [t d mo|] eqn:Eu; [|auto].
    destruct (td_find m t) as [c|] eqn:Ef; [|auto]. exfalso. apply (Hno c). exists t, d, mo. split; auto. now apply td_find_spec. }
  (* arrival of the first leg *)
  assert (HF : forall x n, nth_error j 0 = Some x -> nth_error j 1 = Some n -> lg_arr (specify_first ts x) <= lg_dep n).
  { intros x n Hx Hn. destruct (lg_uses x) as [t d mo|] eqn:Eu.
    2:{ unfold specify_first. rewrite Eu. exact (Hco 0%nat _ _ Hx Hn). }
    destruct (td_find ts t) as [c|] eqn:Ef.
    2:{ unfold specify_first. rewrite Eu, Ef. exact (Hco 0%nat _ _ Hx Hn). }
    assert (Hol : OffsetLeg ts x c). { exists t, d, mo. split; auto. now apply td_find_spec. }
    destruct (Hf x n c Hx Hn Hol) as (s & dd & (He1 & He2 & He3) & Hr & _).
    assert (Ho : Offsets ts t c) by now apply td_find_spec.
    unfold specify_first. rewrite Eu, Ef.
    destruct (C13_forward_earliest_start c (lg_dep x) (Hss _ _ Ho)) as [H1 _].
    destruct (get_td_duration true c (lg_dep x)) as [[w e]|]; [|exact (Hco 0%nat _ _ Hx Hn)].
    destruct (H1 w e eq_refl) as (x0 & Hx0 & Hw & _ & Hm).
    assert (x0 = s). { specialize (Hm _ _ He1 He2). specialize (He3 x0 (td_duration e) ltac:(lia) Hw). lia. } subst x0.
    assert (dd = td_duration e) by (eapply can_walk_fun; [exact (Hss _ _ Ho)|eassumption|eassumption]). cbn. lia. }
  (* departure of the last leg *)
  assert (HL : forall p x, nth_error j (length j - 2) = Some p -> nth_error j (length j - 1) = Some x -> (1 < length j)%nat ->
            lg_arr p <= lg_dep (specify_last td x)).
  { intros p x Hp Hx Hlen.
    assert (Hc0 : lg_arr p <= lg_dep x).
    { apply (Hco (length j - 2)%nat p x Hp). replace (S (length j - 2)) with (length j - 1)%nat by lia. exact Hx. }
    destruct (lg_uses x) as [t d mo|] eqn:Eu.
    2:{ unfold specify_last. rewrite Eu. exact Hc0. }
    destruct (td_find td t) as [c|] eqn:Ef.
    2:{ unfold specify_last. rewrite Eu, Ef. exact Hc0. }
    assert (Ho : Offsets td t c) by now apply td_find_spec.
    destruct (Hla p x c Hp Hx Hlen ltac:(exists t, d, mo; auto)) as (s & dd & Hps & Hw & Hr & _).
    unfold specify_last. rewrite Eu, Ef.
    destruct (C13_backward_latest_departure c (lg_arr x) (Hsd _ _ Ho)) as [H1 _].
    destruct (get_td_duration false c (lg_arr x)) as [[w e]|]; [|exact Hc0].
    destruct (H1 w e eq_refl) as (Hw' & Hr' & Hm). specialize (Hm _ _ Hw Hr). cbn. lia. }
  destruct i as [|i].
  - destruct (nth_error j 0) as [x|] eqn:Ex; [|discriminate]. injection Ha as <-.
    destruct (Nat.eqb_spec 2 (length j)) as [E2|E2].
    + destruct (nth_error j 1) as [n|] eqn:En; [|discriminate]. injection Hb as <-.
      (* two legs *)
      assert (Hd : (exists c, OffsetLeg ts x c) \/ forall c, OffsetLeg ts x c -> False).
      { destruct (lg_uses x) as [t d mo|] eqn:Eu.
        - destruct (td_find ts t) as [c|] eqn:Ef.
          + left. exists c, t, d, mo. split; auto. now apply td_find_spec.
          + right. intros c (t' & d' & m' & Hu & Ho). rewrite Eu in Hu. injection Hu as <- <- <-.
            apply td_find_spec in Ho; congruence.
        - right. intros c (t' & d' & m' & Hu & Ho). congruence. }
      destruct Hd as [[c Hol]|Hno].
      * destruct (Hf x n c eq_refl eq_refl Hol) as (s & dd & He & Hr & Hn2).
        destruct (Hnooff td n Hkd (Hn2 ltac:(lia))) as [_ ->]. apply HF; auto.
      * destruct (Hnooff ts x Hks Hno) as [-> _]. apply HL; [| |lia].
        -- rewrite <- E2. exact Ex.
        -- rewrite <- E2. exact En.
    + apply HF; auto.
  - destruct (Nat.eqb_spec (S (S i)) (length j)) as [E1|E1].
    { assert (nth_error j (S (S i)) = None) by (apply nth_error_None; lia).
      destruct (Nat.eqb_spec (S (S (S i))) (length j)); [lia|]. congruence. }
    destruct (Nat.eqb_spec (S (S (S i))) (length j)) as [E2|E2].
    + destruct (nth_error j (S (S i))) as [n|] eqn:En; [|discriminate]. injection Hb as <-.
      apply HL; [| |lia].
      * replace (length j - 2)%nat with (S i) by lia. exact Ha.
      * replace (length j - 1)%nat with (S (S i)) by lia. exact En.
    + exact (Hco _ _ _ Ha Hb).
Qed.

(** ** Cases *)
(** Offset to stop 7: available from 480 (10 min), closed from 500, available again from 510 (5 min). *)
Definition ex_offs := [mk_td 0 480 10; mk_td 0 500 511; mk_td 0 510 5].
Definition ex_journey (dep1 arr1 dep3 arr3 : Z) : list leg :=
  [mk_leg 1 7 dep1 arr1 (Offset 7 (arr1 - dep1) 0); mk_leg 7 8 520 560 (Other 0); mk_leg 8 2 dep3 arr3 (Offset 8 (arr3 - dep3) 0)].
Example C75_example :
  specify_td_offsets [(7%nat, ex_offs)] [(8%nat, [mk_td 0 0 20])] (ex_journey 490 515 560 590) =
  [mk_leg 1 7 490 500 (Offset 7 10 0); mk_leg 7 8 520 560 (Other 0); mk_leg 8 2 570 590 (Offset 8 20 0)].
Proof. reflexivity. Qed.
Example C75_example_hypotheses :
  keys_distinct [(7%nat, ex_offs)] /\ all_sorted [(7%nat, ex_offs)] /\ connected (ex_journey 490 515 560 590) /\ (exists d, can_walk ex_offs 490 d) /\ EarliestWalk ex_offs 503 510 5 /\ LatestWalk [mk_td 0 0 20] 590 570 20.
Proof.
  split; [repeat constructor; cbn; tauto|]. split.
  { intros l c [[= <- <-]|[]]. repeat constructor; cbn; lia. }
  split.
  { intros i a b. destruct i as [|[|[|[|i]]]]; cbn; intros Ha Hb; try discriminate; injection Ha as <-; injection Hb as <-; cbn; lia. }
  split.
  { exists 10, (mk_td 0 480 10). split; [|split; [cbv; discriminate|reflexivity]].
    split; [now left|]. split; [cbn; lia|]. intros e [<-|[<-|[<-|[]]]]; cbn; lia. }
  split.
  { split; [lia|]. split.
    - exists (mk_td 0 510 5). split; [|split; [cbv; discriminate|reflexivity]].
      split; [now (right; right; left)|]. split; [cbn; lia|]. intros e [<-|[<-|[<-|[]]]]; cbn; lia.
    - intros x' d' Hx (e & (Hin & Hle & Hmx) & Hu & _). destruct Hin as [<-|[<-|[<-|[]]]]; cbn in *.
      + specialize (Hmx (mk_td 0 500 511) ltac:(now (right; left))). cbn in Hmx. lia.
      + exfalso. apply Hu. reflexivity.
      + lia. }
  { split; [lia|]. split.
    - exists (mk_td 0 0 20). split; [|split; [cbv; discriminate|reflexivity]].
      split; [now left|]. split; [cbn; lia|]. intros e [<-|[]]; cbn; lia.
    - intros x' d' (e & ([<-|[]] & _) & _ & <-) Hr. cbn in Hr. lia. }
Qed.

(** Refuted: "the leg that is shown is possible". A departure at 503 has to wait until 510; the leg that was reconstructed
    with the wait (503 - 515) becomes a walk 503 - 508, although the offset is closed until 510. *)
Example C75_waiting_dropped_refuted :
  let j := specify_td_offsets [(7%nat, ex_offs)] [] (ex_journey 503 515 560 590) in
  exists x, hd_error j = Some x /\ lg_dep x = 503 /\ lg_arr x = 508 /\ ~ Walkable ex_offs x.
Proof.
  exists (mk_leg 1 7 503 508 (Offset 7 5 0)). split; [reflexivity|]. split; [reflexivity|]. split; [reflexivity|].
  intros (t & d & m & _ & (e & (Hin & Hle & Hmx) & Hu & _) & _). cbn in Hle. destruct Hin as [<-|[<-|[<-|[]]]]; cbn in *.
  - specialize (Hmx (mk_td 0 500 511) ltac:(now (right; left))). cbn in Hmx. lia.
  - apply Hu. reflexivity.
  - lia.
Qed.
(** ... and at the other end: the arrival 589 of a walk of 30 minutes that starts at 559; a walk of 5 minutes could start
    until 570, so the leg becomes 584 - 589, when the offset is closed. *)
Definition ex_dest := [mk_td 0 0 30; mk_td 0 560 5; mk_td 0 571 511].
Example C75_late_walk_closed_refuted :
  let j := specify_td_offsets [] [(8%nat, ex_dest)] (ex_journey 503 515 559 589) in
  can_walk ex_dest 559 30 /\ exists x, nth_error j 2 = Some x /\ lg_dep x = 584 /\ lg_arr x = 589 /\ ~ Walkable ex_dest x.
Proof.
  split.
  { exists (mk_td 0 0 30). split; [|split; [cbv; discriminate|reflexivity]].
    split; [now left|]. split; [cbn; lia|]. intros e [<-|[<-|[<-|[]]]]; cbn; lia. }
  exists (mk_leg 8 2 584 589 (Offset 8 5 0)). split; [reflexivity|]. split; [reflexivity|]. split; [reflexivity|].
  intros (t & d & m & _ & (e & (Hin & Hle & Hmx) & Hu & _) & _). cbn in Hle. destruct Hin as [<-|[<-|[<-|[]]]]; cbn in *.
  - specialize (Hmx (mk_td 0 560 5) ltac:(now (right; left))). cbn in Hmx. lia.
  - specialize (Hmx (mk_td 0 571 511) ltac:(now (right; right; left))). cbn in Hmx. lia.
  - apply Hu. reflexivity.
Qed.
