(** The stream of direct journeys: soundness, order, uniqueness, completeness. *)
From Coq Require Import List ZArith Bool Arith Lia Permutation Sorting.Sorted.
From Verif Require Import Base Time_Model Raptor_Model Raptor_Spec Rec_Model Rec_Spec Rec_Proofs Direct_Model Direct_Spec Direct_Proofs.
From Verif Require Query_Model.
Import ListNotations.
Local Open Scope Z_scope.

Lemma in_pick {A B} (f : A -> option B) l y : In y (pick f l) <-> exists x, In x l /\ f x = Some y.
Proof.
  induction l as [|x l IH]; cbn [pick]; [split; [intros []|intros (? & [] & _)]|].
  destruct (f x) as [z|] eqn:E.
  - cbn [In]. rewrite IH. split.
    + intros [<-|(x' & H & E')]; [exists x; auto|exists x'; auto].
    + intros (x' & [<-|H] & E'); [left; congruence|right; eauto].
  - rewrite IH. split; intros (x' & H & E'); [exists x'; split; [now right|auto]|]. destruct H as [<-|H]; [congruence|eauto].
Qed.
Lemma pick_sorted {A B} (f : A -> option B) (R : A -> A -> Prop) (S : B -> B -> Prop) l :
  (forall x y x' y', In x l -> In y l -> R x y -> f x = Some x' -> f y = Some y' -> S x' y') ->
  StronglySorted R l -> StronglySorted S (pick f l).
Proof.
  intros H HS. induction HS as [|x l HS IH F]; [constructor|]. cbn [pick].
  assert (IH' : StronglySorted S (pick f l)) by (apply IH; intros; eapply H; eauto; now right).
  destruct (f x) as [z|] eqn:E; [|exact IH']. constructor; [exact IH'|]. apply Forall_forall. intros y Hy.
  apply in_pick in Hy. destruct Hy as (x' & Hx' & E'). rewrite Forall_forall in F. eapply H; eauto; [now left|now right].
Qed.

Section Stream.
  Variable P : params.
  Variable L : Query_Model.locations.
  Variable Q : dquery.
  Notation fwd := (p_fwd P).
  Notation tt := (p_tt P).
  Variables day_lo day_hi : Z.

  (** ** Pairs of stops *)
  Definition boards (bl : list nat) (s : stop) : bool := is_in bl (Z.to_nat (s_loc s)) && can_start true (is_wheelchair P) s.
  Definition alights (al : list nat) (s : stop) : bool := is_in al (Z.to_nat (s_loc s)) && can_finish true (is_wheelchair P) s.
  Section Pairs.
    Variables bl al : list nat.
    Variable all : list stop.
    Lemma pairs_ok : forall stops i cur, (forall k s, nth_error stops k = Some s -> nth_error all (i + k) = Some s) ->
      (forall a, cur = Some a -> (a < i)%nat /\ exists s, nth_error all a = Some s /\ boards bl s = true) ->
      forall a b, In (a, b) (pairs_from P bl al stops i cur) ->
      (match cur with Some c => c <= a | None => i <= a end)%nat /\ (a < b)%nat /\ (i <= b)%nat /\
      (exists s, nth_error all a = Some s /\ boards bl s = true) /\ (exists s, nth_error all b = Some s /\ alights al s = true).
    Proof.
      induction stops as [|s stops IH]; intros i cur Hn Hc a b; cbn [pairs_from]; [intros []|].
      assert (Hn' : forall k s0, nth_error stops k = Some s0 -> nth_error all (S i + k) = Some s0).
      { intros k s0 H. specialize (Hn (S k) s0 H). now rewrite <- plus_n_Sm in Hn. }
      assert (H0 : nth_error all i = Some s) by (specialize (Hn 0%nat s eq_refl); now rewrite Nat.add_0_r in Hn).
      destruct cur as [c|].
      - destruct (Hc c eq_refl) as (Hlt & Hb).
        fold (alights al s). destruct (alights al s) eqn:E.
        + intros [[= <- <-]|Hin].
          * repeat split; auto; try lia. exists s. auto.
          * specialize (IH (S i) None Hn' ltac:(discriminate) a b Hin). cbn in IH. destruct IH as (A & B & C & D & F). repeat split; auto; lia.
        + intros Hin. specialize (IH (S i) (Some c) Hn'). destruct (IH ltac:(intros a0 [= <-]; split; [lia|exact Hb]) a b Hin) as (A & B & C & D & F).
          repeat split; auto; lia.
      - fold (boards bl s). destruct (boards bl s) eqn:E.
        + intros Hin. specialize (IH (S i) (Some i) Hn'). destruct (IH ltac:(intros a0 [= <-]; split; [lia|exists s; auto]) a b Hin) as (A & B & C & D & F).
          repeat split; auto; lia.
        + intros Hin. destruct (IH (S i) None Hn' ltac:(discriminate) a b Hin) as (A & B & C & D & F). repeat split; auto; lia.
    Qed.
    (** Boarding stops of successive pairs increase. *)
    Lemma pairs_increase : forall stops i cur, (forall a, cur = Some a -> (a < i)%nat) ->
      StronglySorted (fun x y : nat * nat => (fst x < fst y)%nat) (pairs_from P bl al stops i cur) /\
      (forall a b, In (a, b) (pairs_from P bl al stops i cur) -> (match cur with Some c => c | None => i end <= a)%nat).
    Proof.
      induction stops as [|s stops IH]; intros i cur Hc; cbn [pairs_from]; [split; [constructor|intros ? ? []]|].
      destruct cur as [c|].
      - specialize (Hc c eq_refl). fold (alights al s). destruct (alights al s).
        + destruct (IH (S i) None ltac:(discriminate)) as (A & B). split.
          * constructor; [exact A|]. apply Forall_forall. intros [a b] Hin. specialize (B _ _ Hin). cbn in *. lia.
          * intros a b [[= <- <-]|Hin]; [lia|]. specialize (B _ _ Hin). lia.
        + apply IH. intros a0 [= <-]. lia.
      - fold (boards bl s). destruct (boards bl s).
        + destruct (IH (S i) (Some i) ltac:(intros a0 [= <-]; lia)) as (A & B). split; auto.
        + destruct (IH (S i) None ltac:(discriminate)) as (A & B). split; [exact A|]. intros a b Hin. specialize (B _ _ Hin). lia.
    Qed.
    (** Whoever can board at [s] and alight at a later [s'] is served by a selected pair that starts and ends no later. *)
    Lemma pairs_cover : forall stops i cur s s' st st', (forall a, cur = Some a -> (a < i)%nat) ->
      nth_error stops s = Some st -> nth_error stops s' = Some st' -> (s < s')%nat -> boards bl st = true -> alights al st' = true ->
      exists a b, In (a, b) (pairs_from P bl al stops i cur) /\ (a <= i + s)%nat /\ (i + s <= b)%nat /\ (b <= i + s')%nat.
    Proof.
      assert (END : forall stops i a s' st', (a < i)%nat -> nth_error stops s' = Some st' -> alights al st' = true ->
        exists b, In (a, b) (pairs_from P bl al stops i (Some a)) /\ (i <= b <= i + s')%nat).
      { induction stops as [|x stops IH]; intros i a s' st' Ha Hn Hal; [destruct s'; discriminate|]. cbn [pairs_from]. fold (alights al x).
        destruct (alights al x) eqn:E; [exists i; split; [now left|lia]|].
        destruct s' as [|s']; [cbn in Hn; congruence|]. destruct (IH (S i) a s' st') as (b & Hb & Hle); auto; try lia.
        exists b. split; [exact Hb|lia]. }
      induction stops as [|x stops IH]; intros i cur s s' st st' Hc Hs Hs' Hlt Hb Ha; [destruct s; discriminate|].
      destruct s' as [|s']; [lia|]. cbn in Hs'. cbn [pairs_from].
      destruct s as [|s].
      - cbn in Hs. injection Hs as ->. destruct cur as [c|].
        + fold (alights al st). destruct (alights al st).
          * exists c, i. split; [now left|]. specialize (Hc c eq_refl). lia.
          * specialize (Hc c eq_refl). destruct (END stops (S i) c s' st') as (b & Hb' & Hle); [lia|exact Hs'|exact Ha|]. exists c, b. split; [exact Hb'|lia].
        + fold (boards bl st). rewrite Hb. destruct (END stops (S i) i s' st') as (b & Hb' & Hle); [lia|exact Hs'|exact Ha|]. exists i, b. split; [exact Hb'|lia].
      - cbn in Hs. destruct cur as [c|].
        + specialize (Hc c eq_refl). fold (alights al x). destruct (alights al x).
          * destruct (IH (S i) None s s' st st') as (a & b & Hin & Q1 & Q2 & Q3); [discriminate|exact Hs|exact Hs'|lia|exact Hb|exact Ha|]. exists a, b. split; [now right|lia].
          * destruct (IH (S i) (Some c) s s' st st') as (a & b & Hin & Q1 & Q2 & Q3); [intros a0 [= <-]; lia|exact Hs|exact Hs'|lia|exact Hb|exact Ha|]. exists a, b. split; [exact Hin|lia].
        + fold (boards bl x). destruct (boards bl x).
          * destruct (IH (S i) (Some i) s s' st st') as (a & b & Hin & Q1 & Q2 & Q3); [intros a0 [= <-]; lia|exact Hs|exact Hs'|lia|exact Hb|exact Ha|]. exists a, b. split; [exact Hin|lia].
          * destruct (IH (S i) None s s' st st') as (a & b & Hin & Q1 & Q2 & Q3); [discriminate|exact Hs|exact Hs'|lia|exact Hb|exact Ha|]. exists a, b. split; [exact Hin|lia].
    Qed.
  End Pairs.

  Lemma stop_at_nth r s st : nth_error (r_stops r) s = Some st -> stop_at r s = st /\ loc_at r s = Z.to_nat (s_loc st).
  Proof. intros H. unfold loc_at, stop_at. now rewrite (nth_error_nth _ _ _ H). Qed.
  (** ** One journey *)
  Lemma assemble_ends bw ride aw : l_dep ride = l_arr bw -> l_arr ride = l_dep aw ->
    j_dep (assemble_legs bw ride aw) = l_dep bw /\ j_arr (assemble_legs bw ride aw) = l_arr aw.
  Proof.
    intros H1 H2. unfold assemble_legs, j_dep, j_arr.
    assert (Z1 : zero_offset bw = true -> l_dep bw = l_arr bw) by (unfold zero_offset; destruct (l_uses bw); try discriminate; intros E; now apply Z.eqb_eq in E).
    assert (Z2 : zero_offset aw = true -> l_dep aw = l_arr aw) by (unfold zero_offset; destruct (l_uses aw); try discriminate; intros E; now apply Z.eqb_eq in E).
    destruct (zero_offset bw) eqn:E1, (zero_offset aw) eqn:E2; cbn; split; auto; try (rewrite H1; symmetry; auto); try (rewrite H2; auto).
  Qed.

  Lemma direct_journey_shape time ri r a b vi day j st st' : direct_journey P L Q time ri r a b vi day = Some j ->
    nth_error (r_stops r) a = Some st -> nth_error (r_stops r) b = Some st' ->
    let dep := run_time P r vi day a kDep in let arr := run_time P r vi day b kArr in
    exists bw aw, lookup_access P L Q true (Z.to_nat (s_loc st)) dep = Some bw /\ lookup_access P L Q false (Z.to_nat (s_loc st')) arr = Some aw /\
      j = assemble_legs bw (mk_leg (Z.to_nat (s_loc st)) (Z.to_nat (s_loc st')) dep arr (Ride ri vi day a (b + 1))) aw /\
      j_dep j = l_dep bw /\ j_arr j = l_arr aw /\ (if fwd then time <= j_dep j else j_arr j <= time) /\
      side_legs P L Q true (Z.to_nat (s_loc st)) dep (if zero_offset bw then [] else [bw]) /\
      side_legs P L Q false (Z.to_nat (s_loc st')) arr (if zero_offset aw then [] else [aw]).
  Proof.
    intros H Hst Hst' dep arr. destruct (stop_at_nth _ _ _ Hst) as (_ & E1). destruct (stop_at_nth _ _ _ Hst') as (_ & E2).
    unfold direct_journey in H. rewrite E1, E2 in H. fold dep arr in H.
    destruct (lookup_access P L Q true (Z.to_nat (s_loc st)) dep) as [bw|] eqn:LB; [|discriminate].
    destruct (lookup_access P L Q false (Z.to_nat (s_loc st')) arr) as [aw|] eqn:LA; [|discriminate].
    destruct (if p_fwd P then l_dep bw <? time else time <? l_arr aw) eqn:T; [discriminate|]. injection H as <-.
    exists bw, aw.
    destruct (lookup_access_sound _ _ _ _ _ _ _ LB) as (o1 & d1 & A1 & B1 & C1 & D1 & F1 & G1 & G1' & _).
    destruct (lookup_access_sound _ _ _ _ _ _ _ LA) as (o2 & d2 & A2 & B2 & C2 & D2 & F2 & G2 & G2' & _).
    cbn [inner_time outer_time] in *.
    destruct (assemble_ends bw (mk_leg (Z.to_nat (s_loc st)) (Z.to_nat (s_loc st')) dep arr (Ride ri vi day a (b + 1))) aw) as (E3 & E4);
      [cbn; congruence|cbn; congruence|].
    rewrite E3, E4. do 5 (split; [auto|]). split.
    { destruct (p_fwd P); apply Z.ltb_ge in T; exact T. }
    assert (SZ : forall bb g o d loc t, access P L Q bb loc o d -> outer_loc bb g = o -> inner_loc bb g = loc -> inner_time bb g = t ->
      outer_time bb g = (if bb then t - d else t + d) -> l_uses g = (match mode_of Q bb with Query_Model.kIntermodal => Offs loc d | _ => Foot (l_to g) d end) ->
      (is_intermodal_mode (side_mode Q bb) = false -> exists x, l_uses g = Foot x d) ->
      side_legs P L Q bb loc t (if zero_offset g then [] else [g])).
    { intros bb g o d loc t Ha Ho Hi Ht Hot Hu Hn. destruct (zero_offset g) eqn:Z; [|eapply side_walk; eauto].
      unfold zero_offset in Z. destruct (is_intermodal_mode (side_mode Q bb)) eqn:NI; [|destruct (Hn eq_refl) as (x & Ex); rewrite Ex in Z; discriminate].
      destruct (l_uses g) eqn:U; try discriminate. apply Z.eqb_eq in Z.
      assert (d = 0) by (destruct bb; cbn [inner_time outer_time] in *; lia). subst d.
      eapply side_none; [exact (inter_mode _ NI)|exact Ha]. }
    split; [eapply SZ; eauto|eapply SZ; eauto].
  Qed.

  Lemma boards_spec s : boards (collect_locations P L Q true) s = true <->
    may_board P s = true /\ exists o d, access P L Q true (Z.to_nat (s_loc s)) o d.
  Proof. unfold boards. rewrite andb_true_iff, in_collect. unfold can_start, may_board, wheelchair, is_wheelchair. tauto. Qed.
  Lemma alights_spec s : alights (collect_locations P L Q false) s = true <->
    may_alight P s = true /\ exists o d, access P L Q false (Z.to_nat (s_loc s)) o d.
  Proof. unfold alights. rewrite andb_true_iff, in_collect. unfold can_finish, may_alight, wheelchair, is_wheelchair. tauto. Qed.

  Lemma violates_spec r a b : sections_violate_constraints P r a b = false <->
    forall f sec, (f < 4)%nat -> p_require P f = true -> (a <= sec < b)%nat -> section_has r sec f.
  Proof.
    unfold sections_violate_constraints.
    assert (X : forall f sec, p_require P f && negb (flag_on_section r f sec) = false <-> (p_require P f = true -> section_has r sec f)).
    { intros f sec. unfold flag_on_section, section_has. destruct (p_require P f), (r_flag_all r f), (r_flag_some r f), (r_flag_section r f sec); cbn; intuition discriminate. }
    split.
    - intros H f sec Hf Hr Hs. apply X; [|exact Hr].
      destruct (p_require P f && negb (flag_on_section r f sec)) eqn:E; [|reflexivity]. exfalso.
      assert (K : existsb (fun i => existsb (fun f => p_require P f && negb (flag_on_section r f i)) [0%nat; 1%nat; 2%nat; 3%nat]) (seq a (b - a)) = true); [|congruence].
      apply existsb_exists. exists sec. split; [apply in_seq; lia|]. apply existsb_exists. exists f. split; [|exact E].
      destruct f as [|[|[|[|]]]]; cbn; auto; lia.
    - intros H. destruct (existsb _ (seq a (b - a))) eqn:E; [|reflexivity]. exfalso.
      apply existsb_exists in E. destruct E as (sec & Hs & E). apply existsb_exists in E. destruct E as (f & Hf & E). apply in_seq in Hs.
      assert (Hf4 : (f < 4)%nat) by (cbn in Hf; lia).
      assert (K : p_require P f && negb (flag_on_section r f sec) = false) by (apply X; intros; apply H; auto; lia). congruence.
  Qed.
  Lemma allowed_spec r : route_allowed P r = true <-> p_allowed_clasz P (r_clasz r) = true /\ has_required_flags P r.
  Proof.
    unfold route_allowed, has_required_flags. rewrite andb_true_iff, forallb_forall. split.
    - intros (A & B). split; [exact A|]. intros f Hf Hr. assert (X : In f [0%nat; 1%nat; 2%nat; 3%nat]) by (destruct f as [|[|[|[|]]]]; cbn; auto; lia).
      specialize (B f X). rewrite Hr in B. cbn in B. now apply orb_true_iff in B.
    - intros (A & B). split; [exact A|]. intros f Hf. assert (Hf4 : (f < 4)%nat) by (cbn in Hf; lia). specialize (B f Hf4).
      destruct (p_require P f); [|reflexivity]. cbn. apply orb_true_iff. auto.
  Qed.

  (** ** Generators *)
  (** What a generator of the model stands for: route, pair of stops. *)
  Record gen_of (time : Z) (ri : nat) (r : route) (a b : nat) (g : list (list leg)) : Prop := mk_gen_of {
    go_route : nth_error (tt_routes tt) ri = Some r;
    go_pair : In (a, b) (pairs_from P (collect_locations P L Q true) (collect_locations P L Q false) (r_stops r) 0 None);
    go_allowed : route_allowed P r = true;
    go_sections : sections_violate_constraints P r a b = false;
    go_gen : g = match r_rt r with None => route_gen P L Q day_lo day_hi time ri r a b | Some day => rt_gen P L Q time ri r a b day end }.
  Lemma generators_of time g : In g (generators P L Q day_lo day_hi time) -> exists ri r a b, gen_of time ri r a b g.
  Proof.
    unfold generators. intros H. apply in_flat_map in H. destruct H as (ri & _ & H). unfold route_generators in H.
    destruct (nth_error (tt_routes tt) ri) as [r|] eqn:Er; [|destruct H].
    destruct (existsb _ _ && existsb _ _ && route_allowed P r) eqn:E; [|destruct H]. apply andb_true_iff in E. destruct E as (_ & E).
    apply in_map_iff in H. destruct H as ([a b] & <- & H). apply filter_In in H. destruct H as (H & V). cbn [fst snd] in *.
    exists ri, r, a, b. constructor; auto. now apply negb_true_iff in V.
  Qed.

  Hypothesis Hwf : all_vehicles_wf P.

  (** The element of a generator. *)
  Lemma in_generator time ri r a b g j : gen_of time ri r a b g -> In j g ->
    exists vi v day, nth_error (r_vehicles r) vi = Some v /\ runs_on v day /\ direct_journey P L Q time ri r a b vi day = Some j.
  Proof.
    intros G Hj. rewrite (go_gen _ _ _ _ _ _ G) in Hj. destruct (r_rt r) as [day|] eqn:Er.
    - destruct (proj2 Hwf _ _ _ (go_route _ _ _ _ _ _ G) Er) as (Hd & v & Hv & Hdays). unfold rt_gen in Hj.
      destruct (direct_journey P L Q time ri r a b 0 day) as [j'|] eqn:E; [|destruct Hj]. destruct Hj as [<-|[]].
      exists 0%nat, v, day. rewrite Hv. split; [reflexivity|]. split; [|exact E]. split; [exact Hd|]. rewrite Hdays. apply Z.eqb_refl.
    - unfold route_gen in Hj. apply in_pick in Hj. destruct Hj as ([day vi] & Hk & E). apply in_flat_map in Hk.
      destruct Hk as (day' & _ & Hk). apply in_map_iff in Hk. destruct Hk as (vi' & [= <- <-] & Hvi).
      assert (LT : (vi' < length (r_vehicles r))%nat).
      { unfold transports_of in Hvi. destruct (p_fwd P); [|apply in_rev in Hvi]; apply in_seq in Hvi; lia. }
      unfold route_step in E. destruct (negb (is_route_active tt ri day')); [discriminate|].
      destruct (nth_error (r_vehicles r) vi') as [v|] eqn:Ev; [|apply nth_error_None in Ev; lia].
      assert (EV : vehicle_of r vi' = v) by (unfold vehicle_of; now rewrite (nth_error_nth _ _ _ Ev)).
      rewrite EV in E. set (sd := day' - _) in E. destruct (is_transport_active v sd) eqn:Act; [|discriminate]. cbn [negb] in E.
      exists vi', v, sd. split; [exact Ev|]. split; [|exact E]. unfold is_transport_active, kMaxDays in Act.
      apply andb_true_iff in Act. destruct Act as (Act & D). apply andb_true_iff in Act. destruct Act as (A1 & A2).
      split; [|exact D]. apply Z.leb_le in A1. apply Z.ltb_lt in A2. lia.
  Qed.

  Lemma gen_stops time ri r a b g : gen_of time ri r a b g -> exists st st', nth_error (r_stops r) a = Some st /\ nth_error (r_stops r) b = Some st' /\
    (a < b)%nat /\ may_board P st = true /\ may_alight P st' = true.
  Proof.
    intros G. destruct (pairs_ok (collect_locations P L Q true) (collect_locations P L Q false) (r_stops r) (r_stops r) 0 None) with (a := a) (b := b)
      as (_ & A & _ & (st & B1 & B2) & (st' & C1 & C2)).
    - intros k s H. exact H.
    - discriminate.
    - exact (go_pair _ _ _ _ _ _ G).
    - exists st, st'. apply boards_spec in B2. apply alights_spec in C2. intuition.
  Qed.

  Lemma generator_sound time ri r a b g j : gen_of time ri r a b g -> In j g ->
    direct P L Q j /\ (if fwd then time <= j_dep j else j_arr j <= time) /\ (exists vi day, rides_on ri vi day a b j).
  Proof.
    intros G Hj. destruct (in_generator _ _ _ _ _ _ _ G Hj) as (vi & v & day & Hv & Hr & Hd).
    destruct (gen_stops _ _ _ _ _ _ G) as (st & st' & Hst & Hst' & Hab & Hmb & Hma).
    destruct (direct_journey_shape _ _ _ _ _ _ _ _ _ _ Hd Hst Hst') as (bw & aw & LB & LA & Ej & E1 & E2 & T & S1 & S2).
    cbv zeta in *. split; [|split].
    - rewrite Ej. unfold assemble_legs. apply direct_intro; [|exact S1|exact S2].
      apply (ride_leg_intro P _ ri vi day a (b + 1) r v st st'); auto; cbn [l_uses l_from l_to l_dep l_arr].
      + exact (go_route _ _ _ _ _ _ G).
      + lia.
      + replace (b + 1 - 1)%nat with b by lia. exact Hst'.
      + pose proof (go_allowed _ _ _ _ _ _ G) as A. apply allowed_spec in A. apply A.
      + pose proof (go_sections _ _ _ _ _ _ G) as V. intros f sec Hf Hq Hs. apply (proj1 (violates_spec r a b) V); auto. lia.
      + apply (run_time_event P Hwf ri r); auto; [exact (go_route _ _ _ _ _ _ G)|apply nth_error_Some; congruence].
      + replace (b + 1 - 1)%nat with b by lia. apply (run_time_event P Hwf ri r); auto; [exact (go_route _ _ _ _ _ _ G)|apply nth_error_Some; congruence].
    - exact T.
    - exists vi, day. rewrite Ej. eexists. split; [unfold assemble_legs; apply in_or_app; right; now left|reflexivity].
  Qed.
End Stream.
