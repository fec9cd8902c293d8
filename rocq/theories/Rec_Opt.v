(** The clean-up of the footpaths keeps an itinerary valid. *)
From Coq Require Import List ZArith Bool Arith Lia.
From Verif Require Import Base Time_Model Raptor_Model Raptor_Spec Raptor_Base Raptor_Sound Rec_Model Rec_Spec Rec_Proofs.
Import ListNotations.
Local Open Scope Z_scope.

Section Opt.
  Variable P : params.
  Variable Q : rquery.
  Notation fwd := (p_fwd P).
  Notation tt := (p_tt P).
  Hypothesis Hwf : all_vehicles_wf P.
  Hypothesis Hsym : forall a b d, In (b, d) (tt_footpaths_out tt a) <-> In (a, d) (tt_footpaths_in tt b).
  (** The query requires neither a wheelchair profile nor any other flag. *)
  Hypothesis Hreq : forall f, (f < 4)%nat -> p_require P f = false.
  Hypothesis Hmatch : forall l, rq_matches Q l l = true.
  Hypothesis Hmeta : forall l, In l (rq_metas Q l).
  Variable pl : Z * Z * nat * nat -> Z * Z * nat * nat -> bool.

  Lemma board_plain s : may_board P s = s_in s.
  Proof. unfold may_board, wheelchair. rewrite Hreq by lia. reflexivity. Qed.
  Lemma alight_plain s : may_alight P s = s_out s.
  Proof. unfold may_alight, wheelchair. rewrite Hreq by lia. reflexivity. Qed.

  (** *** Data of a ride *)
  Definition ride_data (g : leg) ri vi day from to r v : Prop :=
    l_uses g = Ride ri vi day from to /\ nth_error (tt_routes tt) ri = Some r /\ nth_error (r_vehicles r) vi = Some v /\ runs_on v day /\
    (from + 1 < to)%nat /\ (to <= length (r_stops r))%nat /\ l_from g = loc_at r from /\ l_to g = loc_at r (to - 1) /\
    s_in (stop_at r from) = true /\ s_out (stop_at r (to - 1)) = true /\ p_allowed_clasz P (r_clasz r) = true /\
    l_dep g = event_time P v day from kDep /\ l_arr g = event_time P v day (to - 1) kArr.
  Lemma stop_at_of r s st : nth_error (r_stops r) s = Some st -> stop_at r s = st.
  Proof. intros. unfold stop_at. now apply nth_error_nth. Qed.
  Lemma ride_leg_data g : ride_leg P g <-> exists ri vi day from to r v, ride_data g ri vi day from to r v.
  Proof.
    split.
    - intros [ri vi day from to r v st st' Hu Hr Hv Hrun Hlt Hs Hs' Ef Et Hb Ha Hc _ Ed Ea].
      exists ri, vi, day, from, to, r, v. rewrite board_plain in Hb. rewrite alight_plain in Ha.
      assert (to - 1 < length (r_stops r))%nat by (apply nth_error_Some; congruence).
      unfold ride_data, loc_at. rewrite (stop_at_of _ _ _ Hs), (stop_at_of _ _ _ Hs').
      do 5 (split; [assumption|]). split; [lia|]. auto 10.
    - intros (ri & vi & day & from & to & r & v & Hu & Hr & Hv & Hrun & Hlt & Hl & Ef & Et & Hb & Ha & Hc & Ed & Ea).
      eapply (ride_leg_intro P g ri vi day from to r v (stop_at r from) (stop_at r (to - 1))); auto using stop_at_nth.
      + apply stop_at_nth. lia.
      + apply stop_at_nth. lia.
      + now rewrite board_plain.
      + now rewrite alight_plain.
      + intros f sec Hf Hr'. rewrite Hreq in Hr' by auto. discriminate.
  Qed.
  Lemma route_of_nth ri r : nth_error (tt_routes tt) ri = Some r -> route_of P ri = r.
  Proof. intros. unfold route_of. now apply nth_error_nth. Qed.
  Lemma ride_uses g ri vi day from to r v ri' vi' day' from' to' : ride_data g ri vi day from to r v ->
    l_uses g = Ride ri' vi' day' from' to' -> ri = ri' /\ vi = vi' /\ day = day' /\ from = from' /\ to = to'.
  Proof. intros (Hu & _) Hu'. rewrite Hu in Hu'. injection Hu'. auto. Qed.

  (** Enter at another stop / leave at another stop. *)
  Lemma ride_enter g ri vi day from to r v s : ride_data g ri vi day from to r v -> (s < to - 1)%nat -> s_in (stop_at r s) = true ->
    ride_data (mk_leg (loc_at r s) (l_to g) (run_time P r vi day s kDep) (l_arr g) (Ride ri vi day s to)) ri vi day s to r v.
  Proof.
    intros (Hu & Hr & Hv & Hrun & Hlt & Hl & Ef & Et & Hb & Ha & Hc & Ed & Ea) Hs Hin.
    unfold ride_data. cbn [l_uses l_from l_to l_dep l_arr]. rewrite (run_time_event P Hwf ri r vi v) by (auto; lia).
    do 4 (split; [assumption || reflexivity|]). split; [lia|]. auto 10.
  Qed.
  Lemma ride_leave g ri vi day from to r v s : ride_data g ri vi day from to r v -> (from + 1 <= s < length (r_stops r))%nat ->
    s_out (stop_at r s) = true ->
    ride_data (mk_leg (l_from g) (loc_at r s) (l_dep g) (run_time P r vi day s kArr) (Ride ri vi day from (s + 1))) ri vi day from (s + 1) r v.
  Proof.
    intros (Hu & Hr & Hv & Hrun & Hlt & Hl & Ef & Et & Hb & Ha & Hc & Ed & Ea) Hs Hin.
    unfold ride_data. cbn [l_uses l_from l_to l_dep l_arr]. rewrite (run_time_event P Hwf ri r vi v) by (auto; lia).
    rewrite Nat.add_sub. do 4 (split; [assumption || reflexivity|]). split; [lia|]. split; [lia|]. auto 10.
  Qed.

  (** *** Replacing the first / last ride *)
  Lemma rides_head n h h' ls : rides P n (h :: ls) -> ride_leg P h' -> l_to h' = l_to h -> l_arr h' = l_arr h ->
    rides P n (h' :: ls) /\ l_to (last_leg (h' :: ls)) = l_to (last_leg (h :: ls)) /\ l_arr (last_leg (h' :: ls)) = l_arr (last_leg (h :: ls)).
  Proof.
    intros H Hh E1 E2. inversion H; subst.
    - split; [now apply rides_last|]. auto.
    - split; [|auto]. apply rides_more; auto; congruence.
  Qed.
  Lemma rides_tail n A h h' : rides P n (A ++ [h]) -> ride_leg P h' -> l_from h' = l_from h -> l_dep h' = l_dep h ->
    rides P n (A ++ [h']) /\ l_from (first_leg (A ++ [h'])) = l_from (first_leg (A ++ [h])) /\ l_dep (first_leg (A ++ [h'])) = l_dep (first_leg (A ++ [h])).
  Proof.
    intros H Hh E1 E2. split; [|destruct A; cbn; auto].
    remember (A ++ [h]) as X eqn:EX. revert A EX. induction H as [g0 Hg0|n g0 f0 h0 ls Hg0 Hf0 H1 H2 H3 H4 Hr IH]; intros A EX.
    - destruct A as [|a A]; [|destruct A; discriminate]. cbn. now apply rides_last.
    - destruct A as [|a [|b A]]; cbn in EX.
      + discriminate.
      + destruct ls; discriminate.
      + injection EX as -> -> EX. cbn. destruct A as [|c A]; cbn in *.
        * injection EX as -> ->. apply rides_more; auto; try congruence. apply (IH []); auto.
        * injection EX as -> ->. apply rides_more; auto. apply (IH (c :: A)); auto.
  Qed.
  Lemma rides_first n ls : rides P n ls -> exists g rest, ls = g :: rest /\ ride_leg P g.
  Proof. intros H; inversion H; subst; eauto. Qed.
  Lemma rides_last_leg n ls : rides P n ls -> exists pre g, ls = pre ++ [g] /\ ride_leg P g.
  Proof.
    induction 1 as [g0 Hg0|n g0 f0 h0 ls Hg0 Hf0 H1 H2 H3 H4 Hr (pre & g & E & Hg)].
    - exists [], g0. auto.
    - exists (g0 :: f0 :: pre), g. rewrite E. auto.
  Qed.

  (** *** The two sides of an itinerary *)
  Section Sides.
  Variables (t0 : Z) (l1 : nat) (t1 : Z).
  Definition front_side (pre : list leg) (l : nat) (t : Z) : Prop :=
    if fwd then start_side P Q true t0 pre l t else dest_side P Q true l1 t1 pre l t.
  Definition back_side (post : list leg) (l : nat) (t : Z) : Prop :=
    if fwd then dest_side P Q false l1 t1 post l t else start_side P Q false t0 post l t.
  Lemma itinerary_sides n legs : itinerary P Q n t0 l1 t1 legs <->
    exists pre mid post, legs = pre ++ mid ++ post /\ rides P n mid /\
      front_side pre (l_from (first_leg mid)) (l_dep (first_leg mid)) /\ back_side post (l_to (last_leg mid)) (l_arr (last_leg mid)).
  Proof.
    unfold itinerary, front_side, back_side. split; intros (pre & mid & post & E & Hr & H); exists pre, mid, post; destruct fwd; tauto.
  Qed.

  (** The front consists of nothing, a walk or an offset. *)
  Lemma front_cases pre l t : front_side pre l t -> pre = [] \/ (exists a, pre = [a] /\ ((exists x d, l_uses a = Foot x d) \/ (exists x d, l_uses a = Offs x d))).
  Proof. unfold front_side. destruct fwd; intros [ ]; eauto 8. Qed.
  Lemma back_cases post l t : back_side post l t -> post = [] \/ (exists a, post = [a] /\ ((exists x d, l_uses a = Foot x d) \/ (exists x d, l_uses a = Offs x d))).
  Proof. unfold back_side. destruct fwd; intros [ ]; eauto 8. Qed.

  (** A shorter offset that departs no earlier. *)
  Lemma front_new_offset a l t x d x' d' t' : front_side [a] l t -> l_uses a = Offs x d -> In (x', d') (travel_starts P Q) -> l_dep a <= t' - d' ->
    front_side [mk_leg (l_from a) x' (t' - d') t' (Offs x' d')] x' t'.
  Proof.
    unfold front_side, travel_starts. destruct fwd; intros H Hu Hin Hle.
    - inversion H as [|g loc tx dd Hi (y & z & Hx)|g loc tx y z Hi Hx Hy Hz G1 G2 G3 G4 G5]; subst; [congruence|].
      eapply start_offset with (x := x') (d := d'); eauto; cbn in *; auto; try lia.
    - inversion H as [|g loc tx dd Hi (y & z & Hx)|g loc tx y z Hi Hx Hy Hz G1 G2 G3 G4 G5]; subst; [congruence|].
      eapply dest_offset with (x := x') (d := d'); eauto; cbn in *; auto; try lia.
  Qed.
  Lemma back_new_offset a l t x d x' d' t' : back_side [a] l t -> l_uses a = Offs x d -> In (x', d') (travel_dests P Q) -> t' + d' <= l_arr a ->
    back_side [mk_leg x' (l_to a) t' (t' + d') (Offs x' d')] x' t'.
  Proof.
    unfold back_side, travel_dests. destruct fwd; intros H Hu Hin Hle.
    - inversion H as [|g loc tx dd Hi (y & z & Hx)|g loc tx y z Hi Hx Hy Hz G1 G2 G3 G4 G5]; subst; [congruence|].
      eapply dest_offset with (x := x') (d := d'); eauto; cbn in *; auto; try lia.
    - inversion H as [|g loc tx dd Hi (y & z & Hx)|g loc tx y z Hi Hx Hy Hz G1 G2 G3 G4 G5]; subst; [congruence|].
      eapply start_offset with (x := x') (d := d'); eauto; cbn in *; auto; try lia.
  Qed.
  Lemma front_new_walk a l t x d l' d' t' u : front_side [a] l t -> l_uses a = Foot x d -> In (l', d') (tt_footpaths_out tt (l_from a)) ->
    l_dep a <= t' - p_adjust P d' -> front_side [mk_leg (l_from a) l' (t' - p_adjust P d') t' (Foot l' u)] l' t'.
  Proof.
    unfold front_side. destruct fwd; intros H Hu Hin Hle.
    - inversion H as [|g loc tx dd Hi (y & z & Hx) G1 G2 G3 G4 G5 G6|g loc tx y z Hi Hx]; subst; [|congruence].
      eapply start_walk with (d := p_adjust P d'); eauto; cbn in *; eauto; try lia; exists d'. auto.
    - inversion H as [|g loc tx dd Hi (y & z & Hx) G1 G2 G3 G4 G5 G6|g loc tx y z Hi Hx]; subst; [|congruence].
      eapply dest_walk with (d := p_adjust P d'); eauto; cbn in *; eauto; try lia; exists d'. auto.
  Qed.
  Lemma back_new_walk a l t x d l' d' t' y' u : back_side [a] l t -> l_uses a = Foot x d -> In (l', d') (tt_footpaths_in tt (l_to a)) ->
    t' + p_adjust P d' <= l_arr a -> back_side [mk_leg l' (l_to a) t' (t' + p_adjust P d') (Foot y' u)] l' t'.
  Proof.
    unfold back_side. intros H Hu Hin Hle. apply Hsym in Hin. destruct fwd.
    - inversion H as [|g loc tx dd Hi (y & z & Hx) G1 G2 G3 G4 G5 G6|g loc tx y z Hi Hx]; subst; [|congruence].
      eapply dest_walk with (d := p_adjust P d'); eauto; cbn in *; eauto; try lia; exists d'. auto.
    - inversion H as [|g loc tx dd Hi (y & z & Hx) G1 G2 G3 G4 G5 G6|g loc tx y z Hi Hx]; subst; [|congruence].
      eapply start_walk with (d := p_adjust P d'); eauto; cbn in *; eauto; try lia; exists d'. auto.
  Qed.

  (** *** Beginning of the journey *)
  Definition front_inv (b0 : leg) (foot : bool) ri vi day to r v (l0 : nat) (st : Z * leg * leg) : Prop :=
    let '(_, a, b) := st in
    front_side [a] (l_from b) (l_dep b) /\ (if foot then exists x d, l_uses a = Foot x d else exists x d, l_uses a = Offs x d) /\
    l_from a = l0 /\ l_to b = l_to b0 /\ l_arr b = l_arr b0 /\ exists from, ride_data b ri vi day from to r v.

  Lemma opt_departure_keeps n legs : itinerary P Q n t0 l1 t1 legs -> itinerary P Q n t0 l1 t1 (optimize_initial_departure P Q legs).
  Proof.
    intros H. pose proof H as Horig. apply itinerary_sides in H as (pre & mid & post & -> & Hr & Hf & Hb).
    destruct (rides_first _ _ Hr) as (b & rest & -> & Hg).
    assert (Hg' := Hg). apply ride_leg_data in Hg' as (ri & vi & day & from & to & r & v & Hd).
    destruct (front_cases _ _ _ Hf) as [->|(a & -> & Hu)].
    { cbn [app]. unfold optimize_initial_departure. destruct Hd as (Hub & _).
      cbn [app] in Horig. destruct (rest ++ post) as [|x y]; [exact Horig|]. rewrite Hub. exact Horig. }
    cbn [app] in *. unfold optimize_initial_departure. destruct Hu as [(x & d & Hu)|(x & d & Hu)]; rewrite Hu; [exact Horig|].
    pose proof Hd as (Hub & Hroute & _). rewrite Hub, (route_of_nth _ _ Hroute).
    set (step := fun st s => if s_in (stop_at r s) then fold_left (opt_departure_step P r ri vi day to s) (travel_starts P Q) st else st).
    assert (Hinv : front_inv b false ri vi day to r v (l_from a) (fold_left step (seq 0 (to - 1)) (d, a, b))).
    { apply fold_left_inv.
      - cbn [first_leg hd] in Hf. repeat (split; eauto).
      - intros st s Hs Hst. apply in_seq in Hs. unfold step. destruct (s_in (stop_at r s)) eqn:Ein; [|exact Hst].
        apply fold_left_inv; [exact Hst|]. clear st Hst. intros [[best a'] b'] [x' d'] Hin Hst. unfold opt_departure_step. cbn [fst snd].
        destruct ((best <=? d') || negb (Nat.eqb x' (loc_at r s))) eqn:E1; [exact Hst|].
        apply orb_false_iff in E1 as [_ E1]. apply negb_false_iff, Nat.eqb_eq in E1.
        destruct (l_dep a' <=? run_time P r vi day s kDep - d') eqn:E2; [|exact Hst]. apply Z.leb_le in E2.
        destruct Hst as (S1 & (xx & dd & S2) & S3 & S4 & S5 & from' & S6). unfold front_inv.
        pose proof (ride_enter _ _ _ _ _ _ _ _ s S6 ltac:(lia) Ein) as Hnew.
        cbn [l_from l_to l_dep l_arr l_uses]. rewrite <- E1.
        split; [eapply front_new_offset; eauto|]. split; [eauto|]. split; [auto|]. split; [auto|]. split; [auto|].
        exists s. rewrite E1. exact Hnew. }
    fold step. destruct (fold_left step (seq 0 (to - 1)) (d, a, b)) as [[best a'] b'].
    destruct Hinv as (S1 & _ & _ & S4 & S5 & from' & S6).
    destruct (rides_head n b b' rest Hr) as (R1 & R2 & R3); auto. { apply ride_leg_data. eauto 10. }
    apply itinerary_sides. exists [a'], (b' :: rest), post. split; [reflexivity|]. split; auto. rewrite R2, R3. auto.
  Qed.

  Lemma find_fp_some fps target fp : find_fp fps target = Some fp -> In fp fps /\ fst fp = target.
  Proof. intros H. apply find_some in H as [H1 H2]. apply Nat.eqb_eq in H2. auto. Qed.

  Lemma opt_start_fp_keeps n legs : itinerary P Q n t0 l1 t1 legs -> itinerary P Q n t0 l1 t1 (optimize_initial_start_footpath P legs).
  Proof.
    intros H. pose proof H as Horig. apply itinerary_sides in H as (pre & mid & post & -> & Hr & Hf & Hb).
    destruct (rides_first _ _ Hr) as (b & rest & -> & Hg).
    assert (Hg' := Hg). apply ride_leg_data in Hg' as (ri & vi & day & from & to & r & v & Hd).
    destruct (front_cases _ _ _ Hf) as [->|(a & -> & Hu)].
    { cbn [app]. unfold optimize_initial_start_footpath. destruct Hd as (Hub & _).
      cbn [app] in Horig. destruct (rest ++ post) as [|x y]; [exact Horig|]. rewrite Hub. exact Horig. }
    cbn [app] in *. unfold optimize_initial_start_footpath. destruct Hu as [(x & d & Hu)|(x & d & Hu)]; rewrite Hu; [|exact Horig].
    pose proof Hd as (Hub & Hroute & _). rewrite Hub, (route_of_nth _ _ Hroute).
    set (step := opt_start_fp_step P r ri vi day to (tt_footpaths_out tt (l_from a))).
    assert (Hinv : front_inv b true ri vi day to r v (l_from a) (fold_left step (seq 0 (to - 1)) (p_adjust P d, a, b))).
    { apply fold_left_inv.
      - cbn [first_leg hd] in Hf. repeat (split; eauto).
      - intros [[best a'] b'] s Hs Hst. apply in_seq in Hs. unfold step, opt_start_fp_step.
        destruct (s_in (stop_at r s)) eqn:Ein; [|exact Hst]. cbn [negb].
        destruct (find_fp (tt_footpaths_out tt (l_from a)) (loc_at r s)) as [[x' d']|] eqn:Efp; [|exact Hst].
        apply find_fp_some in Efp as [Hin Ex]. cbn [fst snd] in *. subst x'.
        destruct (p_adjust P d' <? best); [|exact Hst].
        destruct (l_dep a' <=? run_time P r vi day s kDep - p_adjust P d') eqn:E2; [|exact Hst]. apply Z.leb_le in E2.
        destruct Hst as (S1 & (xx & dd & S2) & S3 & S4 & S5 & from' & S6). unfold front_inv.
        pose proof (ride_enter _ _ _ _ _ _ _ _ s S6 ltac:(lia) Ein) as Hnew.
        cbn [l_from l_to l_dep l_arr l_uses]. rewrite <- S3 in Hin.
        split; [eapply front_new_walk; eauto|]. split; [eauto|]. split; [auto|]. split; [auto|]. split; [auto|].
        exists s. exact Hnew. }
    fold step. destruct (fold_left step (seq 0 (to - 1)) (p_adjust P d, a, b)) as [[best a'] b'].
    destruct Hinv as (S1 & _ & _ & S4 & S5 & from' & S6).
    destruct (rides_head n b b' rest Hr) as (R1 & R2 & R3); auto. { apply ride_leg_data. eauto 10. }
    apply itinerary_sides. exists [a'], (b' :: rest), post. split; [reflexivity|]. split; auto. rewrite R2, R3. auto.
  Qed.

  (** *** End of the journey *)
  Definition back_inv (b0 : leg) (foot : bool) ri vi day from r v (l0 : nat) (st : Z * leg * leg) : Prop :=
    let '(_, b, c) := st in
    back_side [c] (l_to b) (l_arr b) /\ (if foot then exists x d, l_uses c = Foot x d else exists x d, l_uses c = Offs x d) /\
    l_to c = l0 /\ l_from b = l_from b0 /\ l_dep b = l_dep b0 /\ exists to, ride_data b ri vi day from to r v.

  Lemma opt_arrival_keeps n legs : itinerary P Q n t0 l1 t1 legs -> itinerary P Q n t0 l1 t1 (optimize_last_arrival P Q legs).
  Proof.
    intros H. pose proof H as Horig. apply itinerary_sides in H as (pre & mid & post & -> & Hr & Hf & Hb).
    destruct (rides_last_leg _ _ Hr) as (rest & b & -> & Hg).
    assert (Hg' := Hg). apply ride_leg_data in Hg' as (ri & vi & day & from & to & r & v & Hd).
    unfold optimize_last_arrival. rewrite !rev_app_distr. cbn [rev app].
    destruct (back_cases _ _ _ Hb) as [->|(c & -> & Hu)].
    { cbn [rev app]. destruct Hd as (Hub & _). destruct (rev rest ++ rev pre) as [|x y]; [exact Horig|]. rewrite Hub. exact Horig. }
    cbn [rev app]. destruct Hu as [(x & d & Hu)|(x & d & Hu)]; rewrite Hu; [exact Horig|].
    pose proof Hd as (Hub & Hroute & _). rewrite Hub, (route_of_nth _ _ Hroute).
    set (step := fun st s => if s_out (stop_at r s) then fold_left (opt_arrival_step P r ri vi day from s) (travel_dests P Q) st else st).
    assert (Elast : last_leg (rest ++ [b]) = b) by apply last_last. rewrite Elast in Hb.
    assert (Hinv : back_inv b false ri vi day from r v (l_to c) (fold_left step (seq (from + 1) (length (r_stops r) - (from + 1))) (d, b, c))).
    { apply fold_left_inv.
      - repeat (split; eauto).
      - intros st s Hs Hst. apply in_seq in Hs. unfold step. destruct (s_out (stop_at r s)) eqn:Ein; [|exact Hst].
        apply fold_left_inv; [exact Hst|]. clear st Hst. intros [[best b'] c'] [x' d'] Hin Hst. unfold opt_arrival_step. cbn [fst snd].
        destruct ((best <=? d') || negb (Nat.eqb x' (loc_at r s))) eqn:E1; [exact Hst|].
        apply orb_false_iff in E1 as [_ E1]. apply negb_false_iff, Nat.eqb_eq in E1.
        destruct (run_time P r vi day s kArr + d' <=? l_arr c') eqn:E2; [|exact Hst]. apply Z.leb_le in E2.
        destruct Hst as (S1 & (xx & dd & S2) & S3 & S4 & S5 & to' & S6). unfold back_inv.
        pose proof (ride_leave _ _ _ _ _ _ _ _ s S6 ltac:(lia) Ein) as Hnew.
        cbn [l_from l_to l_dep l_arr l_uses]. rewrite <- E1.
        split; [eapply back_new_offset; eauto|]. split; [eauto|]. split; [auto|]. split; [auto|]. split; [auto|].
        exists (s + 1)%nat. rewrite E1. exact Hnew. }
    fold step. destruct (fold_left step _ (d, b, c)) as [[best b'] c'].
    destruct Hinv as (S1 & _ & _ & S4 & S5 & to' & S6).
    destruct (rides_tail n rest b b' Hr) as (R1 & R2 & R3); auto. { apply ride_leg_data. eauto 10. }
    apply itinerary_sides. exists pre, (rest ++ [b']), [c'].
    split. { cbn [rev]. rewrite <- !app_assoc, rev_app_distr, !rev_involutive. cbn. now rewrite <- app_assoc. }
    split; auto. rewrite R2, R3. split; auto. unfold last_leg. rewrite last_last. exact S1.
  Qed.
  Lemma opt_egress_keeps n legs : itinerary P Q n t0 l1 t1 legs -> itinerary P Q n t0 l1 t1 (optimize_final_egress_footpath P legs).
  Proof.
    intros H. pose proof H as Horig. apply itinerary_sides in H as (pre & mid & post & -> & Hr & Hf & Hb).
    destruct (rides_last_leg _ _ Hr) as (rest & b & -> & Hg).
    assert (Hg' := Hg). apply ride_leg_data in Hg' as (ri & vi & day & from & to & r & v & Hd).
    unfold optimize_final_egress_footpath. rewrite !rev_app_distr. cbn [rev app].
    destruct (back_cases _ _ _ Hb) as [->|(c & -> & Hu)].
    { cbn [rev app]. destruct Hd as (Hub & _). destruct (rev rest ++ rev pre) as [|x y]; [exact Horig|]. rewrite Hub. exact Horig. }
    cbn [rev app]. destruct Hu as [(x & d & Hu)|(x & d & Hu)]; rewrite Hu; [|exact Horig].
    pose proof Hd as (Hub & Hroute & _). rewrite Hub, (route_of_nth _ _ Hroute).
    set (step := opt_egress_fp_step P r ri vi day from (tt_footpaths_in tt (l_to c))).
    assert (Elast : last_leg (rest ++ [b]) = b) by apply last_last. rewrite Elast in Hb.
    assert (Hinv : back_inv b true ri vi day from r v (l_to c) (fold_left step (seq (from + 1) (length (r_stops r) - (from + 1))) (p_adjust P d, b, c))).
    { apply fold_left_inv.
      - repeat (split; eauto).
      - intros [[best b'] c'] s Hs Hst. apply in_seq in Hs. unfold step, opt_egress_fp_step.
        destruct (s_out (stop_at r s)) eqn:Ein; [|exact Hst]. cbn [negb].
        destruct (find_fp (tt_footpaths_in tt (l_to c)) (loc_at r s)) as [[x' d']|] eqn:Efp; [|exact Hst].
        apply find_fp_some in Efp as [Hin Ex]. cbn [fst snd] in *. subst x'.
        destruct (p_adjust P d' <? best); [|exact Hst].
        destruct (run_time P r vi day s kArr + p_adjust P d' <=? l_arr c') eqn:E2; [|exact Hst]. apply Z.leb_le in E2.
        destruct Hst as (S1 & (xx & dd & S2) & S3 & S4 & S5 & to' & S6). unfold back_inv.
        pose proof (ride_leave _ _ _ _ _ _ _ _ s S6 ltac:(lia) Ein) as Hnew.
        cbn [l_from l_to l_dep l_arr l_uses]. rewrite <- S3 in Hin.
        split; [eapply back_new_walk; eauto|]. split; [eauto|]. split; [auto|]. split; [auto|]. split; [auto|].
        exists (s + 1)%nat. exact Hnew. }
    fold step. destruct (fold_left step _ (p_adjust P d, b, c)) as [[best b'] c'].
    destruct Hinv as (S1 & _ & _ & S4 & S5 & to' & S6).
    destruct (rides_tail n rest b b' Hr) as (R1 & R2 & R3); auto. { apply ride_leg_data. eauto 10. }
    apply itinerary_sides. exists pre, (rest ++ [b']), [c'].
    split. { cbn [rev]. rewrite <- !app_assoc, rev_app_distr, !rev_involutive. cbn. now rewrite <- app_assoc. }
    split; auto. rewrite R2, R3. split; auto. unfold last_leg. rewrite last_last. exact S1.
  Qed.

  (** *** Transfers *)
  Definition tinv (a0 b0 : leg) ri vi day from r v ri' vi' day' to' r' v' (st : transfer_state) : Prop :=
    let '(_, a, f, b) := st in
    change_leg P f /\ l_to a = l_from f /\ l_arr a <= l_dep f /\ l_to f = l_from b /\ l_arr f <= l_dep b /\
    l_from a = l_from a0 /\ l_dep a = l_dep a0 /\ l_to b = l_to b0 /\ l_arr b = l_arr b0 /\
    (exists to, ride_data a ri vi day from to r v) /\ (exists from', ride_data b ri' vi' day' from' to' r' v').
  Lemma opt_transfer_spec a f b a' f' b' : opt_transfer P pl a f b = (a', f', b') ->
    ride_leg P a -> change_leg P f -> ride_leg P b -> l_to a = l_from f -> l_arr a <= l_dep f -> l_to f = l_from b -> l_arr f <= l_dep b ->
    ride_leg P a' /\ change_leg P f' /\ ride_leg P b' /\ l_to a' = l_from f' /\ l_arr a' <= l_dep f' /\ l_to f' = l_from b' /\ l_arr f' <= l_dep b' /\
    l_from a' = l_from a /\ l_dep a' = l_dep a /\ l_to b' = l_to b /\ l_arr b' = l_arr b.
  Proof.
    intros H Ha Hf Hb E1 E2 E3 E4. unfold opt_transfer in H.
    pose proof Ha as Ha'. apply ride_leg_data in Ha' as (ri & vi & day & from & to & r & v & Hd).
    pose proof Hb as Hb'. apply ride_leg_data in Hb' as (ri' & vi' & day' & from' & to' & r' & v' & Hd').
    pose proof Hf as ((x & d & Huf) & _). pose proof Hd as (Hua & Hr & _). pose proof Hd' as (Hub & Hr' & _).
    rewrite Hua, Huf, Hub, (route_of_nth _ _ Hr), (route_of_nth _ _ Hr') in H.
    set (step := fun st sf => if s_out (stop_at r sf) then fold_left (opt_transfer_step P pl r ri vi day from r' ri' vi' day' to' sf) (seq 0 (to' - 1)) st else st) in H.
    assert (Hinv : tinv a b ri vi day from r v ri' vi' day' to' r' v'
        (fold_left step (seq (from + 1) (length (r_stops r) - (from + 1))) ((d, l_dep b - l_arr f, l_from a, l_to b), a, f, b))).
    { apply fold_left_inv.
      - unfold tinv. do 9 (split; [auto|]). eauto.
      - intros st sf Hsf Hst. apply in_seq in Hsf. unfold step. destruct (s_out (stop_at r sf)) eqn:Eout; [|exact Hst].
        apply fold_left_inv; [exact Hst|]. clear st Hst. intros [[[best a1] f1] b1] sto Hsto Hst. apply in_seq in Hsto.
        unfold opt_transfer_step. destruct (s_in (stop_at r' sto)) eqn:Ein; [|exact Hst]. cbn [negb].
        destruct (find_fp (tt_footpaths_out tt (loc_at r sf)) (loc_at r' sto)) as [[x' d']|] eqn:Efp; [|exact Hst].
        apply find_fp_some in Efp as [Hin Ex]. cbn [fst snd] in *. subst x'.
        destruct ((run_time P r vi day sf kArr + p_adjust P d' <=? run_time P r' vi' day' sto kDep) && _) eqn:Ec; [|exact Hst].
        apply andb_true_iff in Ec as [Ec _]. apply Z.leb_le in Ec.
        destruct Hst as (S1 & S2 & S3 & S4 & S5 & S6 & S7 & S8 & S9 & (to1 & S10) & (from1 & S11)).
        pose proof (ride_leave _ _ _ _ _ _ _ _ sf S10 ltac:(lia) Eout) as N1.
        pose proof (ride_enter _ _ _ _ _ _ _ _ sto S11 ltac:(lia) Ein) as N2.
        unfold tinv. cbn [l_from l_to l_dep l_arr l_uses]. split.
        { split; [cbn; eauto|]. exists (p_adjust P d'). cbn. split; [|reflexivity]. right. exists d'. auto. }
        do 8 (split; [auto; lia|]). split; eauto. }
    destruct (fold_left step _ _) as [[[best a1] f1] b1]. injection H as <- <- <-.
    destruct Hinv as (S1 & S2 & S3 & S4 & S5 & S6 & S7 & S8 & S9 & (to1 & S10) & (from1 & S11)).
    split; [apply ride_leg_data; eauto 10|]. split; auto. split; [apply ride_leg_data; eauto 10|]. auto 12.
  Qed.
  Lemma opt_transfer_other a f b : (forall ri vi day x y, l_uses a <> Ride ri vi day x y) \/ (forall ri vi day x y, l_uses b <> Ride ri vi day x y) ->
    opt_transfer P pl a f b = (a, f, b).
  Proof.
    unfold opt_transfer. intros [H|H]; destruct (l_uses a); auto; destruct (l_uses f); auto; destruct (l_uses b); auto; exfalso; eapply H; eauto.
  Qed.
  Lemma opt_skip m p ls : (forall ri vi day x y, l_uses p <> Ride ri vi day x y) ->
    exists m', optimize_transfers P pl m (p :: ls) = p :: optimize_transfers P pl m' ls.
  Proof.
    intros Hp. destruct m as [|m]; [exists 0%nat; reflexivity|]. destruct ls as [|f [|b ls]]; [exists 0%nat; reflexivity|exists 0%nat; reflexivity|].
    exists m. cbn [optimize_transfers]. rewrite opt_transfer_other by auto. reflexivity.
  Qed.

  Lemma opt_transfers_keeps n : forall mid m post, rides P n mid ->
    (post = [] \/ exists c, post = [c] /\ forall ri vi day x y, l_uses c <> Ride ri vi day x y) ->
    exists mid', optimize_transfers P pl m (mid ++ post) = mid' ++ post /\ rides P n mid' /\
      l_from (first_leg mid') = l_from (first_leg mid) /\ l_dep (first_leg mid') = l_dep (first_leg mid) /\
      l_to (last_leg mid') = l_to (last_leg mid) /\ l_arr (last_leg mid') = l_arr (last_leg mid).
  Proof.
    induction n as [|n IH]; intros mid m post Hr Hp; [inversion Hr|].
    inversion Hr as [g Hg E0 E1|n' g f h ls Hg Hf H1 H2 H3 H4 Hr' E0 E1]; subst.
    - exists [g]. split; [|auto]. destruct m; [reflexivity|]. destruct Hp as [->|(c & -> & _)]; reflexivity.
    - destruct m as [|m]; [exists (g :: f :: h :: ls); repeat (split; auto)|].
      cbn [app optimize_transfers]. destruct (opt_transfer P pl g f h) as [[g' f'] h'] eqn:E.
      destruct (rides_first _ _ Hr') as (h0 & ls0 & EE & Hh). injection EE as <- <-.
      apply opt_transfer_spec in E as (S1 & S2 & S3 & S4 & S5 & S6 & S7 & S8 & S9 & S10 & S11); auto.
      destruct (rides_head _ h h' ls Hr' S3 S10 S11) as (R1 & R2 & R3).
      assert (Hnf : forall ri vi day x y, l_uses f' <> Ride ri vi day x y) by (destruct S2 as ((xx & dd & Hu) & _); congruence).
      destruct (opt_skip m f' (h' :: ls ++ post) Hnf) as (m' & ->).
      destruct (IH (h' :: ls) m' post R1 Hp) as (mid' & EM & M1 & M2 & M3 & M4 & M5).
      change ((h' :: ls) ++ post) with (h' :: ls ++ post) in EM. rewrite EM.
      destruct (rides_first _ _ M1) as (h2 & ls2 & -> & Hh2). cbn [first_leg hd] in M2, M3.
      exists (g' :: f' :: h2 :: ls2). split; [reflexivity|]. split; [apply rides_more; auto; congruence|].
      cbn [first_leg hd]. split; [auto|]. split; [auto|].
      change (last_leg (g' :: f' :: h2 :: ls2)) with (last_leg (h2 :: ls2)). change (last_leg (g :: f :: h :: ls)) with (last_leg (h :: ls)).
      split; congruence.
  Qed.

  Theorem optimize_keeps n legs : itinerary P Q n t0 l1 t1 legs -> itinerary P Q n t0 l1 t1 (optimize_footpaths P Q pl legs).
  Proof.
    intros H. unfold optimize_footpaths.
    apply opt_departure_keeps, opt_start_fp_keeps, opt_arrival_keeps, opt_egress_keeps in H.
    set (legs' := optimize_final_egress_footpath P _) in *. clearbody legs'. generalize (length legs') as m. intros m.
    apply itinerary_sides in H as (pre & mid & post & -> & Hr & Hf & Hb).
    assert (Hp : post = [] \/ exists c, post = [c] /\ forall ri vi day x y, l_uses c <> Ride ri vi day x y).
    { destruct (back_cases _ _ _ Hb) as [->|(c & -> & [(x & d & Hu)|(x & d & Hu)])]; auto; right; exists c; split; auto; congruence. }
    destruct (front_cases _ _ _ Hf) as [->|(a & -> & Hu)].
    - destruct (opt_transfers_keeps n mid m post Hr Hp) as (mid' & E & M1 & M2 & M3 & M4 & M5). cbn [app]. rewrite E.
      apply itinerary_sides. exists [], mid', post. rewrite M2, M3, M4, M5. auto.
    - assert (Hn : forall ri vi day x y, l_uses a <> Ride ri vi day x y) by (destruct Hu as [(x & d & Hu)|(x & d & Hu)]; congruence).
      cbn [app]. destruct (opt_skip m a (mid ++ post) Hn) as (m' & ->).
      destruct (opt_transfers_keeps n mid m' post Hr Hp) as (mid' & E & M1 & M2 & M3 & M4 & M5). rewrite E.
      apply itinerary_sides. exists [a], mid', post. rewrite M2, M3, M4, M5. auto.
  Qed.
  End Sides.
End Opt.
