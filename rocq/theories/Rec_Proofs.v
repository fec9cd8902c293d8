(** Soundness of the reconstruction of journeys. *)
From Coq Require Import List ZArith Bool Arith Lia.
From Verif Require Import Base Time_Model Raptor_Model Raptor_Spec Raptor_Base Raptor_Sound Rec_Model Rec_Spec.
Import ListNotations.
Local Open Scope Z_scope.

Lemma first_some_some {A B} (f : A -> option B) l y : first_some f l = Some y -> exists x, In x l /\ f x = Some y.
Proof.
  induction l as [|x l IH]; cbn; [discriminate|]. destruct (f x) eqn:E.
  - intros [= <-]. eauto.
  - intros H. destruct (IH H) as (x' & ? & ?). eauto.
Qed.
Lemma first_some_complete {A B} (f : A -> option B) l x : In x l -> f x <> None -> first_some f l <> None.
Proof.
  induction l as [|a l IH]; cbn; [tauto|]. intros [<-|Hin] Hf; destruct (f a); try congruence. now apply IH.
Qed.

Section Sound.
  Variable P : params.
  Variable Q : rquery.
  Variable rt : nat -> nat -> Z.
  Notation fwd := (p_fwd P).
  Notation tt := (p_tt P).
  Notation o := (o P).
  Notation OI := (OI P).
  Notation OL := (OL P).
  Hypothesis Hwf : all_vehicles_wf P.

  Lemma run_time_event ri r vi v day s e :
    nth_error (tt_routes tt) ri = Some r -> nth_error (r_vehicles r) vi = Some v -> (s < length (r_stops r))%nat ->
    run_time P r vi day s e = event_time P v day s e.
  Proof.
    intros Hr Hv Hs. unfold run_time. rewrite (vehicle_of_nth _ _ _ Hv).
    rewrite (delta_count_wf P Hwf ri r) by eauto using nth_error_In. unfold event_time, event_minutes. lia.
  Qed.

  Definition sections_checked (r : route) (lo hi : nat) (sf : nat -> bool) : Prop :=
    forall sec f, (lo <= sec < hi)%nat -> (f < 4)%nat -> sf f = true -> flag_on_section r f sec = true.
  Lemma section_test r sf sec :
    existsb (fun f => sf f && negb (flag_on_section r f sec)) [0%nat; 1%nat; 2%nat; 3%nat] = false ->
    forall f, (f < 4)%nat -> sf f = true -> flag_on_section r f sec = true.
  Proof.
    intros H f Hf Hsf. cbn in H. repeat (apply orb_false_iff in H as [?H H]).
    destruct f as [|[|[|[|f]]]]; try lia; rewrite Hsf in *; cbn in *;
      repeat match goal with X : negb _ = false |- _ => apply negb_false_iff in X end; auto.
  Qed.

  (** What [find_start_loop] returns. *)
  Definition entry_ok (k ri : nat) (r : route) (vi : nat) (day : Z) (finish : nat) (sf : nat -> bool) (g : leg) (s : nat) : Prop :=
    g = dir_leg fwd (loc_at r s) (loc_at r finish) (clamp16 (run_time P r vi day s (board_ev P)))
                (run_time P r vi day finish (alight_ev P)) (Ride ri vi day (Nat.min s finish) (Nat.max s finish + 1)) /\
    (if fwd then (s < finish)%nat else (finish < s < length (r_stops r))%nat) /\
    get_on_allowed P (stop_at r s) = true /\
    sections_checked r (Nat.min s finish) (Nat.max s finish) sf /\
    o (rt (k - 1)%nat (loc_at r s)) <= o (clamp16 (run_time P r vi day s (board_ev P))).

  Lemma start_matches_le a b : start_matches P Q a b = true -> o a <= o b.
  Proof.
    unfold start_matches. destruct (rq_ontrip Q); intros H; [now apply is_better_or_eq_o|]. apply Z.eqb_eq in H. subst. lia.
  Qed.

  Lemma find_start_step k ri r vi day finish sf s rest g (R : Prop) :
    find_start_loop P Q rt k ri r vi day finish sf (s :: rest) = Some g ->
    (forall f, (f < 4)%nat -> sf f = true -> flag_on_section r f (if fwd then s else (s - 1)%nat) = true ->
       True) ->
    ((forall f, (f < 4)%nat -> sf f = true -> flag_on_section r f (if fwd then s else (s - 1)%nat) = true) ->
       (find_start_loop P Q rt k ri r vi day finish sf rest = Some g -> R) /\
       (get_on_allowed P (stop_at r s) = true ->
        o (rt (k - 1)%nat (loc_at r s)) <= o (clamp16 (run_time P r vi day s (board_ev P))) ->
        g = dir_leg fwd (loc_at r s) (loc_at r finish) (clamp16 (run_time P r vi day s (board_ev P)))
                (run_time P r vi day finish (alight_ev P)) (Ride ri vi day (Nat.min s finish) (Nat.max s finish + 1)) -> R)) ->
    R.
  Proof.
    intros H _ K. cbn [find_start_loop] in H.
    destruct (existsb _ _) eqn:Es in H; [discriminate|].
    destruct (K (section_test r sf _ Es)) as [K1 K2]. clear K.
    rewrite can_start_on in H. destruct (get_on_allowed P (stop_at r s)) eqn:Eon; cbn [negb] in H; [|auto].
    destruct (is_better_or_eq P _ _ || _) eqn:Eb in H; [|auto].
    injection H as <-. apply K2; auto.
    apply orb_true_iff in Eb as [Eb|Eb]; [now apply is_better_or_eq_o|].
    apply andb_true_iff in Eb as [_ Eb]. now apply start_matches_le.
  Qed.

  Lemma find_start_sound k ri r vi day finish sf g : (finish < length (r_stops r))%nat ->
    find_start_loop P Q rt k ri r vi day finish sf (stops_before P r finish) = Some g ->
    exists s, entry_ok k ri r vi day finish sf g s.
  Proof.
    intros Hf. unfold stops_before. destruct fwd eqn:Ef.
    - assert (G : forall m, (m <= finish)%nat -> sections_checked r m finish sf ->
        find_start_loop P Q rt k ri r vi day finish sf (rev (seq 0 m)) = Some g -> exists s, entry_ok k ri r vi day finish sf g s).
      { induction m as [|m IH]; intros Hm Hsec; [cbn; discriminate|].
        rewrite seq_S, rev_app_distr. cbn [rev app]. intros H.
        eapply find_start_step; [exact H|auto|]. rewrite Ef. cbn [Nat.add]. intros Hs.
        assert (Hsec' : sections_checked r m finish sf).
        { intros sec f Hr Hff Hsf. destruct (Nat.eq_dec sec m) as [->|]; auto. apply Hsec; auto. lia. }
        split.
        - apply IH; auto. lia.
        - intros Hon Hle Eg. exists m. unfold entry_ok. rewrite Ef. split; [exact Eg|]. split; [lia|]. split; auto.
          split; auto. rewrite Nat.min_l, Nat.max_r by lia. auto. }
      apply G; auto. intros sec f Hr. lia.
    - assert (G : forall c m, (finish <= m)%nat -> (S m + c <= length (r_stops r))%nat -> sections_checked r finish m sf ->
        find_start_loop P Q rt k ri r vi day finish sf (seq (S m) c) = Some g -> exists s, entry_ok k ri r vi day finish sf g s).
      { induction c as [|c IH]; intros m Hm Hc Hsec; [cbn; discriminate|]. cbn [seq]. intros H.
        eapply find_start_step; [exact H|auto|]. rewrite Ef. intros Hs. replace (S m - 1)%nat with m in Hs by lia.
        assert (Hsec' : sections_checked r finish (S m) sf).
        { intros sec f Hr Hff Hsf. destruct (Nat.eq_dec sec m) as [->|]; auto. apply Hsec; auto. lia. }
        split.
        - apply IH; auto; lia.
        - intros Hon Hle Eg. exists (S m). unfold entry_ok. rewrite Ef. split; [exact Eg|]. split; [lia|]. split; auto.
          split; auto. rewrite Nat.min_r, Nat.max_l by lia. auto. }
      apply G; auto; [lia|]. intros sec f Hr. lia.
  Qed.

  Definition e_loc (g : leg) : nat := if fwd then l_from g else l_to g.
  Definition x_loc (g : leg) : nat := if fwd then l_to g else l_from g.
  Definition e_time (g : leg) : Z := if fwd then l_dep g else l_arr g.
  Definition x_time (g : leg) : Z := if fwd then l_arr g else l_dep g.
  Lemma dir_leg_acc a b ta tb u : let g := dir_leg fwd a b ta tb u in e_loc g = a /\ x_loc g = b /\ e_time g = ta /\ x_time g = tb /\ l_uses g = u.
  Proof. unfold e_loc, x_loc, e_time, x_time, dir_leg. destruct fwd; cbn; auto. Qed.

  (** Labels stay away from the best value of the 16 bit range by more than [B] minutes; no walk is longer. *)
  Variable B : Z.
  Hypothesis HB : 0 <= B.
  Definition in_range (t : Z) : Prop := OL + B < o t < OI.
  Hypothesis Hrange : forall k l, rt k l <> kInvalid P -> in_range (rt k l).

  Lemma flags_ok r s finish : route_allowed P r = true ->
    sections_checked r (Nat.min s finish) (Nat.max s finish) (section_filter P r) ->
    forall f sec, (f < 4)%nat -> p_require P f = true -> (Nat.min s finish <= sec < Nat.max s finish)%nat -> section_has r sec f.
  Proof.
    intros Hra Hs f sec Hf Hreq Hr. unfold section_has. destruct (r_flag_all r f) eqn:E; auto. right.
    specialize (Hs sec f Hr Hf). unfold section_filter in Hs. rewrite Hreq, E in Hs. specialize (Hs eq_refl).
    unfold flag_on_section in Hs. rewrite E in Hs. cbn in Hs. apply andb_true_iff in Hs. exact Hs.
  Qed.

  (** A ride found by [get_transport] that leaves the vehicle at [l] at [time]; it can be boarded from round [k - 1]. *)
  Lemma get_transport_sound k l time g : o time < OI ->
    get_transport P Q rt k l time = Some g ->
    ride_leg P g /\ x_loc g = l /\ x_time g = time /\ rt (k - 1)%nat (e_loc g) <> kInvalid P /\ o (rt (k - 1)%nat (e_loc g)) <= o (e_time g).
  Proof.
    intros Htime H. unfold get_transport in H. apply first_some_some in H as (ri & Hri & H).
    destruct (nth_error (tt_routes tt) ri) as [r|] eqn:Er; [|discriminate].
    destruct (route_allowed P r) eqn:Era; [|discriminate]. cbn [negb] in H.
    apply first_some_some in H as (fin & Hfin & H). apply in_seq in Hfin. destruct Hfin as [_ Hfin]. cbn in Hfin.
    destruct (finish_possible P r l fin) eqn:Efp; [|discriminate].
    unfold finish_possible in Efp. apply andb_true_iff in Efp as [Efp Ecf]. apply andb_true_iff in Efp as [El _].
    apply Nat.eqb_eq in El. rewrite can_finish_off in Ecf.
    unfold get_route_transport in H. apply first_some_some in H as (vi & Hvi & H).
    apply in_seq in Hvi. destruct Hvi as [_ Hvi]. cbn in Hvi.
    destruct (nth_error (r_vehicles r) vi) as [v|] eqn:Ev; [|apply nth_error_None in Ev; lia].
    rewrite (vehicle_of_nth _ _ _ Ev) in H.
    destruct (Z.rem (delta_count (v_ev v fin (alight_ev P))) 1440 =? Z.rem (p_base P * 1440 + time) 1440) eqn:Em; [|discriminate].
    cbn [negb] in H. apply Z.eqb_eq in Em.
    set (day := Z.quot (p_base P * 1440 + time) 1440 - Z.quot (delta_count (v_ev v fin (alight_ev P))) 1440) in *.
    destruct (is_transport_active v day) eqn:Ea; [|discriminate]. cbn [negb] in H. apply is_transport_active_iff in Ea.
    apply find_start_sound in H as (s & Eg & Hs & Hon & Hsec & Hle); auto.
    assert (Hsl : (s < length (r_stops r))%nat) by (destruct fwd; lia).
    assert (Hx : event_time P v day fin (alight_ev P) = time).
    { unfold event_time. pose proof (delta_count_wf P Hwf ri r v fin (alight_ev P) Er (nth_error_In _ _ Ev) Hfin) as Hc.
      unfold event_minutes in Hc.
      pose proof (Z.quot_rem' (p_base P * 1440 + time) 1440). pose proof (Z.quot_rem' (delta_count (v_ev v fin (alight_ev P))) 1440).
      unfold day. lia. }
    rewrite (run_time_event ri r vi v) in Eg, Hle by auto.
    rewrite (run_time_event ri r vi v) in Eg by auto. rewrite Hx in Eg.
    assert (Hord : o (event_time P v day s (board_ev P)) <= o time).
    { rewrite <- Hx. unfold board_ev, alight_ev, Raptor_Base.o. pose proof (proj1 Hwf _ _ _ Er (nth_error_In _ _ Ev)) as (_ & _ & Hw).
      unfold event_time. destruct fwd eqn:Ef.
      - specialize (Hw s fin ltac:(lia)). unfold event_minutes in Hw. lia.
      - specialize (Hw fin s ltac:(lia)). unfold event_minutes in Hw. lia. }
    assert (Hinv : rt (k - 1)%nat (loc_at r s) <> kInvalid P).
    { intros E. rewrite E, o_kInvalid, o_clamp in Hle. pose proof (OL_lt_OI P). lia. }
    assert (Hcl : clamp16 (event_time P v day s (board_ev P)) = event_time P v day s (board_ev P)).
    { apply (o_inj P). specialize (Hrange _ _ Hinv). unfold in_range in Hrange.
      assert (OL < o (rt (k - 1)%nat (loc_at r s))) by lia.
      rewrite o_clamp in Hle |- *. lia. }
    rewrite Hcl in Eg, Hle.
    destruct (dir_leg_acc (loc_at r s) (loc_at r fin) (event_time P v day s (board_ev P)) time (Ride ri vi day (Nat.min s fin) (Nat.max s fin + 1)))
      as (A1 & A2 & A3 & A4 & A5). rewrite <- Eg in *.
    split; [|rewrite A1, A2, A3, A4; auto].
    assert (Hnon := stop_at_nth r s Hsl). assert (Hnf := stop_at_nth r fin Hfin).
    pose proof (flags_ok r s fin Era Hsec) as Hfl.
    unfold get_on_allowed, get_off_allowed, board_ev, alight_ev, e_loc, x_loc, e_time, x_time in *.
    destruct fwd eqn:Ef.
    - rewrite Nat.min_l, Nat.max_r in * by lia.
      assert (Hcz : p_allowed_clasz P (r_clasz r) = true) by (unfold route_allowed in Era; apply andb_true_iff in Era; tauto).
      eapply (ride_leg_intro P g ri vi day s (fin + 1) r v (stop_at r s) (stop_at r fin)); rewrite ?Nat.add_sub; auto; try lia; try congruence.
    - rewrite Nat.min_r, Nat.max_l in * by lia.
      assert (Hcz : p_allowed_clasz P (r_clasz r) = true) by (unfold route_allowed in Era; apply andb_true_iff in Era; tauto).
      eapply (ride_leg_intro P g ri vi day fin (s + 1) r v (stop_at r fin) (stop_at r s)); rewrite ?Nat.add_sub; auto; try lia; try congruence.
  Qed.

  Lemma to_i16_id x : -32768 <= x <= 32767 -> to_i16 x = x.
  Proof. intros. unfold to_i16. rewrite Z.mod_small; lia. Qed.

  Lemma to_i16_o x : OL <= o x <= OI -> to_i16 x = x.
  Proof. intros. apply to_i16_id. unfold Raptor_Base.OL, Raptor_Base.OI, Raptor_Base.o in *. destruct fwd; lia. Qed.

  Definition dur_of (fp : nat * Z) (adjust : bool) : Z := if adjust then p_adjust P (snd fp) else snd fp.
  Lemma check_fp_sound k l t fp adjust f g : in_range t -> 0 <= dur_of fp adjust <= B ->
    check_fp P Q rt k l t fp adjust = Some (f, g) ->
    ride_leg P g /\ x_loc g = fst fp /\ rt (k - 1)%nat (e_loc g) <> kInvalid P /\ o (rt (k - 1)%nat (e_loc g)) <= o (e_time g) /\
    e_loc f = fst fp /\ x_loc f = l /\ x_time f = t /\ x_time g = e_time f /\ o t = o (e_time f) + dur_of fp adjust /\
    l_uses f = Foot (fst fp) (snd fp).
  Proof.
    intros Ht Hd H. unfold check_fp in H. fold (dur_of fp adjust) in H.
    assert (Hr : OL < o (t - dir P (dur_of fp adjust)) < OI).
    { unfold in_range in Ht. pose proof (o_dir P (t - dir P (dur_of fp adjust)) (dur_of fp adjust)) as Hod.
      replace (t - dir P (dur_of fp adjust) + dir P (dur_of fp adjust)) with t in Hod by lia. lia. }
    assert (E1 : to_i16 (t - dir P (dur_of fp adjust)) = t - dir P (dur_of fp adjust)) by (apply to_i16_o; lia).
    rewrite E1 in H.
    destruct (get_transport P Q rt k (fst fp) (t - dir P (dur_of fp adjust))) as [g'|] eqn:Eg; [|discriminate].
    injection H as <- <-.
    apply get_transport_sound in Eg as (G1 & G2 & G3 & G4 & G5).
    2:{ lia. }
    replace (t - dir P (dur_of fp adjust) + dir P (dur_of fp adjust)) with t by lia.
    rewrite to_i16_o by (unfold in_range in Ht; lia).
    destruct (dir_leg_acc (fst fp) l (t - dir P (dur_of fp adjust)) t (Foot (fst fp) (snd fp))) as (A1 & A2 & A3 & A4 & A5).
    rewrite A1, A2, A3, A4, A5. do 9 (split; [auto|]); auto.
    unfold Raptor_Base.o, dir. destruct fwd; lia.
  Qed.

  (** Footpaths are stored in both directions. *)
  Hypothesis Hsym : forall a b d, In (b, d) (tt_footpaths_out tt a) <-> In (a, d) (tt_footpaths_in tt b).
  (** Walking times are between 0 and [B] minutes. *)
  Hypothesis Htr : forall l, 0 <= transfer_time P l <= B.
  Hypothesis Hfp : forall a b d, In (b, d) (tt_footpaths_out tt a) -> 0 <= p_adjust P d <= B.
  Hypothesis HoffB : forall x d, In (x, d) (rq_dest Q) -> 0 <= d /\ (d < fp_max_duration -> d <= B).

  (** [f] in search order: entered at [e_loc], left at [x_loc]. *)
  Lemma change_of_search f a b d :
    e_loc f = a -> x_loc f = b -> o (x_time f) = o (e_time f) + d ->
    change_time P (l_from f) (l_to f) d -> (exists t d, l_uses f = Foot t d) -> change_leg P f.
  Proof.
    intros Ea Eb Et Hc Hu. split; auto. exists d. split; auto.
    unfold e_time, x_time, Raptor_Base.o in Et. destruct fwd; lia.
  Qed.
  Lemma walk_travel f a b d0 : e_loc f = a -> x_loc f = b -> In (a, d0) (if fwd then tt_footpaths_in tt b else tt_footpaths_out tt b) ->
    footpath_time P (l_from f) (l_to f) (p_adjust P d0).
  Proof.
    unfold e_loc, x_loc. intros Ea Eb Hin. exists d0. split; auto. destruct fwd; subst; auto. now apply Hsym.
  Qed.

  (** Legs of one round, in the middle of a journey. *)
  Lemma get_legs_mid k l f g : in_range (rt k l) -> get_legs P Q rt false k l = Some (f, g) ->
    ride_leg P g /\ change_leg P f /\ x_loc f = l /\ x_time f = rt k l /\ e_loc f = x_loc g /\ e_time f = x_time g /\
    rt (k - 1)%nat (e_loc g) <> kInvalid P /\ o (rt (k - 1)%nat (e_loc g)) <= o (e_time g).
  Proof.
    intros Hr H. unfold get_legs in H. rewrite andb_false_r in H.
    destruct (check_fp P Q rt k l (rt k l) (l, p_adjust P (tt_transfer_time tt l)) false) as [[f' g']|] eqn:E.
    - injection H as <- <-. apply check_fp_sound in E as (G1 & G2 & G3 & G4 & G5 & G6 & G7 & G8 & G9 & G10); auto.
      2:{ cbn [dur_of snd fst]. apply Htr. }
      cbn [dur_of snd fst] in *. split; auto. split; [|do 3 (split; [auto; congruence|]); auto].
      eapply (change_of_search _ _ _ (transfer_time P l)); eauto; [rewrite G7; exact G9|].
      left. split; [unfold e_loc, x_loc in *; destruct fwd; congruence|]. f_equal. unfold e_loc, x_loc in *; destruct fwd; congruence.
    - apply first_some_some in H as ([b d] & Hin & E').
      assert (Hd : 0 <= p_adjust P d <= B).
      { destruct fwd; [apply Hsym in Hin|]; eapply Hfp; eauto. }
      apply check_fp_sound in E' as (G1 & G2 & G3 & G4 & G5 & G6 & G7 & G8 & G9 & G10); auto.
      cbn [dur_of snd fst] in *. split; auto. split; [|do 3 (split; [auto; congruence|]); auto].
      eapply (change_of_search _ _ _ (p_adjust P d)); eauto; [rewrite G7; exact G9|].
      right. eapply walk_travel; eauto.
  Qed.

  (** Legs in the order in which they are found: last ride of the search first. *)
  Inductive srides : nat -> list leg -> Prop :=
  | sr_last g : ride_leg P g -> rt 0%nat (e_loc g) <> kInvalid P -> o (rt 0%nat (e_loc g)) <= o (e_time g) -> srides 1 [g]
  | sr_more n g f h ls : ride_leg P g -> change_leg P f -> x_loc f = e_loc g -> o (x_time f) <= o (e_time g) ->
      e_loc f = x_loc h -> e_time f = x_time h -> srides n (h :: ls) -> srides (S n) (g :: f :: h :: ls).

  Lemma rec_rounds_mid k : forall l legs g0, (1 <= k)%nat -> ride_leg P g0 -> e_loc g0 = l ->
    rt k l <> kInvalid P -> o (rt k l) <= o (e_time g0) ->
    rec_rounds P Q rt false k l = Some legs -> srides (S k) (g0 :: legs).
  Proof.
    induction k as [|k IH]; intros l legs g0 Hk Hg0 El Hne Hle H; [lia|]. cbn [rec_rounds] in H.
    destruct (get_legs P Q rt false (S k) l) as [[f g]|] eqn:E; [|discriminate].
    apply get_legs_mid in E as (G1 & G2 & G3 & G4 & G5 & G6 & G7 & G8); [|now apply Hrange].
    replace (S k - 1)%nat with k in * by lia. cbn [andb app] in H. fold (e_loc g) in H.
    destruct (rec_rounds P Q rt false k (e_loc g)) as [rest|] eqn:Er; [|discriminate]. injection H as <-.
    apply sr_more; auto; try congruence.
    destruct k as [|k].
    - cbn in Er. injection Er as <-. now apply sr_last.
    - eapply IH; eauto. lia.
  Qed.

  (** Destination side in search order: [f] leads from the last ride to [l] at time [t]. *)
  Inductive s_dest (l : nat) (t : Z) : list leg -> nat -> Z -> Prop :=
  | sd_none : p_dist_to_end P = None -> s_dest l t [] l t
  | sd_walk f d : p_dist_to_end P = None -> (exists x d', l_uses f = Foot x d') -> x_loc f = l -> x_time f = t ->
      footpath_time P (l_from f) (l_to f) d -> o t = o (e_time f) + d -> s_dest l t [f] (e_loc f) (e_time f)
  | sd_off f x d : p_dist_to_end P <> None -> l_uses f = Offs (e_loc f) d -> In (x, d) (rq_dest Q) -> In (e_loc f) (rq_metas Q x) ->
      x_loc f = l -> x_time f = t -> o t = o (e_time f) + d -> s_dest l t [f] (e_loc f) (e_time f).


  Hypothesis Hend : end_ok P.

  Lemma ride_leg_stops g : ride_leg P g -> p_dist_to_end P <> None -> l_from g <> p_end P /\ l_to g <> p_end P.
  Proof.
    intros [ri vi day from to r v st st' Hu Hr Hv Hrun Hlt Hs Hs' Ef Et _ _ _ _ _ _] Hi.
    destruct (Hend Hi) as (_ & Hst & _). rewrite Ef, Et. split; eapply Hst; eauto using nth_error_In.
  Qed.

  Lemma find_dest_leg_sound k l x d f g : In (x, d) (rq_dest Q) -> in_range (rt k l) ->
    find_dest_leg P Q rt k l (x, d) = Some (f, g) ->
    ride_leg P g /\ rt (k - 1)%nat (e_loc g) <> kInvalid P /\ o (rt (k - 1)%nat (e_loc g)) <= o (e_time g) /\
    x_loc g = e_loc f /\ x_time g = e_time f /\ x_loc f = l /\ x_time f = rt k l /\ o (rt k l) = o (e_time f) + d /\
    l_uses f = Offs (e_loc f) d /\ In (e_loc f) (rq_metas Q x).
  Proof.
    intros Hin Hr. unfold find_dest_leg. cbn [fst snd].
    destruct (fp_max_duration <=? d) eqn:Em; [discriminate|]. apply Z.leb_gt in Em.
    destruct (HoffB _ _ Hin) as [Hd0 HdB]. specialize (HdB Em).
    set (R := fun z : option (leg * leg) => forall f g, z = Some (f, g) ->
      ride_leg P g /\ rt (k - 1)%nat (e_loc g) <> kInvalid P /\ o (rt (k - 1)%nat (e_loc g)) <= o (e_time g) /\
      x_loc g = e_loc f /\ x_time g = e_time f /\ x_loc f = l /\ x_time f = rt k l /\ o (rt k l) = o (e_time f) + d /\
      l_uses f = Offs (e_loc f) d /\ In (e_loc f) (rq_metas Q x)).
    intros H. revert f g H. change (R (fold_left (fun ret eq => match check_fp P Q rt k l (rt k l) (eq, d) false with
           | Some (f, t) => Some (mk_leg (l_from f) (l_to f) (l_dep f) (l_arr f) (Offs eq d), t) | None => ret end) (rq_metas Q x) None)).
    apply fold_left_inv; [intros f g H; discriminate|].
    intros ret eq Heq HR. destruct (check_fp P Q rt k l (rt k l) (eq, d) false) as [[f' g']|] eqn:E; [|exact HR].
    apply check_fp_sound in E as (G1 & G2 & G3 & G4 & G5 & G6 & G7 & G8 & G9 & G10); auto.
    cbn [dur_of snd fst] in *. intros f g [= <- <-].
    assert (A : forall u, e_loc (mk_leg (l_from f') (l_to f') (l_dep f') (l_arr f') u) = e_loc f' /\ x_loc (mk_leg (l_from f') (l_to f') (l_dep f') (l_arr f') u) = x_loc f' /\
      e_time (mk_leg (l_from f') (l_to f') (l_dep f') (l_arr f') u) = e_time f' /\ x_time (mk_leg (l_from f') (l_to f') (l_dep f') (l_arr f') u) = x_time f').
    { intros u. unfold e_loc, x_loc, e_time, x_time. destruct fwd; cbn; auto. }
    destruct (A (Offs eq d)) as (A1 & A2 & A3 & A4). rewrite A1, A2, A3, A4. cbn [l_uses].
    do 9 (split; [congruence|]). congruence.
  Qed.

  Lemma trivial_iff f : trivial_fp f = true <-> e_loc f = x_loc f /\ e_time f = x_time f.
  Proof.
    unfold trivial_fp, e_loc, x_loc, e_time, x_time. rewrite andb_true_iff, Nat.eqb_eq, Z.eqb_eq. destruct fwd; split; intros []; split; congruence.
  Qed.

  Lemma get_legs_last k l f g : in_range (rt k l) -> (p_dist_to_end P <> None -> l = p_end P) ->
    get_legs P Q rt true k l = Some (f, g) ->
    ride_leg P g /\ s_dest l (rt k l) (if trivial_fp f then [] else [f]) (x_loc g) (x_time g) /\
    rt (k - 1)%nat (e_loc g) <> kInvalid P /\ o (rt (k - 1)%nat (e_loc g)) <= o (e_time g).
  Proof.
    intros Hr Hl H. unfold get_legs in H. rewrite andb_true_r in H.
    unfold is_intermodal_dest in H. destruct (p_dist_to_end P) as [off|] eqn:Eoff.
    - apply first_some_some in H as ([x d] & Hin & H). apply find_dest_leg_sound in H as (G1 & G2 & G3 & G4 & G5 & G6 & G7 & G8 & G9 & G10); auto.
      split; auto. split; auto.
      assert (Ht : trivial_fp f = false).
      { apply not_true_is_false. intros Ht. apply trivial_iff in Ht as [Ht _].
        destruct (ride_leg_stops g G1) as [N1 N2]; [congruence|]. rewrite G6, <- G4 in Ht. rewrite Hl in Ht by congruence.
        unfold x_loc in Ht. destruct fwd; congruence. }
      rewrite Ht, G4, G5. eapply sd_off; eauto. congruence.
    - destruct (check_fp P Q rt k l (rt k l) (l, 0) false) as [[f' g']|] eqn:E.
      + injection H as <- <-. apply check_fp_sound in E as (G1 & G2 & G3 & G4 & G5 & G6 & G7 & G8 & G9 & G10); auto.
        2:{ cbn [dur_of snd]. lia. }
        cbn [dur_of snd fst] in *.
        assert (Et : e_time f' = rt k l) by (apply (o_inj P); lia).
        assert (Ht : trivial_fp f' = true) by (apply trivial_iff; split; congruence).
        rewrite Ht, G2, G8, Et. split; auto. split; auto. now apply sd_none.
      + apply first_some_some in H as ([b d] & Hin & E').
        assert (Hd : 0 <= p_adjust P d <= B) by (destruct fwd; [apply Hsym in Hin|]; eapply Hfp; eauto).
        apply check_fp_sound in E' as (G1 & G2 & G3 & G4 & G5 & G6 & G7 & G8 & G9 & G10); auto.
        cbn [dur_of snd fst] in *. split; auto. split; auto. rewrite G2, <- G5, G8.
        destruct (trivial_fp f) eqn:Ht.
        * apply trivial_iff in Ht as [T1 T2]. replace (e_loc f) with l by congruence. replace (e_time f) with (rt k l) by congruence.
          now apply sd_none.
        * eapply sd_walk; eauto. eapply walk_travel; eauto.
  Qed.

  Lemma rec_rounds_sound k l legs : (1 <= k)%nat -> rt k l <> kInvalid P -> (p_dist_to_end P <> None -> l = p_end P) ->
    rec_rounds P Q rt true k l = Some legs ->
    exists post g rest, legs = post ++ g :: rest /\ srides k (g :: rest) /\ s_dest l (rt k l) post (x_loc g) (x_time g).
  Proof.
    intros Hk Hne Hl H. destruct k as [|k]; [lia|]. cbn [rec_rounds] in H.
    destruct (get_legs P Q rt true (S k) l) as [[f g]|] eqn:E; [|discriminate].
    apply get_legs_last in E as (G1 & G2 & G3 & G4); auto.
    replace (S k - 1)%nat with k in * by lia. fold (e_loc g) in H.
    destruct (rec_rounds P Q rt false k (e_loc g)) as [rest|] eqn:Er; [|discriminate]. injection H as <-.
    exists (if trivial_fp f then [] else [f]), g, rest. split; [destruct (trivial_fp f); auto|]. split; auto.
    destruct k as [|k].
    - cbn in Er. injection Er as <-. now apply sr_last.
    - eapply rec_rounds_mid; eauto. lia.
  Qed.

  Lemma srides_last n legs : srides n legs -> exists pre g, legs = pre ++ [g] /\ ride_leg P g /\
    rt 0%nat (e_loc g) <> kInvalid P /\ o (rt 0%nat (e_loc g)) <= o (e_time g).
  Proof.
    induction 1 as [g Hg Hn Hle|n g f h ls Hg Hf H1 H2 H3 H4 Hs IH].
    - exists [], g. auto.
    - destruct IH as (pre & g' & E & IH). exists (g :: f :: pre), g'. rewrite E. auto.
  Qed.

  (** *** Start side *)
  Variable t0 : Z.
  Hypothesis Ht0 : OL <= o t0 <= OI - B.
  Inductive s_start : list leg -> nat -> Z -> Prop :=
  | ss_none l t : rq_intermodal_start Q = false -> is_start_location Q l -> o t0 <= o t -> s_start [] l t
  | ss_walk f d t : rq_intermodal_start Q = false -> (exists x d', l_uses f = Foot x d') -> is_start_location Q (e_loc f) ->
      footpath_time P (l_from f) (l_to f) d -> e_time f = t0 -> o (e_time f) + d <= o (x_time f) -> o (x_time f) <= o t ->
      s_start [f] (x_loc f) t
  | ss_off f x d t : rq_intermodal_start Q = true -> l_uses f = Offs x d -> In (x, d) (rq_start Q) -> rq_matches Q x (x_loc f) = true ->
      e_loc f = rq_START Q -> o t0 <= o (e_time f) -> o (x_time f) = o (e_time f) + d -> x_time f = t -> s_start [f] (x_loc f) t.

  Lemma is_journey_start_iff l : is_journey_start Q l = true <-> is_start_location Q l.
  Proof.
    unfold is_journey_start, is_start_location. rewrite existsb_exists. split.
    - intros ([x d] & Hin & H). eauto.
    - intros (x & d & Hin & H). exists (x, d). auto.
  Qed.

  Lemma find_start_footpath_sound g res : o (rt 0%nat (e_loc g)) <= o (e_time g) ->
    find_start_footpath P Q rt t0 g = Some res ->
    s_start (match res with None => [] | Some f => [f] end) (e_loc g) (e_time g).
  Proof.
    intros Hle H. unfold find_start_footpath in H. fold (e_loc g) (e_time g) in H.
    destruct (rq_intermodal_start Q) eqn:Ei; cbn [negb andb] in H.
    - destruct (first_some _ _) as [f|] eqn:E in H; [|discriminate]. cbn in H. injection H as <-.
      apply first_some_some in E as ([x d] & Hin & E). cbn [fst snd] in E.
      destruct (rq_matches Q x (e_loc g) && _) eqn:Em; [|discriminate]. injection E as <-.
      apply andb_true_iff in Em as [Em1 Em2]. apply is_better_or_eq_o in Em2.
      destruct (dir_leg_acc (rq_START Q) (e_loc g) (e_time g - dir P d) (e_time g) (Offs x d)) as (A1 & A2 & A3 & A4 & A5).
      set (f := dir_leg fwd (rq_START Q) (e_loc g) (e_time g - dir P d) (e_time g) (Offs x d)) in *.
      rewrite <- A2 in *. eapply ss_off; eauto; rewrite ?A3, ?A4, ?A1; auto.
      replace (e_time g) with (e_time g - dir P d + dir P d) at 1 by lia. now rewrite o_dir.
    - destruct (is_journey_start Q (e_loc g) && is_better_or_eq P t0 (e_time g)) eqn:Ed.
      + injection H as <-. apply andb_true_iff in Ed as [Ed1 Ed2]. apply is_better_or_eq_o in Ed2. apply is_journey_start_iff in Ed1.
        now apply ss_none.
      + destruct (first_some _ _) as [f|] eqn:E in H; [|discriminate]. cbn in H. injection H as <-.
        apply first_some_some in E as ([x d] & Hin & E). cbn [fst snd] in E.
        destruct (is_journey_start Q x && _ && _) eqn:Em; [|discriminate]. injection E as <-.
        apply andb_true_iff in Em as [Em Em3]. apply andb_true_iff in Em as [Em1 Em2]. apply is_journey_start_iff in Em1.
        apply start_matches_le in Em3.
        assert (Hd : 0 <= p_adjust P d <= B) by (destruct fwd; [apply Hsym in Hin|]; eapply Hfp; eauto).
        assert (Hc : clamp16 t0 = t0) by (apply (clamp_id P); lia).
        rewrite Hc, to_i16_o in Em3 by (rewrite o_dir; lia). rewrite o_dir in Em3.
        destruct (dir_leg_acc x (e_loc g) t0 (rt 0%nat (e_loc g)) (Foot x (p_adjust P d))) as (A1 & A2 & A3 & A4 & A5).
        set (f := dir_leg fwd x (e_loc g) t0 (rt 0%nat (e_loc g)) (Foot x (p_adjust P d))) in *.
        assert (Hw : footpath_time P (l_from f) (l_to f) (p_adjust P d)) by (eapply walk_travel; eauto).
        rewrite <- A2. eapply ss_walk; eauto; rewrite ?A1, ?A3, ?A4; auto.
  Qed.

  (** *** From search order to travel order *)
  Lemma rides_nonempty n ls : rides P n ls -> ls <> [].
  Proof. intros H; inversion H; congruence. Qed.
  Lemma rides_snoc n A h : rides P n (A ++ [h]) -> forall f g, ride_leg P g -> change_leg P f ->
    l_to h = l_from f -> l_arr h <= l_dep f -> l_to f = l_from g -> l_arr f <= l_dep g -> rides P (S n) (A ++ [h; f; g]).
  Proof.
    intros H. remember (A ++ [h]) as X eqn:EX. revert A h EX. induction H as [g0 Hg0|n g0 f0 h0 ls Hg0 Hf0 H1 H2 H3 H4 Hr IH]; intros A h EX f g Hg Hf E1 E2 E3 E4.
    - destruct A as [|a A]; [|destruct A; discriminate]. cbn in EX. injection EX as ->. cbn. apply rides_more; auto. now apply rides_last.
    - destruct A as [|a [|b A]]; cbn in EX.
      + discriminate.
      + destruct ls; discriminate.
      + injection EX as -> -> EX. cbn. destruct A as [|c A]; cbn in *.
        * injection EX as -> ->. apply rides_more; auto. apply (IH [] h); auto.
        * injection EX as -> ->. apply rides_more; auto. apply (IH (c :: A) h); auto.
  Qed.
  Lemma srides_fwd n ls : fwd = true -> srides n ls -> rides P n (rev ls).
  Proof.
    intros Ef H. induction H as [g Hg _ _|n g f h ls Hg Hf H1 H2 H3 H4 Hs IH]; cbn [rev app]; [now apply rides_last|].
    cbn [rev] in IH. rewrite <- !app_assoc. cbn [app].
    unfold x_loc, e_loc, x_time, e_time, Raptor_Base.o in *. rewrite Ef in *.
    apply rides_snoc; auto; try congruence; try lia.
  Qed.
  Lemma ride_not_foot g : ride_leg P g -> exists ri vi day a b, l_uses g = Ride ri vi day a b.
  Proof. intros [ri vi day from to r v st st' Hu _ _ _ _ _ _ _ _ _ _ _ _ _ _]. eauto 8. Qed.
  Lemma adjust_ride prev g ls : ride_leg P g -> adjust_footpaths prev (g :: ls) = g :: adjust_footpaths g ls.
  Proof. intros Hg. destruct (ride_not_foot g Hg) as (ri & vi & day & a & b & Hu). cbn. now rewrite Hu. Qed.
  Lemma srides_head n ls : srides n ls -> exists g rest, ls = g :: rest /\ ride_leg P g.
  Proof. intros H; inversion H; subst; eauto. Qed.
  Lemma change_shift f prev : change_leg P f -> exists f', change_leg P f' /\ l_from f' = l_from f /\ l_to f' = l_to f /\ l_dep f' = l_arr prev /\
    l_arr f' = l_arr f - (l_dep f - l_arr prev) /\ forall ls, adjust_footpaths prev (f :: ls) = f' :: adjust_footpaths f' ls.
  Proof.
    intros ((t & d0 & Hu) & d & Hc & Ea).
    exists (mk_leg (l_from f) (l_to f) (l_dep f - (l_dep f - l_arr prev)) (l_arr f - (l_dep f - l_arr prev)) (l_uses f)).
    split; [|do 4 (split; [cbn; lia|]); intros ls; cbn; now rewrite Hu].
    split; [eauto|]. exists d. cbn. split; auto. lia.
  Qed.
  Lemma srides_bwd n g ls : fwd = false -> srides n (g :: ls) -> forall tl,
    (exists ls', adjust_footpaths g (ls ++ tl) = ls' ++ adjust_footpaths (last_leg (g :: ls)) tl /\ rides P n (g :: ls') /\ last_leg (g :: ls') = last_leg (g :: ls)).
  Proof.
    intros Ef H. remember (g :: ls) as X eqn:EX. revert g ls EX.
    induction H as [g0 Hg _ _|n g0 f h ls0 Hg Hf H1 H2 H3 H4 Hs IH]; intros g ls EX tl; injection EX as E1 E2; subst.
    - exists []. split; [reflexivity|]. split; [now apply rides_last|reflexivity].
    - destruct (change_shift f g Hf) as (f' & Hf' & F1 & F2 & F3 & F4 & F5).
      destruct (srides_head _ _ Hs) as (h' & ? & E & Hh). injection E as <- <-.
      destruct (IH h ls0 eq_refl tl) as (ls' & E1 & E2 & E3).
      exists (f' :: h :: ls'). cbn [app]. rewrite F5, (adjust_ride f' h) by auto. rewrite E1. split; [reflexivity|].
      unfold x_loc, e_loc, x_time, e_time, Raptor_Base.o in *. rewrite Ef in *.
      split; [|exact E3]. apply rides_more; auto; try congruence; lia.
  Qed.

  Lemma dest_travel front l t post loc tt : front = negb fwd -> s_dest l t post loc tt -> dest_side P Q front l t post loc tt.
  Proof.
    intros Efr H. destruct H as [Hn|f d Hn Hu Hl Ht Hw Ho|f x d Hn Hu Hin Hm Hl Ht Ho].
    - now apply dest_direct.
    - eapply dest_walk; eauto; unfold outer_loc, inner_loc, outer_time, inner_time, outside, x_loc, e_loc, x_time, e_time, Raptor_Base.o in *;
        subst front; destruct fwd; cbn [negb]; auto; lia.
    - eapply dest_offset; eauto; unfold outer_loc, inner_loc, outer_time, inner_time, outside, x_loc, e_loc, x_time, e_time, Raptor_Base.o in *;
        subst front; destruct fwd; cbn [negb]; auto; lia.
  Qed.

  Theorem reconstruct_legs_sound dest transfers legs :
    rt (transfers + 1)%nat dest <> kInvalid P -> (p_dist_to_end P <> None -> dest = p_end P) ->
    reconstruct_legs P Q rt dest transfers t0 = Some legs ->
    itinerary P Q (transfers + 1) t0 dest (rt (transfers + 1)%nat dest) legs.
  Proof.
    intros Hne Hd H. unfold reconstruct_legs in H.
    destruct (rec_rounds P Q rt true (transfers + 1) dest) as [ls|] eqn:Er; [|discriminate].
    apply rec_rounds_sound in Er as (post & g & rest & -> & Hs & Hdest); auto; [|lia].
    destruct (srides_last _ _ Hs) as (pre0 & g1 & E1 & Hg1 & Hn1 & Hle1).
    assert (El : last (post ++ g :: rest) (mk_leg 0 0 0 0 (Foot 0 0)) = g1).
    { rewrite E1, app_assoc. apply last_last. }
    rewrite El in H.
    destruct (find_start_footpath P Q rt t0 g1) as [res|] eqn:Ef; [|discriminate].
    apply find_start_footpath_sound in Ef; auto.
    assert (E : legs = in_travel_order P (post ++ (g :: rest) ++ match res with None => [] | Some f => [f] end)).
    { destruct res; injection H as <-; [now rewrite <- app_assoc|]. now rewrite app_nil_r. }
    clear H. subst legs. set (sd := match res with None => [] | Some f => [f] end) in *. unfold in_travel_order, itinerary.
    assert (Hlast : last_leg (g :: rest) = g1) by (unfold last_leg; rewrite E1; apply last_last).
    destruct fwd eqn:Efwd.
    - exists (rev sd), (rev (g :: rest)), (rev post).
      split; [rewrite !rev_app_distr; now rewrite app_assoc|]. split; [now apply srides_fwd|].
      assert (Hf : first_leg (rev (g :: rest)) = g1) by (rewrite E1, rev_app_distr; reflexivity).
      assert (Hl : last_leg (rev (g :: rest)) = g) by (cbn [rev]; apply last_last).
      rewrite Hf, Hl. split.
      + unfold sd in *. clear sd. destruct res as [f|]; cbn [rev app].
        * inversion Ef as [|f0 d t G0 G1 G2 G3 G4 G5 G6 E2 E3 E4|f0 x d t G1 G2 G3 G4 G5 G6 G7 G8 E2 E3 E4]; subst;
            unfold x_loc, e_loc, x_time, e_time, Raptor_Base.o in *; rewrite Efwd in *.
          -- eapply start_walk; eauto; unfold outer_time, outside, inner_time; try lia. 
          -- eapply start_offset; eauto; unfold outer_time, outside, inner_time, inner_loc; try lia; try congruence.
        * inversion Ef as [l t G0 G1 G2| | ]; subst. unfold x_loc, e_loc, x_time, e_time, Raptor_Base.o in *; rewrite Efwd in *.
          apply start_direct; auto.
      + assert (Hdt := dest_travel false _ _ _ _ _ ltac:(rewrite Efwd; reflexivity) Hdest).
        unfold x_loc, x_time in Hdt. rewrite Efwd in Hdt.
        destruct Hdest as [| |]; cbn [rev app]; exact Hdt.
    - assert (Hdt := dest_travel true _ _ _ _ _ ltac:(rewrite Efwd; reflexivity) Hdest).
      assert (Hmid : exists ls', match post ++ (g :: rest) ++ sd with [] => [] | x :: r => x :: adjust_footpaths x r end
                       = post ++ (g :: ls') ++ adjust_footpaths g1 sd /\ rides P (transfers + 1) (g :: ls') /\ last_leg (g :: ls') = g1).
      { destruct (srides_bwd _ _ _ Efwd Hs sd) as (ls' & E2 & E3 & E4). rewrite Hlast in *. exists ls'. split; auto.
        destruct (srides_head _ _ Hs) as (g' & ? & EE & Hg). injection EE as <- <-.
        destruct Hdest as [| |]; cbn [app]; rewrite ?(adjust_ride _ g) by auto; rewrite E2; reflexivity. }
      destruct Hmid as (ls' & E2 & Hr & Hl). rewrite E2.
      exists post, (g :: ls'), (adjust_footpaths g1 sd). split; [reflexivity|]. split; auto.
      rewrite Hl. cbn [first_leg hd]. unfold x_loc, x_time in Hdt. rewrite Efwd in Hdt. split; [exact Hdt|].
      unfold sd in *. clear sd E2. destruct res as [f|]; cbn [adjust_footpaths].
      + inversion Ef as [|f0 d t G0 (xx & dd & G1) G2 G3 G4 G5 G6 E2 E3 E4|f0 x d t G1 G2 G3 G4 G5 G6 G7 G8 E2 E3 E4]; subst;
            unfold x_loc, e_loc, x_time, e_time, Raptor_Base.o in *; rewrite Efwd in *.
        * rewrite G1. eapply start_walk with (d := d); cbn; eauto; unfold outside; try lia.
        * rewrite G2. eapply start_offset; eauto; unfold outer_time, outside, inner_time, inner_loc; try lia; try congruence.
      + inversion Ef as [l t G0 G1 G2| | ]; subst. unfold x_loc, e_loc, x_time, e_time, Raptor_Base.o in *; rewrite Efwd in *.
        apply start_direct; auto. unfold outside. lia.
  Qed.
End Sound.
