(** The reconstruction finds legs for every journey that is kept in the result set. *)
From Coq Require Import List ZArith Bool Arith Lia.
From Verif Require Import Base Pareto_Model Pareto_Proofs Time_Model Time_Proofs Raptor_Model Raptor_Spec Raptor_Base Raptor_Sound Raptor_Genuine
  Raptor_Opt Raptor_Final Rec_Model Rec_Spec Rec_Proofs Rec_Support.
Import ListNotations.
Local Open Scope Z_scope.

Section Complete.
  Variable P : params.
  Variable Q : rquery.
  Variable rt : nat -> nat -> Z.
  Notation fwd := (p_fwd P).
  Notation tt := (p_tt P).
  Notation o := (o P).
  Notation OI := (OI P).
  Notation OL := (OL P).
  Notation e_loc := (e_loc P).
  Notation x_loc := (x_loc P).
  Notation e_time := (e_time P).
  Notation x_time := (x_time P).
  Hypothesis Hwf : all_vehicles_wf P.
  Hypothesis Hidx : index_ok P.
  Hypothesis Hrt : forall k l, OL <= o (rt k l) <= OI.

  (** *** A suitable ride is found *)
  Definition sec_ok (r : route) (sec : nat) : Prop := forall f, (f < 4)%nat -> p_require P f = true -> section_has r sec f.
  Lemma section_test_ok r sec : sec_ok r sec ->
    existsb (fun f => section_filter P r f && negb (flag_on_section r f sec)) [0%nat; 1%nat; 2%nat; 3%nat] = false.
  Proof.
    intros H. apply not_true_is_false. intros E. apply existsb_exists in E as (f & Hin & E).
    assert (Hf : (f < 4)%nat) by (cbn in Hin; lia).
    apply andb_true_iff in E as [E1 E2]. unfold section_filter in E1. apply andb_true_iff in E1 as [E1 E3].
    apply negb_true_iff in E2, E3. unfold flag_on_section in E2. rewrite E3 in E2. cbn in E2.
    destruct (H f Hf E1) as [X|[X Y]]; [congruence|]. rewrite X, Y in E2. discriminate.
  Qed.
  Definition boardable_at (k : nat) (r : route) (vi : nat) (day : Z) (s : nat) : Prop :=
    get_on_allowed P (stop_at r s) = true /\
    o (rt (k - 1)%nat (loc_at r s)) <= o (clamp16 (run_time P r vi day s (board_ev P))).
  Lemma find_start_here k ri r vi day fin s rest : sec_ok r (if fwd then s else (s - 1)%nat) -> boardable_at k r vi day s ->
    find_start_loop P Q rt k ri r vi day fin (section_filter P r) (s :: rest) <> None.
  Proof.
    intros Hs (Hon & Hle). cbn [find_start_loop]. rewrite section_test_ok by auto. rewrite can_start_on, Hon. cbn [negb].
    apply is_better_or_eq_o in Hle. rewrite Hle. cbn [orb]. discriminate.
  Qed.
  Lemma find_start_skip k ri r vi day fin s rest : sec_ok r (if fwd then s else (s - 1)%nat) ->
    find_start_loop P Q rt k ri r vi day fin (section_filter P r) rest <> None ->
    find_start_loop P Q rt k ri r vi day fin (section_filter P r) (s :: rest) <> None.
  Proof.
    intros Hs Hr. cbn [find_start_loop]. rewrite section_test_ok by auto.
    destruct (negb (can_start fwd (is_wheelchair P) (stop_at r s))); auto.
    destruct (is_better_or_eq P _ _ || _); [discriminate|auto].
  Qed.
  Lemma find_start_complete k ri r vi day fin s : (fin < length (r_stops r))%nat -> (s < length (r_stops r))%nat ->
    (if fwd then (s < fin)%nat else (fin < s)%nat) ->
    (forall sec, (Nat.min s fin <= sec < Nat.max s fin)%nat -> sec_ok r sec) -> boardable_at k r vi day s ->
    find_start_loop P Q rt k ri r vi day fin (section_filter P r) (stops_before P r fin) <> None.
  Proof.
    intros Hfin Hsl Hlt Hsec Hb. unfold stops_before. destruct fwd eqn:Ef.
    - rewrite Nat.min_l, Nat.max_r in Hsec by lia.
      assert (G : forall m, (s < m <= fin)%nat -> find_start_loop P Q rt k ri r vi day fin (section_filter P r) (rev (seq 0 m)) <> None).
      { induction m as [|m IH]; intros Hm; [lia|]. rewrite seq_S, rev_app_distr. cbn [rev app Nat.add].
        destruct (Nat.eq_dec s m) as [<-|].
        - apply find_start_here; auto. rewrite Ef. apply Hsec. lia.
        - apply find_start_skip; [rewrite Ef; apply Hsec; lia|]. apply IH. lia. }
      apply G. lia.
    - rewrite Nat.min_r, Nat.max_l in Hsec by lia.
      assert (G : forall c m, (fin <= m < s)%nat -> (s <= m + c)%nat -> find_start_loop P Q rt k ri r vi day fin (section_filter P r) (seq (S m) c) <> None).
      { induction c as [|c IH]; intros m Hm Hc; [lia|]. cbn [seq].
        destruct (Nat.eq_dec s (S m)) as [->|].
        - apply find_start_here; auto. rewrite Ef. apply Hsec. lia.
        - apply find_start_skip; [rewrite Ef; apply Hsec; lia|]. apply IH; lia. }
      apply G; lia.
  Qed.

  Lemma get_transport_complete k l' tb l ta : ride_ok P l' tb l ta -> o (rt (k - 1)%nat l') <= o tb ->
    get_transport P Q rt k l ta <> None.
  Proof.
    intros [ri r vi v day s fin st st' Hr Hv Hrun Hs Hs' Hlt El El' Hon Hoff Hcl Hsec Etb Eta] Hle.
    assert (Hsl : (s < length (r_stops r))%nat) by (apply nth_error_Some; congruence).
    assert (Hfl : (fin < length (r_stops r))%nat) by (apply nth_error_Some; congruence).
    assert (Es : stop_at r s = st) by (unfold stop_at; now apply nth_error_nth).
    assert (Es' : stop_at r fin = st') by (unfold stop_at; now apply nth_error_nth).
    unfold get_transport. apply first_some_complete with ri.
    { rewrite <- El'. eapply (proj1 Hidx); eauto using nth_error_In. }
    rewrite Hr.
    assert (Hra : route_allowed P r = true).
    { unfold route_allowed. rewrite Hcl. cbn [andb]. apply forallb_forall. intros f Hf.
      assert (Hf4 : (f < 4)%nat) by (cbn in Hf; lia).
      destruct (p_require P f) eqn:Ereq; auto. cbn [negb orb].
      destruct (Hsec f (Nat.min s fin) Hf4 Ereq) as [X|[X _]]; [destruct fwd; lia| |]; rewrite X; auto using orb_true_r. }
    rewrite Hra. cbn [negb]. apply first_some_complete with fin.
    { apply in_seq. lia. }
    assert (Hfp : finish_possible P r l fin = true).
    { unfold finish_possible. rewrite can_finish_off, Es', Hoff. unfold loc_at. rewrite Es', El', Nat.eqb_refl. cbn [andb].
      rewrite andb_true_r. apply negb_true_iff. destruct fwd; apply Nat.eqb_neq; lia. }
    rewrite Hfp. unfold get_route_transport. apply first_some_complete with vi.
    { apply in_seq. split; [lia|]. cbn. apply nth_error_Some. congruence. }
    rewrite (vehicle_of_nth _ _ _ Hv).
    pose proof (delta_count_wf P Hwf ri r v fin (alight_ev P) Hr (nth_error_In _ _ Hv) Hfl) as Hc.
    destruct (proj1 Hwf _ _ _ Hr (nth_error_In _ _ Hv)) as (Hw & _ & _). specialize (Hw fin (alight_ev P) Hfl).
    set (c := delta_count (v_ev v fin (alight_ev P))) in *. unfold event_minutes in *.
    assert (Hc0 : 0 <= c) by lia.
    assert (Hm : p_base P * 1440 + ta = day * 1440 + c) by (rewrite Eta; unfold event_time; fold (alight_ev P); lia).
    destruct Hrun as [Hday Hrun].
    assert (Eq : Z.quot (day * 1440 + c) 1440 = day + Z.quot c 1440).
    { rewrite !Z.quot_div_nonneg by lia. rewrite Z.add_comm, Z.div_add by lia. lia. }
    assert (Er : Z.rem (day * 1440 + c) 1440 = Z.rem c 1440).
    { rewrite !Z.rem_mod_nonneg by lia. rewrite Z.add_comm, Z.mod_add by lia. reflexivity. }
    rewrite Hm, Eq, Er, Z.eqb_refl. cbn [negb]. replace (day + Z.quot c 1440 - Z.quot c 1440) with day by lia.
    assert (Hact : is_transport_active v day = true) by (apply is_transport_active_iff; split; auto).
    rewrite Hact. cbn [negb]. apply find_start_complete with s; auto.
    - intros sec Hb f Hf Hreq. apply Hsec; auto.
    - split; [now rewrite Es|].
      rewrite (run_time_event P Hwf ri r vi v) by auto. unfold loc_at. rewrite Es, El. fold (board_ev P) in Etb. rewrite <- Etb.
      rewrite o_clamp. specialize (Hrt (k - 1)%nat l'). lia.
  Qed.

  Variable B : Z.
  Hypothesis HB : 0 <= B.
  Hypothesis Hrange : forall k l, rt k l <> kInvalid P -> in_range P B (rt k l).
  Lemma check_fp_complete k l0 l t fp adjust l' tb ta : in_range P B t -> 0 <= dur_of P fp adjust <= B -> fst fp = l0 ->
    ride_ok P l' tb l0 ta -> o (rt (k - 1)%nat l') <= o tb -> t = after P ta (dur_of P fp adjust) ->
    check_fp P Q rt k l t fp adjust <> None.
  Proof.
    intros Ht Hd El Hr Hle Et. unfold check_fp. fold (dur_of P fp adjust).
    assert (E : t - dir P (dur_of P fp adjust) = ta) by (rewrite Et, after_dir; lia). rewrite E.
    rewrite (to_i16_o P).
    2:{ unfold in_range in Ht. rewrite Et, o_after in Ht. lia. }
    assert (X := get_transport_complete k l' tb l0 ta Hr Hle). rewrite El.
    destruct (get_transport P Q rt k l0 ta); [discriminate|congruence].
  Qed.

  Hypothesis Hend : end_ok P.
  Hypothesis Hsym : forall a b d, In (b, d) (tt_footpaths_out tt a) <-> In (a, d) (tt_footpaths_in tt b).
  Hypothesis Htr : forall l, 0 <= transfer_time P l <= B.
  Hypothesis Hfp : forall a b d, In (b, d) (tt_footpaths_out tt a) -> 0 <= p_adjust P d <= B.
  Hypothesis HoffB : forall x d, In (x, d) (rq_dest Q) -> 0 <= d /\ (d < fp_max_duration -> d <= B).
  Notation Tr := (transfer_time P).

  (** *** Legs as parts of connections *)
  Lemma ride_leg_ok g : ride_leg P g -> ride_ok P (e_loc g) (e_time g) (x_loc g) (x_time g).
  Proof.
    intros [ri vi day from to r v st st' Hu Hr Hv Hrun Hlt Hs Hs' Ef Et Hb Ha Hcl Hsec Ed Ear].
    unfold may_board, may_alight in Hb, Ha.
    unfold Rec_Proofs.e_loc, Rec_Proofs.x_loc, Rec_Proofs.e_time, Rec_Proofs.x_time. destruct fwd eqn:E.
    - eapply (ride_intro P _ _ _ _ ri r vi v day from (to - 1) st st'); eauto; rewrite ?E; auto; try lia.
      + unfold get_on_allowed. rewrite E. unfold wheelchair in *. destruct (p_require P 2); auto.
      + unfold get_off_allowed. rewrite E. unfold wheelchair in *. destruct (p_require P 2); auto.
      + intros f sec Hf Hq. rewrite Nat.min_l, Nat.max_r by lia. auto.
    - eapply (ride_intro P _ _ _ _ ri r vi v day (to - 1) from st' st); eauto; rewrite ?E; auto; try lia.
      + unfold get_on_allowed. rewrite E. unfold wheelchair in *. destruct (p_require P 2); auto.
      + unfold get_off_allowed. rewrite E. unfold wheelchair in *. destruct (p_require P 2); auto.
      + intros f sec Hf Hq. rewrite Nat.min_r, Nat.max_l by lia. auto.
  Qed.
  Lemma change_ready S i f : change_leg P f -> arrived P S Tr i (e_loc f) (e_time f) -> ready P S Tr i (x_loc f) (x_time f).
  Proof.
    intros (_ & d & Hc & Ear) Ha. unfold Rec_Proofs.e_loc, Rec_Proofs.x_loc, Rec_Proofs.e_time, Rec_Proofs.x_time in *.
    assert (Et : (if fwd then l_arr f else l_dep f) = after P (if fwd then l_dep f else l_arr f) d) by (unfold after; destruct fwd; lia).
    rewrite Et. destruct Hc as [[E1 E2]|(d0 & Hin & E2)].
    - assert (El : (if fwd then l_to f else l_from f) = (if fwd then l_from f else l_to f)) by (destruct fwd; auto).
      rewrite El, E2. replace (Tr (l_from f)) with (Tr (if fwd then l_from f else l_to f)) by (rewrite E1; destruct fwd; reflexivity).
      now apply ready_transfer.
    - eapply ready_walk; eauto. exists d0. split; auto. destruct fwd; auto. now apply Hsym.
  Qed.
  Lemma change_order f : change_leg P f -> o (e_time f) <= o (x_time f).
  Proof.
    intros (_ & d & Hc & Ear).
    assert (0 <= d). { destruct Hc as [[_ ->]|(d0 & Hin & ->)]; [apply Htr|]. eapply Hfp; eauto. }
    unfold Rec_Proofs.e_time, Rec_Proofs.x_time, Raptor_Base.o. destruct fwd; lia.
  Qed.

  Variable K dest : nat.
  Hypothesis HK : (1 <= K)%nat.
  Hypothesis Hdest : p_is_dest P dest = true.
  Hypothesis Hlab : rt K dest <> kInvalid P.
  Variable St : nat -> Z -> Prop.
  Hypothesis HSt : forall l t, St l t -> OL < o t.
  Hypothesis Hsup : forall j l, (1 <= j)%nat -> rt j l <> kInvalid P -> Supp P rt j l (rt j l) \/ older P St rt j l (rt j l).
  (** The offsets of the search are the shortest destination offsets of the query, all of them usable. *)
  Hypothesis Hoff1 : forall off l d, p_dist_to_end P = Some off -> off l = Some d ->
    exists x, In (x, d) (rq_dest Q) /\ In l (rq_metas Q x) /\ d < fp_max_duration.
  Hypothesis Hoff2 : forall off x l d, p_dist_to_end P = Some off -> In (x, d) (rq_dest Q) -> In l (rq_metas Q x) ->
    exists d', off l = Some d' /\ d' <= d.
  (** The label is not dominated. *)
  Notation a := (rt K dest).
  Hypothesis Hdom1 : p_dist_to_end P = None -> forall i l, (1 <= i < K)%nat -> p_is_dest P l = true -> o a < o (rt i l).
  Hypothesis Hdom2 : forall i l t, (i < K)%nat -> connection P St Tr i l t -> o t <= o a -> False.

  Definition Tail (m l : nat) (t : Z) : Prop := forall S i t', o t' <= o t -> ready P S Tr i l t' ->
    exists l1 a1, o a1 <= o a /\ connection P S Tr (i + m) l1 a1.
  Lemma Tail_mono m l t t' : o t' <= o t -> Tail m l t -> Tail m l t'.
  Proof. intros Hle H S i t0 H0. apply H. lia. Qed.
  Lemma ride_arrived S i g t' : ride_leg P g -> o t' <= o (e_time g) -> ready P S Tr i (e_loc g) t' -> arrived P S Tr (1 + i) (x_loc g) (x_time g).
  Proof. intros Hg Hle Hr. eapply arrived_ride; [exact Hr| |now apply ride_leg_ok]. now apply no_later_o. Qed.
  Lemma tail_step m l t f g : Tail m l t -> change_leg P f -> x_loc f = l -> o (x_time f) <= o t -> e_loc f = x_loc g -> e_time f = x_time g ->
    ride_leg P g -> Tail (S m) (e_loc g) (e_time g).
  Proof.
    intros HT Hc El Hle E1 E2 Hg S i t' Ht' Hr.
    assert (Ha := ride_arrived S i g t' Hg Ht' Hr). rewrite <- E1, <- E2 in Ha. apply change_ready in Ha; auto. rewrite El in Ha.
    destruct (HT S (1 + i)%nat (x_time f) Hle Ha) as (l1 & a1 & H1 & H2). exists l1, a1. split; auto.
    replace (i + Datatypes.S m)%nat with (1 + i + m)%nat by lia. auto.
  Qed.
  Lemma tail_last post g : ride_leg P g -> s_dest P Q dest a post (x_loc g) (x_time g) -> Tail 1 (e_loc g) (e_time g).
  Proof.
    intros Hg Hs S i t' Ht' Hr. assert (Ha := ride_arrived S i g t' Hg Ht' Hr). clear Hr.
    replace (i + 1)%nat with (1 + i)%nat by lia.
    revert Hs Ha. generalize (x_loc g) (x_time g). intros xl xt Hs Ha. destruct Hs as [Hn|f d Hn Hu E1 E2 Hw Ed|f x d Hn Hu Hx Hm E1 E2 Ed].
    - exists dest, a. split; [lia|]. apply conn_station; auto.
    - exists dest, a. split; [lia|].
      eapply (conn_walk P S Tr _ _ _ (e_loc f) (e_time f) d); eauto.
      + rewrite <- E1. destruct Hw as (d0 & Hin & Ed0). exists d0. split; auto. unfold Rec_Proofs.e_loc, Rec_Proofs.x_loc. destruct fwd; auto. now apply Hsym.
      + apply (o_inj P). rewrite o_after. lia.
    - destruct (p_dist_to_end P) as [off|] eqn:Eoff; [|congruence].
      destruct (Hoff2 off x (e_loc f) d) as (d' & Hd' & Hle); auto.
      exists (p_end P), (after P (e_time f) d'). split; [rewrite o_after; lia|].
      eapply conn_offset; eauto. apply (proj1 (Hend ltac:(congruence))). reflexivity.
  Qed.

  Lemma taint_absurd i t : (i <= K)%nat -> o t <= o a -> ~ taint P rt i t.
  Proof.
    intros Hi Ht (Hn & i0 & l0 & Hi0 & Hd & _ & Hle). assert (X := Hdom1 Hn i0 l0 ltac:(lia) Hd). lia.
  Qed.
  Lemma older_mid k l t : (k < K)%nat -> real P l -> Tail (K - k) l t -> o t <= o a -> ~ older P St rt k l t.
  Proof.
    intros Hk Hr HT Hle (i & Hi & HL).
    assert (G : ready P St Tr i l t -> False).
    { intros Hrd. destruct (HT St i t ltac:(lia) Hrd) as (l1 & a1 & H1 & H2). eapply (Hdom2 (i + (K - k))); eauto. lia. }
    destruct HL as [-> _|t0 _ Ha Et|Hn Hd Ha|l0 t0 d Ha Hw Et|off l0 t0 d Hoff El _ _ _|_ Ht].
    - lia.
    - apply G. rewrite Et. now apply ready_transfer.
    - eapply (Hdom2 i l t); eauto; [lia|]. now apply conn_station.
    - apply G. rewrite Et. eapply ready_walk; eauto.
    - apply Hr; auto. congruence.
    - eapply (taint_absurd i t); eauto. lia.
  Qed.
  Lemma end_not_real l : real P l -> p_dist_to_end P <> None -> l <> p_end P.
  Proof. auto. Qed.
  Lemma dest_walk_none l0 d : walk P l0 dest d -> p_dist_to_end P = None.
  Proof.
    intros (d0 & Hin & _). destruct (p_dist_to_end P) as [off|] eqn:E; auto. exfalso.
    destruct (Hend ltac:(congruence)) as (H1 & _ & H3). apply H1 in Hdest. rewrite Hdest in Hin. eapply H3; eauto.
  Qed.
  Lemma dest_ride_none l' tb ta : ride_ok P l' tb dest ta -> p_dist_to_end P = None.
  Proof.
    intros Hr. destruct (p_dist_to_end P) as [off|] eqn:E; auto. exfalso.
    destruct (Hend ltac:(congruence)) as (H1 & _ & _). apply H1 in Hdest.
    destruct (ride_real P Hend _ _ _ _ Hr) as [_ Hx]. unfold real in Hx. apply Hx; auto. congruence.
  Qed.
  Lemma older_last : ~ older P St rt K dest a.
  Proof.
    intros (i & Hi & HL).
    assert (G : connection P St Tr i dest a -> False) by (intros Hc; eapply (Hdom2 i dest a); eauto; lia).
    destruct HL as [-> _|t0 Hn Ha Et|Hn Hd Ha|l0 t0 d Ha Hw Et|off l0 t0 d Hoff El Ha Ho Et|_ Ht].
    - lia.
    - inversion Ha as [k1 l1 t1 tb l2 ta _ _ Hride]; subst. rewrite Hn in Hdest by (eapply dest_ride_none; eauto). discriminate.
    - apply G. now apply conn_station.
    - apply G. eapply conn_walk; eauto. eapply dest_walk_none; eauto.
    - apply G. eapply conn_offset; eauto.
    - eapply (taint_absurd i a); eauto; [lia|lia].
  Qed.

  Lemma walk_back l0 l d : walk P l0 l d -> exists d0, In (l0, d0) (if fwd then tt_footpaths_in tt l else tt_footpaths_out tt l) /\ d = p_adjust P d0.
  Proof. intros (d0 & Hin & E). exists d0. split; auto. destruct fwd; now apply Hsym. Qed.
  Lemma fp_bound l0 l d0 : In (l0, d0) (if fwd then tt_footpaths_in tt l else tt_footpaths_out tt l) -> 0 <= p_adjust P d0 <= B.
  Proof. intros Hin. destruct fwd; [apply Hsym in Hin|]; eapply Hfp; eauto. Qed.
  Lemma walk_found k l l0 t0 d (last : bool) : RS P rt k l0 t0 -> walk P l0 l d -> rt k l = after P t0 d -> rt k l <> kInvalid P ->
    (is_intermodal_dest P && last = false) -> get_legs P Q rt last k l <> None.
  Proof.
    intros (Hk & l' & tb & Hle & Hr) Hw Et Hne Hl. unfold get_legs. rewrite Hl.
    destruct (check_fp P Q rt k l (rt k l) (l, _) false); [discriminate|].
    apply walk_back in Hw as (d0 & Hin & ->). apply first_some_complete with (l0, d0); auto.
    eapply (check_fp_complete k l0 l (rt k l) (l0, d0) true); eauto. cbn [dur_of snd]. eapply fp_bound; eauto.
  Qed.
  Lemma same_found k l t0 d (last : bool) : RS P rt k l t0 -> rt k l = after P t0 d -> rt k l <> kInvalid P -> 0 <= d <= B ->
    d = (if last then 0 else p_adjust P (tt_transfer_time tt l)) ->
    (is_intermodal_dest P && last = false) -> get_legs P Q rt last k l <> None.
  Proof.
    intros (Hk & l' & tb & Hle & Hr) Et Hne Hd Ed Hl. unfold get_legs. rewrite Hl.
    assert (X : check_fp P Q rt k l (rt k l) (l, if last then 0 else p_adjust P (tt_transfer_time tt l)) false <> None).
    { rewrite <- Ed. eapply (check_fp_complete k l l (rt k l) (l, d) false); eauto. }
    destruct (check_fp P Q rt k l (rt k l) (l, _) false); [discriminate|congruence].
  Qed.
  Lemma get_legs_mid_some k l : (1 <= k < K)%nat -> real P l -> rt k l <> kInvalid P -> Tail (K - k) l (rt k l) -> o (rt k l) <= o a ->
    get_legs P Q rt false k l <> None.
  Proof.
    intros Hk Hr Hne HT Hle. destruct (Hsup k l ltac:(lia) Hne) as [HS|HO].
    2:{ exfalso. revert HO. apply older_mid; auto. lia. }
    destruct HS as [t0 Hd HR Et|Hn Hd HR|l0 t0 d HR Hw Et|off l0 t0 d Hoff El _ _ _].
    - eapply (same_found k l t0 (Tr l)); eauto. apply andb_false_r.
    - exfalso. assert (X := Hdom1 Hn k l Hk Hd). lia.
    - eapply walk_found; eauto. apply andb_false_r.
    - exfalso. apply Hr; auto. congruence.
  Qed.
  Lemma fold_some {A C} (f : option C -> A -> option C) xs : (forall y x, f (Some y) x <> None) ->
    forall x i, In x xs -> (forall z, f z x <> None) -> fold_left f xs i <> None.
  Proof.
    intros Hs. assert (G : forall xs y, fold_left f xs (Some y) <> None).
    { induction xs0 as [|x xs0 IH]; cbn; [discriminate|]. intros y. specialize (Hs y x). destruct (f (Some y) x) as [z|] eqn:E; [apply IH|congruence]. }
    induction xs as [|x0 xs IH]; intros x i Hin Hx; [destruct Hin|]. cbn. destruct Hin as [->|Hin]; [|now apply IH with x].
    specialize (Hx i). destruct (f i x) as [y|]; [apply G|congruence].
  Qed.
  Lemma get_legs_last_some : get_legs P Q rt true K dest <> None.
  Proof.
    destruct (Hsup K dest HK Hlab) as [HS|HO]; [|now apply older_last in HO].
    destruct HS as [t0 Hd HR Et|Hn Hd HR|l0 t0 d HR Hw Et|off l0 t0 d Hoff El HR Ho Et].
    - exfalso. destruct HR as (_ & l' & tb & _ & Hr). apply dest_ride_none in Hr. rewrite Hd in Hdest by auto. discriminate.
    - eapply (same_found K dest a 0); eauto; [unfold after; destruct fwd; lia|lia|]. unfold is_intermodal_dest. now rewrite Hn.
    - eapply walk_found; eauto. unfold is_intermodal_dest. now rewrite (dest_walk_none _ _ Hw).
    - unfold get_legs, is_intermodal_dest. rewrite Hoff. cbn [andb].
      destruct (Hoff1 off l0 d Hoff Ho) as (x & Hx & Hm & Hd). apply first_some_complete with (x, d); auto.
      unfold find_dest_leg. cbn [fst snd]. destruct (Z.leb_spec fp_max_duration d); [lia|].
      destruct HR as (_ & l' & tb & Hle & Hr).
      apply fold_some with l0; auto.
      + intros y z. destruct (check_fp P Q rt K dest a (z, d) false) as [[? ?]|]; discriminate.
      + intros z. assert (X : check_fp P Q rt K dest a (l0, d) false <> None).
        { eapply (check_fp_complete K l0 dest a (l0, d) false); eauto. cbn [dur_of snd]. destruct (HoffB _ _ Hx) as [? HB']. split; auto. }
        destruct (check_fp P Q rt K dest a (l0, d) false) as [[? ?]|]; [discriminate|congruence].
  Qed.

  Definition base_leg (g0 : leg) : Prop :=
    rt 0%nat (e_loc g0) <> kInvalid P /\ o (rt 0%nat (e_loc g0)) <= o (e_time g0) /\ Tail K (e_loc g0) (rt 0%nat (e_loc g0)).
  Lemma ride_leg_real g : ride_leg P g -> real P (e_loc g).
  Proof. intros Hg. apply ride_leg_ok in Hg. now apply (ride_real P Hend) in Hg. Qed.
  Lemma rec_rounds_mid_some k : forall g, (k < K)%nat -> ride_leg P g -> rt k (e_loc g) <> kInvalid P -> o (rt k (e_loc g)) <= o (e_time g) ->
    Tail (K - k) (e_loc g) (e_time g) -> o (rt k (e_loc g)) <= o a ->
    exists legs, rec_rounds P Q rt false k (e_loc g) = Some legs /\ forall d, base_leg (last (g :: legs) d).
  Proof.
    induction k as [|k IH]; intros g Hk Hg Hne Hle HT Ha.
    - exists []. split; [reflexivity|]. intros d. cbn [last]. rewrite Nat.sub_0_r in HT. split; [exact Hne|]. split; [exact Hle|]. eapply Tail_mono; [|exact HT]. lia.
    - assert (HT' : Tail (K - S k) (e_loc g) (rt (S k) (e_loc g))) by (eapply Tail_mono; [|exact HT]; lia).
      assert (Hsome := get_legs_mid_some (S k) (e_loc g) ltac:(lia) (ride_leg_real g Hg) Hne HT' Ha).
      cbn [rec_rounds]. destruct (get_legs P Q rt false (S k) (e_loc g)) as [[f h]|] eqn:E; [clear Hsome|congruence].
      apply (get_legs_mid P Q rt Hwf B HB) in E as (G1 & G2 & G3 & G4 & G5 & G6 & G7 & G8); auto.
      replace (S k - 1)%nat with k in * by lia. fold (e_loc h). cbn [andb app].
      assert (HTh : Tail (K - k) (e_loc h) (e_time h)).
      { replace (K - k)%nat with (S (K - S k)) by lia. eapply tail_step; eauto. rewrite G4. lia. }
      assert (Hah : o (rt k (e_loc h)) <= o a).
      { pose proof (ride_ok_order P Hwf _ _ _ _ (ride_leg_ok h G1)). pose proof (change_order f G2). rewrite G4, G6 in *. lia. }
      destruct (IH h ltac:(lia) G1 G7 G8 HTh Hah) as (rest & Er & Hb). rewrite Er.
      eexists. split; [reflexivity|]. intros d. cbn [last] in *. apply Hb.
  Qed.
  Lemma rec_rounds_some : exists legs, rec_rounds P Q rt true K dest = Some legs /\ forall d, base_leg (last legs d).
  Proof.
    destruct K as [|k] eqn:EK; [lia|]. rewrite <- EK in *. cbn [rec_rounds].
    assert (Hsome := get_legs_last_some).
    assert (Hl : p_dist_to_end P <> None -> dest = p_end P). { intros Hn. now apply (proj1 (Hend Hn)). }
    assert (Er : rec_rounds P Q rt true K dest =
      match get_legs P Q rt true K dest with
      | None => None
      | Some (fp_leg, transport_leg) =>
            match rec_rounds P Q rt false k (if fwd then l_from transport_leg else l_to transport_leg) with
            | None => None
            | Some rest => Some ((if true && trivial_fp fp_leg then [] else [fp_leg]) ++ transport_leg :: rest)
            end
        end) by (rewrite EK; reflexivity).
    rewrite Er. clear Er.
    destruct (get_legs P Q rt true K dest) as [[f g]|] eqn:E; [clear Hsome|congruence].
    apply (get_legs_last P Q rt Hwf B HB) in E as (G1 & G2 & G3 & G4); auto.
    replace (K - 1)%nat with k in * by lia. fold (e_loc g).
    assert (HT := tail_last _ g G1 G2).
    assert (Hag : o (rt k (e_loc g)) <= o a).
    { pose proof (ride_ok_order P Hwf _ _ _ _ (ride_leg_ok g G1)).
      assert (o (x_time g) <= o a); [|lia].
      revert G2. generalize (x_loc g) (x_time g). intros xl xt G2. destruct G2 as [|f' d Hn Hu E1 E2 Hw Ed|f' x d Hn Hu Hx Hm E1 E2 Ed]; [lia| |].
      - assert (0 <= d) by (destruct Hw as (d0 & Hin & ->); eapply Hfp; eauto). lia.
      - destruct (HoffB _ _ Hx). lia. }
    destruct (rec_rounds_mid_some k g ltac:(lia) G1 G3 G4) as (rest & Er & Hb); auto.
    { replace (K - k)%nat with 1%nat by lia. auto. }
    rewrite Er. eexists. split; [reflexivity|]. intros d. specialize (Hb d).
    destruct (true && trivial_fp f); cbn [app]; auto.
  Qed.

  (** *** The start *)
  Variable t0 : Z.
  Hypothesis Ht0 : OL <= o t0 <= OI - B.
  (** Every start label belongs to the starts of a departure time [ts] not before [t0]; it is explained by the query; later departure
      times do not reach a destination with [K] rides as well. *)
  Hypothesis Hstarts : forall l, rt 0%nat l <> kInvalid P -> exists ts (S : nat -> Z -> Prop), S l (rt 0%nat l) /\ o t0 <= o ts <= o (rt 0%nat l) /\
    (o t0 < o ts -> forall l1 a1, connection P S Tr K l1 a1 -> o a1 <= o a -> False) /\
    if rq_intermodal_start Q then exists x d, In (x, d) (rq_start Q) /\ rq_matches Q x l = true /\ o ts + d <= o (rt 0%nat l)
    else is_start_location Q l \/
         exists x d, is_start_location Q x /\ In (x, d) (if fwd then tt_footpaths_in tt l else tt_footpaths_out tt l) /\ rt 0%nat l = after P ts (p_adjust P d).
  Lemma find_start_some g : base_leg g -> find_start_footpath P Q rt t0 g <> None.
  Proof.
    intros (Hne & Hle & HT). destruct (Hstarts _ Hne) as (ts & S & HS & Hts & Hnd & Hq).
    unfold find_start_footpath. fold (e_loc g) (e_time g).
    destruct (rq_intermodal_start Q) eqn:Ei; cbn [negb andb].
    - destruct Hq as (x & d & Hin & Hm & Hd).
      match goal with |- option_map _ ?z <> None => assert (X : z <> None); [|destruct z; [discriminate|congruence]] end.
      apply first_some_complete with (x, d); auto. cbn [fst snd]. rewrite Hm.
      assert (X : is_better_or_eq P t0 (e_time g - dir P d) = true).
      { apply is_better_or_eq_o. pose proof (o_dir P (e_time g - dir P d) d) as Y.
        replace (e_time g - dir P d + dir P d) with (e_time g) in Y by lia. lia. }
      rewrite X. discriminate.
    - assert (Ht : is_better_or_eq P t0 (e_time g) = true) by (apply is_better_or_eq_o; lia). rewrite Ht, andb_true_r.
      destruct (is_journey_start Q (e_loc g)) eqn:Ej; [discriminate|].
      destruct Hq as [Hq|(x & d & Hx & Hin & Et)]; [apply is_journey_start_iff in Hq; congruence|].
      assert (Es : ts = t0).
      { apply (o_inj P). destruct (Z.eq_dec (o ts) (o t0)); auto. exfalso.
        destruct (HT S 0%nat (rt 0%nat (e_loc g)) ltac:(lia) (ready_start P S Tr _ _ HS)) as (l1 & a1 & H1 & H2).
        eapply Hnd; eauto. lia. }
      subst ts.
      match goal with |- option_map _ ?z <> None => assert (X : z <> None); [|destruct z; [discriminate|congruence]] end.
      apply first_some_complete with (x, d); auto. cbn [fst snd].
      assert (E1 : is_journey_start Q x = true) by (now apply is_journey_start_iff). rewrite E1.
      destruct (Z.eqb_spec (rt 0%nat (e_loc g)) (kInvalid P)); [congruence|]. cbn [negb andb].
      pose proof (fp_bound _ _ _ Hin).
      assert (Hc : clamp16 t0 = t0) by (apply (clamp_id P); lia).
      rewrite Hc, (to_i16_o P) by (rewrite o_dir; lia).
      assert (Y : start_matches P Q (t0 + dir P (p_adjust P d)) (rt 0%nat (e_loc g)) = true).
      { rewrite Et, after_dir. unfold start_matches. destruct (rq_ontrip Q); [apply is_better_or_eq_o; lia|apply Z.eqb_refl]. }
      rewrite Y. discriminate.
  Qed.
  Theorem reconstruct_complete transfers : (transfers + 1 = K)%nat -> reconstruct_legs P Q rt dest transfers t0 <> None.
  Proof.
    intros E. unfold reconstruct_legs. rewrite E. destruct rec_rounds_some as (legs & Er & Hb). rewrite Er.
    assert (X := find_start_some _ (Hb (mk_leg 0 0 0 0 (Foot 0 0)))).
    destruct (find_start_footpath P Q rt t0 (last legs (mk_leg 0 0 0 0 (Foot 0 0)))) as [[f|]|]; [discriminate|discriminate|congruence].
  Qed.
End Complete.
