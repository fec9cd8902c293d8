(** The two searches of the ping-pong loop meet the contract of [Pong_Loop]. *)
From Coq Require Import List ZArith Bool Arith Lia.
From Verif Require Import Base Pareto_Model Pareto_Proofs Time_Model Time_Proofs
  Raptor_Model Raptor_Spec Raptor_Base Raptor_Sound Raptor_Genuine Raptor_Opt Raptor_Final Raptor_Bound
  Pong_Spec Pong_Dual Pong_Model Prune_Model Pong_Inst Pong_Late.
From Verif Require Prune_Sound Prune_Genuine Prune_Opt Pong_Loop.
Import ListNotations.
Local Open Scope Z_scope.

(** What a search needs of its timetable. *)
Record searchable (P : params) : Prop := mk_searchable {
  sb_wf : all_vehicles_wf P;
  sb_dur : durations_ok P;
  sb_end : end_ok P;
  sb_loc : locations_ok P;
  sb_col : columns_sorted P;
  sb_idx : index_ok P;
  sb_fifo : fifo P;
  sb_time : rides_take_time P }.

(** Access of a search: offsets are between 0 and [M] minutes; the stops exist and are no destinations of that search. *)
Record access_ok (P : params) (M : Z) (acc : list (nat * Z)) : Prop := mk_access_ok {
  ac_dur : forall l d, In (l, d) acc -> 0 <= d <= M;
  ac_loc : forall l d, In (l, d) acc -> (l < tt_n_locations (p_tt P))%nat /\ p_is_dest P l = false }.

Lemma in_end_starts P acc T l t : In (l, t) (end_starts P acc T) <-> start_at P acc T l t.
Proof.
  unfold end_starts, start_at. rewrite in_map_iff. split.
  - intros ([l' d] & E & Hin). cbn in E. injection E as <- <-. exists d. split; auto. unfold after, dir. destruct (p_fwd P); lia.
  - intros (d & Hin & ->). exists (l, d). split; auto. cbn. f_equal. unfold after, dir. destruct (p_fwd P); lia.
Qed.

Lemma dom_o P x y : o P (j_start x) < o P (j_dest x) ->
  (journey_dominates x y = true <->
   j_transfers x <= j_transfers y /\ o P (j_start y) <= o P (j_start x) /\ o P (j_dest x) <= o P (j_dest y)).
Proof.
  unfold journey_dominates, o. destruct (p_fwd P); intros Ho; destruct (Z.leb_spec (j_start x) (j_dest x)); try lia;
    rewrite !andb_true_iff, !Z.leb_le; lia.
Qed.

Lemma ride_strict P : all_vehicles_wf P -> rides_take_time P -> forall l tb l' ta, ride_ok P l tb l' ta -> o P tb + 1 <= o P ta.
Proof.
  intros Hwf Ht l tb l' ta Hr. assert (X := Ht _ _ _ _ Hr). apply (ride_ok_order P Hwf) in Hr.
  assert (o P tb <> o P ta) by (intros Y; apply o_inj in Y; auto). lia.
Qed.

(** Bounds. *)
Lemma bound_row_le P rt k i l : (i <= k)%nat -> o P (bound_row P rt k l) <= o P (rt i l).
Proof.
  intros H. induction k as [|k IH]; cbn [bound_row].
  - replace i with 0%nat by lia. lia.
  - rewrite o_get_best. destruct (Nat.eq_dec i (S k)) as [->|]; [lia|]. specialize (IH ltac:(lia)). lia.
Qed.
Lemma bound_row_mono P rt k k' l : (k <= k')%nat -> o P (bound_row P rt k' l) <= o P (bound_row P rt k l).
Proof.
  intros H. induction H as [|k' H IH]; [lia|]. cbn [bound_row]. rewrite o_get_best. lia.
Qed.

(** The ping results in the order they are answered: never fewer transfers first. *)
Lemma insert_ping_in x j l : In x (insert_ping j l) <-> x = j \/ In x l.
Proof.
  induction l as [|y l IH]; cbn [insert_ping].
  - cbn. intuition.
  - destruct (j_transfers y <? j_transfers j); cbn [In]; [intuition|]. rewrite IH. intuition.
Qed.
Lemma sort_pings_in x l : In x (sort_pings l) <-> In x l.
Proof.
  induction l as [|y l IH]; [reflexivity|].
  change (sort_pings (y :: l)) with (insert_ping y (sort_pings l)). rewrite insert_ping_in, IH. cbn [In]. intuition.
Qed.
Definition descending (l : list journey) : Prop :=
  forall l1 y l2 x, l = l1 ++ y :: l2 -> In x l1 -> j_transfers y <= j_transfers x.
Lemma descending_cons y l : (forall x, In x l -> j_transfers x <= j_transfers y) -> descending l -> descending (y :: l).
Proof.
  intros Hy Hl l1 z l2 x E Hx. destruct l1 as [|w l1]; [destruct Hx|]. cbn in E. injection E as <- E. destruct Hx as [<-|Hx].
  - apply Hy. rewrite E, in_app_iff. cbn; auto.
  - eapply Hl; eauto.
Qed.
Lemma descending_tail y l : descending (y :: l) -> descending l /\ forall x, In x l -> j_transfers x <= j_transfers y.
Proof.
  intros H. split.
  - intros l1 z l2 x -> Hx. apply (H (y :: l1) z l2 x); cbn; auto.
  - intros x Hx. apply in_split in Hx as (l1 & l2 & ->). apply (H (y :: l1) x l2 y); cbn; auto.
Qed.
Lemma insert_descending j l : descending l -> descending (insert_ping j l).
Proof.
  induction l as [|y l IH]; intros H; cbn [insert_ping].
  - apply descending_cons; auto. intros x [].
  - destruct (descending_tail _ _ H) as [H1 H2]. destruct (Z.ltb_spec (j_transfers y) (j_transfers j)) as [Hlt|Hge].
    + apply descending_cons; auto. intros x [<-|Hx]; [lia|]. specialize (H2 x Hx). lia.
    + apply descending_cons; auto. intros x Hx. apply insert_ping_in in Hx as [-> |Hx]; auto.
Qed.
Lemma sort_descending l : descending (sort_pings l).
Proof.
  induction l as [|y l IH]; [intros [|] ? ? ? E; discriminate|].
  change (sort_pings (y :: l)) with (insert_ping y (sort_pings l)). now apply insert_descending.
Qed.

Section Contract.
  Variable q : pquery.
  Variables P Q : params.
  Variables accP accQ : list (nat * Z).
  Variable mt : nat.
  Hypothesis HO : opposite P Q.
  Hypothesis Hfwd : pq_fwd q = p_fwd P.
  Hypothesis HmP : end_matches accP Q.
  Hypothesis HmQ : end_matches accQ P.
  Hypothesis HP : searchable P.
  Hypothesis HQ : searchable Q.
  Variable M : Z.
  Hypothesis HaP : access_ok P M accP.
  Hypothesis HaQ : access_ok Q M accQ.
  Variable D : nat -> Z.
  Hypothesis HD : lower_bounds_ok P D.
  Hypothesis HlbQ : forall l, p_lb Q l = 0.
  Hypothesis Hreach : forall T, starts_reach_ok P (start_at P accP T).
  Hypothesis Htravel : 0 <= pq_max_travel q.
  (** No transfer and no footpath takes longer than [B] minutes. *)
  Variable B : Z.
  Hypothesis HB1 : forall l, transfer_time P l <= B.
  Hypothesis HB2 : forall l l' d, walk P l l' d -> d <= B.

  Notation oP := (o P).
  Notation oQ := (o Q).

  Definition fits (T : Z) : Prop := Z.abs T + 7200 + Z.max 0 M < 32767.
  (** No journey of the ping ends behind the look-ahead: true by construction with an offset table at the destination; with
      station destinations, if no trip ends in the [B] minutes after it. *)
  Definition settled (T : Z) : Prop :=
    p_dist_to_end P <> None \/
    forall K a, trip P accP T K a -> ~ oP T + look_ahead q < oP a <= oP T + look_ahead q + B.
  Definition ok (T : Z) : Prop := fits T /\ settled T.

  Lemma oQ_P t : oQ t = - oP t.
  Proof. unfold o. rewrite (op_dir _ _ HO). destruct (p_fwd P); cbn; lia. Qed.
  Lemma sgn_o t : Pong_Loop.sgn q t = oP t.
  Proof. unfold Pong_Loop.sgn, o. rewrite Hfwd. reflexivity. Qed.
  Lemma look_ahead_range : 1440 <= look_ahead q <= 7200.
  Proof. unfold look_ahead. lia. Qed.
  Lemma o_worst T : oP (worst_time_at_dest q T) = oP T + look_ahead q.
  Proof. unfold worst_time_at_dest, one, o. rewrite Hfwd. destruct (p_fwd P); lia. Qed.

  Lemma OLI : OL P = -32768 \/ OL P = -32767.
  Proof. unfold OL, o. destruct (p_fwd P); cbn; lia. Qed.
  Lemma OII : OI P = 32767 \/ OI P = 32768.
  Proof. unfold OI, kInvalid, o. destruct (p_fwd P); cbn; lia. Qed.
  Lemma OLQ : OL Q = -32768 \/ OL Q = -32767.
  Proof. unfold OL, o. destruct (p_fwd Q); cbn; lia. Qed.
  Lemma OIQ : OI Q = 32767 \/ OI Q = 32768.
  Proof. unfold OI, kInvalid, o. destruct (p_fwd Q); cbn; lia. Qed.
  Lemma o_abs R t : Z.abs (o R t) = Z.abs t.
  Proof. unfold o. destruct (p_fwd R); lia. Qed.

  (** *** The ping search *)
  Section Ping.
    Variable T : Z.
    Hypothesis HT : fits T.
    Notation g := (ping_group q P accP T).
    Notation s := (ping_state q P accP mt T).

    Lemma ping_start_o l t : In (l, t) (g_starts g) -> oP T <= oP t <= oP T + Z.max 0 M.
    Proof.
      cbn [g g_starts ping_group]. rewrite in_end_starts. intros (d & Hin & ->). rewrite o_after.
      apply (ac_dur _ _ _ HaP) in Hin. lia.
    Qed.
    Lemma ping_groups_ok : groups_ok P [g].
    Proof.
      assert (A := o_abs P T). unfold fits in HT. constructor.
      - intros g' l t [<-|[]] Hin. apply ping_start_o in Hin. assert (A' := o_abs P t). lia.
      - intros g' [<-|[]]. cbn [g_start ping_group]. unfold time_range. lia.
      - intros g' l t [<-|[]] Hin. apply no_later_o. apply ping_start_o in Hin. cbn [g_start ping_group]. lia.
      - intros gs1 g' gs2 g2 E Hin. destruct gs1 as [|x gs1]; [destruct Hin|]. destruct gs1; discriminate.
    Qed.
    Lemma in_ping_search j : In j (ping_search q P accP mt T) ->
      exists k l, (l < tt_n_locations (p_tt P))%nat /\ p_is_dest P l = true /\ (1 <= k < end_k mt)%nat /\ s_rt s k l <> kInvalid P /\
                  j = mk_journey T (s_rt s k l) (Z.of_nat k - 1).
    Proof.
      unfold ping_search. rewrite raptor_results. intros H. apply (add_all_sound _ _ journey_dom_trans) in H.
      apply in_all_reported in H as (gs1 & g' & gs2 & E & H).
      destruct gs1 as [|x gs1]; [|destruct gs1; discriminate]. cbn in E. injection E as <- _.
      apply in_reported in H. exact H.
    Qed.
    Lemma ping_covers k l : (1 <= k < end_k mt)%nat -> p_is_dest P l = true -> s_rt s k l <> kInvalid P ->
      exists x, In x (ping_search q P accP mt T) /\ journey_dominates x (mk_journey T (s_rt s k l) (Z.of_nat k - 1)) = true.
    Proof.
      intros Hk Hd Hne. unfold ping_search. rewrite raptor_results.
      apply (add_all_covers _ _ journey_dom_refl journey_dom_trans).
      apply in_all_reported. exists [], g, []. split; auto. apply in_reported. exists k, l.
      split; [now apply (sb_loc _ HP)|]. auto.
    Qed.
    Lemma ping_antichain : antichain journey journey_dominates (ping_search q P accP mt T).
    Proof. unfold ping_search. rewrite raptor_results. apply (add_all_antichain _ _ journey_dom_trans). Qed.
    Lemma ping_start_eq j : In j (ping_search q P accP mt T) -> j_start j = T.
    Proof. intros H. apply in_ping_search in H as (k & l & _ & _ & _ & _ & ->). reflexivity. Qed.
    Lemma ping_dir j : In j (ping_search q P accP mt T) -> oP T < oP (j_dest j).
    Proof.
      intros H. assert (Es := ping_start_eq _ H). unfold ping_search in H. rewrite raptor_results in H.
      apply (add_all_sound _ _ journey_dom_trans) in H.
      assert (X : oP (j_start j) + 1 <= oP (j_dest j)); [|rewrite Es in X; lia].
      eapply reported_direction; try apply HP; eauto using ping_groups_ok; [lia|]. apply ride_strict; apply HP.
    Qed.
    Lemma ping_trip j : In j (ping_search q P accP mt T) -> exists K, Z.of_nat K <= j_transfers j + 1 /\ trip P accP T K (j_dest j).
    Proof.
      intros H. assert (X : exists l k, (1 <= k)%nat /\ Z.of_nat k <= j_transfers j + 1 /\
        connection P (fun l t => starts_of [g] l t /\ no_later P (j_start j) t) (transfer_time P) k l (j_dest j)).
      { apply (reported_feasible P mt); auto; try apply HP; [apply ping_groups_ok|]. intros _. apply HP. }
      destruct X as (l & k & _ & Hk & Hc). exists k. split; auto. exists l. revert Hc. apply connection_mono.
      intros l0 t0 [(g' & [<-|[]] & Hin) _]. apply in_end_starts. exact Hin.
    Qed.
    Lemma ping_transfers j : In j (ping_search q P accP mt T) -> 0 <= j_transfers j <= Z.of_nat (Nat.min mt 14).
    Proof. intros H. apply (transfers_limited P mt [g]). exact H. Qed.

    Lemma B_nonneg : 0 <= B.
    Proof. specialize (HB1 0%nat). assert (Y := tr_nonneg P (sb_dur _ HP) 0%nat). lia. Qed.
    Lemma T_low : OL P <= oP T + look_ahead q.
    Proof. unfold fits in HT. assert (A := o_abs P T). assert (X := OLI). assert (Y := look_ahead_range). lia. Qed.
    Lemma tr_B l : 0 <= transfer_time P l <= B.
    Proof. split; auto. apply (tr_nonneg P (sb_dur _ HP)). Qed.
    Lemma walk_B l l' d : walk P l l' d -> 0 <= d <= B.
    Proof. intros Hw. split; eauto. eapply (walk_nonneg P (sb_dur _ HP)); eauto. Qed.
    Lemma ping_labels_bounded : labels_bounded P (oP T + look_ahead q) B s.
    Proof.
      apply run_group_bounded; auto using T_low, B_nonneg, tr_B.
      - exact walk_B.
      - cbn [g_worst ping_group]. rewrite o_worst. lia.
      - intros k l _ Hne. exfalso. apply Hne. reflexivity.
    Qed.
    Lemma ping_end_bounded : p_dist_to_end P <> None -> endb P (oP T + look_ahead q) s.
    Proof.
      intros Him. unfold ping_state.
      assert (HSt : forall l t, start_at P accP T l t -> OL P < oP t /\ oP t <= OI P).
      { intros l t Hs. apply in_end_starts in Hs. apply (ping_start_o l t) in Hs. unfold fits in HT. assert (A := o_abs P T).
        assert (X := OLI). assert (Y := OII). lia. }
      assert (X : forall g0, oP (g_worst g0) <= oP T + look_ahead q ->
        (forall l t, In (l, t) (g_starts g0) -> start_at P accP T l t /\ oP t <= OI P) ->
        endb P (oP T + look_ahead q) (run_group P mt (reset_arrivals P) g0)).
      { intros g0 Hg0 Hs0. eapply run_group_endb with (B := B) (St := start_at P accP T);
          try apply HP; auto using T_low, B_nonneg, tr_B; try exact walk_B.
        intros l t Hs. now apply HSt in Hs. }
      apply X.
      - cbn [g_worst ping_group]. rewrite o_worst. lia.
      - intros l t Hin. apply in_end_starts in Hin. split; auto. now apply HSt in Hin.
    Qed.
    Lemma ping_in_time j : settled T -> In j (ping_search q P accP mt T) -> oP (j_dest j) <= oP T + look_ahead q.
    Proof.
      intros HS Hj. destruct (ping_trip j Hj) as (K & HK & Htrip).
      apply in_ping_search in Hj as (k & l & Hl & Hd & Hk & Hne & ->). cbn [j_dest] in *.
      destruct HS as [Him|Hq].
      - assert (El : l = p_end P) by (apply (sb_end _ HP Him); auto). subst l.
        apply (ping_end_bounded Him); auto; lia.
      - assert (X := ping_labels_bounded k l ltac:(lia) Hne). specialize (Hq _ _ Htrip). lia.
    Qed.

    Lemma ping_complete K a : trip P accP T K a -> (K <= S (Nat.min mt 14))%nat -> oP a <= oP T + look_ahead q ->
      exists j, In j (ping_search q P accP mt T) /\ j_transfers j <= Z.of_nat K - 1 /\ oP (j_dest j) <= oP a.
    Proof.
      intros (l & Hc) HK Ha. assert (A := o_abs P T). assert (L := look_ahead_range). assert (X := OII).
      assert (HX : exists j, In j (snd (raptor P mt [g])) /\ j_transfers j <= Z.of_nat K - 1 /\
              no_later P (j_dest j) a /\ no_later P (g_start g) (j_start j)).
      { assert (Hsub : forall l t, starts_of ([] ++ [g]) l t -> start_at P accP T l t).
        { intros l0 t0 (g' & [<-|[]] & Hin). apply in_end_starts. exact Hin. }
        apply (search_optimal P mt) with (D := D) (gs1 := []) (gs2 := []) (l := l); auto; try apply HP.
        - apply ping_groups_ok.
        - destruct (Hreach T) as [R1 R2]. split; auto. intros l0 t0 ri r s0 s' st st' H0. apply (R1 l0 t0). auto.
        - intros l0 t0 H0. destruct (Hsub _ _ H0) as (d & Hin & _). now apply (ac_loc _ _ _ HaP) in Hin.
        - intros g' [<-|[]]. apply no_later_o. cbn [g_worst ping_group]. rewrite o_worst. lia.
        - unfold end_k, kMaxTransfers. lia.
        - revert Hc. apply connection_mono. intros l0 t0 H0. now apply in_end_starts.
        - apply no_later_o. rewrite o_after. cbn [g_start ping_group]. lia.
        - unfold fits in HT. lia. }
      destruct HX as (j & Hj & Ht & Hd & _). exists j. split; auto. split; auto. now apply no_later_o in Hd.
    Qed.

    (** The bounds: labels of the ping search along a trip that is at least as good as one of its results. *)
    Section Bounds.
      Variable j : journey.
      Hypothesis Hj : In j (ping_search q P accP mt T).
      Hypothesis HS : settled T.
      Notation a := (j_dest j).
      Notation Kj := (pong_rounds j).
      Notation StP := (start_at P accP T).

      Lemma ping_nd : nd P a Kj s.
      Proof.
        intros i l Hi Hd. destruct (Z.le_gt_cases (oP a) (oP (s_rt s i l))) as [|Hlt]; auto. exfalso.
        assert (Htr := ping_transfers _ Hj). unfold pong_rounds in Hi. assert (Es := ping_start_eq _ Hj). assert (Hdir := ping_dir _ Hj).
        assert (Hgs : exists k0, gsinv P (starts_of ([] ++ [g])) k0 s).
        { eapply (prefix_gsinv P mt) with (gs := [g]) (gs2 := []); auto; try apply HP. apply ping_groups_ok. }
        destruct Hgs as (k0 & Hgs).
        assert (Hne : s_rt s i l <> kInvalid P).
        { intros E. rewrite E, o_kInvalid in Hlt. assert (Y := ping_in_time j HS Hj). unfold fits in HT. assert (A := o_abs P T).
          assert (L := look_ahead_range). assert (X := OII). lia. }
        assert (Hi1 : (1 <= i)%nat).
        { destruct i as [|i]; [|lia]. exfalso. destruct (gs_rt _ _ _ _ Hgs 0%nat l Hne) as (i & Hi0 & _ & HL).
          replace i with 0%nat in HL by lia.
          destruct HL as [_ Hs|t0 _ Ha _|_ _ Ha|l0 t0 d Ha _ _|off l0 t0 d _ _ Ha _ _|Hx _]; try (inversion Ha; fail); try lia.
          destruct Hs as (g' & [<-|[]] & Hin). apply in_end_starts in Hin as (d & Hin & _). apply (ac_loc _ _ _ HaP) in Hin as [_ Hin]. congruence. }
        destruct (ping_covers i l) as (x & Hx & Hxd); auto; [unfold end_k, kMaxTransfers; lia|].
        assert (Hdx := ping_dir _ Hx). assert (Esx := ping_start_eq _ Hx).
        apply dom_o with (P := P) in Hxd; [|rewrite Esx; exact Hdx]. cbn [j_start j_dest j_transfers] in Hxd. destruct Hxd as (D1 & _ & D3).
        assert (Hxj : journey_dominates x j = true). { apply (dom_o P); rewrite Esx; [exact Hdx|]. rewrite Es. lia. }
        apply In_nth_error in Hx as (px & Hpx). assert (Hj' := Hj). apply In_nth_error in Hj' as (pj & Hpj).
        destruct (Nat.eq_dec px pj) as [->|Hne'].
        - assert (x = j) by congruence. subst x. lia.
        - rewrite (ping_antichain px pj x j Hpx Hpj Hne') in Hxj. discriminate.
      Qed.

      Lemma ping_ginv : ginv P D StP a Kj s /\ (forall l t, StP l t -> oP (s_rt s 0%nat l) <= oP t).
      Proof.
        assert (Htr := ping_transfers _ Hj). assert (Hin := ping_in_time j HS Hj). assert (A := o_abs P T). unfold fits in HT.
        assert (L := look_ahead_range). assert (X := OII). assert (Y := OLI).
        assert (HStB : forall l t, StP l t -> oP T <= oP t <= oP T + Z.max 0 M) by (intros l t Hs; apply in_end_starts in Hs; now apply (ping_start_o l t) in Hs).
        assert (N : let s' := run_group P mt (reset_arrivals P) g in ginv P D StP a Kj s' /\
          (forall l t, In (l, t) (g_starts g) -> oP (s_rt s' 0%nat l) <= oP t) /\ improves P (reset_arrivals P) s').
        { apply run_group_ginv with (H := oP T); auto; try apply HP; try lia.
          all: try (intros l t Hs; apply HStB in Hs; lia).
          - unfold pong_rounds, end_k, kMaxTransfers. lia.
          - cbn [g_worst ping_group]. rewrite o_worst. lia.
          - intros l t Hs. apply in_end_starts in Hs. split; auto. apply HStB in Hs. lia.
          - apply reset_ginv; auto; lia. }
        cbv zeta in N. destruct N as (N1 & N2 & _). split; auto. intros l t Hs. apply N2. now apply in_end_starts.
      Qed.

      (** Label behind an arrival that may still be part of a trip as good as [j]. *)
      Lemma ping_behind n l x l' t' : (1 <= n <= Kj)%nat -> arrived P StP (tr_eff P) n l x -> oP x + D l <= oP a ->
        succ P l x l' t' -> (p_dist_to_end P <> None -> l' <> p_end P) ->
        oP (bound_row P (s_rt s) n l') <= oP t'.
      Proof.
        intros Hn Ha Hrel Hs Hne. destruct ping_ginv as [[G1 G2 G3] G0].
        assert (Htr := ping_transfers _ Hj). assert (Hin := ping_in_time j HS Hj). assert (A := o_abs P T). unfold fits in HT.
        assert (L := look_ahead_range). assert (X := OII). assert (Y := OLI).
        assert (HStB : forall l t, StP l t -> oP T <= oP t <= oP T + Z.max 0 M) by (intros l0 t Hs0; apply in_end_starts in Hs0; now apply (ping_start_o l0 t) in Hs0).
        destruct n as [|n]; [lia|].
        assert (R : reached P (S n) s l' t').
        { eapply closed_behind with (St := StP) (a := a) (K := Kj) (H := oP T) (St0 := StP) (l' := l) (ta := x) (D := D); auto; try apply HP; try lia.
          all: try (intros l0 t Hs0; apply HStB in Hs0; lia).
          all: try (exact ping_nd).
          all: intros Him E; exfalso; apply Hne; auto. }
        destruct R as (i & Hi & Hle). assert (Z := bound_row_le P (s_rt s) (S n) i l' ltac:(lia)). lia.
      Qed.
      Lemma ping_at_start l t : StP l t -> oP (bound_row P (s_rt s) 0 l) <= oP t.
      Proof. intros Hs. destruct ping_ginv as [_ G0]. cbn [bound_row]. auto. Qed.
    End Bounds.
  End Ping.

  (** *** The pong searches *)
  Section Pong.
    Variables (T : Z) (js1 : list journey) (j : journey) (js2 : list journey).
    Hypothesis HT : ok T.
    Notation ping := (ping_search q P accP mt T).
    Hypothesis Ej : sort_pings ping = js1 ++ j :: js2.
    Notation rt := (s_rt (ping_state q P accP mt T)).
    Notation step := (pong_state P Q accQ rt T).
    Notation js := (js1 ++ [j]).
    Notation sfin := (fold_left step js (reset_arrivals Q)).
    Notation a := (j_dest j).
    Notation m := (Z.to_nat (j_transfers j)).
    Notation Kj := (pong_rounds j).

    Lemma state_before_eq : forall l s0, fold_left (fun x y => fst (pong_exec P Q accQ x T y)) l (rt, s0) = (rt, fold_left step l s0).
    Proof. induction l as [|x l IH]; intros s0; cbn [fold_left]; auto. apply IH. Qed.
    Lemma reports_eq : Pong_Loop.reports (pstate) (pong_start q P Q accP mt) (pong_exec P Q accQ) T js1 j js2 =
      reported Q m (pong_group Q accQ T j) sfin.
    Proof.
      unfold Pong_Loop.reports, Pong_Loop.state_before, pong_start. rewrite state_before_eq. rewrite fold_left_app. reflexivity.
    Qed.

    Lemma js_ping x : In x js -> In x ping.
    Proof. intros Hx. apply sort_pings_in. rewrite Ej. rewrite in_app_iff in *. cbn in *. tauto. Qed.
    Lemma j_ping : In j ping.
    Proof. apply js_ping. rewrite in_app_iff. cbn; auto. Qed.
    Lemma js_transfers x : In x js -> j_transfers j <= j_transfers x.
    Proof.
      intros Hx. apply in_app_iff in Hx as [Hx|[<-|[]]]; [|lia]. eapply (sort_descending ping); eauto.
    Qed.
    Lemma js_dest x : In x js -> oP (j_dest x) <= oP a.
    Proof.
      intros Hx. assert (Hp := js_ping x Hx). assert (Ht := js_transfers x Hx). destruct HT as [HF _].
      destruct (Z.le_gt_cases (oP (j_dest x)) (oP a)) as [|Hgt]; auto. exfalso.
      assert (Hdom : journey_dominates j x = true).
      { apply (dom_o P); rewrite (ping_start_eq T _ j_ping); [apply (ping_dir T HF _ j_ping)|]. rewrite (ping_start_eq T _ Hp). lia. }
      apply In_nth_error in Hp as (px & Hpx). assert (Hj' := j_ping). apply In_nth_error in Hj' as (pj & Hpj).
      destruct (Nat.eq_dec pj px) as [->|Hne].
      - assert (x = j) by congruence. subst x. lia.
      - rewrite (ping_antichain T pj px j x Hpj Hpx Hne) in Hdom. discriminate.
    Qed.
    Lemma ping_range x : In x ping -> oP T < oP (j_dest x) <= oP T + 7200.
    Proof.
      intros Hx. destruct HT as [HF HS]. assert (X := ping_dir T HF _ Hx). assert (Y := ping_in_time T HF _ HS Hx).
      assert (L := look_ahead_range). lia.
    Qed.

    Definition StQ (l : nat) (t : Z) : Prop := exists x, In x js /\ start_at Q accQ (j_dest x) l t.
    Lemma StQ_range l t : StQ l t -> oQ a <= oQ t /\ OL Q < oQ t < OI Q.
    Proof.
      intros (x & Hx & d & Hin & ->). rewrite o_after, !oQ_P. assert (X := js_dest x Hx). assert (Y := ping_range x (js_ping x Hx)).
      apply (ac_dur _ _ _ HaQ) in Hin. destruct HT as [HF _]. unfold fits in HF. assert (A := o_abs P T). assert (X1 := OLQ). assert (X2 := OIQ). lia.
    Qed.
    Lemma StQ_loc l t : StQ l t -> (l < tt_n_locations (p_tt Q))%nat /\ p_is_dest Q l = false.
    Proof. intros (x & _ & d & Hin & _). now apply (ac_loc _ _ _ HaQ) in Hin. Qed.
    Lemma group_starts_Q x l t : In x js -> In (l, t) (g_starts (pong_group Q accQ T x)) -> StQ l t /\ oQ t <= OI Q.
    Proof.
      intros Hx Hin. cbn [pong_group g_starts] in Hin. apply in_end_starts in Hin.
      assert (H : StQ l t) by (exists x; auto). split; auto. apply StQ_range in H. lia.
    Qed.

    Lemma gsinv_conv St k0 s0 : Prune_Genuine.gsinv Q St k0 s0 -> gsinv Q St k0 s0.
    Proof.
      intros [H1 H2 H3 H4 H5]. split; auto.
      intros i l Hne. destruct (H4 i l Hne) as (i0 & Hi & Hp & HL). exists i0. split; auto. split; auto.
      destruct HL as [E Hs|t0 Hn Ha Et|Hn Hd Ha|l0 t0 d Ha Hw Et|off l0 t0 d Hoff El Ha Hd Et|Hk Ht].
      - now apply GL_start.
      - eapply GL_transfer; eauto.
      - now apply GL_dest.
      - eapply GL_walk; eauto.
      - eapply GL_off; eauto.
      - now apply GL_taint.
    Qed.
    Lemma sfin_gsinv : exists k, gsinv Q StQ k sfin.
    Proof.
      assert (X : exists k, Prune_Genuine.gsinv Q StQ k sfin).
      { refine (fold_left_inv step (fun s0 => exists k, Prune_Genuine.gsinv Q StQ k s0) js (reset_arrivals Q) _ _).
        - exists 0%nat. apply Prune_Genuine.reset_gsinv.
        - intros s0 x Hx (k & Hk). unfold pong_state. eapply Prune_Genuine.run_group_gsinv with (k := k); try apply HQ; auto.
          all: try (intros l t Hs; apply StQ_range in Hs; lia).
          intros l t Hin. now apply (group_starts_Q x). }
      destruct X as (k & X). exists k. now apply gsinv_conv.
    Qed.
    Lemma arr_union K l t : arrived Q StQ (transfer_time Q) K l t -> arrived Q (start_at Q accQ a) (transfer_time Q) K l t.
    Proof.
      apply arrived_earlier. intros l0 t0 (x & Hx & d & Hin & ->). exists (after Q a d). split; [|exists d; auto].
      apply no_later_o. rewrite !o_after, !oQ_P. assert (Y := js_dest x Hx). lia.
    Qed.

    Lemma pong_sound r : In r (reported Q m (pong_group Q accQ T j) sfin) ->
      j_start r = a /\ 0 <= j_transfers r <= j_transfers j /\ oP (j_dest r) < oP (j_start r) /\
      ((exists K, Z.of_nat K <= j_transfers r + 1 /\ trip Q accQ (j_start r) K (j_dest r)) \/
       exists r', In r' (reported Q m (pong_group Q accQ T j) sfin) /\ j_transfers r' < j_transfers r /\ oP (j_dest r) <= oP (j_dest r')).
    Proof.
      intros Hr. assert (Htr := ping_transfers T j j_ping).
      apply in_reported in Hr as (k & l & Hl & Hd & Hk & Hne & ->). cbn [pong_group g_start j_start j_dest j_transfers].
      destruct sfin_gsinv as (k0 & Hg).
      split; auto. split; [unfold end_k, kMaxTransfers in Hk; lia|]. split.
      { assert (X : oQ a + 1 <= oQ (s_rt sfin k l)).
        { eapply (label_lower_pos Q (sb_dur _ HQ) StQ k0 sfin (oQ a) 1 Hg); auto; try lia.
          all: try (intros l0 t0 Hs; apply StQ_range in Hs; lia).
          - rewrite oQ_P. assert (Y := ping_range j j_ping). destruct HT as [HF _]. unfold fits in HF. assert (A := o_abs P T). assert (X1 := OLQ). lia.
          - apply ride_strict; apply HQ. }
        rewrite !oQ_P in X. lia. }
      destruct (gs_rt _ _ _ _ Hg k l Hne) as (i & Hi & Hp & HL). specialize (Hp ltac:(lia)).
      destruct HL as [-> Hs|t0 Hnd Ha Et|Hn _ Ha|l0 t0 d Ha Hw Et|off l0 t0 d Hoff El Ha Hdd Et|_ (Hn & i0 & l0 & Hi0 & Hd0 & Ho & Hle)].
      - lia.
      - destruct (p_dist_to_end Q) as [off|] eqn:Eoff; [|rewrite Hnd in Hd by auto; discriminate].
        exfalso. inversion Ha as [k1 l1 t1 tb l2 ta _ _ Hride]; subst.
        destruct (sb_end _ HQ ltac:(congruence)) as (He & Hx & _). apply He in Hd. subst l.
        destruct Hride as [ri r vi v day s1 s2 st st' Hri Hv Hrun Hs1 Hs2 Hlt _ El _ _ _ _ _ _].
        eapply Hx; [exact Hri| |exact El]. eapply nth_error_In; eauto.
      - left. exists i. split; [lia|]. exists l. apply conn_station; auto. now apply arr_union.
      - left. destruct (p_dist_to_end Q) as [off|] eqn:Eoff.
        + exfalso. destruct (sb_end _ HQ ltac:(congruence)) as (He & _ & Hx). apply He in Hd. subst l.
          destruct Hw as (d0 & Hw & _). eapply Hx; eauto.
        + exists i. split; [lia|]. exists l. rewrite Et. eapply conn_walk; eauto. now apply arr_union.
      - left. exists i. split; [lia|]. exists l. rewrite Et. eapply conn_offset; eauto. now apply arr_union.
      - right. assert (Hne0 : s_rt sfin i0 l0 <> kInvalid Q).
        { intros E. assert (X := gs_rt_range _ _ _ _ Hg k l). rewrite E, o_kInvalid in Hle.
          assert (Hne' : oQ (s_rt sfin k l) <> OI Q); [|lia]. intros E'. apply Hne. apply (o_inj Q). now rewrite o_kInvalid. }
        exists (mk_journey a (s_rt sfin i0 l0) (Z.of_nat i0 - 1)). cbn [j_dest j_transfers]. rewrite !oQ_P in Hle. split; [|lia].
        apply in_reported. exists i0, l0. split; [now apply (sb_loc _ HQ)|]. split; auto. split; [lia|]. split; auto.
    Qed.

    (** *** Completeness of the pong for [j] *)
    Notation W0 := (within_bounds P Q rt Kj).
    Notation StJ := (start_at Q accQ a).
    Lemma W0_spec k l t : W0 k l t = true <-> oP (bound_row P rt (Kj - k) l) <= oP t + transfer_time P l.
    Proof.
      unfold within_bounds. rewrite is_better_or_eq_o, o_dir, !oQ_P, <- (op_tr _ _ HO). unfold transfer_time. lia.
    Qed.
    Lemma W0_looser x k l t : In x js -> W0 k l t = true -> within_bounds P Q rt (pong_rounds x) k l t = true.
    Proof.
      intros Hx H. apply W0_spec in H. unfold within_bounds. rewrite is_better_or_eq_o, o_dir, !oQ_P.
      assert (Y := js_transfers x Hx).
      assert (X := bound_row_mono P rt (Kj - k) (pong_rounds x - k) l ltac:(unfold pong_rounds; lia)).
      rewrite <- (op_tr _ _ HO) in H. unfold transfer_time in H. lia.
    Qed.
    Lemma W0_time k l t t' : oQ t <= oQ t' -> W0 k l t' = true -> W0 k l t = true.
    Proof. rewrite !W0_spec, !oQ_P. lia. Qed.
    Lemma W0_rounds k k' l t : (k <= k')%nat -> W0 k' l t = true -> W0 k l t = true.
    Proof. rewrite !W0_spec. intros Hk H. assert (X := bound_row_mono P rt (Kj - k') (Kj - k) l ltac:(lia)). lia. Qed.

    Lemma lbQ : lower_bounds_ok Q (fun _ => 0).
    Proof.
      constructor.
      - intros l. lia.
      - intros l _ _. rewrite HlbQ. lia.
      - intros. lia.
      - intros l l' d Hw. assert (X := walk_nonneg Q (sb_dur _ HQ) _ _ _ Hw). lia.
      - auto.
      - intros off l d H1 H2. destruct (sb_dur _ HQ) as (_ & _ & _ & X). specialize (X _ _ _ H1 H2). lia.
    Qed.
    Lemma reachQ St : starts_reach_ok Q St.
    Proof. split; intros; rewrite HlbQ in *; discriminate. Qed.

    (** What is still possible for the pong is relevant for the ping. *)
    Lemma rel_ready k l t : ready Q StJ (transfer_time Q) k l t -> oP t + D l <= oP a.
    Proof.
      revert l t. induction k as [|k IH]; intros l t Hr.
      - inversion Hr as [l0 t0 Hs|k0 l0 t0 Ha|k0 l0 t0 l1 d Ha Hw]; subst; [|inversion Ha|inversion Ha].
        destruct Hs as (d & Hin & ->). destruct (proj1 HmQ _ _ Hin) as (d' & Hd' & He).
        assert (X : D l <= d').
        { destruct He as [_ Hd ->|l' _ Hd Hw|off Hoff Hd Ho].
          - rewrite (lb_dest _ _ HD l Hd). lia.
          - assert (X := lb_walk _ _ HD _ _ _ Hw). rewrite (lb_dest _ _ HD l' Hd) in X. lia.
          - exact (lb_offset _ _ HD _ _ _ Hoff Ho). }
        assert (E : oP (after Q a d) = oP a - d).
        { assert (Y := oQ_P (after Q a d)). rewrite o_after, oQ_P in Y. lia. }
        lia.
      - assert (HA : forall l2 t2, arrived Q StJ (transfer_time Q) (S k) l2 t2 -> oP t2 + D l2 <= oP a).
        { intros l2 t2 Ha. inversion Ha as [k0 l3 t3 tb l4 ta Hr3 Hn Hride]; subst. apply IH in Hr3.
          apply (op_no_later _ _ HO) in Hn. apply no_later_o in Hn. apply (op_ride _ _ (opposite_sym _ _ HO)) in Hride.
          assert (X : rel P D a l2 t2); [|exact X].
          assert (Z : rel P D a l3 tb) by (unfold rel; lia). revert Hride Z.
          apply ride_rel with (St := fun _ _ => False) (H := oP a); auto; try apply HP; try lia; try contradiction.
          assert (Y := ping_range j j_ping). destruct HT as [HF _]. unfold fits in HF. assert (A := o_abs P T). assert (X2 := OII). lia. }
        inversion Hr as [l0 t0 Hs|k0 l0 t0 Ha|k0 l0 t0 l1 d Ha Hw]; subst.
        + apply HA in Ha. assert (Y := oQ_P (after Q t0 (transfer_time Q l))). rewrite o_after, oQ_P in Y.
          assert (Z := tr_nonneg Q (sb_dur _ HQ) l). lia.
        + apply HA in Ha. assert (Y := oQ_P (after Q t0 d)). rewrite o_after, oQ_P in Y.
          apply (op_walk _ _ (opposite_sym _ _ HO)) in Hw. assert (X := lb_walk _ _ HD _ _ _ Hw). lia.
    Qed.

    Notation ArrP := (arrived P (start_at P accP T) (tr_eff P)).
    Notation WReady := (Prune_Opt.wready Q W0 StJ).
    Lemma tr_eff_P_le l : tr_eff P l <= transfer_time P l.
    Proof. unfold tr_eff. assert (X := tr_nonneg P (sb_dur _ HP) l). destruct (_ && _); lia. Qed.
    Lemma tr_eff_Q_le l : 0 <= Prune_Sound.tr_eff Q l <= transfer_time P l.
    Proof.
      rewrite <- (op_tr _ _ HO). unfold Prune_Sound.tr_eff. assert (X := tr_nonneg Q (sb_dur _ HQ) l). destruct (_ && _); lia.
    Qed.
    Lemma arrP_not_end n l x : ArrP n l x -> p_dist_to_end P <> None -> l <> p_end P.
    Proof.
      intros Ha Him. inversion Ha as [k0 l0 t0 tb l' ta _ _ Hride]; subst.
      destruct Hride as [ri r vi v day s1 s2 st st' Hr Hv _ Hs Hs' _ _ <- _ _ _ _ _ _].
      apply nth_error_In in Hs'. destruct (sb_end _ HP Him) as (_ & Hne & _). eapply Hne; eauto.
    Qed.
    Lemma walkP_not_end l l' d : walk P l l' d -> p_dist_to_end P <> None -> l' <> p_end P.
    Proof. intros (d0 & Hw & _) Him ->. destruct (sb_end _ HP Him) as (_ & _ & Hne). eapply Hne; eauto. Qed.

    Lemma chain k : forall n l t x, ready Q StJ (transfer_time Q) k l t -> ArrP n l x -> oP x <= oP t -> (n + k <= Kj)%nat ->
      exists t', oQ t' <= oQ t /\ WReady k l t'.
    Proof.
      destruct HT as [HF HS]. assert (Hjp := j_ping).
      induction k as [|k IH]; intros n l t x Hr Ha Hle HK.
      - inversion Hr as [l0 t0 Hs|k0 l0 t0 Ha0|k0 l0 t0 l1 d Ha0 Hw]; subst; [|inversion Ha0|inversion Ha0].
        exists t. split; [lia|]. now constructor.
      - assert (Hn1 : (1 <= n)%nat) by (inversion Ha; lia).
        assert (Hrelx : oP x + D l <= oP a) by (assert (X := rel_ready _ _ _ Hr); lia).
        assert (Hlab : forall l' t', succ P l x l' t' -> (p_dist_to_end P <> None -> l' <> p_end P) ->
                         oP (bound_row P rt (Kj - S k) l') <= oP t').
        { intros l' t' Hs Hne. assert (X := ping_behind T HF j Hjp HS n l x l' t' ltac:(lia) Ha Hrelx Hs Hne).
          assert (Y := bound_row_mono P rt n (Kj - S k) l' ltac:(lia)). lia. }
        assert (Hl := Hlab l _ (succ_transfer P l x) (arrP_not_end _ _ _ Ha)). rewrite o_after in Hl.
        assert (Htr := tr_eff_P_le l).
        inversion Hr as [l0 t0 Hs|k0 l0 t0 Ha0|k0 l0 t0 l1 d Ha0 Hw]; subst.
        + (* transfer *)
          assert (Et : oP (after Q t0 (transfer_time Q l)) = oP t0 - transfer_time P l).
          { assert (Y := oQ_P (after Q t0 (transfer_time Q l))). rewrite o_after, oQ_P in Y. assert (Z := op_tr _ _ HO l). lia. }
          rewrite Et in *. inversion Ha0 as [k0 l3 t3 tb l4 ta Hr3 Hn Hride]; subst.
          assert (Hn' := Hn). apply (op_no_later _ _ HO) in Hn'. apply no_later_o in Hn'.
          assert (HrideP := op_ride _ _ (opposite_sym _ _ HO) _ _ _ _ Hride).
          assert (Ha3 : ArrP (S n) l3 tb).
          { eapply arrived_ride; [apply ready_transfer; exact Ha| |exact HrideP]. apply no_later_o. rewrite o_after. lia. }
          destruct (IH (S n) l3 t3 tb Hr3 Ha3 Hn' ltac:(lia)) as (t3' & Ht3 & Hw3).
          exists (after Q t0 (Prune_Sound.tr_eff Q l)). assert (Hq := tr_eff_Q_le l). split.
          { rewrite !o_after, (op_tr _ _ HO). lia. }
          apply no_later_o in Hn.
          apply (Prune_Opt.wready_step Q W0 StJ k l3 t3' tb l t0); auto.
          * lia.
          * apply W0_spec. lia.
          * constructor.
          * right. apply W0_spec.
            assert (Y := oQ_P (after Q t0 (Prune_Sound.tr_eff Q l))). rewrite o_after, oQ_P in Y. lia.
        + (* footpath *)
          assert (Et : oP (after Q t0 d) = oP t0 - d).
          { assert (Y := oQ_P (after Q t0 d)). rewrite o_after, oQ_P in Y. lia. }
          assert (HwP := op_walk _ _ (opposite_sym _ _ HO) _ _ _ Hw).
          rewrite Et in *. inversion Ha0 as [k0 l3 t3 tb l4 ta Hr3 Hn Hride]; subst.
          assert (Hn' := Hn). apply (op_no_later _ _ HO) in Hn'. apply no_later_o in Hn'.
          assert (HrideP := op_ride _ _ (opposite_sym _ _ HO) _ _ _ _ Hride).
          assert (Ha3 : ArrP (S n) l3 tb).
          { eapply arrived_ride; [eapply ready_walk; [exact Ha|exact HwP]| |exact HrideP]. apply no_later_o. rewrite o_after. lia. }
          destruct (IH (S n) l3 t3 tb Hr3 Ha3 Hn' ltac:(lia)) as (t3' & Ht3 & Hw3).
          exists (after Q t0 d). split; [lia|].
          apply no_later_o in Hn.
          assert (Hl2 := Hlab l0 _ (succ_walk P l x l0 d HwP) (walkP_not_end _ _ _ HwP)). rewrite o_after in Hl2.
          assert (Z := tr_nonneg P (sb_dur _ HP) l0).
          apply (Prune_Opt.wready_step Q W0 StJ k l3 t3' tb l0 t0); auto.
          * lia.
          * apply W0_spec. lia.
          * apply Prune_Opt.succ_walk. exact Hw.
          * right. apply W0_spec. rewrite Et. lia.
    Qed.

    Lemma pong_complete K d : trip Q accQ a K d -> (K <= Kj)%nat -> oP T <= oP d ->
      exists r, In r (reported Q m (pong_group Q accQ T j) sfin) /\ j_transfers r <= Z.of_nat K - 1 /\ oP d <= oP (j_dest r).
    Proof.
      intros (l & Hc) HK Hd. destruct HT as [HF HS]. assert (Hjp := j_ping). assert (Htr := ping_transfers T j Hjp).
      apply connection_egress in Hc as (l0 & t0 & e & Ha & He & ->).
      assert (Ed : oP (after Q t0 e) = oP t0 - e).
      { assert (Y := oQ_P (after Q t0 e)). rewrite o_after, oQ_P in Y. lia. }
      destruct (proj2 HmP _ _ He) as (d1 & Hd1 & Hin1).
      assert (Hs1 : start_at P accP T l0 (after P T d1)) by (exists d1; auto).
      destruct K as [|K]; [inversion Ha|].
      inversion Ha as [k0 l1 t1 tb l2 ta Hr1 Hn Hride]; subst.
      assert (Hn' := Hn). apply (op_no_later _ _ HO) in Hn'. apply no_later_o in Hn'.
      assert (HrideP := op_ride _ _ (opposite_sym _ _ HO) _ _ _ _ Hride).
      assert (Ha1 : ArrP 1 l1 tb).
      { eapply arrived_ride; [apply ready_start; exact Hs1| |exact HrideP]. apply no_later_o. rewrite o_after. lia. }
      destruct (chain K 1 l1 t1 tb Hr1 Ha1 Hn' ltac:(lia)) as (t1' & Ht1 & Hw1).
      apply no_later_o in Hn.
      assert (Hrow : forall l' t', start_at P accP T l' t' -> oP (bound_row P rt (Kj - S K) l') <= oP t').
      { intros l' t' Hs'. assert (X := ping_at_start T HF j Hjp HS l' t' Hs').
        assert (Y := bound_row_mono P rt 0 (Kj - S K) l' ltac:(lia)). lia. }
      assert (HW1 : W0 (S K) l0 t0 = true).
      { apply W0_spec. assert (X := Hrow _ _ Hs1). rewrite o_after in X. assert (Z := tr_nonneg P (sb_dur _ HP) l0). lia. }
      set (dd := after Q t0 e) in *.
      (* the end of the pong *)
      assert (Hend : exists ld, p_is_dest Q ld = true /\ WReady (S K) ld dd).
      { destruct He as [Hnone Hdest ->|l' Hnone Hdest Hw|off Hoff Hdest Ho].
        - exists l0. split; auto.
          assert (Edd : dd = after Q t0 (Prune_Sound.tr_eff Q l0)).
          { unfold dd, Prune_Sound.tr_eff, is_intermodal_dest. rewrite Hnone, Hdest. reflexivity. }
          apply (Prune_Opt.wready_step Q W0 StJ K l1 t1' tb l0 t0); auto; [lia|rewrite Edd; constructor|].
          right. apply W0_spec. apply W0_spec in HW1. lia.
        - exists l'. split; auto.
          apply (Prune_Opt.wready_step Q W0 StJ K l1 t1' tb l0 t0); auto; [lia|now apply Prune_Opt.succ_walk|].
          right. apply W0_spec. destruct (proj2 HmP l' 0) as (d2 & Hd2 & Hin2); [now apply eg_here|].
          assert (Hs2 : start_at P accP T l' (after P T d2)) by (exists d2; auto).
          assert (X := Hrow _ _ Hs2). rewrite o_after in X. assert (Z := tr_nonneg P (sb_dur _ HP) l'). lia.
        - exists (p_end Q). split; auto.
          apply (Prune_Opt.wready_step Q W0 StJ K l1 t1' tb l0 t0); auto; [lia|eapply Prune_Opt.succ_off; eauto|].
          left. split; auto. unfold Prune_Opt.intermodal. congruence. }
      destruct Hend as (ld & Hld & Hwend).
      assert (HR := ping_range j Hjp). unfold fits in HF. assert (A := o_abs P T). assert (X1 := OLQ). assert (X2 := OIQ).
      assert (G : Prune_Opt.ginv Q W0 (fun _ => 0) StQ dd (S K) sfin /\ forall l t, StJ l t -> oQ (s_rt sfin 0%nat l) <= oQ t).
      { assert (Gstep : forall s0 x, In x js -> Prune_Opt.ginv Q W0 (fun _ => 0) StQ dd (S K) s0 ->
                  Prune_Opt.ginv Q W0 (fun _ => 0) StQ dd (S K) (step s0 x) /\
                  forall l t, In (l, t) (g_starts (pong_group Q accQ T x)) -> oQ (s_rt (step s0 x) 0%nat l) <= oQ t).
        { intros s0 x Hx Hs0. unfold pong_state.
          assert (N : let s' := prun_group Q (within_bounds P Q rt (pong_rounds x)) (Z.to_nat (j_transfers x)) s0 (pong_group Q accQ T x) in
            Prune_Opt.ginv Q W0 (fun _ => 0) StQ dd (S K) s' /\
            (forall l t, In (l, t) (g_starts (pong_group Q accQ T x)) -> oQ (s_rt s' 0%nat l) <= oQ t) /\ Prune_Opt.improves Q s0 s').
          { apply Prune_Opt.run_group_ginv with (H := oQ a); auto; try apply HQ; try apply lbQ; try apply reachQ; rewrite ?oQ_P; try lia.
            all: try (intros l2 t2 Hs2; apply StQ_range in Hs2; rewrite ?oQ_P in *; lia).
            all: try (intros l2 t2 Hs2; apply StQ_loc in Hs2; tauto).
            all: try (intros k2 l2 t2; now apply W0_looser).
            all: try exact W0_time.
            - assert (Y := js_transfers x Hx). assert (Z := ping_transfers T x (js_ping x Hx)). unfold end_k, kMaxTransfers, pong_rounds in *. lia.
            - cbn [g_worst pong_group]. lia.
            - intros l2 t2. now apply group_starts_Q. }
          cbv zeta in N. tauto. }
        assert (G0 : Prune_Opt.ginv Q W0 (fun _ => 0) StQ dd (S K) (fold_left step js1 (reset_arrivals Q))).
        { refine (fold_left_inv step (Prune_Opt.ginv Q W0 (fun _ => 0) StQ dd (S K)) js1 (reset_arrivals Q) _ _).
          - apply Prune_Opt.reset_ginv; rewrite ?oQ_P; lia.
          - intros s0 x Hx Hs0. apply Gstep; auto. apply in_app_iff; auto. }
        rewrite fold_left_app. cbn [fold_left]. destruct (Gstep _ j ltac:(apply in_app_iff; cbn; auto) G0) as [G1 G2].
        split; auto. intros l2 t2 Hs2. apply G2. cbn [pong_group g_starts]. now apply in_end_starts. }
      destruct G as [[(ks & G1) _ GCL] GS].
      destruct (dest_label_dec Q (sb_loc _ HQ) sfin (S K) dd) as [(i & li & Hi & Hdi & Hli)|Hno].
      - assert (Hne : s_rt sfin i li <> kInvalid Q). { intros E'. rewrite E', o_kInvalid, oQ_P in Hli. lia. }
        assert (Hi1 : (1 <= i)%nat).
        { destruct i as [|i]; [|lia]. exfalso. destruct sfin_gsinv as (k0 & Hg).
          destruct (gs_rt _ _ _ _ Hg 0%nat li Hne) as (i & Hi0 & _ & HL). replace i with 0%nat in HL by lia.
          destruct HL as [_ Hs|t2 _ Ha2 _|_ _ Ha2|l2 t2 d2 Ha2 _ _|off l2 t2 d2 _ _ Ha2 _ _|Hx _]; try (inversion Ha2; fail); try lia.
          apply StQ_loc in Hs as [_ Hs]. congruence. }
        exists (mk_journey a (s_rt sfin i li) (Z.of_nat i - 1)). cbn [j_transfers j_dest]. rewrite !oQ_P in Hli. split; [|split; [lia|fold dd; lia]].
        apply in_reported. exists i, li. split; [now apply (sb_loc _ HQ)|]. split; auto. split; [|auto].
        unfold end_k, kMaxTransfers, pong_rounds in *. lia.
      - exfalso. assert (Hnd : Prune_Opt.nd Q dd (S K) sfin) by (intros i li Hi Hl; specialize (Hno i li Hi Hl); lia).
        assert (R : Prune_Opt.reached Q (S K) sfin ld dd).
        { eapply Prune_Opt.closed_reach with (St := StQ) (H := oQ a) (a := dd) (W0 := W0) (D := fun _ => 0) (St0 := StJ) (K := S K); eauto;
            try apply HQ; try apply lbQ; rewrite ?oQ_P; try lia.
          all: try (intros l2 t2 Hs2; apply StQ_range in Hs2; rewrite ?oQ_P in *; lia).
          all: try (exact W0_rounds).
          all: try (unfold Prune_Opt.rel; cbn beta; lia).
          exact W0_time. }
        destruct R as (i & Hi & Hle). specialize (Hno i ld Hi Hld). lia.
    Qed.
  End Pong.

  (** *** The loop *)
  Notation F := (trip P accP).
  Notation B' := (trip Q accQ).
  Lemma F_earlier T T' K a : Pong_Loop.sgn q T' <= Pong_Loop.sgn q T -> F T K a -> F T' K a.
  Proof. rewrite !sgn_o. intros H. apply trip_earlier. now apply no_later_o. Qed.
  Lemma F_time T K a : F T K a -> (1 <= K)%nat /\ Pong_Loop.sgn q T < Pong_Loop.sgn q a.
  Proof.
    intros Ht. split; [eapply trip_rides; eauto|]. rewrite !sgn_o. destruct Ht as (l & Hc).
    apply connection_egress in Hc as (l0 & t0 & d & Ha & He & ->). rewrite o_after.
    assert (X : oP T + 1 <= oP t0).
    { refine (reach_lower_pos P (start_at P accP T) (transfer_time P) (oP T) 1 _ _ _ _ _ K l0 t0 Ha); try apply HP; try lia.
      - intros l1 t1 (d1 & Hin & ->). rewrite o_after. apply (ac_dur _ _ _ HaP) in Hin. lia.
      - apply tr_nonneg. apply HP.
      - apply ride_strict; apply HP. }
    assert (Y : 0 <= d); [|lia]. destruct He as [_ _ ->|l' _ _ Hw|off Hoff _ Ho]; [lia| |].
    - eapply (walk_nonneg P (sb_dur _ HP)); eauto.
    - destruct (sb_dur _ HP) as (_ & _ & _ & X1). eapply X1; eauto.
  Qed.
  Lemma F_B T K a : F T K a -> exists d, Pong_Loop.sgn q T <= Pong_Loop.sgn q d /\ B' a K d.
  Proof.
    intros Ht. destruct (trip_mirror P Q accP accQ T K a HO HmP HmQ Ht) as (d & Hd & Hx). exists d. split; auto.
    rewrite !sgn_o. now apply no_later_o.
  Qed.
  Lemma B_F a K d : B' a K d -> exists a', Pong_Loop.sgn q a' <= Pong_Loop.sgn q a /\ F d K a'.
  Proof.
    intros Ht. destruct (trip_mirror Q P accQ accP a K d (opposite_sym _ _ HO) HmQ HmP Ht) as (a' & Ha & Hx). exists a'. split; auto.
    apply no_later_o in Ha. rewrite !oQ_P in Ha. rewrite !sgn_o. lia.
  Qed.
  Notation pinit := (pong_start q P Q accP mt).
  Notation pexec := (pong_exec P Q accQ).
  Notation reps := (Pong_Loop.reports pstate pinit pexec).
  Lemma P_sound T j : ok T -> In j (ping_search q P accP mt T) ->
    j_start j = T /\ 0 <= j_transfers j <= Z.of_nat (Nat.min mt 14) /\
    Pong_Loop.sgn q (j_dest j) <= Pong_Loop.sgn q (worst_time_at_dest q T) /\
    exists K, Z.of_nat K <= j_transfers j + 1 /\ F T K (j_dest j).
  Proof.
    intros [HF HS] Hj. split; [eapply ping_start_eq; eauto|]. split; [eapply ping_transfers; eauto|]. split.
    - rewrite !sgn_o, o_worst. eapply ping_in_time; eauto.
    - now apply ping_trip.
  Qed.
  Lemma P_complete T K a : ok T -> F T K a -> (K <= S (Nat.min mt 14))%nat ->
    Pong_Loop.sgn q a <= Pong_Loop.sgn q (worst_time_at_dest q T) ->
    exists j, In j (ping_search q P accP mt T) /\ j_transfers j <= Z.of_nat K - 1 /\ Pong_Loop.sgn q (j_dest j) <= Pong_Loop.sgn q a.
  Proof.
    intros [HF HS] Ht HK Ha. rewrite !sgn_o, o_worst in Ha. destruct (ping_complete T HF K a Ht HK Ha) as (j & H1 & H2 & H3).
    exists j. rewrite !sgn_o. auto.
  Qed.
  Lemma Q_sound T js1 j js2 r : ok T -> sort_pings (ping_search q P accP mt T) = js1 ++ j :: js2 -> In r (reps T js1 j js2) ->
    j_start r = j_dest j /\ 0 <= j_transfers r <= j_transfers j /\ Pong_Loop.sgn q (j_dest r) < Pong_Loop.sgn q (j_start r) /\
    (Pong_Loop.honest B' r \/
     exists r', In r' (reps T js1 j js2) /\ j_transfers r' < j_transfers r /\ Pong_Loop.sgn q (j_dest r) <= Pong_Loop.sgn q (j_dest r')).
  Proof.
    intros HT Ej. rewrite reports_eq. intros Hr. destruct (pong_sound T js1 j js2 HT Ej r Hr) as (H1 & H2 & H3 & H4).
    rewrite !sgn_o. split; auto. split; auto. split; auto. destruct H4 as [H4|(r' & H4 & H5 & H6)]; [now left|right].
    exists r'. rewrite !sgn_o. auto.
  Qed.
  Lemma Q_complete T js1 j js2 K d : ok T -> sort_pings (ping_search q P accP mt T) = js1 ++ j :: js2 ->
    B' (j_dest j) K d -> Z.of_nat K <= j_transfers j + 1 -> Pong_Loop.sgn q T <= Pong_Loop.sgn q d ->
    exists r, In r (reps T js1 j js2) /\ j_transfers r <= Z.of_nat K - 1 /\ Pong_Loop.sgn q d <= Pong_Loop.sgn q (j_dest r).
  Proof.
    intros HT Ej HB HK Hd. rewrite !sgn_o in Hd.
    destruct (pong_complete T js1 j js2 HT Ej K d HB ltac:(unfold pong_rounds; lia) Hd) as (r & H1 & H2 & H3).
    exists r. rewrite reports_eq, !sgn_o. auto.
  Qed.

  Variables (rec : pstate -> journey -> bool) (timeout : nat -> bool).
  Hypothesis ok_T : forall n T R, Pong_Loop.sgn q (first_start q) <= Pong_Loop.sgn q T -> continue q timeout n T R = true -> ok T.

  Theorem pong_loop_spec fuel :
    match loop q pstate (ping_search q P accP mt) pinit pexec rec timeout fuel 0 [] (first_start q) with
    | Done (R2, T2) =>
        Pong_Loop.inv q F B' (Nat.min mt 14) R2 /\ Pong_Loop.covered q F (Nat.min mt 14) R2 T2 /\
        Pong_Loop.sgn q (first_start q) <= Pong_Loop.sgn q T2 /\
        ((exists n2, continue q timeout n2 T2 R2 = false) \/ Pong_Loop.nothing_ahead q F (Nat.min mt 14) T2)
    | Throw e => e = OutOfFuel \/ (e = ReconstructFailed /\ exists a x, rec a x = false)
    end.
  Proof.
    apply (Pong_Loop.loop_spec q pstate (ping_search q P accP mt) pinit pexec rec timeout F B' (Nat.min mt 14) ok);
      auto using F_B, B_F.
    all: try exact F_earlier.
    all: try exact F_time.
    all: try exact P_sound.
    all: try exact P_complete.
    all: try exact Q_sound.
    all: try exact Q_complete.
    all: try apply Pong_Loop.inv_nil.
    all: try (intros T _; apply ping_antichain).
    all: try lia.
    intros T0 K a H1 H2. lia.
  Qed.
End Contract.
