(** Property theorems C50: a complete interval query - start labels, interval driver, search, reconstruction, result filter - returns
    real itineraries and misses no connection.  Specifications: [Raptor_Spec] (connections), [Rec_Spec] (itineraries), [Full_Spec]. *)
From Coq Require Import List ZArith Bool Arith Lia Permutation.
From Verif Require Import Base Time_Model Time_Proofs Pareto_Model Pareto_Proofs Seq_Model Raptor_Model Raptor_Spec Raptor_Base Raptor_Sound Raptor_Genuine
  Raptor_Final P_Raptor Rec_Model Rec_Spec P_Rec P_RecComplete Search_Model P_Search Full_Model Full_Base Full_Spec Full_Proofs P_LowerBounds.
From Verif Require Query_Model Dijkstra_Model Start_Model.
Import ListNotations.
Local Open Scope Z_scope.

(** The search ends in its first iteration and returns the interval of the query.  Every returned journey starts inside the interval,
    respects the travel time limits (as exact numbers, no 16 bit overflow) and the transfer limit, and has an itinerary that can be
    ridden; no returned journey dominates another one. *)
Theorem C50_returned_journeys_are_itineraries : forall P L first_day q smode use_fp starts dmode dest mx START B iv mt fd shortest timeout slow_direct fuel,
  timetable_ok P -> query_is P L first_day q smode use_fp starts dmode dest mx START B iv ->
  0 <= fd -> Permutation shortest (shortest_offsets P L smode use_fp starts) ->
  exists rs, route_query P L first_day q smode starts dest mx START mt fd shortest timeout slow_direct (S fuel) = Some (rs, iv) /\
    (forall r, In r rs -> let j := r_journey r in
       iv_from iv <= j_start j < iv_to iv /\ at_least_as_early P (j_start j) (j_dest j) /\
       Z.abs (j_dest j - j_start j) < fd /\ Z.abs (j_dest j - j_start j) <= iq_max_travel q /\
       0 <= j_transfers j <= Z.of_nat mt /\
       exists l legs, p_is_dest P l = true /\
         itinerary P (rec_query L q smode starts dest START) (Z.to_nat (j_transfers j) + 1) (minute P first_day (j_start j)) l
                   (minute P first_day (j_dest j)) legs) /\
    (forall i j x y, nth_error rs i = Some x -> nth_error rs j = Some y -> i <> j -> journey_dominates (r_journey x) (r_journey y) = false).
Proof.
  intros P L first_day q smode use_fp starts dmode dest mx START B iv mt fd shortest timeout slow_direct fuel HT HQ Hfd Hshort.
  destruct (route_result P L first_day q smode use_fp starts dmode dest mx START mt fd B iv HT HQ Hfd shortest Hshort timeout slow_direct fuel) as (rs0 & rs & Hroute & Hmap & Hfl & Hperm).
  exists rs. split; [exact Hroute|]. clear Hroute.
  set (gs := Search_Model.start_groups (labels P first_day q mx iv shortest)) in *.
  set (gl := map (grp P first_day q fd) gs) in *.
  assert (Hfrom : forall r, In r rs -> In r rs0 /\ keep_result q fd iv r = true /\ r_reconstructed r = true).
  { intros r H. eapply Permutation_in in H; [|exact Hperm]. apply filter_In in H as [H H2]. apply filter_In in H as [H H1]. auto. }
  split.
  - intros r Hr j. destruct (Hfrom r Hr) as (H0 & Hk & Hrec). destruct (Hfl r H0) as (F1 & _ & _). specialize (F1 Hrec).
    assert (Hj : In j (map (shift_journey ((first_day + p_base P) * 1440)) (snd (raptor P mt gl)))) by (rewrite <- Hmap; apply in_map; exact H0).
    apply in_map_iff in Hj as (j0 & Ej & Hj0). assert (Hall : In j0 (all_reported P mt (reset_arrivals P) gl)) by exact (kept_from_all P first_day q mx mt fd iv shortest j0 Hj0).
    assert (Hsp := reported_span P L first_day q smode use_fp starts dmode dest mx START mt fd B iv HT HQ Hfd shortest Hshort gs [] j0 ltac:(now rewrite app_nil_r) Hall).
    assert (Htt := travel_time P first_day j0 Hsp). rewrite Ej in Htt.
    unfold keep_result in Hk. fold j in Hk. rewrite !andb_true_iff in Hk. destruct Hk as [[K1 K2] K3]. apply Z.ltb_lt in K2. apply Z.leb_le in K3.
    unfold iv_contains in K1. rewrite Htt in K2, K3.
    assert (Habs : Z.abs (j_dest j - j_start j) = o P (j_dest j0) - o P (j_start j0)).
    { rewrite <- Ej. unfold shift_journey. cbn [j_dest j_start]. unfold o in *. destruct (p_fwd P); lia. }
    split; [lia|]. split.
    { rewrite <- Ej. unfold shift_journey, at_least_as_early. cbn [j_dest j_start]. unfold o in Hsp. destruct (p_fwd P); lia. }
    split; [lia|]. split; [lia|]. split.
    { rewrite <- Ej. unfold shift_journey. cbn [j_transfers]. destruct (C19_transfer_limit P mt gl j0 Hj0). lia. }
    destruct F1 as (l & legs & F1 & F2). exists l, legs. auto.
  - assert (Hanti : forall i j x y, nth_error rs0 i = Some x -> nth_error rs0 j = Some y -> i <> j -> journey_dominates (r_journey x) (r_journey y) = false).
    { intros i j x y Hx Hy Hn.
      assert (Mx := map_nth_error r_journey _ _ Hx). assert (My := map_nth_error r_journey _ _ Hy). rewrite Hmap in Mx, My.
      rewrite nth_error_map in Mx, My. destruct (nth_error (snd (raptor P mt gl)) i) as [x0|] eqn:Ex; [|discriminate]. destruct (nth_error (snd (raptor P mt gl)) j) as [y0|] eqn:Ey; [|discriminate].
      cbn [option_map] in Mx, My. injection Mx as <-. injection My as <-. rewrite shift_dominates. rewrite raptor_results in Ex, Ey.
      exact (add_all_antichain _ _ journey_dom_trans _ i j x0 y0 Ex Ey Hn). }
    (* pairwise statements are stable under filter and permutation *)
    set (R := fun x y : result => journey_dominates (r_journey x) (r_journey y) = false /\ journey_dominates (r_journey y) (r_journey x) = false).
    assert (P0 : ForallOrdPairs R rs0).
    { assert (X : forall l, (forall i j x y, nth_error l i = Some x -> nth_error l j = Some y -> i <> j -> journey_dominates (r_journey x) (r_journey y) = false) -> ForallOrdPairs R l).
      { induction l as [|a l IH]; intros Hl; constructor.
        - apply Forall_forall. intros b Hb. apply In_nth_error in Hb as (n & Hb). split; [apply (Hl 0%nat (S n))|apply (Hl (S n) 0%nat)]; auto.
        - apply IH. intros i j x y Hx Hy Hn. apply (Hl (S i) (S j)); auto. }
      apply X, Hanti. }
    assert (P1 : forall f l, ForallOrdPairs R l -> ForallOrdPairs R (filter f l)).
    { intros f l H. induction H as [|a l Ha Hl IH]; cbn [filter]; [constructor|]. destruct (f a); [|exact IH]. constructor; [|exact IH].
      rewrite Forall_forall in *. intros b Hb. apply Ha. apply filter_In in Hb. tauto. }
    assert (P2 : forall l l', Permutation l l' -> ForallOrdPairs R l -> ForallOrdPairs R l').
    { intros l l' H. induction H as [|a l l' H IH|a b l|l l' l'' H1 IH1 H2 IH2]; intros X; auto.
      - inversion X as [|? ? X1 X2]; subst. constructor; [|auto]. rewrite Forall_forall in *. intros z Hz. apply X1. eapply Permutation_in; [apply Permutation_sym; exact H|exact Hz].
      - inversion X as [|? ? X1 X2]; subst. inversion X2 as [|? ? X3 X4]; subst. inversion X1 as [|? ? X5 X6]; subst. constructor; [|constructor; auto].
        constructor; [|exact X3]. unfold R in *. tauto. }
    assert (P3 : ForallOrdPairs R rs) by (eapply P2; [apply Permutation_sym; exact Hperm|]; apply P1, P1, P0).
    clear -P3. intros i j. revert i j. induction P3 as [|a l Ha Hl IH]; intros i j x y Hx Hy Hn; [destruct i; discriminate|].
    rewrite Forall_forall in Ha. destruct i as [|i], j as [|j]; cbn [nth_error] in *; [congruence| | |].
    + injection Hx as <-. apply nth_error_In in Hy. apply Ha; auto.
    + injection Hy as <-. apply nth_error_In in Hx. apply Ha; auto.
    + apply (IH i j); auto.
Qed.

(** Every connection of the timetable that leaves (backward search: arrives) inside the interval and respects the limits of the query is
    matched by a returned journey that leaves no earlier, arrives no later and has no more transfers - unless a connection that is at
    least as good leaves right after the interval (backward: arrives right before it). *)
Theorem C50_no_connection_is_missed : forall P L first_day q smode use_fp starts dmode dest mx START B iv mt fd shortest timeout slow_direct fuel,
  timetable_ok P -> query_is P L first_day q smode use_fp starts dmode dest mx START B iv ->
  0 <= fd -> Permutation shortest (shortest_offsets P L smode use_fp starts) ->
  exists rs, route_query P L first_day q smode starts dest mx START mt fd shortest timeout slow_direct (S fuel) = Some (rs, iv) /\
    forall t k l a, iv_from iv <= t < iv_to iv ->
      connection P (leaving P L first_day smode use_fp starts t) (transfer_time P) k l (minute P first_day a) ->
      Z.abs (a - t) < fd -> Z.abs (a - t) <= iq_max_travel q -> (k <= Nat.min mt 14 + 1)%nat ->
      (exists r, In r rs /\ at_least_as_early P t (j_start (r_journey r)) /\ at_least_as_early P (j_dest (r_journey r)) a /\
                 j_transfers (r_journey r) <= Z.of_nat k - 1) \/
      (exists k' l' a', (k' <= k)%nat /\ at_least_as_early P a' a /\
         connection P (leaving P L first_day smode use_fp starts (if p_fwd P then iv_to iv else iv_from iv - 1)) (transfer_time P) k' l'
                    (minute P first_day a')).
Proof.
  intros P L first_day q smode use_fp starts dmode dest mx START B iv mt fd shortest timeout slow_direct fuel HT HQ Hfd Hshort.
  destruct (route_result P L first_day q smode use_fp starts dmode dest mx START mt fd B iv HT HQ Hfd shortest Hshort timeout slow_direct fuel) as (rs0 & rs & Hroute & Hmap & Hfl & Hperm).
  exists rs. split; [exact Hroute|]. clear Hroute. intros t k l a Ht Hc Hf Hm Hk.
  destruct (complete P L first_day q smode use_fp starts dmode dest mx START mt fd B iv HT HQ Hfd shortest Hshort timeout slow_direct t k l a Ht Hc Hf Hm Hk)
    as [(j & Hj & Hiv & J1 & J2 & J3)|(k' & l' & a' & H1 & H2 & H3)].
  - left. assert (X : In (shift_journey ((first_day + p_base P) * 1440) j) (map r_journey rs0)) by (rewrite Hmap; apply in_map; exact Hj).
    apply in_map_iff in X as (r & Er & Hr). exists r.
    assert (Hall := kept_from_all P first_day q mx mt fd iv shortest j Hj).
    assert (Hsp := reported_span P L first_day q smode use_fp starts dmode dest mx START mt fd B iv HT HQ Hfd shortest Hshort _ [] j ltac:(symmetry; apply app_nil_r) Hall).
    assert (Htt := travel_time P first_day j Hsp). rewrite <- Er in Htt.
    assert (Ht1 : journey_travel_time (r_journey r) < fd /\ journey_travel_time (r_journey r) <= iq_max_travel q).
    { rewrite Htt. unfold o, minute in *. destruct (p_fwd P); lia. }
    assert (Hc1 : iv_contains iv (j_start (r_journey r)) = true) by (rewrite Er; unfold shift_journey, iv_contains; cbn [j_start]; apply andb_true_iff; rewrite Z.leb_le, Z.ltb_lt; lia).
    destruct (Hfl r Hr) as (_ & _ & F2). specialize (F2 Hc1 (proj1 Ht1) (proj2 Ht1)).
    split.
    + eapply Permutation_in; [apply Permutation_sym; exact Hperm|]. apply filter_In. split; [|exact F2]. apply filter_In. split; [exact Hr|].
      unfold keep_result. rewrite Hc1. apply andb_true_iff. rewrite Z.leb_le. split; [|apply Ht1]. apply Z.ltb_lt, Ht1.
    + rewrite Er. unfold shift_journey, at_least_as_early. cbn [j_start j_dest j_transfers]. unfold o, minute in *. destruct (p_fwd P); lia.
  - right. exists k', l', a'. split; [exact H1|]. split; [|exact H3]. unfold at_least_as_early. unfold o, minute in H2. destruct (p_fwd P); lia.
Qed.

(** * Non-vacuity: the timetable of [Example1] with the pre-processing of [Example3] *)
Module ExampleFull.
  Import Example1 Example3.
  Definition P := Example3.P.
  Definition iv := mk_iv 14870 14890.     (* day 10 of the timetable, 07:50 - 08:10 *)
  Definition q := mk_iquery true (Start_Model.Pretrip iv) false false 0 None false 1440 (mk_iv 0 100000).
  Definition starts := [Query_Model.mk_offset 0 0 0].
  Definition route fuel := route_query P L 0 q Query_Model.kExact starts dest 0 98 5 1440 [(0%nat, 0)] (fun _ => false) (fun _ => []) fuel.
  Example returned : route 1 = Some ([mk_result (mk_journey 14880 14950 1) true false], iv).
  Proof. vm_compute. reflexivity. Qed.

  Lemma options l d : start_option P L Query_Model.kExact false starts l d <-> l = 0%nat /\ d = 0.
  Proof.
    split.
    - intros (s & l0 & [<-|[]] & [<-|[]] & [[-> ->]|[H _]]); [auto|discriminate].
    - intros [-> ->]. exists (Query_Model.mk_offset 0 0 0), 0%nat. split; [now left|]. split; [now left|]. left. auto.
  Qed.
  Lemma static_reach2 (P : params) : static_only P -> forall ri r day s s' st st', nth_error (tt_routes (p_tt P)) ri = Some r -> r_rt r = Some day ->
    nth_error (r_stops r) s = Some st -> nth_error (r_stops r) s' = Some st' -> (if p_fwd P then (s < s')%nat else (s' < s)%nat) ->
    p_lb P (Z.to_nat (s_loc st)) = 65535 -> get_off_allowed P st' = true -> p_lb P (Z.to_nat (s_loc st')) = 65535.
  Proof. intros H ri r day s s' st st' Hr E. rewrite (H _ _ Hr) in E. discriminate. Qed.
  Lemma stat : static_only P.
  Proof. intros [|[|ri]] r Hr; cbn in Hr; [injection Hr as <-; reflexivity|injection Hr as <-; reflexivity|]. destruct ri; discriminate. Qed.
  Lemma tt_ok : timetable_ok P.
  Proof.
    constructor; [exact stat|exact Example1.wf|exact Example1.dur|exact Example3.endok|exact Example3.loc|exact Example1.cols|exact Example1.idx|exact Example1.fifo_ok|].
    discriminate.
  Qed.
  Lemma q_ok : query_is P L 0 q Query_Model.kExact false starts Dijkstra_Model.kExact dest 0 98 15 iv.
  Proof.
    constructor; try reflexivity; try (cbn; lia).
    - exists false, false. exact Example3.setup.
    - intros l d H. apply options in H as [-> ->]. lia.
    - intros l d H. apply options in H as [-> ->]. split; [cbn; lia|reflexivity].
    - cbn. intros s [<-|[]]. reflexivity.
    - split; [|exact (static_reach2 P stat)].
      intros l t ri r s s' st1 st2 (d & H) Hl. apply options in H as [-> ->]. vm_compute in Hl. discriminate.
    - intros x d [[= <- <-]|[]]. lia.
    - split; cbn; try lia; try tauto.
      + intros a b d (d0 & [] & _).
      + intros x d [[= <- <-]|[]]. lia.
  Qed.
  Lemma shortest_ok : shortest_offsets P L Query_Model.kExact false starts = [(0%nat, 0)].
  Proof. vm_compute. reflexivity. Qed.
  (** The connection that leaves at 08:00 and arrives at 09:10. *)
  Lemma conn : connection P (leaving P L 0 Query_Model.kExact false starts 14875) (transfer_time P) 2 2 (minute P 0 14950).
  Proof.
    change (minute P 0 14950) with 550. apply conn_station; auto.
    assert (Hd : runs_on (Example1.veh 480 510) 10 /\ runs_on (Example1.veh 520 550) 10) by (unfold runs_on; cbn; lia).
    apply (arrived_ride P _ _ 1 1 515 520 2 550); [|unfold no_later; cbn; lia|].
    - change 515 with (after P 510 (transfer_time P 1)). apply ready_transfer.
      apply (arrived_ride P _ _ 0 0 475 480 1 510); [|unfold no_later; cbn; lia|].
      + apply ready_start. exists 0. split; [apply options; auto|reflexivity].
      + eapply (ride_intro P 0%nat 480 1%nat 510 0%nat Example1.r0 0%nat (Example1.veh 480 510) 10 0%nat 1%nat (Example1.st 0) (Example1.st 1));
          try reflexivity; try tauto; cbn; try lia; intros; discriminate.
    - eapply (ride_intro P 1%nat 520 2%nat 550 1%nat Example1.r1 0%nat (Example1.veh 520 550) 10 0%nat 1%nat (Example1.st 1) (Example1.st 2));
        try reflexivity; try tauto; cbn; try lia; intros; discriminate.
  Qed.
  Example C50_nonvacuous :
    timetable_ok P /\ query_is P L 0 q Query_Model.kExact false starts Dijkstra_Model.kExact dest 0 98 15 iv /\
    Permutation [(0%nat, 0)] (shortest_offsets P L Query_Model.kExact false starts) /\
    (iv_from iv <= 14875 < iv_to iv) /\
    connection P (leaving P L 0 Query_Model.kExact false starts 14875) (transfer_time P) 2 2 (minute P 0 14950) /\
    Z.abs (14950 - 14875) < 1440 /\ (2 <= Nat.min 5 14 + 1)%nat /\
    route 1 = Some ([mk_result (mk_journey 14880 14950 1) true false], iv).
  Proof.
    split; [exact tt_ok|]. split; [exact q_ok|]. split; [rewrite shortest_ok; reflexivity|]. split; [cbn; lia|]. split; [exact conn|].
    split; [lia|]. split; [cbn; lia|exact returned].
  Qed.
End ExampleFull.

Print Assumptions C50_returned_journeys_are_itineraries.
Print Assumptions C50_no_connection_is_missed.
