(** Clean-up of the footpaths of a direct journey; the search for alternatives. *)
From Coq Require Import List ZArith Bool Arith Lia.
From Verif Require Import Base Time_Model Raptor_Model Raptor_Spec Raptor_Base Raptor_Sound Rec_Model Rec_Spec Rec_Proofs Rec_Opt Direct_Model Direct_Spec Alt_Model Alt_Spec.
From Verif Require Query_Model.
Import ListNotations.
Local Open Scope Z_scope.

(** The direction does not matter for the specification of rides and ways. *)
Lemma access_dir b P L Q f loc o d : access (with_dir b P) L Q f loc o d <-> access P L Q f loc o d.
Proof.
  split; intros H; destruct H.
  - now apply access_offset.
  - now apply access_here.
  - change (transfer_time (with_dir b P) loc) with (transfer_time P loc). now apply access_exact.
  - change (p_adjust (with_dir b P)) with (p_adjust P). eapply access_walk; eauto.
  - now apply access_offset.
  - now apply access_here.
  - change (transfer_time P loc) with (transfer_time (with_dir b P) loc). now apply access_exact.
  - change (p_adjust P) with (p_adjust (with_dir b P)). eapply access_walk; eauto.
Qed.
Lemma side_dir b P L Q f loc t ls : side_legs (with_dir b P) L Q f loc t ls -> side_legs P L Q f loc t ls.
Proof.
  intros H. destruct H as [o M A|g o d A B C D E F]; [apply access_dir in A; eapply side_none; eauto|].
  apply access_dir in A. eapply side_walk; eauto.
Qed.
Lemma ride_dir b P g : ride_leg (with_dir b P) g -> ride_leg P g.
Proof.
  intros [ri vi day from to r v st st' H1 H2 H3 H4 H5 H6 H7 H8 H9 H10 H11 H12 H13 H14 H15].
  eapply (ride_leg_intro P g ri vi day from to r v st st'); eauto.
Qed.
Lemma direct_dir b P L Q j : direct (with_dir b P) L Q j -> direct P L Q j.
Proof. intros [pre g post H1 H2 H3]. constructor; eauto using side_dir, ride_dir. Qed.
Lemma wf_dir b P : all_vehicles_wf P -> all_vehicles_wf (with_dir b P).
Proof. intros H. exact H. Qed.

Lemma last_arr (post : list leg) g g' : l_arr g' = l_arr g -> l_arr (last post g') = l_arr (last post g).
Proof. intros E. induction post as [|x [|y p] IH]; auto. Qed.

Section OptDirect.
  Variable P : params.
  Variable L : Query_Model.locations.
  Variable DQ : dquery.
  Notation tt := (p_tt P).
  Notation P1 := (with_dir true P).
  Hypothesis Hwf : all_vehicles_wf P.
  Hypothesis Hmono : forall x y, 0 <= x -> x <= y -> p_adjust P x <= p_adjust P y.
  Hypothesis Hfp : forall a l d, In (l, d) (tt_footpaths_out tt a) -> 0 <= d.
  Hypothesis Hreq : forall f, (f < 4)%nat -> p_require P f = false.
  Hypothesis Hs : ends_ok L DQ true.
  Hypothesis Hd : ends_ok L DQ false.
  Variables (ri vi : nat) (day : Z) (r : route) (v : vehicle).

  (** A direct journey on one vehicle within [lo, hi]. *)
  Definition direct_on (lo hi : Z) (legs : list leg) : Prop :=
    exists pre g post from to, legs = pre ++ g :: post /\ ride_data P g ri vi day from to r v /\
      side_legs P L DQ true (l_from g) (l_dep g) pre /\ side_legs P L DQ false (l_to g) (l_arr g) post /\
      lo <= l_dep (hd g pre) /\ l_arr (last post g) <= hi.

  Lemma side_shape front loc t ls : side_legs P L DQ front loc t ls ->
    ls = [] \/ exists g o d, ls = [g] /\ access P L DQ front loc o d /\ outer_loc front g = o /\ inner_loc front g = loc /\ inner_time front g = t /\
      outer_time front g = (if front then t - d else t + d) /\
      ((mode_of DQ front = Query_Model.kIntermodal /\ l_uses g = Offs loc d) \/
       (mode_of DQ front <> Query_Model.kIntermodal /\ l_uses g = Foot (l_to g) d)).
  Proof.
    intros H. destruct H as [|g o d A B C D E F]; [now left|right]. exists g, o, d. do 6 (split; [auto|]).
    destruct (mode_of DQ front); [right|right|right|left]; split; auto; discriminate.
  Qed.
  Lemma ride_of g from to : ride_data P g ri vi day from to r v -> l_uses g = Ride ri vi day from to.
  Proof. intros (H & _). exact H. Qed.

  Definition dep_inv (g0 : leg) (to : nat) (lo : Z) (loc0 : nat) (st : Z * leg * leg) : Prop :=
    let '(_, a, g) := st in
    exists from, ride_data P g ri vi day from to r v /\ l_to g = l_to g0 /\ l_arr g = l_arr g0 /\
      side_legs P L DQ true (l_from g) (l_dep g) [a] /\ lo <= l_dep a /\ l_from a = loc0.

  Lemma opt_dep lo hi legs : direct_on lo hi legs -> direct_on lo hi (optimize_initial_departure P1 (opt_query DQ) legs).
  Proof.
    intros H. pose proof H as H0. destruct H as (pre & g & post & from & to & -> & G & S1 & S2 & B1 & B2).
    pose proof (ride_of _ _ _ G) as U.
    destruct (side_shape _ _ _ _ S1) as [->|(a & o & d & -> & A & E1 & E2 & E3 & E4 & [(M & Ua)|(M & Ua)])].
    - cbn [app] in *. unfold optimize_initial_departure. destruct post; [exact H0|]. rewrite U. exact H0.
    - cbn [app] in *. unfold optimize_initial_departure. rewrite Ua, U.
      pose proof G as (_ & Hroute & _). change (route_of P1 ri) with (route_of P ri). rewrite (route_of_nth P _ _ Hroute).
      set (step := fun st s => if s_in (stop_at r s) then fold_left (opt_departure_step P1 r ri vi day to s) (travel_starts P1 (opt_query DQ)) st else st).
      assert (I : dep_inv g to (l_dep a) (l_from a) (fold_left step (seq 0 (to - 1)) (d, a, g))).
      { apply fold_left_inv.
        - exists from. do 3 (split; [auto|]). split; [exact S1|split; [lia|reflexivity]].
        - intros st s Hin Hst. apply in_seq in Hin. unfold step. destruct (s_in (stop_at r s)) eqn:Ein; [|exact Hst].
          apply fold_left_inv; [exact Hst|]. clear st Hst. intros [[best a'] g'] [x' d'] Ho Hst. unfold opt_departure_step. cbn [fst snd].
          destruct ((best <=? d') || negb (Nat.eqb x' (loc_at r s))) eqn:C1; [exact Hst|].
          apply orb_false_iff in C1 as [_ C1]. apply negb_false_iff, Nat.eqb_eq in C1.
          destruct (l_dep a' <=? run_time P1 r vi day s kDep - d') eqn:C2; [|exact Hst]. apply Z.leb_le in C2.
          destruct Hst as (from' & G' & X1 & X2 & X3 & X4 & X5).
          pose proof (ride_enter P Hwf _ _ _ _ _ _ _ _ s G' ltac:(lia) Ein) as Hnew.
          exists s. cbn [l_from l_to l_dep l_arr l_uses]. split; [exact Hnew|]. split; [auto|]. split; [auto|].
          split; [|split; [lia|auto]].
          assert (EA : l_from a = dq_START DQ).
          { inversion A; subst; try congruence. cbn [outer_loc] in *. congruence. }
          eapply (side_walk P L DQ true _ _ _ (dq_START DQ) d').
          + apply (access_offset P L DQ true); auto. rewrite <- C1. exact Ho.
          + cbn. congruence.
          + reflexivity.
          + reflexivity.
          + cbn. reflexivity.
          + rewrite M. cbn. now rewrite C1. }
      fold step. destruct (fold_left step (seq 0 (to - 1)) (d, a, g)) as [[best a'] g'].
      destruct I as (from' & G' & X1 & X2 & X3 & X4 & X5). cbn [hd] in B1.
      exists [a'], g', post, from', to. split; [reflexivity|]. split; [exact G'|]. split; [exact X3|]. split; [rewrite X1, X2; exact S2|].
      split; [cbn; lia|]. rewrite (last_arr post g g' X2). exact B2.
    - cbn [app] in *. unfold optimize_initial_departure. rewrite Ua. exact H0.
  Qed.

  Lemma opt_sfp lo hi legs : direct_on lo hi legs -> direct_on lo hi (optimize_initial_start_footpath P1 legs).
  Proof.
    intros H. pose proof H as H0. destruct H as (pre & g & post & from & to & -> & G & S1 & S2 & B1 & B2).
    pose proof (ride_of _ _ _ G) as U.
    destruct (side_shape _ _ _ _ S1) as [->|(a & o & d & -> & A & E1 & E2 & E3 & E4 & [(M & Ua)|(M & Ua)])].
    - cbn [app] in *. unfold optimize_initial_start_footpath. destruct post; [exact H0|]. rewrite U. exact H0.
    - cbn [app] in *. unfold optimize_initial_start_footpath. rewrite Ua. exact H0.
    - cbn [app] in *. unfold optimize_initial_start_footpath. rewrite Ua, U.
      pose proof G as (_ & Hroute & _). change (route_of P1 ri) with (route_of P ri). rewrite (route_of_nth P _ _ Hroute).
      change (p_tt P1) with tt. change (p_adjust P1) with (p_adjust P).
      set (step := opt_start_fp_step P1 r ri vi day to (tt_footpaths_out tt (l_from a))).
      destruct Hs as [Hs0|(Hs1 & Hs2)]; [congruence|]. cbn [outer_loc] in E1.
      assert (O : In (o, 0) (dq_start DQ) /\ In o (Query_Model.metas L (mode_of DQ true) o)).
      { inversion A as [d' Hm Hin|o' d' Hm Hin|o' d' Hin|o' d' l d1 Hm Hin]; subst; try congruence; destruct (Hs1 _ _ Hin) as (-> & Hx); auto. }
      destruct O as (O1 & O2).
      destruct (dq_use_start_footpaths DQ) eqn:UF.
      + assert (I : dep_inv g to (l_dep a) (l_from a) (fold_left step (seq 0 (to - 1)) (p_adjust P d, a, g))).
        { apply fold_left_inv.
          - exists from. do 3 (split; [auto|]). split; [exact S1|split; [lia|reflexivity]].
          - intros [[best a'] g'] s Hin Hst. apply in_seq in Hin. unfold step, opt_start_fp_step.
            destruct (s_in (stop_at r s)) eqn:Ein; [|exact Hst]. cbn [negb].
            destruct (find_fp (tt_footpaths_out tt (l_from a)) (loc_at r s)) as [[x' d']|] eqn:Efp; [|exact Hst].
            apply find_fp_some in Efp as [Hfin Ex]. cbn [fst snd] in *. subst x'. change (p_adjust P1) with (p_adjust P).
            destruct (p_adjust P d' <? best); [|exact Hst].
            destruct (l_dep a' <=? run_time P1 r vi day s kDep - p_adjust P d') eqn:C2; [|exact Hst]. apply Z.leb_le in C2.
            destruct Hst as (from' & G' & X1 & X2 & X3 & X4 & X5).
            pose proof (ride_enter P Hwf _ _ _ _ _ _ _ _ s G' ltac:(lia) Ein) as Hnew.
            exists s. cbn [l_from l_to l_dep l_arr l_uses]. split; [exact Hnew|]. split; [auto|]. split; [auto|].
            split; [|split; [lia|auto]].
            eapply (side_walk P L DQ true _ _ _ o (0 + p_adjust P d')).
            + eapply (access_walk P L DQ true _ o 0 o d'); auto. rewrite <- E1. exact Hfin.
            + cbn. congruence.
            + reflexivity.
            + reflexivity.
            + cbn [outer_time l_dep]. change (run_time P1) with (run_time P). lia.
            + cbn [l_uses l_to]. destruct (mode_of DQ true); try reflexivity; congruence. }
        fold step. destruct (fold_left step (seq 0 (to - 1)) (p_adjust P d, a, g)) as [[best a'] g'].
        destruct I as (from' & G' & X1 & X2 & X3 & X4 & X5). cbn [hd] in B1.
        exists [a'], g', post, from', to. split; [reflexivity|]. split; [exact G'|]. split; [exact X3|]. split; [rewrite X1, X2; exact S2|].
        split; [cbn; lia|]. rewrite (last_arr post g g' X2). exact B2.
      + (* no footpaths at the start: already at the start, nothing is shorter *)
        assert (D0 : d = 0).
        { inversion A as [d' Hm Hin|o' d' Hm Hin|o' d' Hin Hm|o' d' l d1 Hm Hin Hl Hu]; subst; try congruence.
          - destruct (Hs1 _ _ Hin); auto.
          - exfalso. destruct (Hs2 eq_refl) as [X|X]; congruence.
          - rewrite (Hu eq_refl) in UF. discriminate. }
        subst d.
        assert (I : fold_left step (seq 0 (to - 1)) (p_adjust P 0, a, g) = (p_adjust P 0, a, g)).
        { generalize (seq 0 (to - 1)) as l. induction l as [|s l IH]; [reflexivity|]. cbn [fold_left].
          assert (E : step (p_adjust P 0, a, g) s = (p_adjust P 0, a, g)); [|rewrite E; exact IH].
          unfold step, opt_start_fp_step. destruct (s_in (stop_at r s)); [|reflexivity]. cbn [negb].
          destruct (find_fp (tt_footpaths_out tt (l_from a)) (loc_at r s)) as [[x' d']|] eqn:Efp; [|reflexivity].
          apply find_fp_some in Efp as [Hfin Ex]. cbn [fst snd]. change (p_adjust P1) with (p_adjust P).
          destruct (Z.ltb_spec (p_adjust P d') (p_adjust P 0)) as [C|C]; [|reflexivity].
          pose proof (Hfp _ _ _ Hfin). specialize (Hmono 0 d'). lia. }
        fold step. rewrite I. exact H0.
  Qed.

  Definition arr_inv (g0 : leg) (from : nat) (hi : Z) (loc0 : nat) (st : Z * leg * leg) : Prop :=
    let '(_, g, c) := st in
    exists to, ride_data P g ri vi day from to r v /\ l_from g = l_from g0 /\ l_dep g = l_dep g0 /\
      side_legs P L DQ false (l_to g) (l_arr g) [c] /\ l_arr c <= hi /\ l_to c = loc0.
  Lemma rev_two (pre : list leg) g c : rev (pre ++ [g; c]) = c :: g :: rev pre.
  Proof. rewrite rev_app_distr. reflexivity. Qed.
  Lemma rev_back (pre : list leg) g c : rev (c :: g :: rev pre) = pre ++ [g; c].
  Proof. cbn [rev]. rewrite rev_involutive, <- app_assoc. reflexivity. Qed.

  Lemma opt_arr lo hi legs : direct_on lo hi legs -> direct_on lo hi (optimize_last_arrival P1 (opt_query DQ) legs).
  Proof.
    intros H. pose proof H as H0. destruct H as (pre & g & post & from & to & -> & G & S1 & S2 & B1 & B2).
    pose proof (ride_of _ _ _ G) as U.
    destruct (side_shape _ _ _ _ S2) as [->|(c & o & d & -> & A & E1 & E2 & E3 & E4 & [(M & Ua)|(M & Ua)])]; unfold optimize_last_arrival.
    - rewrite rev_app_distr. cbn [rev app]. destruct (rev pre); [exact H0|]. rewrite U. exact H0.
    - rewrite rev_two, Ua, U.
      pose proof G as (_ & Hroute & _). change (route_of P1 ri) with (route_of P ri). rewrite (route_of_nth P _ _ Hroute).
      set (step := fun st s => if s_out (stop_at r s) then fold_left (opt_arrival_step P1 r ri vi day from s) (travel_dests P1 (opt_query DQ)) st else st).
      assert (I : arr_inv g from (l_arr c) (l_to c) (fold_left step (seq (from + 1) (length (r_stops r) - (from + 1))) (d, g, c))).
      { apply fold_left_inv.
        - exists to. do 3 (split; [auto|]). split; [exact S2|split; [lia|reflexivity]].
        - intros st s Hin Hst. apply in_seq in Hin. unfold step. destruct (s_out (stop_at r s)) eqn:Ein; [|exact Hst].
          apply fold_left_inv; [exact Hst|]. clear st Hst. intros [[best g'] c'] [x' d'] Ho Hst. unfold opt_arrival_step. cbn [fst snd].
          destruct ((best <=? d') || negb (Nat.eqb x' (loc_at r s))) eqn:C1; [exact Hst|].
          apply orb_false_iff in C1 as [_ C1]. apply negb_false_iff, Nat.eqb_eq in C1.
          destruct (run_time P1 r vi day s kArr + d' <=? l_arr c') eqn:C2; [|exact Hst]. apply Z.leb_le in C2.
          destruct Hst as (to' & G' & X1 & X2 & X3 & X4 & X5).
          pose proof (ride_leave P Hwf _ _ _ _ _ _ _ _ s G' ltac:(lia) Ein) as Hnew.
          exists (s + 1)%nat. cbn [l_from l_to l_dep l_arr l_uses]. split; [exact Hnew|]. split; [auto|]. split; [auto|].
          split; [|split; [lia|auto]].
          assert (EA : l_to c = dq_END DQ).
          { inversion A; subst; try congruence. cbn [outer_loc] in *. congruence. }
          eapply (side_walk P L DQ false _ _ _ (dq_END DQ) d').
          + apply (access_offset P L DQ false); auto. rewrite <- C1. exact Ho.
          + cbn. congruence.
          + reflexivity.
          + reflexivity.
          + cbn. reflexivity.
          + rewrite M. cbn. now rewrite C1. }
      fold step. destruct (fold_left step _ (d, g, c)) as [[best g'] c'].
      destruct I as (to' & G' & X1 & X2 & X3 & X4 & X5). cbn [last] in B2. rewrite rev_back.
      exists pre, g', [c'], from, to'. split; [reflexivity|]. split; [exact G'|]. split; [rewrite X1, X2; exact S1|]. split; [exact X3|].
      split; [destruct pre; cbn in *; [rewrite X2; exact B1|exact B1]|cbn; lia].
    - rewrite rev_two, Ua. exact H0.
  Qed.

  Lemma opt_efp lo hi legs : direct_on lo hi legs -> direct_on lo hi (optimize_final_egress_footpath P1 legs).
  Proof.
    intros H. pose proof H as H0. destruct H as (pre & g & post & from & to & -> & G & S1 & S2 & B1 & B2).
    pose proof (ride_of _ _ _ G) as U.
    destruct (side_shape _ _ _ _ S2) as [->|(c & o & d & -> & A & E1 & E2 & E3 & E4 & [(M & Ua)|(M & Ua)])]; unfold optimize_final_egress_footpath.
    - rewrite rev_app_distr. cbn [rev app]. destruct (rev pre); [exact H0|]. rewrite U. exact H0.
    - rewrite rev_two, Ua. exact H0.
    - rewrite rev_two, Ua, U.
      pose proof G as (_ & Hroute & _). change (route_of P1 ri) with (route_of P ri). rewrite (route_of_nth P _ _ Hroute).
      change (p_tt P1) with tt. change (p_adjust P1) with (p_adjust P).
      set (step := opt_egress_fp_step P1 r ri vi day from (tt_footpaths_in tt (l_to c))).
      destruct Hd as [Hd0|(Hd1 & _)]; [congruence|]. cbn [outer_loc] in E1.
      assert (O : In (o, 0) (dq_dest DQ) /\ In o (Query_Model.metas L (mode_of DQ false) o)).
      { inversion A as [d' Hm Hin|o' d' Hm Hin|o' d' Hin|o' d' l d1 Hm Hin]; subst; try congruence; destruct (Hd1 _ _ Hin) as (-> & Hx); auto. }
      destruct O as (O1 & O2).
      assert (I : arr_inv g from (l_arr c) (l_to c) (fold_left step (seq (from + 1) (length (r_stops r) - (from + 1))) (p_adjust P d, g, c))).
      { apply fold_left_inv.
        - exists to. do 3 (split; [auto|]). split; [exact S2|split; [lia|reflexivity]].
        - intros [[best g'] c'] s Hin Hst. apply in_seq in Hin. unfold step, opt_egress_fp_step.
          destruct (s_out (stop_at r s)) eqn:Ein; [|exact Hst]. cbn [negb].
          destruct (find_fp (tt_footpaths_in tt (l_to c)) (loc_at r s)) as [[x' d']|] eqn:Efp; [|exact Hst].
          apply find_fp_some in Efp as [Hfin Ex]. cbn [fst snd] in *. subst x'. change (p_adjust P1) with (p_adjust P).
          destruct (p_adjust P d' <? best); [|exact Hst].
          destruct (run_time P1 r vi day s kArr + p_adjust P d' <=? l_arr c') eqn:C2; [|exact Hst]. apply Z.leb_le in C2.
          destruct Hst as (to' & G' & X1 & X2 & X3 & X4 & X5).
          pose proof (ride_leave P Hwf _ _ _ _ _ _ _ _ s G' ltac:(lia) Ein) as Hnew.
          exists (s + 1)%nat. cbn [l_from l_to l_dep l_arr l_uses]. split; [exact Hnew|]. split; [auto|]. split; [auto|].
          split; [|split; [lia|auto]].
          eapply (side_walk P L DQ false _ _ _ o (0 + p_adjust P d')).
          + eapply (access_walk P L DQ false _ o 0 o d'); auto; [discriminate|]. rewrite <- E1. exact Hfin.
          + cbn. congruence.
          + reflexivity.
          + reflexivity.
          + cbn [outer_time l_arr]. change (run_time P1) with (run_time P). lia.
          + cbn [l_uses l_to]. destruct (mode_of DQ false); try reflexivity; congruence. }
      fold step. destruct (fold_left step _ (p_adjust P d, g, c)) as [[best g'] c'].
      destruct I as (to' & G' & X1 & X2 & X3 & X4 & X5). cbn [last] in B2. rewrite rev_back.
      exists pre, g', [c'], from, to'. split; [reflexivity|]. split; [exact G'|]. split; [rewrite X1, X2; exact S1|]. split; [exact X3|].
      split; [destruct pre; cbn in *; [rewrite X2; exact B1|exact B1]|cbn; lia].
  Qed.

  Lemma opt_transfers_direct pl m lo hi legs : direct_on lo hi legs -> optimize_transfers P1 pl m legs = legs.
  Proof.
    intros (pre & g & post & from & to & -> & G & S1 & S2 & _ & _).
    pose proof (ride_of _ _ _ G) as U.
    destruct m as [|m]; [reflexivity|].
    assert (NP : forall front loc t ls x, side_legs P L DQ front loc t ls -> In x ls -> forall a b c d e, l_uses x <> Ride a b c d e).
    { intros front loc t ls x H Hx. destruct (side_shape _ _ _ _ H) as [->|(y & o & d & -> & _ & _ & _ & _ & _ & Y)]; [destruct Hx|].
      destruct Hx as [<-|[]]. destruct Y as [(_ & Y)|(_ & Y)]; rewrite Y; discriminate. }
    destruct (side_shape _ _ _ _ S1) as [->|(a & o & d & -> & _)].
    - destruct (side_shape _ _ _ _ S2) as [->|(c & o & d & -> & _)]; reflexivity.
    - destruct (side_shape _ _ _ _ S2) as [->|(c & o' & d' & -> & _)]; [reflexivity|].
      cbn [app optimize_transfers]. rewrite (opt_transfer_other P1 pl a g c).
      + destruct m; reflexivity.
      + left. eapply NP; [exact S1|now left].
  Qed.

  Theorem optimize_direct pl lo hi legs : direct_on lo hi legs -> direct_on lo hi (optimize P pl DQ legs).
  Proof.
    intros H. unfold optimize, optimize_footpaths. cbv zeta.
    apply opt_dep, opt_sfp, opt_arr, opt_efp in H. rewrite (opt_transfers_direct _ _ _ _ _ H). exact H.
  Qed.
End OptDirect.
