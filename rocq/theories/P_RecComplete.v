(** Property theorems C49: every journey kept in the result set can be reconstructed.
    Specifications: [Raptor_Spec] (connections), [Rec_Spec] (itineraries). *)
From Coq Require Import List ZArith Bool Arith Lia.
From Verif Require Import Base Pareto_Model Pareto_Proofs Time_Model Time_Proofs Raptor_Model Raptor_Spec Raptor_Base Raptor_Sound Raptor_Genuine
  Raptor_Opt Raptor_Final P_Raptor Rec_Model Rec_Spec Rec_Proofs Rec_Opt Rec_Support Rec_Complete P_Rec.
Import ListNotations.
Local Open Scope Z_scope.

(** The offset table of the search holds the shortest destination offset of every location; every entry is shorter than 511 minutes. *)
Definition dest_offsets_ok (P : params) (Q : rquery) : Prop :=
  forall off, p_dist_to_end P = Some off ->
    (forall l d, off l = Some d -> d < 511 /\ exists x, In (x, d) (rq_dest Q) /\ In l (rq_metas Q x)) /\
    (forall x l d, In (x, d) (rq_dest Q) -> In l (rq_metas Q x) -> exists d', off l = Some d' /\ d' <= d).
(** Every start of a group comes from the query: a start offset (intermodal), or a start location itself, or the end of a footpath
    from a start location. *)
Definition starts_explained (P : params) (Q : rquery) (g : group) : Prop :=
  forall l t, In (l, t) (g_starts g) ->
    if rq_intermodal_start Q then exists x d, In (x, d) (rq_start Q) /\ rq_matches Q x l = true /\ no_later P (after P (g_start g) d) t
    else is_start_location Q l \/ exists x d, is_start_location Q x /\ walk P x l d /\ t = after P (g_start g) d.

Section Kept.
  Variable P : params.
  Variable mt : nat.
  Notation o := (o P).
  Hypothesis Hwf : all_vehicles_wf P.
  Hypothesis Hdur : durations_ok P.
  Hypothesis Hend : end_ok P.
  Hypothesis Hloc : locations_ok P.

  Lemma dominated_absurd gs x j : groups_ok P gs -> (p_fwd P = false -> rides_take_time P) ->
    In x (snd (raptor P mt gs)) -> In j (snd (raptor P mt gs)) ->
    o (j_start j) <= o (j_start x) -> o (j_dest x) <= o (j_dest j) -> j_transfers x <= j_transfers j ->
    (o (j_start j) < o (j_start x) \/ j_transfers x < j_transfers j) -> False.
  Proof.
    intros Hgs Htime Hx Hj Hs Hd Ht Hstrict. rewrite raptor_results in *. set (L := all_reported P mt (reset_arrivals P) gs) in *.
    assert (Hne : x <> j) by (intros ->; lia).
    assert (Hxr := add_all_sound _ _ journey_dom_trans _ _ Hx).
    assert (Hdom : journey_dominates x j = true).
    { destruct (p_fwd P) eqn:Ef.
      - assert (X := reported_direction P mt Hwf Hdur Hend Hloc gs x 0 Hgs ltac:(lia) (rides_take_zero P Hwf) Hxr).
        unfold journey_dominates. unfold Raptor_Base.o in *. rewrite Ef in *.
        destruct (Z.leb_spec (j_start x) (j_dest x)); [|lia]. rewrite !andb_true_iff, !Z.leb_le. lia.
      - assert (X : o (j_start x) + 1 <= o (j_dest x)).
        { apply (reported_direction P mt Hwf Hdur Hend Hloc gs); auto; [lia|]. intros l1 tb l' ta Hr1.
          assert (Y := Htime eq_refl _ _ _ _ Hr1). apply (ride_ok_order P Hwf) in Hr1.
          assert (o tb <> o ta) by (intros Z; apply o_inj in Z; auto). lia. }
        unfold journey_dominates. unfold Raptor_Base.o in *. rewrite Ef in *.
        destruct (Z.leb_spec (j_start x) (j_dest x)); [lia|]. rewrite !andb_true_iff, !Z.leb_le. lia. }
    apply In_nth_error in Hx as (px & Hpx). apply In_nth_error in Hj as (pj & Hpj).
    destruct (Nat.eq_dec px pj) as [->|Hn]; [congruence|].
    rewrite (add_all_antichain _ _ journey_dom_trans L px pj x j Hpx Hpj Hn) in Hdom. discriminate.
  Qed.

  Lemma starts_split gs tr : forall k,
    (forall l t, arrived P (starts_of gs) tr k l t -> exists g, In g gs /\ arrived P (fun l t => In (l, t) (g_starts g)) tr k l t) /\
    (forall l t, ready P (starts_of gs) tr k l t -> exists g, In g gs /\ ready P (fun l t => In (l, t) (g_starts g)) tr k l t).
  Proof.
    assert (HR : forall k,
      (forall l t, arrived P (starts_of gs) tr k l t -> exists g, In g gs /\ arrived P (fun l t => In (l, t) (g_starts g)) tr k l t) ->
      (forall l t, ready P (starts_of gs) tr k l t -> exists g, In g gs /\ ready P (fun l t => In (l, t) (g_starts g)) tr k l t)).
    { intros k HA l t H. inversion H as [l0 t0 (g & Hg & Hs)|k0 l0 t0 Ha|k0 l0 t0 l1 d Ha Hw]; subst.
      - exists g. split; auto. now apply ready_start.
      - destruct (HA _ _ Ha) as (g & Hg & Ha'). exists g. split; auto. now apply ready_transfer.
      - destruct (HA _ _ Ha) as (g & Hg & Ha'). exists g. split; auto. eapply ready_walk; eauto. }
    induction k as [|k [IHa IHr]].
    - assert (HA : forall l t, arrived P (starts_of gs) tr 0 l t -> exists g, In g gs /\ arrived P (fun l t => In (l, t) (g_starts g)) tr 0 l t)
        by (intros l t H; inversion H). auto.
    - assert (HA : forall l t, arrived P (starts_of gs) tr (S k) l t -> exists g, In g gs /\ arrived P (fun l t => In (l, t) (g_starts g)) tr (S k) l t).
      { intros l t H. inversion H as [k0 l0 t0 tb l' ta Hr Hn Hri]; subst. destruct (IHr _ _ Hr) as (g & Hg & Hr'). exists g. split; auto.
        eapply arrived_ride; eauto. }
      auto.
  Qed.
  Lemma connection_split gs k l t : connection P (starts_of gs) (transfer_time P) k l t ->
    exists g, In g gs /\ connection P (fun l t => In (l, t) (g_starts g)) (transfer_time P) k l t.
  Proof.
    intros H. destruct (starts_split gs (transfer_time P) k) as [HA _].
    inversion H as [Hn Hd Ha|l0 t0 d Hn Hd Ha Hw Et|off l0 t0 d Hoff Hd El Ha Ho Et]; subst;
      destruct (HA _ _ Ha) as (g & Hg & Ha'); exists g; (split; [exact Hg|]); [eapply conn_station|eapply conn_walk|eapply conn_offset]; eauto.
  Qed.
End Kept.

Theorem C49_kept_journeys_are_reconstructed : forall P Q B D mt gs1 g j,
  all_vehicles_wf P -> durations_ok P -> end_ok P -> locations_ok P ->
  columns_sorted P -> index_ok P -> fifo P -> lower_bounds_ok P D ->
  groups_ok P (gs1 ++ [g]) -> (p_fwd P = false -> rides_take_time P) ->
  starts_reach_ok P (starts_of (gs1 ++ [g])) ->
  (forall l t, starts_of (gs1 ++ [g]) l t -> (l < tt_n_locations (p_tt P))%nat /\ p_is_dest P l = false) ->
  walks_ok P Q B -> (forall l t, starts_of (gs1 ++ [g]) l t -> well_inside B t) -> well_inside B (g_start g) ->
  dest_offsets_ok P Q -> (forall g', In g' (gs1 ++ [g]) -> starts_explained P Q g') ->
  (forall g', In g' gs1 -> g_start g' <> g_start g) ->
  In j (snd (raptor P mt (gs1 ++ [g]))) -> j_start j = g_start g ->
  (* horizon of the search *)
  (forall g', In g' (gs1 ++ [g]) -> no_later P (j_dest j) (g_worst g')) -> no_later P (j_dest j) (after P (g_start g) 7200) ->
  let labels := s_rt (fst (raptor P mt (gs1 ++ [g]))) in
  let transfers := Z.to_nat (j_transfers j) in
  (exists l, p_is_dest P l = true /\ labels (transfers + 1)%nat l = j_dest j) /\
  forall l, p_is_dest P l = true -> labels (transfers + 1)%nat l = j_dest j ->
    exists legs, reconstruct_legs P Q labels l transfers (g_start g) = Some legs /\
                 itinerary P Q (transfers + 1) (g_start g) l (j_dest j) legs.
Proof.
  intros P Q B D mt gs1 g j Hwf Hdur Hend Hloc Hcol Hidx Hfifo HD Hgs Htime Hreach Hsl HW Hin Hg Hoffs Hexp Hdist Hj Hjs Hworst Hhor labels transfers.
  assert (Elab : labels = s_rt (after_groups P mt (reset_arrivals P) (gs1 ++ [g]))) by (unfold labels, raptor; rewrite run_groups_eq; reflexivity).
  set (s := after_groups P mt (reset_arrivals P) (gs1 ++ [g])) in *.
  destruct (prefix_gsinv P mt Hwf Hdur Hend Hloc (gs1 ++ [g]) gs1 g [] Hgs eq_refl) as (k0 & Hgi). fold s in Hgi.
  assert (Hlow : forall l t, starts_of (gs1 ++ [g]) l t -> OL P < o P t) by (intros l t; apply (prefix_low P (gs1 ++ [g]) gs1 g [] Hgs eq_refl)).
  assert (Hj' := Hj). rewrite raptor_results in Hj'.
  assert (Hrep := add_all_sound _ _ journey_dom_trans _ _ Hj'). clear Hj'.
  (* the journey comes from the last group *)
  assert (Hlast : exists k l, (l < tt_n_locations (p_tt P))%nat /\ p_is_dest P l = true /\ (1 <= k < end_k mt)%nat /\ s_rt s k l <> kInvalid P /\
             j = mk_journey (g_start g) (s_rt s k l) (Z.of_nat k - 1)).
  { apply in_all_reported in Hrep as (ga & g' & gb & E & Hr). apply in_reported in Hr as (k & l & Hl & Hd & Hk & Hne & Ej).
    assert (Eg : g_start g' = g_start g) by (rewrite <- Hjs, Ej; reflexivity).
    destruct gb as [|x gb] using rev_ind.
    - apply app_inj_tail in E as [-> ->]. exists k, l. auto 10.
    - exfalso. rewrite app_comm_cons, app_assoc in E. apply app_inj_tail in E as [E _]. apply (Hdist g'); auto.
      rewrite E. apply in_app_iff. right. left. reflexivity. }
  destruct Hlast as (k & lj & Hlj & Hdj & Hk & Hnej & Ej).
  assert (Etr : (transfers + 1)%nat = k). { unfold transfers. rewrite Ej. cbn [j_transfers]. lia. }
  assert (Edest : j_dest j = s_rt s k lj) by (rewrite Ej; reflexivity).
  split. { exists lj. split; auto. now rewrite Etr, Elab, Edest. }
  intros l Hd Hl.
  assert (Hne : labels (transfers + 1)%nat l <> kInvalid P) by (rewrite Hl, Edest; auto).
  assert (HaOI : o P (j_dest j) < OI P).
  { rewrite Edest. pose proof (gs_rt_range _ _ _ _ Hgi k lj). assert (o P (s_rt s k lj) <> OI P); [|lia].
    intros E'. apply Hnej. apply (o_inj P). now rewrite o_kInvalid. }
  assert (Horder : forall g', In g' (gs1 ++ [g]) -> o P (g_start g) <= o P (g_start g')).
  { intros g' Hg'. apply in_app_iff in Hg' as [Hg'|[<-|[]]]; [|lia].
    assert (X := go_order _ _ Hgs gs1 g [] g' eq_refl Hg'). now apply no_later_o in X. }
  (* no group reaches a destination as early with fewer rides, or with as many rides and a later start *)
  assert (Hopt : forall g' i l1 a1, In g' (gs1 ++ [g]) -> (i <= k)%nat -> connection P (fun l t => In (l, t) (g_starts g')) (transfer_time P) i l1 a1 ->
      o P a1 <= o P (j_dest j) -> exists x, In x (snd (raptor P mt (gs1 ++ [g]))) /\ j_transfers x <= Z.of_nat i - 1 /\
      o P (j_dest x) <= o P (j_dest j) /\ o P (g_start g') <= o P (j_start x)).
  { intros g' i l1 a1 Hg' Hi Hc Ha1. apply in_split in Hg' as Hs. destruct Hs as (ga & gb & E).
    assert (Hsub : forall x, In x (ga ++ [g']) -> In x (gs1 ++ [g])).
    { intros x Hx. rewrite E. apply in_app_iff in Hx as [Hx|[<-|[]]]; apply in_app_iff; [left|right; left]; auto. }
    assert (HsubS : forall l t, starts_of (ga ++ [g']) l t -> starts_of (gs1 ++ [g]) l t).
    { intros l0 t0 (x & Hx & Ht). exists x. auto. }
    destruct (search_optimal P mt Hwf Hdur Hend Hloc Hcol Hidx Hfifo D HD (gs1 ++ [g]) ga g' gb i l1 a1) as (x & Hx & X1 & X2 & X3); auto.
    - split; [|exact (proj2 Hreach)]. intros l0 t0 ri r s1 s2 st1 st2 Hs0. apply (proj1 Hreach l0 t0). auto.
    - intros l0 t0 Hs0. apply (Hsl l0 t0). auto.
    - intros x Hx. assert (X := Hworst x (Hsub x Hx)). apply no_later_o. apply no_later_o in X. lia.
    - unfold end_k in *. lia.
    - apply no_later_o. apply no_later_o in Hhor. rewrite o_after in *. specialize (Horder g' Hg'). lia.
    - lia.
    - exists x. apply no_later_o in X2, X3. split; auto. split; auto. split; [lia|auto]. }
  assert (Hdom2 : forall i l1 t, (i < k)%nat -> connection P (starts_of (gs1 ++ [g])) (transfer_time P) i l1 t -> o P t <= o P (j_dest j) -> False).
  { intros i l1 t Hi Hc Ht. apply connection_split in Hc as (g' & Hg' & Hc).
    destruct (Hopt g' i l1 t Hg' ltac:(lia) Hc Ht) as (x & Hx & X1 & X2 & X3).
    assert (Ejt : j_transfers j = Z.of_nat k - 1) by (rewrite Ej; reflexivity).
    specialize (Horder g' Hg').
    eapply (dominated_absurd P mt Hwf Hdur Hend Hloc (gs1 ++ [g]) x j); eauto; rewrite ?Hjs; lia. }
  assert (Hdom3 : forall g' l1 t, In g' (gs1 ++ [g]) -> o P (g_start g) < o P (g_start g') ->
            connection P (fun l t => In (l, t) (g_starts g')) (transfer_time P) k l1 t -> o P t <= o P (j_dest j) -> False).
  { intros g' l1 t Hg' Hlt Hc Ht.
    destruct (Hopt g' k l1 t Hg' ltac:(lia) Hc Ht) as (x & Hx & X1 & X2 & X3).
    assert (Ejt : j_transfers j = Z.of_nat k - 1) by (rewrite Ej; reflexivity).
    eapply (dominated_absurd P mt Hwf Hdur Hend Hloc (gs1 ++ [g]) x j); eauto; rewrite ?Hjs; lia. }
  assert (Hdom1 : forall i l1, (1 <= i < k)%nat -> p_is_dest P l1 = true -> o P (j_dest j) < o P (labels i l1)).
  { intros i l1 Hi Hd1. destruct (Z.lt_ge_cases (o P (j_dest j)) (o P (labels i l1))) as [|Hge]; auto. exfalso.
    assert (Hne1 : s_rt s i l1 <> kInvalid P).
    { intros E. rewrite Elab, E, o_kInvalid in Hge. lia. }
    set (j0 := mk_journey (g_start g) (s_rt s i l1) (Z.of_nat i - 1)).
    assert (Hj0 : In j0 (all_reported P mt (reset_arrivals P) (gs1 ++ [g]))).
    { apply in_all_reported. exists gs1, g, []. split; auto. apply in_reported. exists i, l1.
      split; [now apply Hloc|]. split; auto. split; [lia|]. split; auto. }
    destruct (add_all_covers _ _ journey_dom_refl journey_dom_trans _ j0 Hj0) as (x & Hx & Hxd).
    assert (Hxr := add_all_sound _ _ journey_dom_trans _ x Hx).
    assert (X1 := reported_direction P mt Hwf Hdur Hend Hloc (gs1 ++ [g]) x 0 Hgs ltac:(lia) (rides_take_zero P Hwf) Hxr).
    rewrite <- raptor_results in Hx.
    assert (X : j_transfers x <= Z.of_nat i - 1 /\ o P (j_dest x) <= o P (s_rt s i l1) /\ o P (g_start g) <= o P (j_start x)).
    { assert (X2 := reported_direction P mt Hwf Hdur Hend Hloc (gs1 ++ [g]) j0 0 Hgs ltac:(lia) (rides_take_zero P Hwf) Hj0).
      unfold j0 in X2, Hxd. cbn [j_start j_dest] in X2. unfold journey_dominates in Hxd. cbn [j_start j_dest j_transfers] in Hxd.
      unfold Raptor_Base.o in *. destruct (p_fwd P); destruct (Z.leb_spec (j_start x) (j_dest x)); rewrite !andb_true_iff, !Z.leb_le in Hxd; lia. }
    assert (Ejt : j_transfers j = Z.of_nat k - 1) by (rewrite Ej; reflexivity).
    rewrite Elab in Hge.
    eapply (dominated_absurd P mt Hwf Hdur Hend Hloc (gs1 ++ [g]) x j); eauto; rewrite ?Hjs; lia. }
  assert (Hrec : reconstruct_legs P Q labels l transfers (g_start g) <> None).
  { assert (HW' := HW). destruct HW' as [HB Hsym Htr Hfp Hdst].
    assert (Hfp' : forall a b d, In (b, d) (tt_footpaths_out (p_tt P) a) -> 0 <= p_adjust P d <= B) by (intros a b d Hab; eapply Hfp; exists d; eauto).
    destruct (groups_sup P Hwf Hdur Hend Hloc (starts_of (gs1 ++ [g])) Hlow mt (gs1 ++ [g])) as (k1 & _ & Hsup).
    { intros g' l0 t0 Hg' Ht0. split; [exists g'; auto|]. eapply (start_so P); eauto. }
    fold (after_groups P mt (reset_arrivals P) (gs1 ++ [g])) in Hsup. fold s in Hsup. unfold sup_rt in Hsup. rewrite <- Elab in Hsup.
    assert (Ht0 : OL P <= o P (g_start g) <= OI P - B). { unfold well_inside in Hg. unfold Raptor_Base.o, OL, OI. destruct (p_fwd P); lia. }
    eapply (reconstruct_complete P Q labels Hwf Hidx) with (B := B) (K := k) (St := starts_of (gs1 ++ [g])); eauto.
    - intros i l0. rewrite Elab. assert (X := gs_rt_range _ _ _ _ Hgi i l0). lia.
    - intros i l0. apply (search_labels_inside P mt gs1 g B); auto.
    - lia.
    - now rewrite <- Etr.
    - intros off l0 d Hoff Ho. destruct (Hoffs off Hoff) as (H1 & _). destruct (H1 l0 d Ho) as (H2 & x & H3 & H4). eauto.
    - intros off x l0 d Hoff. apply (Hoffs off Hoff).
    - intros _ i l1 Hi Hd1. rewrite <- Etr, Hl. auto.
    - intros i l1 t Hi Hc Ht. rewrite <- Etr, Hl in Ht. eauto.
    - intros l0 Hn0. rewrite Elab in Hn0. destruct (gs_rt _ _ _ _ Hgi 0%nat l0 Hn0) as (i & Hi & _ & HL).
      assert (Hs0 : starts_of (gs1 ++ [g]) l0 (s_rt s 0%nat l0)).
      { destruct HL as [_ Hs|t0 _ Ha _|_ _ Ha|l1 t0 d Ha _ _|off l1 t0 d _ _ Ha _ _|Hk1 _]; auto; try (apply arr_pos in Ha; lia). lia. }
      rewrite <- Elab in Hs0. destruct Hs0 as (g' & Hg' & Ht').
      exists (g_start g'), (fun l t => In (l, t) (g_starts g')). split; auto.
      assert (X := go_starts _ _ Hgs g' l0 _ Hg' Ht'). apply no_later_o in X. specialize (Horder g' Hg'). split; [lia|]. split.
      + intros Hlt l1 a1 Hc Ha1. rewrite <- Etr, Hl in Ha1. rewrite <- Etr in Hc. eapply (Hdom3 g' l1 a1); eauto. now rewrite <- Etr.
      + assert (Y := Hexp g' Hg' l0 _ Ht'). destruct (rq_intermodal_start Q).
        * destruct Y as (x & d & Y1 & Y2 & Y3). exists x, d. split; auto. split; auto. apply no_later_o in Y3. rewrite o_after in Y3. exact Y3.
        * destruct Y as [Y|(x & d & Y1 & (d0 & Y2 & ->) & Y3)]; auto. right. exists x, d0. split; auto. split; auto.
          destruct (p_fwd P); now apply Hsym.
  }
  destruct (reconstruct_legs P Q labels l transfers (g_start g)) as [legs|] eqn:E; [clear Hrec|congruence].
  exists legs. split; auto. rewrite <- Hl.
  exact (C48_reconstruction_is_an_itinerary P Q B mt gs1 g l transfers legs Hwf Hdur Hend Hloc Hgs HW Hin Hg Hd Hne E).
Qed.

(** * Non-vacuity: the journey of the second group of the example timetable *)
Module ExampleRecC.
  Import Example1 ExampleRec.
  Lemma in_results : In (mk_journey 470 550 1) (snd (raptor P 5 ([g1] ++ [g2]))).
  Proof. vm_compute. auto. Qed.
  Lemma explained g' : In g' ([g1] ++ [g2]) -> starts_explained P Q g'.
  Proof. intros [<-|[<-|[]]] l t [[= <- <-]|[]]; cbn; left; exists 0%nat, 0; cbn; auto. Qed.
  Lemma starts l t : starts_of ([g1] ++ [g2]) l t -> (l < tt_n_locations (p_tt P))%nat /\ p_is_dest P l = false.
  Proof. intros (g & [<-|[<-|[]]] & [[= <- <-]|[]]); cbn; auto. Qed.
  Example C49_nonvacuous :
    exists legs, reconstruct_legs P Q (s_rt (fst (raptor P 5 ([g1] ++ [g2])))) 2 1 470 = Some legs /\ itinerary P Q 2 470 2 550 legs.
  Proof.
    assert (Hin : forall l t, starts_of ([g1] ++ [g2]) l t -> well_inside 15 t).
    { intros l t (g & [<-|[<-|[]]] & [[= <- <-]|[]]); unfold well_inside; lia. }
    assert (Hg : well_inside 15 (g_start g2)) by (unfold well_inside; cbn; lia).
    assert (Hoff : dest_offsets_ok P Q) by (intros off E; discriminate).
    assert (Hd : forall g', In g' [g1] -> g_start g' <> g_start g2) by (intros g' [<-|[]]; cbn; lia).
    assert (Hw : forall g', In g' ([g1] ++ [g2]) -> no_later P (j_dest (mk_journey 470 550 1)) (g_worst g')).
    { intros g' [<-|[<-|[]]]; unfold no_later; cbn; lia. }
    assert (Hf : p_fwd P = false -> rides_take_time P) by discriminate.
    assert (Hh : no_later P (j_dest (mk_journey 470 550 1)) (after P (g_start g2) 7200)) by (unfold no_later; cbn; lia).
    pose proof (C49_kept_journeys_are_reconstructed P Q 15 D 5 [g1] g2 (mk_journey 470 550 1) wf dur endok loc cols idx fifo_ok lbs grp Hf
      starts_far starts walks Hin Hg Hoff explained Hd in_results eq_refl Hw Hh) as [_ X].
    change (Z.to_nat (j_transfers (mk_journey 470 550 1))) with 1%nat in X. change (j_dest (mk_journey 470 550 1)) with 550 in X.
    change (g_start g2) with 470 in X. change (1 + 1)%nat with 2%nat in X.
    refine (X 2%nat eq_refl _). vm_compute. reflexivity.
  Qed.
End ExampleRecC.

(** * Journeys that are found and then lost (finding F49) *)
(** Destination offset of 600 minutes: the search uses it (16 bit), the reconstruction rejects offsets of 511 minutes and more. *)
Module LongOffset.
  Definition v := mk_vehicle (fun s _ => mk_delta 0 (match s with O => 480 | _ => 500 end)) (fun d => (10 <=? d) && (d <? 20)).
  Definition st (l : Z) := mk_stop l true true true true.
  Definition r := mk_route [st 0; st 1] 3 (fun _ => false) (fun _ => false) (fun _ _ => false) [v] None.
  Definition tt := mk_tt 3 [r] (fun l => if Nat.ltb l 2 then [0%nat] else []) (fun _ => 5) (fun _ => []) (fun _ => []) (fun _ d => (10 <=? d) && (d <? 20)).
  Definition P := mk_params true tt (fun l => Nat.eqb l 2) (Some (fun l => if Nat.eqb l 1 then Some 600 else None)) 2 (fun _ => 0) 10
                    (fun _ => true) (fun _ => false) (fun d => d).
  Definition Q := mk_rquery false false false [(0%nat, 0)] [(1%nat, 600)] Nat.eqb (fun l => [l]) 98.
  Definition g := mk_group 470 (470 + 2880) [(0%nat, 470)].
End LongOffset.
Theorem C49_long_destination_offset_refuted : exists P Q g,
  connection P (fun l t => In (l, t) (g_starts g)) (transfer_time P) 1 (p_end P) 1100 /\
  In (1%nat, 600) (rq_dest Q) /\ rq_metas Q 1 = [1%nat] /\ (exists off, p_dist_to_end P = Some off /\ off 1%nat = Some 600) /\
  snd (raptor P 5 [g]) = [mk_journey (g_start g) 1100 0] /\
  reconstruct_legs P Q (s_rt (fst (raptor P 5 [g]))) (p_end P) 0 (g_start g) = None.
Proof.
  exists LongOffset.P, LongOffset.Q, LongOffset.g. split.
  { apply (conn_offset LongOffset.P _ _ 1 2 1100 (fun l => if Nat.eqb l 1 then Some 600 else None) 1%nat 500 600); try reflexivity.
    apply (arrived_ride LongOffset.P _ _ 0 0 470 480 1 500); [apply ready_start; left; reflexivity|unfold no_later; cbn; lia|].
    apply (ride_intro LongOffset.P 0%nat 480 1%nat 500 0%nat LongOffset.r 0%nat LongOffset.v 10 0%nat 1%nat (LongOffset.st 0) (LongOffset.st 1));
      try reflexivity; try (unfold runs_on; cbn; lia); cbn; try lia; intros; discriminate. }
  split; [left; reflexivity|]. split; [reflexivity|]. split; [eexists; split; reflexivity|]. split; vm_compute; reflexivity.
Qed.
(** Station start with an offset of 10 minutes and a footpath of 5 minutes to the first stop: the start label lies 15 minutes after
    the start, the reconstruction expects 5. *)
Module StartOffset.
  Definition v := mk_vehicle (fun s _ => mk_delta 0 (match s with O => 485 | _ => 500 end)) (fun d => (10 <=? d) && (d <? 20)).
  Definition st (l : Z) := mk_stop l true true true true.
  Definition r := mk_route [st 1; st 2] 3 (fun _ => false) (fun _ => false) (fun _ _ => false) [v] None.
  Definition tt := mk_tt 3 [r] (fun l => if Nat.eqb l 0 then [] else [0%nat]) (fun _ => 5)
     (fun l => match l with O => [(1%nat, 5)] | _ => [] end) (fun l => match l with 1%nat => [(0%nat, 5)] | _ => [] end) (fun _ d => (10 <=? d) && (d <? 20)).
  Definition P := mk_params true tt (fun l => Nat.eqb l 2) None 99 (fun _ => 0) 10 (fun _ => true) (fun _ => false) (fun d => d).
  Definition Q := mk_rquery false false false [(0%nat, 10)] [(2%nat, 0)] Nat.eqb (fun l => [l]) 98.
  Definition g := mk_group 470 (470 + 2880) [(0%nat, 480); (1%nat, 485)].
End StartOffset.
Theorem C49_station_start_offset_refuted : exists P Q g,
  rq_start Q = [(0%nat, 10)] /\ footpath_time P 0 1 5 /\ g_starts g = [(0%nat, g_start g + 10); (1%nat, g_start g + 10 + 5)] /\
  snd (raptor P 5 [g]) = [mk_journey (g_start g) 500 0] /\
  reconstruct_legs P Q (s_rt (fst (raptor P 5 [g]))) 2 0 (g_start g) = None.
Proof.
  exists StartOffset.P, StartOffset.Q, StartOffset.g. split; [reflexivity|]. split; [exists 5; cbn; auto|]. split; [reflexivity|].
  split; vm_compute; reflexivity.
Qed.
