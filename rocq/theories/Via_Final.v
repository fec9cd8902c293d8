(** Optimality of the search with via stops, over all start times. *)
From Coq Require Import List ZArith Bool Arith Lia.
From Verif Require Import Base Pareto_Model Pareto_Proofs Time_Model Time_Proofs Raptor_Model Raptor_Spec Raptor_Base Raptor_Sound Raptor_Opt Raptor_Genuine Raptor_Final
  Via_Model Via_Spec Via_Expand Via_Sound Via_Genuine Via_Opt.
Import ListNotations.
Local Open Scope Z_scope.

Section VFinal.
  Variable P : params.
  Variable vias : list via.
  Variable mt : nat.
  Notation fwd := (p_fwd P).
  Notation tt := (p_tt P).
  Notation o := (o P).
  Notation OI := (OI P).
  Notation OL := (OL P).
  Notation kInvalid := (kInvalid P).
  Notation nv := (nv vias).
  Notation ix := (ix vias).
  Notation n_loc := (tt_n_locations (p_tt P)).
  Notation visited := (visited vias).
  Notation staying := (staying vias).
  Notation PX := (PX P vias).

  Hypothesis Hwf : all_vehicles_wf P.
  Hypothesis Hdur : durations_ok P.
  Hypothesis Hend : end_ok P.
  Hypothesis Hloc : locations_ok P.
  Hypothesis Hstay : stays_ok vias.

  (** Every reported journey lies in search direction. *)
  Lemma via_reported_direction gs j : groups_ok P gs ->
    In j (via_all_reported P vias mt (reset_arrivals P) gs) -> o (j_start j) <= o (j_dest j).
  Proof.
    intros Hgs Hin. apply in_via_all_reported in Hin as (gs1 & g & gs2 & E & Hin).
    apply in_via_reported in Hin as (k & l & Hl & Hd & Hk & Hne & ->). cbn [j_start j_dest].
    assert (Hlow : forall l t, starts_of (gs1 ++ [g]) l t -> OL < o t) by (eapply prefix_low; eauto).
    destruct (via_after_both P vias Hwf Hdur Hend Hloc Hstay mt (gs1 ++ [g]) (starts_of (gs1 ++ [g])) Hlow) as (k0 & Hs & Hp).
    { intros g' l0 t0 Hin Ht. split; [exists g'; auto|]. eapply start_so; eauto. eapply prefix_in; eauto. }
    destruct (Hp k (ix l nv) ltac:(lia) Hne) as (i & Hi & HL).
    assert (HStH : forall x t, StX vias (starts_of (gs1 ++ [g])) x t -> o (g_start g) <= Raptor_Base.o PX t).
    { intros x t (l0 & Hs0 & _). change (o (g_start g) <= o t). revert Hs0. eapply prefix_start; eauto. }
    exact (label_lower PX (x_wf P vias Hwf) (x_dur P vias Hdur Hstay) _ (o (g_start g)) HStH i _ _ HL).
  Qed.

  (** Connections with vias are connections of the expanded timetable. *)
  Section Reach.
    Variable St0 : nat -> Z -> Prop.
    Notation StX0 := (StX vias St0).
    Notation Arr := (arrived PX StX0 (tr_eff PX)).
    Notation Ready := (ready PX StX0 (tr_eff PX)).
    Lemma via_reach_expanded : forall k,
      (forall v l t, varrived P vias St0 (transfer_time P) k v l t -> (v <= nv)%nat /\ Arr k (ix l v) t) /\
      (forall v l t, vready P vias St0 (transfer_time P) k v l t ->
         (v <= nv)%nat /\ exists t', o t' <= o t /\ Ready k (ix l v) t').
    Proof.
      assert (HR : forall k,
        (forall v l t, varrived P vias St0 (transfer_time P) k v l t -> (v <= nv)%nat /\ Arr k (ix l v) t) ->
        (forall v l t, vready P vias St0 (transfer_time P) k v l t ->
           (v <= nv)%nat /\ exists t', o t' <= o t /\ Ready k (ix l v) t')).
      { intros k HA v l t Hr. inversion Hr as [l0 t0 Hs|k0 v0 l0 t0 Ha|k0 v0 l0 t0 l1 d Ha Hw]; subst.
        - split; [apply start_slot_le|]. exists t. split; [lia|]. apply ready_start. exists l. auto.
        - destruct (HA _ _ _ Ha) as [Hv Hx]. split; [apply visited_le; auto|].
          exists (after P t0 (tr_via P vias l (visited v0 l) + staying v0 l)). split.
          + rewrite !o_after. unfold tr_via. pose proof (tr_nonneg P Hdur l). destruct (_ && _); lia.
          + now apply ready_change.
        - destruct (HA _ _ _ Ha) as [Hv Hx]. split; [apply visited_le, visited_le; auto|].
          exists (after P t0 (d + staying v0 l0 + staying (visited v0 l0) l)). split; [lia|].
          now apply ready_foot. }
      induction k as [|k [IHa IHr]].
      - assert (HA : forall v l t, varrived P vias St0 (transfer_time P) 0 v l t -> (v <= nv)%nat /\ Arr 0 (ix l v) t) by (intros v l t Hx; inversion Hx).
        auto.
      - assert (HA : forall v l t, varrived P vias St0 (transfer_time P) (S k) v l t -> (v <= nv)%nat /\ Arr (S k) (ix l v) t).
        { intros v l t Hx. inversion Hx as [k0 v0 l0 t0 tb v' l' ta Hr Hn Hri]; subst.
          destruct (IHr _ _ _ Hr) as (Hv & t' & Ht' & Hr').
          destruct (x_ride_complete P vias v0 l0 tb v l t Hv Hri) as [Hv' Hri']. split; auto.
          eapply arrived_ride; [exact Hr'| |exact Hri'].
          apply no_later_o. apply no_later_o in Hn. change (Raptor_Base.o PX) with o. lia. }
        auto.
    Qed.
    Lemma via_connection_succ k l a : via_connection P vias St0 (transfer_time P) k l a ->
      p_is_dest P l = true /\ exists x ta, Arr k x ta /\ succ PX x ta (ix l nv) a.
    Proof.
      intros [v t0 Hn Hd Ha Hv ->|v l0 t0 d Hn Hd Ha Hw Hv ->|off v l0 t0 d Hoff Hd -> Ha Ho Hv ->]; (split; [exact Hd|]);
        destruct (proj1 (via_reach_expanded k) _ _ _ Ha) as [Hvn Hx];
        destruct (arr_ix P vias Hend Hloc St0 _ _ _ _ Hvn Hx) as [Hl He].
      - exists (ix l v), t0. split; auto.
        assert (E0 : tr_via P vias l nv = 0).
        { unfold tr_via, is_intermodal_dest. rewrite Hn, Hd, Nat.eqb_refl. reflexivity. }
        rewrite staying_is_via. rewrite visited_is_via in Hv. destruct (is_via vias v l) eqn:Ev.
        + change (after P t0) with (after PX t0). assert (X := x_walk_via P vias l v Hl Ev He). rewrite Hv in X.
          change (length vias) with nv in X. rewrite E0, Z.add_0_l in X. now apply succ_walk.
        + assert (Y := tr_eff_ix P vias l v Hvn Ev). rewrite Hv in Y. change (length vias) with nv in Y. rewrite E0 in Y.
          rewrite Hv. change (length vias) with nv. rewrite <- Y. change (after P t0) with (after PX t0). apply succ_transfer.
      - exists (ix l0 v), t0. split; auto. change nv with (length vias). rewrite <- Hv. change (after P t0) with (after PX t0).
        apply succ_walk. now apply x_walk_complete.
      - exists (ix l0 v), t0. split; auto. rewrite Z.add_comm.
        change (ix (p_end P) nv) with (p_end PX). change (after P t0) with (after PX t0).
        eapply succ_off.
        + change (p_dist_to_end PX) with (x_dist P vias). unfold x_dist. rewrite Hoff. reflexivity.
        + cbv beta. rewrite loc_ix, slot_ix by auto. rewrite Hv. change (length vias) with nv. rewrite Nat.eqb_refl, Ho. reflexivity.
    Qed.
  End Reach.

  Hypothesis Honce : via_once P vias.
  Hypothesis Hcol : columns_sorted P.
  Hypothesis Hidx : index_ok P.
  Hypothesis Hfifo : fifo P.
  Variable D : nat -> Z.
  Hypothesis HD : lower_bounds_ok P D.

  Theorem via_search_optimal gs gs1 g gs2 K l a :
    groups_ok P gs -> gs = gs1 ++ g :: gs2 ->
    starts_reach_ok P (starts_of (gs1 ++ [g])) ->
    (forall l t, starts_of (gs1 ++ [g]) l t -> (l < n_loc)%nat /\ (p_is_dest P l = false \/ visited 0 l <> length vias)) ->
    (forall g', In g' (gs1 ++ [g]) -> no_later P a (g_worst g')) ->
    (K < end_k mt)%nat ->
    via_connection P vias (fun l t => In (l, t) (g_starts g)) (transfer_time P) K l a ->
    no_later P a (after P (g_start g) 7200) -> o a < OI ->
    exists j, In j (snd (via_raptor P vias mt gs)) /\ j_transfers j <= Z.of_nat K - 1 /\
              no_later P (j_dest j) a /\ no_later P (g_start g) (j_start j).
  Proof.
    intros Hgs E Hreach Hsl Hworst HK Hconn Hhor HaOI.
    set (St := starts_of (gs1 ++ [g])) in *.
    set (s := via_after P vias mt (reset_arrivals P) (gs1 ++ [g])).
    assert (HStH : forall l t, St l t -> o (g_start g) <= o t) by (eapply prefix_start; eauto).
    assert (HH : OL <= o (g_start g)) by (eapply prefix_g_low; eauto).
    assert (HStL : forall l t, St l t -> OL < o t) by (eapply prefix_low; eauto).
    assert (HaH : o a <= o (g_start g) + 7200). { apply no_later_o in Hhor. rewrite o_after in Hhor. lia. }
    assert (HStloc : forall l t, St l t -> (l < n_loc)%nat) by (intros l0 t0 Hs; now apply Hsl in Hs).
    assert (XWf := x_wf P vias Hwf). assert (XDur := x_dur P vias Hdur Hstay).
    assert (XD := x_lb P vias Hdur Hstay D HD). assert (XLoc := x_loc P vias Hloc).
    assert (XStH : forall x t, StX vias St x t -> o (g_start g) <= Raptor_Base.o PX t).
    { intros x t (l0 & Hs0 & _). exact (HStH l0 t Hs0). }
    assert (XStL : forall x t, StX vias St x t -> Raptor_Base.OL PX < Raptor_Base.o PX t).
    { intros x t (l0 & Hs0 & _). exact (HStL l0 t Hs0). }
    assert (Hstep : forall s0 g', In g' (gs1 ++ [g]) -> wginv PX (DX vias D) (StX vias St) a K s0 ->
       wginv PX (DX vias D) (StX vias St) a K (via_run_group P vias mt s0 g') /\
       (forall l t, In (l, t) (g_starts g') -> o (s_rt (via_run_group P vias mt s0 g') 0%nat (ix l (visited 0 l))) <= o t)).
    { intros s0 g' Hin Hs0.
      destruct (vrun_group_ginv P vias Hwf Hdur Hend Hloc Hstay Honce Hcol Hidx Hfifo D HD St Hreach HStloc (o (g_start g)) a K HStH HH HaH HaOI HStL mt s0 g') as (X1 & X2 & _); auto.
      - apply no_later_o. auto.
      - intros l0 t0 Ht. split; [exists g'; auto|]. eapply start_so; eauto. eapply prefix_in; eauto. }
    assert (Hginv : wginv PX (DX vias D) (StX vias St) a K s).
    { unfold s, via_after. apply fold_left_inv.
      - exact (wreset_ginv PX (DX vias D) (StX vias St) a K HaOI).
      - intros s0 g' Hin Hs0. now apply Hstep. }
    assert (Hst0 : forall x t, StX vias (fun l t => In (l, t) (g_starts g)) x t -> Raptor_Base.o PX (s_rt s 0%nat x) <= Raptor_Base.o PX t).
    { intros x t0 (l0 & Ht & ->). unfold s, via_after. rewrite fold_left_app. cbn [fold_left].
      change (Raptor_Base.o PX) with o. apply Hstep; auto.
      - apply in_app_iff. right. left. reflexivity.
      - apply fold_left_inv.
        + exact (wreset_ginv PX (DX vias D) (StX vias St) a K HaOI).
        + intros s0 g' Hin Hs0. apply Hstep; auto. apply in_app_iff. auto. }
    destruct (via_connection_succ _ _ _ _ Hconn) as (Hdest & x' & ta & Ha & Hsucc).
    assert (Hdx : p_is_dest PX (ix l nv) = true) by (rewrite dest_ix, Nat.eqb_refl, Hdest by auto; reflexivity).
    assert (Hlab : exists j x, (j <= K)%nat /\ p_is_dest PX x = true /\ o (s_rt s j x) <= o a).
    { destruct (dest_label_dec PX XLoc s K a) as [Hx|Hsd]; auto. exfalso.
      assert (Hnd : nd PX a K s) by (intros j1 l1 Hj1 Hl1; specialize (Hsd j1 l1 Hj1 Hl1); lia).
      assert (HDl : DX vias D (ix l nv) = 0) by (apply XD; auto).
      assert (Hrel : rel PX (DX vias D) a (ix l nv) a) by (unfold rel; lia).
      inversion Ha as [k1 l0 t0 tb l1 ta1 Hr0 Hn Hride]; subst.
      assert (Hrel' : rel PX (DX vias D) a l0 tb).
      { eapply (ride_rel PX XWf (DX vias D) XD (StX vias St) (o (g_start g)) a); eauto. eapply (succ_rel PX XDur (DX vias D) XD); eauto. }
      apply no_later_o in Hn.
      destruct Hginv as [(kk & Hsv) Htad HCL].
      destruct (wclosed_reach PX XWf XDur (DX vias D) XD (StX vias St) (o (g_start g)) a (S k1) XStH HaH HaOI XStL s HCL Hnd (ex_intro _ kk Hsv) _ Hst0 k1 (le_S _ _ (le_n k1)) l0 t0 Hr0) as (j & Hj & Hle).
      { unfold rel in *. lia. }
      assert (Hne : s_rt s j l0 <> kInvalid).
      { intros E'. rewrite E' in Hle. change (Raptor_Base.o PX) with o in *. rewrite o_kInvalid in Hle.
        pose proof (lb_nonneg _ _ XD l0). unfold rel in Hrel'. change (Raptor_Base.o PX) with o in *. lia. }
      assert (Hcl : Raptor_Base.o PX (s_rt s j l0) <= Raptor_Base.o PX tb) by lia.
      assert (Hjk : (j < S k1)%nat) by lia.
      destruct (HCL Hnd j l0 Hjk tb x' ta (ix l nv) a Hride Hne Hcl Hsucc Hrel) as (j' & Hj' & Hle').
      specialize (Hsd j' (ix l nv) ltac:(lia) Hdx). lia. }
    destruct Hlab as (j & x0 & Hj & Hd0 & Hle).
    assert (Hne : s_rt s j x0 <> kInvalid). { intros E'. rewrite E', o_kInvalid in Hle. lia. }
    assert (Hx0 : exists l0, x0 = ix l0 nv /\ p_is_dest P l0 = true).
    { change (p_is_dest PX x0) with (p_is_dest P (loc_of vias x0) && Nat.eqb (slot_of vias x0) nv) in Hd0.
      apply andb_true_iff in Hd0 as [Hd1 Hd2]. apply Nat.eqb_eq in Hd2. exists (loc_of vias x0). split; auto.
      rewrite <- Hd2 at 1. symmetry. apply ix_loc_slot. }
    destruct Hx0 as (l0 & -> & Hdl0).
    assert (Hj1 : (1 <= j)%nat).
    { destruct j as [|j]; [|lia]. exfalso. destruct Hginv as [(kk & Hsv) _ _].
      destruct (si_rt _ _ _ _ Hsv _ _ Hne) as (i & Hi & HL). replace i with 0%nat in HL by lia.
      destruct HL as [HL|(off & l1 & t1 & d1 & _ & _ & HL & _)]; [|inversion HL].
      inversion HL as [l1 t1 Hs|k1 l1 t1 Ha1|k1 l1 t1 l2 d Ha1 Hw]; subst; [|inversion Ha1|inversion Ha1].
      destruct Hs as (l1 & Hs & Ex). apply ix_inj in Ex as [<- Ev]; [|auto|apply start_slot_le].
      destruct (Hsl _ _ Hs) as [_ [Hx|Hx]]; [congruence|]. apply Hx. rewrite <- Ev. reflexivity. }
    set (j0 := mk_journey (g_start g) (s_rt s j (ix l0 nv)) (Z.of_nat j - 1)).
    set (L := via_all_reported P vias mt (reset_arrivals P) gs).
    assert (Hj0 : In j0 L).
    { apply in_via_all_reported. exists gs1, g, gs2. split; auto. apply in_via_reported. exists j, l0.
      split; [now apply Hloc|]. split; auto. split; [lia|]. split; auto. }
    destruct (add_all_covers _ _ journey_dom_refl journey_dom_trans L j0 Hj0) as (x & Hx & Hxd).
    exists x. rewrite via_results. split; auto.
    assert (Hxr := add_all_sound _ _ journey_dom_trans L x Hx).
    assert (X1 := via_reported_direction gs x Hgs Hxr).
    assert (X2 := via_reported_direction gs j0 Hgs Hj0).
    unfold j0 in X2. cbn [j_start j_dest] in X2.
    unfold journey_dominates, j0 in Hxd. cbn [j_start j_dest j_transfers] in Hxd.
    rewrite !no_later_o. unfold Raptor_Base.o in *.
    destruct fwd; destruct (Z.leb_spec (j_start x) (j_dest x)); rewrite !andb_true_iff, !Z.leb_le in Hxd; lia.
  Qed.
End VFinal.
