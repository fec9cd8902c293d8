(** Soundness of the search with via stops: every label is realised in the expanded timetable. *)
From Coq Require Import List ZArith Bool Arith Lia.
From Verif Require Import Base Time_Model Raptor_Model Raptor_Spec Raptor_Base Raptor_Sound Via_Model Via_Spec Via_Expand.
Import ListNotations.
Local Open Scope Z_scope.

(** *** Closed form of the crossing loop *)
Section Cross.
  Variable P : params.
  Variable vias : list via.
  Variables (r : route) (s l : nat).
  Notation nv := (nv vias).
  Notation cr v := (cross vias v l).
  Notation etab := (nat -> nat -> option ride).

  Definition merge_et (base from : option ride) : option ride :=
    match from with
    | None => base
    | Some f => match base with
                | None => Some f
                | Some t => if is_better P (time_at_stop P r f s (alight_ev P)) (time_at_stop P r t s (alight_ev P)) then Some f else base
                end
    end.
  Definition crossed (et : etab) (e oo : nat) : option ride :=
    let base := if cr (e + oo)%nat then None else et e oo in
    match oo with
    | O => base
    | S o' => if cr (e + o')%nat then merge_et base (et e o') else base
    end.

  Lemma upd2_eq {A} (f : nat -> nat -> A) i j x : upd2 f i j x i j = x.
  Proof. unfold upd2. now rewrite !upd_eq. Qed.
  Lemma upd2_neq {A} (f : nat -> nat -> A) i j x i' j' : (i <> i' \/ j <> j') -> upd2 f i j x i' j' = f i' j'.
  Proof.
    intros H. unfold upd2. destruct (Nat.eq_dec i i') as [->|]; [|now rewrite upd_neq].
    rewrite upd_eq. apply upd_neq. tauto.
  Qed.

  (** One step of the loop, [oo = S o']. *)
  Lemma cross_step_spec et e o' e1 o1 :
    cross_step P vias r s l et (e, S o') e1 o1 =
    if Nat.eqb e1 e then
      if Nat.eqb o1 (S o') then (if cr (e + o')%nat then merge_et (et e (S o')) (et e o') else et e (S o'))
      else if Nat.eqb o1 o' then (if cr (e + o')%nat then None else et e o')
      else et e1 o1
    else et e1 o1.
  Proof.
    unfold cross_step. replace (S o' - 1)%nat with o' by lia. replace (e + S o' - 1)%nat with (e + o')%nat by lia.
    unfold cross. destruct (et e o') as [from|] eqn:Ef.
    2:{ destruct (Nat.eqb_spec e1 e) as [->|]; [|reflexivity]. destruct (Nat.eqb_spec o1 (S o')) as [->|].
        - destruct (_ && _); reflexivity.
        - destruct (Nat.eqb_spec o1 o') as [->|]; [|reflexivity]. rewrite Ef. destruct (_ && _); reflexivity. }
    destruct (is_via vias (e + o') l && (stay_of vias (e + o') =? 0)) eqn:Ec.
    - destruct (Nat.eqb_spec e1 e) as [->|He].
      + destruct (Nat.eqb_spec o1 (S o')) as [->|Ho].
        * rewrite upd2_neq by lia. unfold merge_et. destruct (et e (S o')) as [t|] eqn:Et.
          -- destruct (is_better P _ _); [apply upd2_eq|exact Et].
          -- apply upd2_eq.
        * destruct (Nat.eqb_spec o1 o') as [->|Ho']; [apply upd2_eq|].
          rewrite upd2_neq by lia. destruct (match et e (S o') with None => true | Some _ => _ end); [|reflexivity].
          apply upd2_neq. lia.
      + rewrite upd2_neq by lia. destruct (match et e (S o') with None => true | Some _ => _ end); [|reflexivity].
        apply upd2_neq. lia.
    - destruct (Nat.eqb_spec e1 e) as [->|]; [|reflexivity]. destruct (Nat.eqb_spec o1 (S o')) as [->|]; [reflexivity|].
      destruct (Nat.eqb_spec o1 o') as [->|]; auto.
  Qed.

  (** The inner loop: o = m .. 1. *)
  Lemma cross_inner e m : forall et e1 o1,
    fold_left (cross_step P vias r s l) (map (fun oo => (e, oo)) (rev (seq 1 m))) et e1 o1 =
    if Nat.eqb e1 e then
      let base := if Nat.ltb o1 m && cr (e + o1)%nat then None else et e o1 in
      match o1 with
      | O => base
      | S o' => if Nat.leb o1 m && cr (e + o')%nat then merge_et base (et e o') else base
      end
    else et e1 o1.
  Proof.
    induction m as [|m IH]; intros et e1 o1.
    - cbn. destruct (Nat.eqb_spec e1 e) as [->|]; [|reflexivity]. destruct o1; reflexivity.
    - rewrite seq_S, rev_app_distr. cbn [rev app map fold_left]. rewrite Nat.add_1_l || change (1 + m)%nat with (S m).
      rewrite IH. set (et1 := cross_step P vias r s l et (e, S m)).
      assert (E : forall e1 o1, et1 e1 o1 = if Nat.eqb e1 e then
        if Nat.eqb o1 (S m) then (if cr (e + m)%nat then merge_et (et e (S m)) (et e m) else et e (S m))
        else if Nat.eqb o1 m then (if cr (e + m)%nat then None else et e m) else et e1 o1 else et e1 o1)
        by (intros; apply cross_step_spec).
      clearbody et1. destruct (Nat.eqb_spec e1 e) as [->|He].
      2:{ rewrite E. destruct (Nat.eqb_spec e1 e); [lia|reflexivity]. }
      rewrite !E, Nat.eqb_refl. cbv zeta. destruct o1 as [|o'].
      + destruct (Nat.eqb_spec 0 (S m)) as [|_]; [lia|]. destruct (Nat.eqb_spec 0 m) as [<-|Hm].
        * destruct (cr (e + 0)%nat); reflexivity.
        * destruct (Nat.ltb_spec 0 m), (Nat.ltb_spec 0 (S m)); try lia. reflexivity.
      + rewrite !E, Nat.eqb_refl.
        destruct (Nat.eqb_spec (S o') (S m)) as [Eo|Ho].
        * injection Eo as ->. destruct (Nat.ltb_spec (S m) m); [lia|]. destruct (Nat.ltb_spec (S m) (S m)); [lia|].
          destruct (Nat.leb_spec (S m) m); [lia|]. destruct (Nat.leb_spec (S m) (S m)); [|lia]. cbn [andb].
          reflexivity.
        * destruct (Nat.eqb_spec o' (S m)) as [Ex|_].
          { subst o'. destruct (Nat.eqb_spec (S (S m)) m); [lia|].
            destruct (Nat.ltb_spec (S (S m)) m); [lia|]. destruct (Nat.ltb_spec (S (S m)) (S m)); [lia|].
            destruct (Nat.leb_spec (S (S m)) m); [lia|]. destruct (Nat.leb_spec (S (S m)) (S m)); [lia|]. reflexivity. }
          destruct (Nat.eqb_spec o' m) as [|_]; [lia|].
          destruct (Nat.eqb_spec (S o') m) as [Em|Hm].
          { destruct (Nat.ltb_spec (S o') m); [lia|]. destruct (Nat.ltb_spec (S o') (S m)); [|lia].
            destruct (Nat.leb_spec (S o') m); [|lia]. destruct (Nat.leb_spec (S o') (S m)); [|lia]. cbn [andb].
            rewrite Em. reflexivity. }
          destruct (Nat.ltb_spec (S o') m), (Nat.ltb_spec (S o') (S m)), (Nat.leb_spec (S o') m), (Nat.leb_spec (S o') (S m)); try lia; reflexivity.
  Qed.

  Lemma cross_vias_spec et e1 o1 : cross_vias P vias r s l et e1 o1 = crossed et e1 o1.
  Proof.
    unfold cross_vias, cross_order.
    assert (H : forall n et0, (n <= nv)%nat ->
      forall e1 o1, fold_left (cross_step P vias r s l) (flat_map (fun e => map (fun o => (e, o)) (rev (seq 1 (nv - e)))) (seq 0 n)) et0 e1 o1 =
        if Nat.ltb e1 n then crossed et0 e1 o1 else et0 e1 o1).
    { induction n as [|n IH]; intros et0 Hn e o1'; [reflexivity|].
      rewrite seq_S, flat_map_app, fold_left_app. cbn [flat_map Nat.add]. rewrite app_nil_r, cross_inner.
      assert (Hout : forall v, (nv <= v)%nat -> cr v = false).
      { intros v Hv. destruct (cr v) eqn:E; auto. apply cross_lt in E. lia. }
      destruct (Nat.eqb_spec e n) as [->|He].
      - cbv zeta. rewrite !(IH et0 ltac:(lia)). destruct (Nat.ltb_spec n n); [lia|]. destruct (Nat.ltb_spec n (S n)); [|lia].
        unfold crossed. destruct o1' as [|o'].
        + destruct (Nat.ltb_spec 0 (nv - n)); [reflexivity|]. rewrite Hout by lia. reflexivity.
        + rewrite !(IH et0 ltac:(lia)). destruct (Nat.ltb_spec n n); [lia|].
          assert (E1 : Nat.ltb (S o') (nv - n) && cr (n + S o')%nat = cr (n + S o')%nat).
          { destruct (Nat.ltb_spec (S o') (nv - n)); [reflexivity|]. rewrite Hout by lia. reflexivity. }
          assert (E2 : Nat.leb (S o') (nv - n) && cr (n + o')%nat = cr (n + o')%nat).
          { destruct (Nat.leb_spec (S o') (nv - n)); [reflexivity|]. rewrite Hout by lia. reflexivity. }
          rewrite E1, E2. reflexivity.
      - rewrite (IH et0 ltac:(lia)). destruct (Nat.ltb_spec e n), (Nat.ltb_spec e (S n)); try lia; reflexivity. }
    rewrite H by lia. destruct (Nat.ltb_spec e1 nv); [reflexivity|].
    unfold crossed. assert (Hout : forall v, (nv <= v)%nat -> cr v = false).
    { intros v Hv. destruct (cr v) eqn:E; auto. apply cross_lt in E. lia. }
    rewrite Hout by lia. destruct o1; [reflexivity|]. rewrite Hout by lia. reflexivity.
  Qed.

  (** Every vehicle on board after the stop was on board before, and its via state has advanced if it had to. *)
  Lemma crossed_origin et e oo x : crossed et e oo = Some x ->
    (et e oo = Some x /\ cr (e + oo)%nat = false) \/
    exists o', oo = S o' /\ et e o' = Some x /\ cr (e + o')%nat = true.
  Proof.
    unfold crossed. set (base := if cr (e + oo)%nat then None else et e oo).
    assert (Hb : base = Some x -> et e oo = Some x /\ cr (e + oo)%nat = false).
    { unfold base. destruct (cr (e + oo)%nat); [discriminate|auto]. }
    destruct oo as [|o']; auto. destruct (cr (e + o')%nat) eqn:Ec; auto.
    unfold merge_et. destruct (et e o') as [f|] eqn:Ef; auto.
    assert (Hf : Some f = Some x -> exists o'0 : nat, S o' = S o'0 /\ et e o'0 = Some x /\ cr (e + o'0)%nat = true).
    { intros [= ->]. exists o'. auto. }
    destruct base as [t|]; auto. destruct (is_better P _ _); auto.
  Qed.
End Cross.

Section VSound.
  Variable P : params.
  Variable vias : list via.
  Notation fwd := (p_fwd P).
  Notation tt := (p_tt P).
  Notation o := (o P).
  Notation OI := (OI P).
  Notation OL := (OL P).
  Notation kInvalid := (kInvalid P).
  Notation nv := (nv vias).
  Notation ix := (ix vias).
  Notation n_loc := (tt_n_locations (p_tt P)).
  Notation visited := (visited vias).
  Notation staying := (staying vias).
  Notation PX := (PX P vias).
  Notation six := (stop_idx_of P).

  Hypothesis Hwf : all_vehicles_wf P.
  Hypothesis Hdur : durations_ok P.
  Hypothesis Hend : end_ok P.
  Hypothesis Hloc : locations_ok P.
  Hypothesis Hstay : stays_ok vias.
  Variable St : nat -> Z -> Prop.
  Hypothesis HSt : forall l t, St l t -> OL < o t.

  Definition StX (x : nat) (t : Z) : Prop := exists l, St l t /\ x = ix l (visited 0 l).
  Lemma HStX x t : StX x t -> OL < o t.
  Proof. intros (l & H & _). eauto. Qed.

  Notation Arr := (arrived PX StX (tr_eff PX)).
  Notation Ready := (ready PX StX (tr_eff PX)).
  Notation Lbl := (Lbl PX StX).
  Notation sinv := (sinv PX StX).

  Lemma at_end_stop ri r s : nth_error (tt_routes tt) ri = Some r -> (s < length (r_stops r))%nat -> at_end P (loc_at r s) = false.
  Proof.
    intros Hr Hs. unfold at_end, is_intermodal_dest. destruct (p_dist_to_end P) eqn:E; [|reflexivity]. cbn [andb].
    apply Nat.eqb_neq. eapply stop_not_end; eauto. congruence.
  Qed.
  Lemma at_end_walk l l' d : walk P l l' d -> at_end P l' = false.
  Proof.
    intros (d0 & Hin & _). unfold at_end, is_intermodal_dest. destruct (p_dist_to_end P) eqn:E; [|reflexivity]. cbn [andb].
    apply Nat.eqb_neq. intros ->. destruct (Hend ltac:(congruence)) as (_ & _ & H). eapply H; eauto.
  Qed.
  Lemma arr_real k x t : Arr k x t -> exists l v, x = ix l v /\ (v <= nv)%nat /\ (l < n_loc)%nat /\ at_end P l = false.
  Proof.
    intros Ha. inversion Ha as [k0 x0 t0 tb x' ta _ _ Hride]; subst.
    apply x_ride_sound in Hride as (v & l & v' & l' & Hv & Hv' & _ & -> & Hride).
    destruct Hride as [ri r vi w day s s' st st' Hr Hw _ Hs Hs' _ _ El' _ _ _ _ _ _ _].
    assert (Hl : (s' < length (r_stops r))%nat) by (apply nth_error_Some; congruence).
    assert (E : loc_at r s' = l'). { unfold loc_at. pose proof (stop_at_nth r s' Hl). congruence. }
    exists l', v'. split; [auto|]. split; [auto|]. rewrite <- E. split; [eapply route_loc_lt; eauto|eapply at_end_stop; eauto].
  Qed.
  Lemma arr_ix k l v t : (v <= nv)%nat -> Arr k (ix l v) t -> (l < n_loc)%nat /\ at_end P l = false.
  Proof.
    intros Hv Ha. destruct (arr_real _ _ _ Ha) as (l' & v' & E & Hv' & Hl & He). apply ix_inj in E as [-> ->]; auto.
  Qed.
  Lemma tr_eff_ix l v : (v <= nv)%nat -> is_via vias v l = false -> tr_eff PX (ix l v) = tr_via P vias l v.
  Proof.
    intros Hv Hn. unfold tr_eff, tr_via. rewrite x_is_intermodal. unfold transfer_time.
    change (p_is_dest PX (ix l v)) with (p_is_dest P (loc_of vias (ix l v)) && Nat.eqb (slot_of vias (ix l v)) nv).
    change (p_adjust PX (tt_transfer_time (p_tt PX) (ix l v))) with (x_transfer P vias (ix l v)). unfold x_transfer.
    rewrite loc_ix, slot_ix, Hn by auto. rewrite (andb_comm (p_is_dest P l)). reflexivity.
  Qed.
  (** The successors of an arrival in the expanded timetable. *)
  Lemma ready_change k l v t : (v <= nv)%nat -> Arr k (ix l v) t ->
    Ready k (ix l (visited v l)) (after P t (tr_via P vias l (visited v l) + staying v l)).
  Proof.
    intros Hv Ha. destruct (arr_ix _ _ _ _ Hv Ha) as [Hl He].
    rewrite staying_is_via, visited_is_via. destruct (is_via vias v l) eqn:E.
    - change (after P t) with (after PX t). eapply ready_walk; [exact Ha|]. now apply x_walk_via.
    - rewrite Z.add_0_r, <- tr_eff_ix by auto. change (after P t) with (after PX t). now apply ready_transfer.
  Qed.
  Lemma ready_foot k l v t l' d : (v <= nv)%nat -> Arr k (ix l v) t -> walk P l l' d ->
    Ready k (ix l' (visited (visited v l) l')) (after P t (d + staying v l + staying (visited v l) l')).
  Proof.
    intros Hv Ha Hw. destruct (arr_ix _ _ _ _ Hv Ha) as [Hl He]. change (after P t) with (after PX t).
    eapply ready_walk; [exact Ha|]. now apply x_walk_complete.
  Qed.
  Lemma label_off k l v t off d : (v <= nv)%nat -> Arr k (ix l v) t -> p_dist_to_end P = Some off -> off l = Some d ->
    visited v l = nv -> Lbl k (ix (p_end P) nv) (after P t (d + staying v l)).
  Proof.
    intros Hv Ha Hoff Hd Hvn. right.
    exists (fun x => if Nat.eqb (visited (slot_of vias x) (loc_of vias x)) nv
                     then match off (loc_of vias x) with Some d => Some (d + staying (slot_of vias x) (loc_of vias x)) | None => None end
                     else None), (ix l v), t, (d + staying v l).
    split; [|split; [|split; [exact Ha|split; [|reflexivity]]]].
    - change (p_dist_to_end PX) with (x_dist P vias). unfold x_dist. rewrite Hoff. reflexivity.
    - reflexivity.
    - rewrite loc_ix, slot_ix, Hvn, Nat.eqb_refl, Hd by auto. reflexivity.
  Qed.

  (** *** Transfers *)
  Lemma lb_reach_ix l v : (v <= nv)%nat -> at_end P l = false -> lb_reachable PX (ix l v) = lb_reachable P l /\ p_lb PX (ix l v) = p_lb P l.
  Proof.
    intros Hv He. assert (E : p_lb PX (ix l v) = p_lb P l).
    { change (p_lb PX (ix l v)) with (if at_end P (loc_of vias (ix l v)) then 0 else p_lb P (loc_of vias (ix l v))).
      rewrite loc_ix, He by auto. reflexivity. }
    split; auto. unfold lb_reachable. now rewrite E.
  Qed.
  Lemma dest_ix l v : (v <= nv)%nat -> p_is_dest PX (ix l v) = Nat.eqb v nv && p_is_dest P l.
  Proof.
    intros Hv. change (p_is_dest PX (ix l v)) with (p_is_dest P (loc_of vias (ix l v)) && Nat.eqb (slot_of vias (ix l v)) nv).
    rewrite loc_ix, slot_ix by auto. apply andb_comm.
  Qed.
  Lemma transfer_to_ix k l v t s : (v <= nv)%nat -> at_end P l = false ->
    via_transfer_to P vias k l v t (Nat.eqb v nv && p_is_dest P l) s = transfer_to PX k (ix l v) t (p_is_dest PX (ix l v)) s.
  Proof.
    intros Hv He. destruct (lb_reach_ix l v Hv He) as [E1 E2]. unfold transfer_to. rewrite E1, E2, (dest_ix l v Hv). reflexivity.
  Qed.
  Lemma label_of k j x t d : Arr j x t -> (j <= k)%nat -> 0 <= d -> forall x', Lbl j x' (after P t d) ->
    clamp16 (after P t d) <> kInvalid -> exists i, (i <= k)%nat /\ Lbl i x' (clamp16 (after P t d)).
  Proof.
    intros Ha Hj Hd x' HL Hne. exists j. split; auto.
    assert (Hlow := Arr_lower PX (x_wf P vias Hwf) (x_dur P vias Hdur Hstay) StX HStX _ _ _ Ha).
    change (OL <= o t) in Hlow.
    destruct (clamp_cases P (after P t d)) as [-> | E]; [rewrite o_after; lia|auto|contradiction].
  Qed.

  Lemma transfers_time tmp l v :
    tmp + (if negb (is_intermodal_dest P) && (Nat.eqb (visited v l) nv && p_is_dest P l) then 0 else dir P (p_adjust P (tt_transfer_time tt l)))
      + dir P (staying v l) = after P tmp (tr_via P vias l (visited v l) + staying v l).
  Proof.
    rewrite after_dir. unfold tr_via, transfer_time. destruct (_ && _); unfold dir; destruct fwd; lia.
  Qed.
  Lemma via_transfers_step_eq k i s v :
    via_transfers_step P vias k i s v =
    if s_tmp s (ix i v) =? kInvalid then s else
    via_transfer_to P vias k i (visited v i) (clamp16 (after P (s_tmp s (ix i v)) (tr_via P vias i (visited v i) + staying v i)))
      (Nat.eqb (visited v i) nv && p_is_dest P i) s.
  Proof.
    unfold via_transfers_step. destruct (s_tmp s (ix i v) =? kInvalid); auto.
    rewrite <- (visited_is_via vias v i), <- (staying_is_via vias v i), <- transfers_time. reflexivity.
  Qed.
  Lemma via_transfers_step_sinv k i s v : (v <= nv)%nat -> sinv k s -> sinv k (via_transfers_step P vias k i s v).
  Proof.
    intros Hv H. rewrite via_transfers_step_eq. destruct (s_tmp s (ix i v) =? kInvalid) eqn:E; auto. apply Z.eqb_neq in E.
    destruct (si_tmp _ _ _ _ H _ E) as (j & Hj & Ha). destruct (arr_ix _ _ _ _ Hv Ha) as [Hl He].
    rewrite transfer_to_ix by (auto; apply visited_le; auto).
    apply transfer_to_sinv; auto. intros Hne.
    apply (label_of k j (ix i v)); auto.
    - pose proof (tr_via_nonneg P vias Hdur i (visited v i)). pose proof (staying_nonneg vias v i Hstay). lia.
    - left. now apply ready_change.
  Qed.
  Lemma in_slots v : In v (slots vias) <-> (v <= nv)%nat.
  Proof. unfold slots. rewrite in_seq. lia. Qed.
  Lemma via_update_transfers_sinv k s : sinv k s -> sinv k (via_update_transfers P vias k s).
  Proof.
    intros H. unfold via_update_transfers. apply fold_left_inv; auto. clear s H. intros s i _ H.
    destruct (marked vias (s_prev s) i); auto. apply fold_left_inv; auto. clear s H. intros s v Hv H.
    apply via_transfers_step_sinv; auto. now apply in_slots.
  Qed.

  Lemma via_footpath_step_eq k i fp s v :
    via_footpath_step P vias k i fp s v =
    if s_tmp s (ix i v) =? kInvalid then s else
    via_transfer_to P vias k (fst fp) (visited (visited v i) (fst fp))
      (clamp16 (after P (s_tmp s (ix i v)) (p_adjust P (snd fp) + staying v i + staying (visited v i) (fst fp))))
      (Nat.eqb (visited (visited v i) (fst fp)) nv && p_is_dest P (fst fp)) s.
  Proof.
    unfold via_footpath_step. destruct (s_tmp s (ix i v) =? kInvalid); auto.
    rewrite <- (visited_is_via vias v i), <- (staying_is_via vias v i), <- (visited_is_via vias (visited v i) (fst fp)),
      <- (staying_is_via vias (visited v i) (fst fp)), after_dir, Z.add_assoc. reflexivity.
  Qed.
  Lemma walk_of i fp : In fp (footpaths_of P i) -> walk P i (fst fp) (p_adjust P (snd fp)).
  Proof. intros Hin. exists (snd fp). split; [destruct fp; exact Hin|reflexivity]. Qed.
  Lemma via_footpath_step_sinv k i fp s v : In fp (footpaths_of P i) -> (v <= nv)%nat -> sinv k s ->
    sinv k (via_footpath_step P vias k i fp s v).
  Proof.
    intros Hin Hv H. rewrite via_footpath_step_eq. destruct (s_tmp s (ix i v) =? kInvalid) eqn:E; auto. apply Z.eqb_neq in E.
    destruct (si_tmp _ _ _ _ H _ E) as (j & Hj & Ha). assert (Hw := walk_of i fp Hin).
    rewrite transfer_to_ix by (try (apply visited_le, visited_le; auto); eapply at_end_walk; eauto).
    apply transfer_to_sinv; auto. intros Hne.
    apply (label_of k j (ix i v)); auto.
    - pose proof (walk_nonneg P Hdur _ _ _ Hw). pose proof (staying_nonneg vias v i Hstay).
      pose proof (staying_nonneg vias (visited v i) (fst fp) Hstay). lia.
    - left. now apply ready_foot.
  Qed.
  Lemma via_update_footpaths_sinv k s : sinv k s -> sinv k (via_update_footpaths P vias k s).
  Proof.
    intros H. unfold via_update_footpaths. apply fold_left_inv; auto. clear s H. intros s i _ H.
    destruct (marked vias (s_prev s) i); auto. apply fold_left_inv; auto. clear s H. intros s fp Hfp H.
    apply fold_left_inv; auto. clear s H. intros s v Hv H. apply via_footpath_step_sinv; auto. now apply in_slots.
  Qed.

  Lemma via_reach_end_sinv k e s : o e <= OI ->
    (e <> kInvalid -> exists i, (i <= k)%nat /\ Lbl i (ix (p_end P) nv) e) -> sinv k s -> sinv k (via_reach_end P vias k e s).
  Proof.
    intros Hrg Hl H. unfold via_reach_end. destruct (is_better_or_eq P e (s_tad s k)); auto.
    destruct H as [I1 I2 I3 I4 I5]. split; cbn [s_rt s_tmp s_best]; auto.
    - intros j0 l. destruct (upd_cases (s_rt s) k j0 (upd (s_rt s k) (ix (p_end P) nv) e)) as [[<- ->]|[_ ->]]; auto.
      destruct (upd_cases (s_rt s k) (ix (p_end P) nv) l e) as [[<- ->]|[_ ->]]; auto.
    - intros l. destruct (upd_cases (s_best s) (ix (p_end P) nv) l e) as [[<- ->]|[_ ->]]; auto.
    - intros j0 l. destruct (upd_cases (s_rt s) k j0 (upd (s_rt s k) (ix (p_end P) nv) e)) as [[<- ->]|[_ ->]]; auto.
      destruct (upd_cases (s_rt s k) (ix (p_end P) nv) l e) as [[<- ->]|[_ ->]]; auto.
  Qed.
  Lemma visited_last i : (nv <> 0)%nat -> is_via vias (nv - 1) i = true ->
    visited (nv - 1) i = nv /\ staying (nv - 1) i = stay_of vias (nv - 1).
  Proof. intros Hn E. rewrite visited_is_via, staying_is_via, E. split; [lia|reflexivity]. Qed.
  Lemma visited_full i : visited nv i = nv /\ staying nv i = 0.
  Proof.
    rewrite visited_is_via, staying_is_via. destruct (is_via vias nv i) eqn:E; [apply is_via_lt in E; lia|auto].
  Qed.
  Lemma via_reach_end_tmp k e s : s_tmp (via_reach_end P vias k e s) = s_tmp s.
  Proof. unfold via_reach_end. destruct (is_better_or_eq P e (s_tad s k)); reflexivity. Qed.
  (** The step as two optional arrivals at the end. *)
  Definition end_from (k : nat) (d : Z) (i v : nat) (s : state) : state :=
    if s_tmp s (ix i v) =? kInvalid then s
    else via_reach_end P vias k (clamp16 (after P (s_tmp s (ix i v)) (d + staying v i))) s.
  Lemma via_intermodal_step_eq k off s i :
    via_intermodal_step P vias k off s i =
    if marked vias (s_prev s) i then
      match off i with
      | Some d => end_from k d i nv (if negb (Nat.eqb nv 0) && is_via vias (nv - 1) i then end_from k d i (nv - 1) s else s)
      | None => s
      end
    else s.
  Proof.
    unfold via_intermodal_step. destruct (marked vias (s_prev s) i); auto. destruct (off i) as [d|]; auto.
    assert (E1 : (if negb (Nat.eqb nv 0) && negb (s_tmp s (ix i (nv - 1)) =? kInvalid) && is_via vias (nv - 1) i
       then via_reach_end P vias k (clamp16 (s_tmp s (ix i (nv - 1)) + dir P (stay_of vias (nv - 1)) + dir P d)) s else s)
       = (if negb (Nat.eqb nv 0) && is_via vias (nv - 1) i then end_from k d i (nv - 1) s else s)).
    { unfold end_from. destruct (Nat.eqb_spec nv 0); [reflexivity|]. cbn [negb andb].
      destruct (is_via vias (nv - 1) i) eqn:Ev; [|rewrite andb_false_r; reflexivity]. rewrite andb_true_r.
      destruct (s_tmp s (ix i (nv - 1)) =? kInvalid); [reflexivity|]. cbn [negb].
      destruct (visited_last i n Ev) as [_ ->]. f_equal. f_equal. rewrite after_dir. unfold dir. destruct fwd; lia. }
    rewrite E1. cbv zeta. set (s1 := if negb (Nat.eqb nv 0) && is_via vias (nv - 1) i then _ else s). clearbody s1.
    unfold end_from. destruct (visited_full i) as [_ ->]. rewrite Z.add_0_r, after_dir. reflexivity.
  Qed.
  Lemma end_from_sinv k off d i v s : p_dist_to_end P = Some off -> off i = Some d -> (v <= nv)%nat -> visited v i = nv ->
    sinv k s -> sinv k (end_from k d i v s).
  Proof.
    intros Hoff Hd Hv Hvn H. unfold end_from. destruct (s_tmp s (ix i v) =? kInvalid) eqn:E; auto. apply Z.eqb_neq in E.
    destruct (si_tmp _ _ _ _ H _ E) as (j & Hj & Ha).
    assert (0 <= d) by (destruct Hdur as (_ & _ & _ & Hw); eapply Hw; eauto).
    pose proof (staying_nonneg vias v i Hstay).
    apply via_reach_end_sinv; auto.
    - rewrite o_clamp. pose proof (OL_lt_OI P). lia.
    - apply (label_of k j (ix i v)); auto; [lia|]. eapply label_off; eauto.
  Qed.
  Lemma via_update_intermodal_sinv k s : sinv k s -> sinv k (via_update_intermodal P vias k s).
  Proof.
    intros H. unfold via_update_intermodal. destruct (p_dist_to_end P) as [off|] eqn:Eoff; auto.
    apply fold_left_inv; auto. clear s H. intros s i _ H. rewrite via_intermodal_step_eq.
    destruct (marked vias (s_prev s) i); auto. destruct (off i) as [d|] eqn:Ed; auto.
    apply (end_from_sinv k off); auto; [apply visited_full|].
    destruct (negb (Nat.eqb nv 0) && is_via vias (nv - 1) i) eqn:E; auto.
    apply andb_true_iff in E as [E1 E2]. apply negb_true_iff, Nat.eqb_neq in E1.
    apply (end_from_sinv k off); auto; [lia|]. now apply visited_last.
  Qed.

  (** *** Scanning a route *)
  Definition slotp (r : route) (p e hi : nat) : nat :=
    fold_left (fun v q => passing vias v (loc_at r (six r q))) (seq (S p) (hi - S p)) e.
  Lemma slotp_here r p e : slotp r p e (S p) = e.
  Proof. unfold slotp. now rewrite Nat.sub_diag. Qed.
  Lemma slotp_next r p e hi : (p < hi)%nat -> slotp r p e (S hi) = passing vias (slotp r p e hi) (loc_at r (six r hi)).
  Proof.
    intros H. unfold slotp. replace (S hi - S p)%nat with (S (hi - S p)) by lia. rewrite seq_S, fold_left_app. cbn [fold_left].
    do 2 f_equal. f_equal. lia.
  Qed.
  Lemma slotp_le r p e hi : (e <= nv)%nat -> (e <= slotp r p e hi <= nv)%nat.
  Proof.
    intros He. unfold slotp. generalize (seq (S p) (hi - S p)). intros l. revert e He. induction l as [|q l IH]; intros e He; cbn; [lia|].
    pose proof (passing_le vias e (loc_at r (six r q)) He). specialize (IH (passing vias e (loc_at r (six r q))) ltac:(lia)). lia.
  Qed.
  Lemma stops_passed_pos r p i : (p < i < length (r_stops r))%nat ->
    stops_passed P r (six r p) (six r i) = map (fun q => stop_at r (six r q)) (seq (S p) (i - p)).
  Proof.
    intros H. unfold stops_passed, stop_idx_of, stop_at. destruct fwd.
    - apply firstn_skipn_map. lia.
    - rewrite (firstn_skipn_map (mk_stop 0 false false false false)) by lia.
      rewrite (rev_map_seq _ (length (r_stops r)) _ _ (S p)) by lia. f_equal. f_equal. lia.
  Qed.
  Lemma slotp_spec r p e i : (p < i < length (r_stops r))%nat ->
    pass_all vias e (stops_passed P r (six r p) (six r i)) = slotp r p e (S i).
  Proof.
    intros H. rewrite stops_passed_pos by auto. unfold pass_all, slotp.
    replace (S i - S p)%nat with (i - p)%nat by lia. generalize (seq (S p) (i - p)). intros l. revert e.
    induction l as [|q l IH]; intros e; cbn [map fold_left]; auto.
  Qed.

  (** Vehicle on board, boarded at a position [p < m] in via state [e]; sections checked before position [lo], vias crossed
      before position [hi]. *)
  Definition vboard (k : nat) (r : route) (m lo hi e oo : nat) (x : ride) : Prop :=
    exists v p j t, nth_error (r_vehicles r) (fst x) = Some v /\ runs_on v (snd x) /\
      (p < m)%nat /\ (p < length (r_stops r))%nat /\ (S j <= k)%nat /\ (e <= nv)%nat /\
      get_on_allowed P (stop_at r (six r p)) = true /\
      Ready j (ix (loc_at r (six r p)) e) t /\
      o t <= o (bt P v (snd x) (six r p)) /\
      (forall q, (p < q < lo)%nat -> section_ok P r (section_before P r q) = true) /\
      (e + oo)%nat = slotp r p e hi.

  Lemma vboard_arrive k ri r i e oo x :
    nth_error (tt_routes tt) ri = Some r -> route_allowed P r = true -> (i < length (r_stops r))%nat ->
    vboard k r i (S i) (S i) e oo x -> get_off_allowed P (stop_at r (six r i)) = true ->
    time_at_stop P r x (six r i) (alight_ev P) <> kInvalid ->
    exists j, (j <= k)%nat /\ Arr j (ix (loc_at r (six r i)) (e + oo)) (time_at_stop P r x (six r i) (alight_ev P)).
  Proof.
    intros Hr Hra Hi (v & p & j & t & Hv & Hrun & Hp & Hpl & Hj & He & Hon & Hrd & Hle & Hsec & Hslot) Hoff Hne.
    destruct x as [x d]. cbn [fst snd] in *.
    rewrite (time_at_stop_eq P Hwf ri r x v) in * by auto using stop_idx_lt.
    assert (Hord : o (bt P v d (six r p)) <= o (at_ P v d (six r i))).
    { eapply event_order; eauto using nth_error_In, stop_idx_lt. apply stop_idx_order; auto. }
    pose proof (Ready_lower PX (x_wf P vias Hwf) (x_dur P vias Hdur Hstay) StX HStX _ _ _ Hrd) as Hlow.
    change (OL <= o t) in Hlow.
    assert (Eat : event_time P v d (six r i) (alight_ev P) = at_ P v d (six r i)) by reflexivity.
    rewrite Eat in *.
    destruct (clamp_cases P (at_ P v d (six r i))) as [E| E]; [lia| |congruence].
    rewrite E. exists (S j). split; auto.
    eapply arrived_ride; [exact Hrd|apply (no_later_o P); exact Hle|].
    apply x_ride_complete; auto.
    apply (via_ride_intro P vias _ _ _ _ _ _ ri r x v d (six r p) (six r i) (stop_at r (six r p)) (stop_at r (six r i))); auto using stop_at_nth, stop_idx_lt.
    - apply stop_idx_order; auto.
    - unfold route_allowed in Hra. apply andb_true_iff in Hra. tauto.
    - intros f sec. eapply sections_spec; eauto. intros q Hq. apply Hsec. lia.
    - rewrite slotp_spec by auto. auto.
  Qed.

  Definition vscan_inv (k : nat) (r : route) (i : nat) (c : vscan) : Prop :=
    (forall e oo x, vs_et c e oo = Some x -> vs_break c = false -> vboard k r i i i e oo x) /\
    (forall y, o (vs_tmp c y) <= OI) /\
    (forall y, vs_tmp c y <> kInvalid -> exists j, (j <= k)%nat /\ Arr j y (vs_tmp c y)).

  Lemma vboard_cross k r i l et : l = loc_at r (six r i) ->
    (forall e oo x, et e oo = Some x -> vboard k r i (S i) i e oo x) ->
    forall e oo x, cross_vias P vias r (six r i) l et e oo = Some x -> vboard k r i (S i) (S i) e oo x.
  Proof.
    intros El H e oo x Hx. rewrite cross_vias_spec in Hx. apply crossed_origin in Hx as [[Hx Hc]|(o' & -> & Hx & Hc)].
    - destruct (H _ _ _ Hx) as (v & p & j & t & H1 & H2 & Hp & H4 & H5 & H6 & H7 & H8 & H9 & H10 & Hs).
      exists v, p, j, t. do 10 (split; [assumption|]). rewrite slotp_next, <- Hs, passing_cross, <- El, Hc by auto. reflexivity.
    - destruct (H _ _ _ Hx) as (v & p & j & t & H1 & H2 & Hp & H4 & H5 & H6 & H7 & H8 & H9 & H10 & Hs).
      exists v, p, j, t. do 10 (split; [assumption|]). rewrite slotp_next, <- Hs, passing_cross, <- El, Hc by auto. lia.
  Qed.

  Lemma in_alight_order cs e : In (cs, e) (alight_order vias) <-> (cs <= nv)%nat /\ (e <= cs)%nat.
  Proof.
    unfold alight_order. rewrite in_flat_map. split.
    - intros (cs' & Hcs & H). apply in_rev in Hcs. apply in_slots in Hcs. apply in_map_iff in H as (e' & E & He).
      apply in_seq in He. injection E as <- <-. lia.
    - intros [H1 H2]. exists cs. split; [rewrite <- in_rev; now apply in_slots|]. apply in_map_iff. exists e. split; auto.
      apply in_seq. lia.
  Qed.

  Lemma via_scan_stop_sinv k ri r best rtp tad pm c i :
    (1 <= k)%nat -> nth_error (tt_routes tt) ri = Some r -> route_allowed P r = true -> (i < length (r_stops r))%nat ->
    (forall y, rtp y <> kInvalid -> exists j, (S j <= k)%nat /\ Lbl j y (rtp y)) ->
    vscan_inv k r i c -> vscan_inv k r (S i) (via_scan_stop P vias ri r best rtp tad pm c i).
  Proof.
    intros Hk Hr Hra Hi Hrt (Het & Hrange & Htmp). unfold via_scan_stop.
    destruct (vs_break c) eqn:Ebr.
    { split; [intros e oo x _ Hb; congruence|split; auto]. }
    set (s := six r i). set (l := loc_at r s).
    set (et0 := if negb (Nat.eqb i 0) && negb (section_ok P r (section_before P r i)) then (fun _ _ => None) else vs_et c).
    assert (Het0 : forall e oo x, et0 e oo = Some x -> vboard k r i (S i) i e oo x).
    { intros e oo x Hx. unfold et0 in Hx. destruct (Nat.eqb_spec i 0) as [->|Hi0]; cbn [negb andb] in Hx.
      - exfalso. destruct (Het _ _ _ Hx eq_refl) as (v & p & ? & ? & ? & ? & Hp & _). lia.
      - destruct (section_ok P r (section_before P r i)) eqn:Es; cbn [negb] in Hx; [|discriminate].
        destruct (Het _ _ _ Hx eq_refl) as (v & p & j & t & H1 & H2 & H3 & H4 & H5 & H6 & H7 & H8 & H9 & Hsec & Hs).
        exists v, p, j, t. do 9 (split; [assumption|]). split; [|assumption]. intros q Hq.
        destruct (Nat.eq_dec q i) as [->|]; auto. apply Hsec. lia. }
    clearbody et0. set (et := cross_vias P vias r s l et0).
    assert (Het1 : forall e oo x, et e oo = Some x -> vboard k r i (S i) (S i) e oo x) by (apply vboard_cross; auto).
    clearbody et.
    match goal with |- vscan_inv _ _ _ (match ?m with _ => _ end) => destruct m as [[cb tmp] mark] eqn:Eal end.
    assert (Htmp' : (forall y, o (tmp y) <= OI) /\ (forall y, tmp y <> kInvalid -> exists j, (j <= k)%nat /\ Arr j y (tmp y))).
    { assert (HQ : let a := fold_left (alight_step P vias r s l best rtp tad et) (alight_order vias) ((fun _ => kInvalid), vs_tmp c, vs_mark c) in
        (forall y, o (snd (fst a) y) <= OI) /\ (forall y, snd (fst a) y <> kInvalid -> exists j, (j <= k)%nat /\ Arr j y (snd (fst a) y))).
      { apply (fold_left_inv _ (fun a : (nat -> Z) * (nat -> Z) * (nat -> bool) => (forall y, o (snd (fst a) y) <= OI) /\ (forall y, snd (fst a) y <> kInvalid -> exists j, (j <= k)%nat /\ Arr j y (snd (fst a) y)))).
        - cbn [fst snd]. auto.
        - intros [[cb0 tmp0] mark0] [cs e] Hin [Hq1 Hq2]. cbn [fst snd] in *. unfold alight_step.
          apply in_alight_order in Hin as [Hcs He].
          destruct (et e (cs - e)%nat) as [x|] eqn:Ex; [|auto].
          destruct (can_finish fwd (is_wheelchair P) (stop_at r s)) eqn:Ef; [|auto]. cbv zeta.
          destruct (is_better_or_eq P _ tad && _ && _); cbn [fst snd]; [|auto].
          rewrite can_finish_off in Ef.
          assert (Hrg : o (time_at_stop P r x s (alight_ev P)) <= OI) by (unfold time_at_stop, to_delta; apply (clamp_range P)).
          split.
          + intros y. destruct (upd_cases tmp0 (ix l cs) y (get_best P (time_at_stop P r x s (alight_ev P)) (tmp0 (ix l cs)))) as [[<- ->]|[_ ->]]; auto.
            rewrite o_get_best. specialize (Hq1 (ix l cs)). lia.
          + intros y. destruct (upd_cases tmp0 (ix l cs) y (get_best P (time_at_stop P r x s (alight_ev P)) (tmp0 (ix l cs)))) as [[<- ->]|[_ ->]]; auto.
            destruct (get_best_cases P (time_at_stop P r x s (alight_ev P)) (tmp0 (ix l cs))) as [->| ->]; auto.
            intros Hne. replace cs with (e + (cs - e))%nat by lia. eapply vboard_arrive; eauto. }
      cbv zeta in HQ. rewrite Eal in HQ. exact HQ. }
    destruct Htmp' as [Hrange' Htmp']. clear Eal.
    assert (Hcarry : forall e oo x, et e oo = Some x -> vboard k r (S i) (S i) (S i) e oo x).
    { intros e oo x Hx. destruct (Het1 _ _ _ Hx) as (v & p & j & t & H1 & H2 & H3 & H4).
      exists v, p, j, t. split; [exact H1|]. split; [exact H2|]. split; [lia|exact H4]. }
    destruct (Nat.eqb i (length (r_stops r) - 1) || negb (can_start fwd (is_wheelchair P) (stop_at r s)) || negb (marked vias pm l)) eqn:Eb1.
    { split; cbn [vs_et vs_break vs_tmp]; auto. }
    apply orb_false_iff in Eb1 as [Eb1 _]. apply orb_false_iff in Eb1 as [_ Ecs]. apply negb_false_iff in Ecs.
    rewrite can_start_on in Ecs.
    destruct (negb (lb_reachable P l)).
    { split; cbn [vs_et vs_break vs_tmp]; [intros; discriminate|auto]. }
    split; cbn [vs_et vs_break vs_tmp]; [|auto]. intros e oo x Hx _. revert e oo x Hx.
    apply (fold_left_inv _ (fun et' : nat -> nat -> option ride => forall e oo x, et' e oo = Some x -> vboard k r (S i) (S i) (S i) e oo x)); auto.
    intros et' v Hv Hb e oo x0. apply in_slots in Hv. unfold board_step. cbv zeta.
    destruct (negb (rtp (ix l v) =? kInvalid) && is_better_or_eq P (rtp (ix l v)) _) eqn:Eprev; [|auto].
    apply andb_true_iff in Eprev as [Eprev _]. apply negb_true_iff, Z.eqb_neq in Eprev.
    destruct (get_earliest_transport P ri r s l tad (rtp (ix l v))) as [[x d]|] eqn:Eget; [|auto].
    destruct ((_ =? kInvalid) || _); [|auto].
    destruct (Nat.eq_dec v e) as [->|Hne]; [|rewrite upd2_neq by auto; auto].
    destruct (Nat.eq_dec oo 0) as [->|Hne]; [|rewrite upd2_neq by auto; auto].
    rewrite upd2_eq. intros [= <-].
    apply get_earliest_transport_sound in Eget as (w & Hw & Hrun & Hle & _); auto; [|now apply stop_idx_lt].
    destruct (Hrt _ Eprev) as (j & Hj & [Hrd|(off & l0 & t0 & d0 & Hoff & El & _)]).
    - exists w, i, j, (rtp (ix l e)). cbn [fst snd]. do 9 (split; [first [assumption|lia]|]). split; [intros; lia|].
      rewrite slotp_here. lia.
    - exfalso. change (p_end PX) with (ix (p_end P) nv) in El. apply ix_inj in El as [El _]; auto.
      revert El. apply (stop_not_end P Hend ri r s Hr); [now apply stop_idx_lt|].
      change (p_dist_to_end PX) with (x_dist P vias) in Hoff. unfold x_dist in Hoff. destruct (p_dist_to_end P); congruence.
  Qed.

  Lemma via_update_route_sinv k ri r s :
    (1 <= k)%nat -> nth_error (tt_routes tt) ri = Some r -> route_allowed P r = true ->
    sinv k s -> sinv k (via_update_route P vias k ri r s).
  Proof.
    intros Hk Hr Hra [H1 H2 H3 H4 H5]. unfold via_update_route.
    set (f := via_scan_stop P vias ri r (s_best s) (s_rt s (k - 1)%nat) (s_tad s k) (s_prev s)).
    assert (Hinv : vscan_inv k r (length (r_stops r)) (fold_left f (seq 0 (length (r_stops r))) (mk_vscan (fun _ _ => None) (s_tmp s) (s_mark s) false))).
    { apply (fold_left_seq_inv f (fun i c => vscan_inv k r i c)).
      - split; cbn; [discriminate|auto].
      - intros i c Hi Hc. apply via_scan_stop_sinv; auto.
        intros l Hl. destruct (H4 _ _ Hl) as (j & Hj & HL). exists j. split; [lia|auto]. }
    destruct Hinv as (_ & Hrg & Ht). split; cbn [s_rt s_tmp s_best]; auto.
  Qed.
  Lemma via_loop_routes_sinv k rm s : (1 <= k)%nat -> sinv k s -> sinv k (via_loop_routes P vias k rm s).
  Proof.
    intros Hk H. unfold via_loop_routes. apply fold_left_inv; auto. clear s H. intros s ri _ H.
    destruct (nth_error (tt_routes tt) ri) as [r|] eqn:Er; auto.
    destruct (rm ri && route_allowed P r) eqn:E; auto. apply andb_true_iff in E as [_ E].
    now apply via_update_route_sinv.
  Qed.
  Lemma via_merge_best_sinv k s : sinv k s -> sinv k (via_merge_best P vias k s).
  Proof.
    intros [H1 H2 H3 H4 H5]. split; cbn [via_merge_best s_rt s_tmp s_best]; auto.
    intros l. destruct (Nat.ltb l _); auto. change (o (get_best P (s_rt s k l) (s_best s l)) <= OI).
    rewrite o_get_best. specialize (H1 k l). change (o (s_rt s k l) <= OI) in H1. lia.
  Qed.
  Lemma via_round_sinv k s : (1 <= k)%nat -> sinv k s -> sinv k (fst (via_round P vias k s)).
  Proof.
    intros Hk H. unfold via_round. assert (Hm := via_merge_best_sinv k s H).
    destruct (negb (via_any_marked P vias (via_merge_best P vias k s))); cbn [fst]; [exact Hm|].
    apply via_update_footpaths_sinv, via_update_intermodal_sinv, via_update_transfers_sinv, marks_sinv, via_loop_routes_sinv; auto.
    now apply marks_sinv.
  Qed.
  Lemma via_rounds_sinv n : forall k s, (1 <= k)%nat -> sinv k s -> exists k', sinv k' (via_rounds P vias n k s).
  Proof.
    induction n as [|n IH]; intros k s Hk H; cbn [via_rounds]; [eauto|].
    pose proof (via_round_sinv k s Hk H) as Hr. destruct (via_round P vias k s) as [s' go]. cbn [fst] in Hr.
    destruct go; [|eauto]. apply IH; [lia|]. apply sinv_weaken with k; auto.
  Qed.
  Lemma via_add_start_eq s l t : via_add_start P vias s (l, t) = add_start PX s (ix l (visited 0 l), t).
  Proof. unfold via_add_start. rewrite (visited_is_via vias 0 l). destruct (is_via vias 0 l); reflexivity. Qed.
  Lemma via_run_group_sinv mt s g k :
    (forall l t, In (l, t) (g_starts g) -> St l t /\ o t <= OI) ->
    sinv k s -> exists k', sinv k' (via_run_group P vias mt s g).
  Proof.
    intros Hg [H1 H2 H3 H4 H5]. unfold via_run_group. apply via_rounds_sinv; auto.
    assert (Hadd : sinv 1 (fold_left (via_add_start P vias) (g_starts g) (next_start_time P s))).
    { apply fold_left_inv.
      - unfold next_start_time. split; cbn [s_rt s_tmp s_best]; auto.
        + intros. change (o kInvalid <= OI). rewrite (o_kInvalid P). apply Z.le_refl.
        + intros. change (o kInvalid <= OI). rewrite (o_kInvalid P). apply Z.le_refl.
        + intros l Hl. exfalso. apply Hl. reflexivity.
      - intros s' [l t] Hin Hs'. destruct (Hg l t Hin). rewrite via_add_start_eq. apply add_start_sinv; auto.
        right. exists l. auto. }
    destruct Hadd as [A1 A2 A3 A4 A5]. unfold set_worst. split; cbn [s_rt s_tmp s_best]; auto.
  Qed.
  Lemma via_reset_sinv : sinv 0 (reset_arrivals P).
  Proof. exact (reset_sinv PX StX). Qed.
End VSound.
