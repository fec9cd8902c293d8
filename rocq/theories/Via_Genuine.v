(** From the labels of the via search to connections with the true transfer times. *)
From Coq Require Import List ZArith Bool Arith Lia.
From Verif Require Import Base Pareto_Model Pareto_Proofs Time_Model Time_Proofs Raptor_Model Raptor_Spec Raptor_Base Raptor_Sound Raptor_Final
  Via_Model Via_Spec Via_Expand Via_Sound.
Import ListNotations.
Local Open Scope Z_scope.

Section VGenuine.
  Variable P : params.
  Variable vias : list via.
  Notation fwd := (p_fwd P).
  Notation tt := (p_tt P).
  Notation o := (o P).
  Notation OI := (OI P).
  Notation OL := (OL P).
  Notation kInvalid := (kInvalid P).
  Notation nv := (nv vias).
  Notation ix := (ix vias).
  Notation n_loc := (tt_n_locations (p_tt P)).
  Notation visited := (visited vias).
  Notation staying := (staying vias).
  Notation PX := (PX P vias).

  Hypothesis Hwf : all_vehicles_wf P.
  Hypothesis Hdur : durations_ok P.
  Hypothesis Hend : end_ok P.
  Hypothesis Hloc : locations_ok P.
  Hypothesis Hstay : stays_ok vias.

  Section Starts.
  Variable St : nat -> Z -> Prop.
  Hypothesis HSt : forall l t, St l t -> OL < o t.
  Notation StX := (StX vias St).
  Notation Arr := (arrived PX StX (tr_eff PX)).
  Notation Ready := (ready PX StX (tr_eff PX)).
  Notation Lbl := (Lbl PX StX).
  Notation sinv := (sinv PX StX).
  Notation VArr := (varrived P vias St (transfer_time P)).
  Notation VReady := (vready P vias St (transfer_time P)).
  Notation VConn := (via_connection P vias St (transfer_time P)).

  (** A connection that arrives no later. *)
  Definition better (k : nat) (t : Z) : Prop := exists k' l' t', (1 <= k' <= k)%nat /\ VConn k' l' t' /\ o t' <= o t.
  Lemma better_later k k' t t' : (k <= k')%nat -> o t <= o t' -> better k t -> better k' t'.
  Proof. intros Hk Ht (k0 & l0 & t0 & H1 & H2 & H3). exists k0, l0, t0. split; [lia|]. split; [auto|lia]. Qed.

  Lemma arr_low k x t : Arr k x t -> OL < o t.
  Proof. exact (Arr_lower' PX (x_wf P vias Hwf) (x_dur P vias Hdur Hstay) StX (HStX P vias St HSt) k x t). Qed.
  Lemma ready_low k x t : Ready k x t -> OL < o t.
  Proof. exact (Ready_lower' PX (x_wf P vias Hwf) (x_dur P vias Hdur Hstay) StX (HStX P vias St HSt) k x t). Qed.
  Lemma varr_pos k v l t : VArr k v l t -> (1 <= k)%nat.
  Proof. intros H. inversion H; lia. Qed.

  Lemma range_width : OI - OL < BIG.
  Proof. unfold Raptor_Base.OI, Raptor_Base.OL, BIG. destruct fwd; lia. Qed.

  (** Changing at [l]: a genuine change, or the journey is over. *)
  Lemma change_genuine k v l t0 t : VArr k v l t0 -> t = after P t0 (tr_via P vias l (visited v l) + staying v l) ->
    VReady k (visited v l) l t \/ (p_is_dest P l = true /\ visited v l = nv /\ VConn k l t).
  Proof.
    intros Ha ->. unfold tr_via. destruct (negb (is_intermodal_dest P) && (Nat.eqb (visited v l) nv && p_is_dest P l)) eqn:E.
    - right. apply andb_true_iff in E as [E1 E]. apply andb_true_iff in E as [E2 E3]. apply Nat.eqb_eq in E2.
      split; auto. split; auto. eapply vconn_station; eauto.
      unfold is_intermodal_dest in E1. destruct (p_dist_to_end P); [discriminate|auto].
    - left. now apply vready_transfer.
  Qed.

  Lemma genuine : forall k,
    (forall x t, Arr k x t -> o t <= OI -> (exists l v, x = ix l v /\ (v <= nv)%nat /\ VArr k v l t) \/ better (k - 1) t) /\
    (forall x t, Ready k x t -> o t <= OI -> (exists l v, x = ix l v /\ (v <= nv)%nat /\ VReady k v l t) \/ better k t).
  Proof.
    assert (HR : forall k, (forall x t, Arr k x t -> o t <= OI -> (exists l v, x = ix l v /\ (v <= nv)%nat /\ VArr k v l t) \/ better (k - 1) t) ->
      forall x t, Ready k x t -> o t <= OI -> (exists l v, x = ix l v /\ (v <= nv)%nat /\ VReady k v l t) \/ better k t).
    { intros k HA x t Hr Ht. inversion Hr as [x0 t0 Hs|k0 x0 t0 Ha|k0 x0 t0 x1 d Ha Hw]; subst.
      - destruct Hs as (l & Hs & ->). left. exists l, (visited 0 l). split; auto. split; [apply start_slot_le|]. now apply vready_start.
      - assert (Hlow := arr_low _ _ _ Ha). change (o (after P t0 (tr_eff PX x)) <= OI) in Ht. rewrite o_after in Ht.
        destruct (HA _ _ Ha) as [(l & v & -> & Hv & Hva)|Hb].
        { pose proof (tr_eff_nonneg PX (x_dur P vias Hdur Hstay) x). lia. }
        + destruct (is_via vias v l) eqn:Ev.
          * exfalso. assert (E : tr_eff PX (ix l v) = BIG).
            { unfold tr_eff. change (p_is_dest PX (ix l v)) with (p_is_dest P (loc_of vias (ix l v)) && Nat.eqb (slot_of vias (ix l v)) nv).
              rewrite slot_ix by auto. apply is_via_lt in Ev as Hlt. destruct (Nat.eqb_spec v nv); [lia|].
              rewrite !andb_false_r. unfold transfer_time.
              change (p_adjust PX (tt_transfer_time (p_tt PX) (ix l v))) with (x_transfer P vias (ix l v)). unfold x_transfer.
              rewrite loc_ix, slot_ix, Ev by auto. reflexivity. }
            pose proof range_width. lia.
          * change (after PX t0) with (after P t0). rewrite (tr_eff_ix P vias l v Hv Ev).
            assert (E : visited v l = v) by (rewrite visited_is_via, Ev; auto).
            assert (E2 : staying v l = 0) by (rewrite staying_is_via, Ev; auto).
            destruct (change_genuine k v l t0 (after P t0 (tr_via P vias l v)) Hva) as [Hg|(_ & _ & Hg)].
            { rewrite E, E2, Z.add_0_r. reflexivity. }
            -- left. exists l, v. rewrite E in Hg. auto.
            -- right. exists k, l, (after P t0 (tr_via P vias l v)). split; [apply varr_pos in Hva; lia|]. split; [auto|lia].
        + right. eapply better_later; [| |exact Hb]; [lia|]. change (o t0 <= o (after P t0 (tr_eff PX x))). rewrite o_after.
          pose proof (tr_eff_nonneg PX (x_dur P vias Hdur Hstay) x). lia.
      - assert (Hlow := arr_low _ _ _ Ha). change (o (after P t0 d) <= OI) in Ht. rewrite o_after in Ht.
        assert (Hd := walk_nonneg PX (x_dur P vias Hdur Hstay) _ _ _ Hw).
        destruct (HA _ _ Ha ltac:(lia)) as [(l & v & -> & Hv & Hva)|Hb].
        2:{ right. eapply better_later; [| |exact Hb]; [lia|]. change (o t0 <= o (after P t0 d)). rewrite o_after. lia. }
        apply x_walk_sound in Hw as (Hx & Hc). rewrite loc_ix, slot_ix in Hc by auto.
        destruct Hc as [(Ev & _ & -> & ->)|(l' & d0 & Hw & -> & ->)].
        + assert (E : visited v l = S v) by (rewrite visited_is_via, Ev; auto).
          assert (E2 : staying v l = stay_of vias v) by (rewrite staying_is_via, Ev; auto).
          change (after PX t0) with (after P t0).
          destruct (change_genuine k v l t0 (after P t0 (tr_via P vias l (S v) + stay_of vias v)) Hva) as [Hg|(_ & _ & Hg)].
          { rewrite E, E2. reflexivity. }
          * left. exists l, (S v). rewrite E in Hg. apply is_via_lt in Ev. auto.
          * right. exists k, l, (after P t0 (tr_via P vias l (S v) + stay_of vias v)). split; [apply varr_pos in Hva; lia|]. split; [auto|lia].
        + left. exists l', (visited (visited v l) l'). split; auto. split; [apply visited_le, visited_le; auto|].
          change (after PX t0) with (after P t0). now apply vready_walk. }
    induction k as [|k [IHa IHr]].
    - split; [intros x t Ha; inversion Ha|]. apply HR. intros x t Ha; inversion Ha.
    - assert (HA : forall x t, Arr (S k) x t -> o t <= OI -> (exists l v, x = ix l v /\ (v <= nv)%nat /\ VArr (S k) v l t) \/ better (S k - 1) t).
      { intros x t Ha Ht. inversion Ha as [k0 x0 t0 tb x' ta Hr Hn Hride]; subst.
        apply (no_later_o P) in Hn. assert (Hord := ride_ok_order PX (x_wf P vias Hwf) _ _ _ _ Hride). change (o tb <= o t) in Hord.
        destruct (IHr _ _ Hr ltac:(lia)) as [(l & v & -> & Hv & Hvr)|Hb].
        2:{ right. eapply better_later; [| |exact Hb]; lia. }
        left. apply x_ride_sound in Hride as (v1 & l1 & v' & l' & Hv1 & Hv' & E & -> & Hride).
        apply ix_inj in E as [-> ->]; auto. exists l', v'. split; auto. split; auto.
        eapply varrived_ride; [exact Hvr| |exact Hride]. now apply no_later_o. }
      split; auto.
  Qed.

  (** A destination label. *)
  Lemma label_connection k l t : (1 <= k)%nat -> p_is_dest P l = true -> o t <= OI -> Lbl k (ix l nv) t -> better k t.
  Proof.
    intros Hk Hd Ht [Hr|(off & x0 & t0 & d & Hoff & El & Ha & Hdd & ->)].
    - inversion Hr as [x0 t0 Hs|k0 x0 t0 Ha|k0 x0 t0 x1 d Ha Hw]; subst.
      + lia.
      + assert (Hlow := arr_low _ _ _ Ha). change (o (after P t0 (tr_eff PX (ix l nv))) <= OI) in Ht. rewrite o_after in Ht.
        pose proof (tr_eff_nonneg PX (x_dur P vias Hdur Hstay) (ix l nv)).
        destruct (proj1 (genuine k) _ _ Ha ltac:(lia)) as [(l' & v & E & Hv & Hva)|Hb].
        2:{ eapply better_later; [| |exact Hb]; [lia|]. change (o t0 <= o (after P t0 (tr_eff PX (ix l nv)))). rewrite o_after. lia. }
        apply ix_inj in E as [<- <-]; auto.
        destruct (visited_full vias l) as [Ev Es].
        destruct (p_dist_to_end P) as [off|] eqn:Eoff.
        * exfalso. destruct (arr_ix P vias Hend Hloc St _ _ _ _ Hv Ha) as [_ He]. unfold at_end, is_intermodal_dest in He. rewrite Eoff in He.
          destruct (Hend ltac:(congruence)) as (He1 & _). apply He1 in Hd. subst l. rewrite Nat.eqb_refl in He. discriminate.
        * exists k, l, (after P t0 (staying nv l)). split; [lia|]. split; [eapply vconn_station; eauto|].
          rewrite Es. change (o (after P t0 0) <= o (after P t0 (tr_eff PX (ix l nv)))). rewrite !o_after. lia.
      + assert (Hlow := arr_low _ _ _ Ha). change (o (after P t0 d) <= OI) in Ht. rewrite o_after in Ht.
        assert (Hdn := walk_nonneg PX (x_dur P vias Hdur Hstay) _ _ _ Hw).
        destruct (proj1 (genuine k) _ _ Ha ltac:(lia)) as [(l' & v & -> & Hv & Hva)|Hb].
        2:{ eapply better_later; [| |exact Hb]; [lia|]. change (o t0 <= o (after P t0 d)). rewrite o_after. lia. }
        assert (Hne : p_dist_to_end P = None).
        { destruct (p_dist_to_end P) as [off|] eqn:Eoff; auto. exfalso.
          assert (Hx := x_end P vias Hend). destruct Hx as (_ & _ & Hx); [apply x_intermodal; congruence|].
          destruct (Hend ltac:(congruence)) as (He1 & _). apply He1 in Hd. subst l. destruct Hw as (d0 & Hin & _). eapply Hx. exact Hin. }
        apply x_walk_sound in Hw as (Hx & Hc). rewrite loc_ix, slot_ix in Hc by auto.
        destruct Hc as [(Ev & _ & E & ->)|(l1 & d0 & Hw & E & ->)].
        * apply is_via_lt in Ev as Hlt. apply ix_inj in E as [<- E]; [|lia|lia].
          assert (E1 : visited v l = S v) by (rewrite visited_is_via, Ev; auto).
          assert (E2 : staying v l = stay_of vias v) by (rewrite staying_is_via, Ev; auto).
          exists k, l, (after P t0 (staying v l)). split; [lia|]. split; [eapply vconn_station; eauto|].
          { rewrite E1, <- E. reflexivity. }
          change (after PX t0) with (after P t0). rewrite !o_after, E2. pose proof (tr_via_nonneg P vias Hdur l (S v)). lia.
        * apply ix_inj in E as [<- E]; [|lia|apply visited_le, visited_le; auto].
          eexists k, l, _. split; [lia|]. split; [eapply vconn_walk; eauto|]. change (after PX t0) with (after P t0). lia.
    - assert (Hlow := arr_low _ _ _ Ha). change (o (after P t0 d) <= OI) in Ht. rewrite o_after in Ht.
      assert (Hdn : 0 <= d) by (destruct (x_dur P vias Hdur Hstay) as (_ & _ & _ & Hw); eapply Hw; eauto).
      destruct (proj1 (genuine k) _ _ Ha ltac:(lia)) as [(l' & v & -> & Hv & Hva)|Hb].
      2:{ eapply better_later; [| |exact Hb]; [lia|]. change (o t0 <= o (after P t0 d)). rewrite o_after. lia. }
      change (p_dist_to_end PX) with (x_dist P vias) in Hoff. unfold x_dist in Hoff.
      destruct (p_dist_to_end P) as [off0|] eqn:Eoff; [|discriminate]. injection Hoff as <-. rewrite loc_ix, slot_ix in Hdd by auto.
      destruct (Nat.eqb_spec (visited v l') nv) as [Ev|]; [|discriminate]. destruct (off0 l') as [d0|] eqn:Ed0; [|discriminate].
      injection Hdd as <-.
      change (p_end PX) with (ix (p_end P) nv) in El. apply ix_inj in El as [-> _]; auto.
      eexists k, (p_end P), _. split; [lia|]. split; [eapply (vconn_offset P vias St (transfer_time P) k (p_end P) _ off0 v l' t0 d0); eauto|].
      change (after PX t0) with (after P t0). rewrite !o_after. lia.
  Qed.

  (** *** Labels of round [k >= 1] have used at least one vehicle. *)
  Definition rpos (s : state) : Prop := forall j x, (1 <= j)%nat -> s_rt s j x <> kInvalid ->
    exists i, (1 <= i <= j)%nat /\ Lbl i x (s_rt s j x).

  Lemma arr_label_pos k j x t d x' : Arr j x t -> (j <= k)%nat -> 0 <= d -> Lbl j x' (after P t d) ->
    clamp16 (after P t d) <> kInvalid -> exists i, (1 <= i <= k)%nat /\ Lbl i x' (clamp16 (after P t d)).
  Proof.
    intros Ha Hj Hd HL Hne. exists j. split; [inversion Ha; subst; lia|].
    assert (Hlow := arr_low _ _ _ Ha).
    destruct (clamp_cases P (after P t d)) as [-> | E]; [rewrite o_after; lia|auto|contradiction].
  Qed.
  Lemma transfer_to_rpos k y t b s : 
    (t <> kInvalid -> exists i, (1 <= i <= k)%nat /\ Lbl i y t) -> rpos s -> rpos (transfer_to PX k y t b s).
  Proof.
    intros Hl H. unfold transfer_to.
    assert (Hu : forall w, w = t \/ w = s_rt s k y -> forall j x, (1 <= j)%nat ->
        upd (s_rt s) k (upd (s_rt s k) y w) j x <> kInvalid -> exists i, (1 <= i <= j)%nat /\ Lbl i x (upd (s_rt s) k (upd (s_rt s k) y w) j x)).
    { intros w Hw j x Hj. destruct (upd_cases (s_rt s) k j (upd (s_rt s k) y w)) as [[<- ->]|[_ ->]]; [|now apply H].
      destruct (upd_cases (s_rt s k) y x w) as [[<- ->]|[_ ->]]; [|now apply H].
      destruct Hw as [-> | ->]; [intros Hne; now apply Hl|now apply H]. }
    destruct (is_better PX t (s_best s y)); cbn [andb].
    - destruct (is_better_or_eq PX t (s_tad s k) && _).
      + intros j x Hj. cbn [s_rt]. rewrite upd_eq.
        assert (E : upd (upd (s_rt s) k (upd (s_rt s k) y (get_best PX t (s_rt s k y)))) k
                 (upd (upd (s_rt s k) y (get_best PX t (s_rt s k y))) y t) j x = upd (s_rt s) k (upd (s_rt s k) y t) j x).
        { unfold upd. destruct (Nat.eqb k j); auto. destruct (Nat.eqb y x); auto. }
        rewrite E. apply Hu; auto.
      + intros j x Hj. cbn [s_rt]. apply Hu; auto.
        destruct (get_best_cases PX t (s_rt s k y)); auto.
    - intros j x Hj. cbn [s_rt]. apply H. exact Hj.
  Qed.
  Lemma via_transfers_step_rpos k i s v : (v <= nv)%nat -> sinv k s -> rpos s -> rpos (via_transfers_step P vias k i s v).
  Proof.
    intros Hv H Hp. rewrite via_transfers_step_eq. destruct (s_tmp s (ix i v) =? kInvalid) eqn:E; auto. apply Z.eqb_neq in E.
    destruct (si_tmp _ _ _ _ H _ E) as (j & Hj & Ha). destruct (arr_ix P vias Hend Hloc St _ _ _ _ Hv Ha) as [Hl He].
    rewrite transfer_to_ix by (auto; apply visited_le; auto).
    apply transfer_to_rpos; auto. intros Hne.
    apply (arr_label_pos k j (ix i v)); auto.
    - pose proof (tr_via_nonneg P vias Hdur i (visited v i)). pose proof (staying_nonneg vias v i Hstay). lia.
    - left. now apply ready_change.
  Qed.
  Lemma via_footpath_step_rpos k i fp s v : In fp (footpaths_of P i) -> (v <= nv)%nat -> sinv k s -> rpos s ->
    rpos (via_footpath_step P vias k i fp s v).
  Proof.
    intros Hin Hv H Hp. rewrite via_footpath_step_eq. destruct (s_tmp s (ix i v) =? kInvalid) eqn:E; auto. apply Z.eqb_neq in E.
    destruct (si_tmp _ _ _ _ H _ E) as (j & Hj & Ha). assert (Hw := walk_of P i fp Hin).
    rewrite transfer_to_ix by (try (apply visited_le, visited_le; auto); eapply at_end_walk; eauto).
    apply transfer_to_rpos; auto. intros Hne.
    apply (arr_label_pos k j (ix i v)); auto.
    - pose proof (walk_nonneg P Hdur _ _ _ Hw). pose proof (staying_nonneg vias v i Hstay).
      pose proof (staying_nonneg vias (visited v i) (fst fp) Hstay). lia.
    - left. now apply ready_foot.
  Qed.
  Lemma end_from_rpos k off d i v s : p_dist_to_end P = Some off -> off i = Some d -> (v <= nv)%nat -> visited v i = nv ->
    sinv k s -> rpos s -> rpos (end_from P vias k d i v s).
  Proof.
    intros Hoff Hd Hv Hvn H Hp. unfold end_from. destruct (s_tmp s (ix i v) =? kInvalid) eqn:E; auto. apply Z.eqb_neq in E.
    destruct (si_tmp _ _ _ _ H _ E) as (j & Hj & Ha).
    assert (0 <= d) by (destruct Hdur as (_ & _ & _ & Hw); eapply Hw; eauto).
    pose proof (staying_nonneg vias v i Hstay).
    unfold via_reach_end. destruct (is_better_or_eq P _ (s_tad s k)); auto.
    set (e := clamp16 (after P (s_tmp s (ix i v)) (d + staying v i))).
    intros j0 x Hj0. cbn [s_rt]. destruct (upd_cases (s_rt s) k j0 (upd (s_rt s k) (ix (p_end P) nv) e)) as [[<- ->]|[_ ->]]; auto.
    destruct (upd_cases (s_rt s k) (ix (p_end P) nv) x e) as [[<- ->]|[_ ->]]; auto.
    intros Hne. apply (arr_label_pos k j (ix i v)); auto; [lia|]. eapply label_off; eauto.
  Qed.

  Notation both k s := (sinv k s /\ rpos s).
  Lemma via_update_transfers_both k s : both k s -> both k (via_update_transfers P vias k s).
  Proof.
    intros H. unfold via_update_transfers. apply fold_left_inv; auto. clear s H. intros s i _ H.
    destruct (marked vias (s_prev s) i); auto. apply fold_left_inv; auto. clear s H. intros s v Hv [H1 H2]. apply in_slots in Hv.
    split; [now apply via_transfers_step_sinv|now apply via_transfers_step_rpos].
  Qed.
  Lemma via_update_footpaths_both k s : both k s -> both k (via_update_footpaths P vias k s).
  Proof.
    intros H. unfold via_update_footpaths. apply fold_left_inv; auto. clear s H. intros s i _ H.
    destruct (marked vias (s_prev s) i); auto. apply fold_left_inv; auto. clear s H. intros s fp Hfp H.
    apply fold_left_inv; auto. clear s H. intros s v Hv [H1 H2]. apply in_slots in Hv.
    split; [now apply via_footpath_step_sinv|now apply via_footpath_step_rpos].
  Qed.
  Lemma via_update_intermodal_both k s : both k s -> both k (via_update_intermodal P vias k s).
  Proof.
    intros H. unfold via_update_intermodal. destruct (p_dist_to_end P) as [off|] eqn:Eoff; auto.
    apply fold_left_inv; auto. clear s H. intros s i _ H. rewrite via_intermodal_step_eq.
    destruct (marked vias (s_prev s) i); auto. destruct (off i) as [d|] eqn:Ed; auto.
    assert (Hstep : forall v s, (v <= nv)%nat -> visited v i = nv -> both k s -> both k (end_from P vias k d i v s)).
    { intros v s0 Hv Hvn [H1 H2]. split; [now apply (end_from_sinv P vias Hwf Hdur Hstay St HSt k off)|].
      now apply (end_from_rpos k off). }
    apply Hstep; [lia|apply visited_full|].
    destruct (negb (Nat.eqb nv 0) && is_via vias (nv - 1) i) eqn:E; auto.
    apply andb_true_iff in E as [E1 E2]. apply negb_true_iff, Nat.eqb_neq in E1.
    apply Hstep; auto; [lia|]. now apply visited_last.
  Qed.
  Lemma via_loop_rt k rm s : s_rt (via_loop_routes P vias k rm s) = s_rt s.
  Proof.
    unfold via_loop_routes. apply (fold_left_inv _ (fun s' => s_rt s' = s_rt s)); auto. intros s' ri _ E.
    destruct (nth_error (tt_routes tt) ri); auto. destruct (rm ri && route_allowed P r); auto.
  Qed.
  Lemma rpos_rt s s' : s_rt s' = s_rt s -> rpos s -> rpos s'.
  Proof. intros E H j x Hj. rewrite E. now apply H. Qed.
  Lemma via_round_both k s : (1 <= k)%nat -> both k s -> both k (fst (via_round P vias k s)).
  Proof.
    intros Hk [H Hp]. split; [now apply via_round_sinv|].
    unfold via_round. assert (Hm := via_merge_best_sinv P vias St k s H).
    destruct (negb (via_any_marked P vias (via_merge_best P vias k s))); cbn [fst]; [now apply (rpos_rt s)|].
    apply via_update_footpaths_both, via_update_intermodal_both, via_update_transfers_both. split.
    - apply marks_sinv, via_loop_routes_sinv; auto. now apply marks_sinv.
    - apply (rpos_rt s); auto. cbn [s_rt]. rewrite via_loop_rt. reflexivity.
  Qed.
  Lemma via_rounds_both n : forall k s, (1 <= k)%nat -> both k s -> exists k', both k' (via_rounds P vias n k s).
  Proof.
    induction n as [|n IH]; intros k s Hk H; cbn [via_rounds]; [eauto|].
    pose proof (via_round_both k s Hk H) as Hr. destruct (via_round P vias k s) as [s' go]. cbn [fst] in Hr.
    destruct go; [|eauto]. apply IH; [lia|]. destruct Hr. split; auto. apply sinv_weaken with k; auto.
  Qed.
  Lemma add_start_rpos s x : rpos s -> rpos (add_start PX s x).
  Proof.
    intros H. destruct x as [l t]. intros j x Hj. cbn [add_start s_rt]. rewrite upd_neq by lia. now apply H.
  Qed.
  Lemma via_run_group_both mt s g k :
    (forall l t, In (l, t) (g_starts g) -> St l t /\ o t <= OI) ->
    both k s -> exists k', both k' (via_run_group P vias mt s g).
  Proof.
    intros Hg [[H1 H2 H3 H4 H5] Hp]. unfold via_run_group. apply via_rounds_both; auto.
    assert (Hadd : both 1 (fold_left (via_add_start P vias) (g_starts g) (next_start_time P s))).
    { apply fold_left_inv.
      - split; [|exact Hp]. unfold next_start_time. split; cbn [s_rt s_tmp s_best]; auto.
        + intros. change (o kInvalid <= OI). rewrite (o_kInvalid P). apply Z.le_refl.
        + intros. change (o kInvalid <= OI). rewrite (o_kInvalid P). apply Z.le_refl.
        + intros l Hl. exfalso. apply Hl. reflexivity.
      - intros s' [l t] Hin [Hs' Hp']. destruct (Hg l t Hin). rewrite via_add_start_eq. split; [|now apply add_start_rpos].
        apply add_start_sinv; auto. right. exists l. auto. }
    destruct Hadd as [[A1 A2 A3 A4 A5] Hp']. unfold set_worst. split; [|exact Hp']. split; cbn [s_rt s_tmp s_best]; auto.
  Qed.
  Lemma via_reset_both : both 0 (reset_arrivals P).
  Proof. split; [apply via_reset_sinv|]. intros j x _ H. exfalso. apply H. reflexivity. Qed.
  End Starts.

  (** *** Groups *)
  Variable mt : nat.
  Definition via_after (s : state) (gs : list group) : state := fold_left (via_run_group P vias mt) gs s.
  Fixpoint via_all_reported (s : state) (gs : list group) : list journey :=
    match gs with
    | [] => []
    | g :: gs' => via_reported P vias mt g (via_run_group P vias mt s g) ++ via_all_reported (via_run_group P vias mt s g) gs'
    end.
  Lemma via_run_groups_eq gs : forall s res,
    via_run_groups P vias mt s res gs =
    (via_after s gs, fold_left (fun rs j => fst (add journey journey_dominates rs j)) (via_all_reported s gs) res).
  Proof.
    induction gs as [|g gs IH]; intros s res; cbn [via_run_groups via_all_reported via_after fold_left]; auto.
    rewrite IH, fold_left_app. reflexivity.
  Qed.
  Lemma via_results gs : snd (via_raptor P vias mt gs) = add_all journey journey_dominates (via_all_reported (reset_arrivals P) gs).
  Proof. unfold via_raptor. rewrite via_run_groups_eq. reflexivity. Qed.
  Lemma in_via_all_reported gs : forall s j, In j (via_all_reported s gs) <->
    exists gs1 g gs2, gs = gs1 ++ g :: gs2 /\ In j (via_reported P vias mt g (via_after s (gs1 ++ [g]))).
  Proof.
    induction gs as [|g gs IH]; intros s j; cbn [via_all_reported].
    - split; [intros []|]. intros (gs1 & g & gs2 & E & _). destruct gs1; discriminate.
    - rewrite in_app_iff, IH. split.
      + intros [H|(gs1 & g' & gs2 & -> & H)].
        * exists [], g, gs. auto.
        * exists (g :: gs1), g', gs2. auto.
      + intros (gs1 & g' & gs2 & E & H). destruct gs1 as [|g1 gs1]; cbn in E; injection E as -> ->.
        * left. exact H.
        * right. exists gs1, g', gs2. auto.
  Qed.
  Lemma in_via_reported g s j : In j (via_reported P vias mt g s) <->
    exists k l, (l < n_loc)%nat /\ p_is_dest P l = true /\ (1 <= k < end_k mt)%nat /\ s_rt s k (ix l nv) <> kInvalid /\
                j = mk_journey (g_start g) (s_rt s k (ix l nv)) (Z.of_nat k - 1).
  Proof.
    unfold via_reported. rewrite in_flat_map. split.
    - intros (l & Hl & H). apply in_seq in Hl. destruct (p_is_dest P l) eqn:Ed; [|destruct H].
      apply in_flat_map in H as (k & Hk & H). apply in_seq in Hk.
      destruct (s_rt s k (ix l nv) =? kInvalid) eqn:E; [destruct H|]. apply Z.eqb_neq in E.
      destruct H as [<-|[]]. exists k, l. unfold end_k in *. repeat split; auto; lia.
    - intros (k & l & Hl & Hd & Hk & Hne & ->). exists l. split; [apply in_seq; lia|]. rewrite Hd.
      apply in_flat_map. exists k. split; [apply in_seq; unfold end_k in *; lia|].
      apply Z.eqb_neq in Hne. rewrite Hne. left; auto.
  Qed.

  Lemma via_after_both gs (St : nat -> Z -> Prop) :
    (forall l t, St l t -> OL < o t) ->
    (forall g l t, In g gs -> In (l, t) (g_starts g) -> St l t /\ o t <= OI) ->
    exists k, sinv PX (StX vias St) k (via_after (reset_arrivals P) gs) /\ rpos St (via_after (reset_arrivals P) gs).
  Proof.
    intros HSt Hg. unfold via_after.
    apply (fold_left_inv (via_run_group P vias mt) (fun s => exists k, sinv PX (StX vias St) k s /\ rpos St s)).
    - exists 0%nat. now apply via_reset_both.
    - intros s g Hin (k & Hk). eapply via_run_group_both; eauto.
  Qed.

  (** Monotonicity in the starts. *)
  Lemma via_reach_mono (St St' : nat -> Z -> Prop) tr : (forall l t, St l t -> St' l t) ->
    forall k, (forall v l t, varrived P vias St tr k v l t -> varrived P vias St' tr k v l t) /\
              (forall v l t, vready P vias St tr k v l t -> vready P vias St' tr k v l t).
  Proof.
    intros Hs.
    assert (HR : forall k, (forall v l t, varrived P vias St tr k v l t -> varrived P vias St' tr k v l t) ->
                           forall v l t, vready P vias St tr k v l t -> vready P vias St' tr k v l t).
    { intros k HA v l t H. inversion H; subst; [apply vready_start|apply vready_transfer|eapply vready_walk]; eauto. }
    induction k as [|k [IHa IHr]].
    - assert (HA : forall v l t, varrived P vias St tr 0 v l t -> varrived P vias St' tr 0 v l t) by (intros v l t H; inversion H). auto.
    - assert (HA : forall v l t, varrived P vias St tr (S k) v l t -> varrived P vias St' tr (S k) v l t).
      { intros v l t H. inversion H; subst. eapply varrived_ride; eauto. }
      auto.
  Qed.
  Lemma via_connection_mono (St St' : nat -> Z -> Prop) tr k l t :
    (forall l t, St l t -> St' l t) -> via_connection P vias St tr k l t -> via_connection P vias St' tr k l t.
  Proof.
    intros Hs H. destruct (via_reach_mono St St' tr Hs k) as [HA _].
    inversion H; subst; [eapply vconn_station|eapply vconn_walk|eapply vconn_offset]; eauto.
  Qed.

  Theorem via_reported_feasible gs j : groups_ok P gs -> In j (snd (via_raptor P vias mt gs)) ->
    exists l k t, (1 <= k)%nat /\ Z.of_nat k <= j_transfers j + 1 /\
      via_connection P vias (fun l t => starts_of gs l t /\ no_later P (j_start j) t) (transfer_time P) k l t /\
      no_later P t (j_dest j).
  Proof.
    intros Hgs Hin. rewrite via_results in Hin.
    assert (Hrep := add_all_sound _ _ journey_dom_trans _ _ Hin). clear Hin.
    apply in_via_all_reported in Hrep as (gs1 & g & gs2 & E & Hr).
    set (s := via_after (reset_arrivals P) (gs1 ++ [g])) in *.
    apply in_via_reported in Hr as (k & l & Hl & Hd & Hk & Hne & Ej).
    assert (Hlow : forall l t, starts_of (gs1 ++ [g]) l t -> OL < o t) by (eapply prefix_low; eauto).
    destruct (via_after_both (gs1 ++ [g]) (starts_of (gs1 ++ [g])) Hlow) as (k0 & Hs & Hp).
    { intros g' l0 t0 Hin Ht. split; [exists g'; auto|]. eapply start_so; eauto. eapply prefix_in; eauto. }
    fold s in Hs, Hp. destruct (Hp k (ix l nv) ltac:(lia) Hne) as (i & Hi & HL).
    assert (Hrg : o (s_rt s k (ix l nv)) <= OI) by (apply (si_rt_range _ _ _ _ Hs)).
    destruct (label_connection _ Hlow i l _ ltac:(lia) Hd Hrg HL) as (k' & l' & t' & Hk' & Hc & Ht).
    exists l', k', t'. split; [lia|]. split; [rewrite Ej; cbn [j_transfers]; lia|]. split.
    - eapply via_connection_mono; [|exact Hc]. intros l1 t1 Hs1. split.
      + destruct Hs1 as (g' & Hin' & Ht'). exists g'. split; auto. eapply prefix_in; eauto.
      + rewrite Ej. cbn [j_start]. apply no_later_o. eapply prefix_start; eauto.
    - apply no_later_o. rewrite Ej. exact Ht.
  Qed.
End VGenuine.
