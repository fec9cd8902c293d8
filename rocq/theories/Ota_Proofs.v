(** Labels of a search without destination (lower bounds 0): sound, complete, and - below the travel time bound - better with
    every further ride. *)
From Coq Require Import List ZArith Bool Arith Lia.
From Verif Require Import Base Time_Model Raptor_Model Raptor_Spec Raptor_Base Raptor_Sound Raptor_Genuine Raptor_Opt Raptor_Final Raptor_Bound.
Import ListNotations.
Local Open Scope Z_scope.

Section Ota.
  Variable P : params.
  Notation fwd := (p_fwd P).
  Notation tt := (p_tt P).
  Notation o := (o P).
  Notation OI := (OI P).
  Notation OL := (OL P).
  Notation kInvalid := (kInvalid P).
  Notation n_loc := (tt_n_locations tt).
  Hypothesis Hnodest : forall l, p_is_dest P l = false.
  Hypothesis Hnoend : p_dist_to_end P = None.
  Hypothesis Hlb : forall l, p_lb P l = 0.

  Lemma ota_end_ok : end_ok P.
  Proof. intros H. now contradiction H. Qed.
  Lemma ota_lbs : all_vehicles_wf P -> durations_ok P -> lower_bounds_ok P (fun _ => 0).
  Proof.
    intros Hwf Hdur. constructor.
    - intros l. lia.
    - intros l HA HB. rewrite Hlb. lia.
    - intros ri r v s s' st st' Hr Hv Hs Hs' _ _ _ _. lia.
    - intros l l' d Hw. pose proof (walk_nonneg P Hdur _ _ _ Hw). lia.
    - intros l H. now rewrite Hnodest in H.
    - intros off l d H. congruence.
  Qed.
  Lemma ota_starts_reach St : starts_reach_ok P St.
  Proof. split; intros; rewrite Hlb in *; lia. Qed.
  Lemma ota_reachable l : lb_reachable P l = true.
  Proof. unfold lb_reachable, kUnreachable. rewrite Hlb. reflexivity. Qed.
  Lemma ota_tr_eff l : tr_eff P l = transfer_time P l.
  Proof. unfold tr_eff. now rewrite Hnodest, andb_false_r. Qed.

  (** *** Soundness *)
  Section Sound.
    Hypothesis Hwf : all_vehicles_wf P.
    Hypothesis Hdur : durations_ok P.
    Hypothesis Hloc : locations_ok P.
    Variable mt : nat.
    Variable g : group.
    Hypothesis Hg : forall l t, In (l, t) (g_starts g) -> OL < o t /\ o t <= OI.
    Notation St := (fun l t => In (l, t) (g_starts g)).
    Notation s := (run_group P mt (reset_arrivals P) g).
    Lemma ota_gsinv : exists k, gsinv P St k s.
    Proof.
      apply (run_group_gsinv P Hwf Hdur ota_end_ok Hloc St) with (k := 0%nat).
      - intros l t H. exact (proj1 (Hg l t H)).
      - intros l t H. split; [exact H|]. exact (proj2 (Hg l t H)).
      - apply reset_gsinv.
    Qed.
    Lemma ota_sound k l : s_rt s k l <> kInvalid ->
      exists i, (i <= k)%nat /\ ((1 <= k)%nat -> (1 <= i)%nat) /\ ready P St (transfer_time P) i l (s_rt s k l).
    Proof.
      intros Hne. destruct ota_gsinv as (k0 & Hk). destruct (gs_rt _ _ _ _ Hk k l Hne) as (i & Hi & Hp & HL).
      exists i. split; auto. split; auto.
      destruct HL as [-> Hs|t0 _ Ha ->|_ Hd _|l0 t0 d Ha Hw ->|off l0 t0 d Hoff _ _ _ _|_ (_ & i0 & l0 & _ & Hd & _)].
      - now apply ready_start.
      - now apply ready_transfer.
      - rewrite Hnodest in Hd; discriminate.
      - eapply ready_walk; eauto.
      - congruence.
      - rewrite Hnodest in Hd; discriminate.
    Qed.
    Lemma ota_range k l : OL < o (s_rt s k l) <= OI.
    Proof. destruct ota_gsinv as (k0 & Hk). apply (gs_rt_range _ _ _ _ Hk). Qed.
  End Sound.

  (** *** Completeness *)
  Section Complete.
    Hypothesis Hwf : all_vehicles_wf P.
    Hypothesis Hdur : durations_ok P.
    Hypothesis Hloc : locations_ok P.
    Hypothesis Hcol : columns_sorted P.
    Hypothesis Hidx : index_ok P.
    Hypothesis Hfifo : fifo P.
    Variable mt : nat.
    Variable g : group.
    Hypothesis Hg : forall l t, In (l, t) (g_starts g) -> OL < o t /\ o t <= OI /\ o (g_start g) <= o t /\ (l < n_loc)%nat.
    Hypothesis Hgl : OL <= o (g_start g).
    Notation St := (fun l t => In (l, t) (g_starts g)).
    Notation s := (run_group P mt (reset_arrivals P) g).

    Lemma ota_complete K l a : (K <= Nat.min mt 14 + 1)%nat ->
      o a <= o (g_worst g) -> o a <= o (g_start g) + 7200 -> o a < OI ->
      ready P St (transfer_time P) K l a ->
      exists j, (j <= K)%nat /\ o (s_rt s j l) <= o a.
    Proof.
      intros HK Hw Hh HaOI Hrd.
      assert (HD := ota_lbs Hwf Hdur).
      assert (HStH : forall l t, St l t -> o (g_start g) <= o t) by (intros l0 t0 Hx; destruct (Hg l0 t0 Hx) as (X1 & X2 & X3 & X4); auto).
      assert (HStL : forall l t, St l t -> OL < o t) by (intros l0 t0 Hx; destruct (Hg l0 t0 Hx) as (X1 & X2 & X3 & X4); auto).
      assert (HStloc : forall l t, St l t -> (l < n_loc)%nat) by (intros l0 t0 Hx; destruct (Hg l0 t0 Hx) as (X1 & X2 & X3 & X4); auto).
      assert (HKe : (K < end_k mt)%nat) by (unfold end_k, kMaxTransfers; lia).
      destruct (run_group_ginv P Hwf Hdur ota_end_ok Hcol Hidx Hfifo Hloc (fun _ => 0) HD St (ota_starts_reach St)
                 (o (g_start g)) a K HStH Hgl Hh HaOI HStL mt (reset_arrivals P) g HKe Hw) as (Gi & G0 & _).
      - intros l0 t0 H. split; [exact H|]. apply (Hg l0 t0 H).
      - apply reset_ginv; auto.
      - assert (Hnd : nd P a K s).
        { intros j l0 _ Hd. rewrite Hnodest in Hd. discriminate. }
        destruct Gi as [Gs _ Gc].
        destruct (genuine_eff P Hdur St K) as [_ HR]. destruct (HR _ _ Hrd) as (a' & Ha' & Hrd').
        assert (Hrel : rel P (fun _ => 0) a l a') by (unfold rel; lia).
        destruct (closed_reach P Hwf Hdur (fun _ => 0) HD St (o (g_start g)) a K HStH Hh HaOI HStL s Gc Hnd Gs
                    St G0 K (le_n K) l a' Hrd' Hrel) as (j & Hj & Hle).
        exists j. split; auto. lia.
    Qed.
  End Complete.

  (** *** Labels improve from round to round as long as they stay within the bound *)
  Section Improve.
    Variable W : Z.                             (* order of the bound *)
    Hypothesis HW : W < OI.
    Record imp (k : nat) (s : state) : Prop := mk_imp {
      im_tad : forall i, o (s_tad s i) = W;
      im_best : forall j l, o (s_rt s j l) <= W -> o (s_best s l) <= o (s_rt s j l);
      im_dec : forall j j' l, (j < j')%nat -> s_rt s j' l <> kInvalid -> o (s_rt s j l) <= W -> o (s_rt s j' l) < o (s_rt s j l);
      im_above : forall j l, (k < j)%nat -> s_rt s j l = kInvalid }.
    Lemma imp_ext k s s' : s_rt s' = s_rt s -> s_best s' = s_best s -> s_tad s' = s_tad s -> imp k s -> imp k s'.
    Proof. intros E1 E2 E3 [H1 H2 H3 H4]. split; rewrite ?E1, ?E2, ?E3; auto. Qed.
    Lemma imp_weaken k k' s : (k <= k')%nat -> imp k s -> imp k' s.
    Proof. intros Hk [H1 H2 H3 H4]. split; auto. intros. apply H4. lia. Qed.

    Lemma transfer_to_imp k target fp s : imp k s -> imp k (transfer_to P k target fp false s).
    Proof.
      intros [H1 H2 H3 H4]. unfold transfer_to. rewrite ota_reachable, Hlb.
      destruct (is_better P fp (s_best s target)) eqn:Eb.
      2: { cbn [andb]. split; cbn [s_tad s_best s_rt]; auto. }
      apply is_better_o in Eb. cbn [andb].
      replace (fp + dir P 0) with fp by (unfold dir; destruct fwd; lia).
      rewrite andb_diag.
      destruct (is_better_or_eq P fp (s_tad s k)) eqn:Ew.
      - apply is_better_or_eq_o in Ew. rewrite H1 in Ew.
        assert (Hold : o fp <= o (s_rt s k target)).
        { destruct (Z.le_gt_cases (o (s_rt s k target)) W) as [Hx|Hx]; [apply H2 in Hx|]; lia. }
        assert (V : forall j l, upd (upd (s_rt s) k (upd (s_rt s k) target (get_best P fp (s_rt s k target)))) k
                       (upd (upd (s_rt s) k (upd (s_rt s k) target (get_best P fp (s_rt s k target))) k) target fp) j l =
                     if Nat.eqb k j && Nat.eqb target l then fp else s_rt s j l).
          { intros j l. unfold upd. rewrite Nat.eqb_refl. destruct (Nat.eqb_spec k j) as [<-|]; cbn; auto.
            destruct (Nat.eqb target l); auto. }
        split; cbn [s_tad s_best s_rt]; auto.
        + intros j l. rewrite V. unfold upd.
          destruct (Nat.eqb_spec target l) as [<-|Hl]; rewrite ?andb_false_r, ?andb_true_r; [|now apply H2].
          destruct (Nat.eqb_spec k j) as [<-|Hj]; [lia|]. intros Hx. apply H2 in Hx. lia.
        + intros j j' l Hlt. rewrite !V.
          destruct (Nat.eqb_spec target l) as [<-|Hl]; rewrite ?andb_false_r, ?andb_true_r; [|now apply H3].
          destruct (Nat.eqb_spec k j') as [<-|Hj'].
          * rewrite (proj2 (Nat.eqb_neq k j) ltac:(lia)). intros Hne Hle. apply H2 in Hle. lia.
          * destruct (Nat.eqb_spec k j) as [<-|Hj]; [|now apply H3].
            intros Hne Hle. exfalso. apply Hne. apply H4. lia.
        + intros j l Hj. unfold upd. rewrite !(proj2 (Nat.eqb_neq k j) ltac:(lia)). now apply H4.
      - assert (Ew' : W < o fp).
        { rewrite <- (H1 k). destruct (Z.le_gt_cases (o fp) (o (s_tad s k))) as [Hx|Hx]; auto.
          apply is_better_or_eq_o in Hx. congruence. }
        assert (V : forall j l, upd (s_rt s) k (upd (s_rt s k) target (get_best P fp (s_rt s k target))) j l =
                     if Nat.eqb k j && Nat.eqb target l then get_best P fp (s_rt s k target) else s_rt s j l).
        { intros j l. unfold upd. destruct (Nat.eqb_spec k j) as [<-|]; cbn; auto. }
        split; cbn [s_tad s_best s_rt]; auto.
        + intros j l. rewrite V. destruct (Nat.eqb_spec k j) as [<-|Hj]; cbn [andb]; auto.
          destruct (Nat.eqb_spec target l) as [<-|Hl]; auto. rewrite o_get_best. intros Hx.
          assert (Hx' : o (s_rt s k target) <= W) by lia. apply H2 in Hx'. lia.
        + intros j j' l Hlt. rewrite !V.
          destruct (Nat.eqb_spec target l) as [<-|Hl]; rewrite ?andb_false_r, ?andb_true_r; [|now apply H3].
          destruct (Nat.eqb_spec k j') as [<-|Hj'].
          * rewrite (proj2 (Nat.eqb_neq k j) ltac:(lia)). intros Hne Hle. apply H2 in Hle. rewrite o_get_best. lia.
          * destruct (Nat.eqb_spec k j) as [<-|Hj]; [|now apply H3].
            intros Hne Hle. exfalso. apply Hne. apply H4. lia.
        + intros j l Hj. rewrite V. rewrite (proj2 (Nat.eqb_neq k j) ltac:(lia)). now apply H4.
    Qed.

    Lemma transfers_imp k s : imp k s -> imp k (update_transfers P k s).
    Proof.
      intros H. unfold update_transfers. apply fold_left_inv; auto. intros s' i _ Hs'.
      destruct (s_prev s' i && negb (s_tmp s' i =? kInvalid)); auto. rewrite Hnodest. now apply transfer_to_imp.
    Qed.
    Lemma footpaths_imp k s : imp k s -> imp k (update_footpaths P k s).
    Proof.
      intros H. unfold update_footpaths. apply fold_left_inv; auto. intros s' i _ Hs'.
      destruct (s_prev s' i); auto. apply fold_left_inv; auto. intros s2 fp _ Hs2.
      destruct (s_tmp s2 i =? kInvalid); auto. rewrite Hnodest. now apply transfer_to_imp.
    Qed.
    Lemma round_imp k s : (1 <= k)%nat -> imp (k - 1) s -> imp k (fst (round P k s)).
    Proof.
      intros Hk H. unfold round.
      assert (Hm : imp (k - 1) (merge_best P k s)).
      { destruct H as [H1 H2 H3 H4]. unfold merge_best.
        assert (E : forall ls t (b : nat -> Z), fold_left (fun tad i => if p_is_dest P i then update_time_at_dest P tad k (b i) else tad) ls t = t).
        { induction ls as [|i ls IH]; intros t b; cbn [fold_left]; auto. rewrite Hnodest. apply IH. }
        rewrite E. split; cbn [s_tad s_best s_rt]; auto.
        intros j l Hx. apply H2 in Hx. destruct (Nat.ltb l n_loc); auto. rewrite o_get_best. lia. }
      destruct (negb (any_marked P (merge_best P k s))); cbn [fst].
      { apply imp_weaken with (k - 1)%nat; auto. lia. }
      set (s1 := merge_best P k s) in *. clearbody s1. clear H s.
      set (s2 := mk_state (s_tmp s1) (s_best s1) (s_rt s1) (s_tad s1) (fun _ => false) (s_mark s1)).
      assert (F : s_rt (loop_routes P k (route_marks P s1) s2) = s_rt s2 /\ s_best (loop_routes P k (route_marks P s1) s2) = s_best s2 /\
                  s_tad (loop_routes P k (route_marks P s1) s2) = s_tad s2).
      { unfold loop_routes. destruct (route_fold_frame P k (route_marks P s1) (seq 0 (length (tt_routes tt))) s2) as (F1 & F2 & F3 & _).
        unfold route_step in *. auto. }
      destruct F as (F1 & F2 & F3). set (s3 := loop_routes P k (route_marks P s1) s2) in *. clearbody s3.
      apply footpaths_imp. unfold update_intermodal_footpaths. rewrite Hnoend. apply transfers_imp.
      apply imp_weaken with (k - 1)%nat; [lia|]. apply imp_ext with s1; auto.
    Qed.
    Lemma rounds_imp n : forall k s, (1 <= k)%nat -> imp (k - 1) s -> imp (k + n - 1) (rounds P n k s).
    Proof.
      induction n as [|n IH]; intros k s Hk H; cbn [rounds].
      - now replace (k + 0 - 1)%nat with (k - 1)%nat by lia.
      - apply (round_imp k) in H; auto. destruct (round P k s) as [s' go]. cbn [fst] in H. destruct go.
        + replace (k + S n - 1)%nat with (S k + n - 1)%nat by lia. apply IH; [lia|]. now replace (S k - 1)%nat with k by lia.
        + apply imp_weaken with k; auto. lia.
    Qed.
    Lemma group_imp mt g : o (g_worst g) = W -> imp (Nat.min mt 14 + 1) (run_group P mt (reset_arrivals P) g).
    Proof.
      intros Hg. unfold run_group.
      replace (Nat.min mt 14 + 1)%nat with (1 + (end_k mt - 1) - 1)%nat by (unfold end_k, kMaxTransfers; lia).
      apply rounds_imp; auto. cbn [Nat.sub].
      assert (X : forall xs s, (forall l, o (s_best s l) = o (s_rt s 0%nat l)) -> (forall j l, (0 < j)%nat -> s_rt s j l = kInvalid) ->
        (forall i, s_tad s i = kInvalid) ->
        let s' := fold_left (add_start P) xs s in
        (forall l, o (s_best s' l) = o (s_rt s' 0%nat l)) /\ (forall j l, (0 < j)%nat -> s_rt s' j l = kInvalid) /\ (forall i, s_tad s' i = kInvalid)).
      { induction xs as [|[l t] xs IH]; intros s E1 E2 E3; cbn [fold_left]; auto. apply IH.
        - intros l'. cbn [add_start s_best s_rt]. unfold upd. cbn [Nat.eqb]. destruct (Nat.eqb_spec l l') as [<-|]; auto.
          rewrite !o_get_best. rewrite E1. lia.
        - intros j l' Hj. cbn [add_start s_rt]. unfold upd. destruct (Nat.eqb_spec 0 j); [lia|]. auto.
        - exact E3. }
      destruct (X (g_starts g) (next_start_time P (reset_arrivals P))) as (X1 & X2 & X3); auto.
      set (s' := fold_left _ _ _) in *. clearbody s'. split; cbn [set_worst s_tad s_best s_rt].
      - intros i. rewrite o_get_best, X3, o_kInvalid. lia.
      - intros j l Hx. destruct j as [|j]; [rewrite X1; lia|]. rewrite X2, o_kInvalid in Hx by lia. lia.
      - intros j j' l Hlt Hne. rewrite X2 in Hne by lia. congruence.
      - intros j l Hj. apply X2. lia.
    Qed.
  End Improve.
End Ota.
