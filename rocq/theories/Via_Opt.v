(** Optimality of the search with via stops. *)
From Coq Require Import List ZArith Bool Arith Lia.
From Verif Require Import Base Time_Model Raptor_Model Raptor_Spec Raptor_Base Raptor_Sound Raptor_Opt
  Via_Model Via_Spec Via_Expand Via_Sound Via_Genuine.
Import ListNotations.
Local Open Scope Z_scope.

Section VOpt.
  Variable P : params.
  Variable vias : list via.
  Notation fwd := (p_fwd P).
  Notation tt := (p_tt P).
  Notation o := (o P).
  Notation OI := (OI P).
  Notation OL := (OL P).
  Notation kInvalid := (kInvalid P).
  Notation nv := (nv vias).
  Notation ix := (ix vias).
  Notation n_loc := (tt_n_locations (p_tt P)).
  Notation visited := (visited vias).
  Notation staying := (staying vias).
  Notation PX := (PX P vias).

  Hypothesis Hwf : all_vehicles_wf P.
  Hypothesis Hdur : durations_ok P.
  Hypothesis Hend : end_ok P.
  Hypothesis Hloc : locations_ok P.
  Hypothesis Hstay : stays_ok vias.
  Hypothesis Honce : via_once P vias.
  Hypothesis Hcol : columns_sorted P.
  Hypothesis Hidx : index_ok P.
  Hypothesis Hfifo : fifo P.
  Variable D : nat -> Z.
  Hypothesis HD : lower_bounds_ok P D.
  Variable St : nat -> Z -> Prop.
  Hypothesis HStreach : starts_reach_ok P St.
  Hypothesis HStloc : forall l t, St l t -> (l < n_loc)%nat.
  Variables (H a : Z) (K : nat).
  Hypothesis HStH : forall l t, St l t -> H <= o t.
  Hypothesis HH : OL <= H.
  Hypothesis HaH : o a <= H + 7200.
  Hypothesis HaOI : o a < OI.
  Hypothesis HStL : forall l t, St l t -> OL < o t.

  Notation DX := (DX vias D).
  Notation StX := (StX vias St).
  Notation Arr := (arrived PX StX (tr_eff PX)).
  Notation Ready := (ready PX StX (tr_eff PX)).
  Notation Lbl := (Lbl PX StX).
  Notation sinv := (sinv PX StX).
  Notation pinv := (pinv PX StX a K).
  Notation phase := (phase PX DX StX a K).
  Notation nd := (nd PX a K).
  Notation rel := (rel PX DX a).
  Notation reached := (reached PX).
  Notation improves := (improves PX).
  Notation succ := (succ PX).
  Notation intermodal := (intermodal PX).

  Lemma XWf : all_vehicles_wf PX. Proof. exact (x_wf P vias Hwf). Qed.
  Lemma XDur : durations_ok PX. Proof. exact (x_dur P vias Hdur Hstay). Qed.
  Lemma XEnd : end_ok PX. Proof. exact (x_end P vias Hend). Qed.
  Lemma XLoc : locations_ok PX. Proof. exact (x_loc P vias Hloc). Qed.
  Lemma XD : lower_bounds_ok PX DX. Proof. exact (x_lb P vias Hdur Hstay D HD). Qed.
  Lemma XStH x t : StX x t -> H <= Raptor_Base.o PX t.
  Proof. intros (l & Hs & _). exact (HStH l t Hs). Qed.
  Lemma XStL x t : StX x t -> Raptor_Base.OL PX < Raptor_Base.o PX t.
  Proof. intros (l & Hs & _). exact (HStL l t Hs). Qed.
  Lemma rel_ix l v t : (v <= nv)%nat -> rel (ix l v) t <-> o t + D l <= o a.
  Proof. intros Hv. unfold Raptor_Opt.rel, Via_Expand.DX. rewrite loc_ix by auto. reflexivity. Qed.
  Lemma ix_not_end l v : (v <= nv)%nat -> at_end P l = false -> intermodal -> ix l v <> p_end PX.
  Proof.
    intros Hv He Him E. change (p_end PX) with (ix (p_end P) nv) in E. apply ix_inj in E as [-> _]; auto.
    unfold at_end in He. rewrite Nat.eqb_refl, andb_true_r in He. unfold Raptor_Opt.intermodal in Him.
    apply x_intermodal in Him. unfold is_intermodal_dest in He. destruct (p_dist_to_end P); congruence.
  Qed.
  Lemma tmp_arr k s x : pinv k s -> s_tmp s x <> kInvalid -> exists j, (j <= k)%nat /\ Arr j x (s_tmp s x).
  Proof. intros Hp. apply (si_tmp _ _ _ _ (pi_s _ _ _ _ _ _ Hp)). Qed.
  Lemma arr_H j x t : Arr j x t -> H <= o t.
  Proof. exact (Raptor_Opt.arr_low PX XWf XDur StX H XStH j x t). Qed.
  Lemma XHaH : Raptor_Base.o PX a <= H + 7200. Proof. exact HaH. Qed.

  (** *** Writing a label *)
  Lemma to_phase k l v fp s : (l < n_loc)%nat -> (v <= nv)%nat -> at_end P l = false ->
    (fp <> kInvalid -> exists i, (i <= k)%nat /\ Lbl i (ix l v) fp) -> pinv k s ->
    phase k s (via_transfer_to P vias k l v fp (Nat.eqb v nv && p_is_dest P l) s).
  Proof.
    intros Hl Hv He Hfp Hp. rewrite (transfer_to_ix P vias k l v fp s Hv He).
    apply (transfer_to_phase PX XWf XDur DX XD StX H a K XStH XHaH); auto.
    - now apply ix_lt.
    - now apply ix_not_end.
  Qed.
  Lemma to_achieves k l v fp s t : (l < n_loc)%nat -> (v <= nv)%nat -> at_end P l = false ->
    (fp <> kInvalid -> exists i, (i <= k)%nat /\ Lbl i (ix l v) fp) -> pinv k s ->
    (k <= K)%nat -> nd (via_transfer_to P vias k l v fp (Nat.eqb v nv && p_is_dest P l) s) -> o fp <= o t -> rel (ix l v) t ->
    reached k (via_transfer_to P vias k l v fp (Nat.eqb v nv && p_is_dest P l) s) (ix l v) t.
  Proof.
    intros Hl Hv He Hfp Hp HkK Hnd Hle Hrel. rewrite (transfer_to_ix P vias k l v fp s Hv He) in *.
    destruct (transfer_to_pinv PX XWf XDur DX XD StX H a K XStH XHaH k (ix l v) fp s) as (_ & _ & _ & Hach); auto.
    - now apply ix_lt.
    - now apply ix_not_end.
    - apply Hach; auto.
  Qed.
  Lemma clampo x t : H <= o t -> o x <= o t -> o (clamp16 x) <= o t.
  Proof. intros. rewrite o_clamp. lia. Qed.

  (** *** Transfers *)
  Lemma change_label k i v s : (v <= nv)%nat -> pinv k s -> s_tmp s (ix i v) <> kInvalid ->
    (i < n_loc)%nat /\ at_end P i = false /\
    (clamp16 (after P (s_tmp s (ix i v)) (tr_via P vias i (visited v i) + staying v i)) <> kInvalid ->
     exists j, (j <= k)%nat /\ Lbl j (ix i (visited v i)) (clamp16 (after P (s_tmp s (ix i v)) (tr_via P vias i (visited v i) + staying v i)))).
  Proof.
    intros Hv Hp E. destruct (tmp_arr _ _ _ Hp E) as (j & Hj & Ha). destruct (arr_ix P vias Hend Hloc St _ _ _ _ Hv Ha) as [Hl He].
    split; auto. split; auto.
    apply (label_of P vias Hwf Hdur Hstay St HStL k j (ix i v)); auto.
    - pose proof (tr_via_nonneg P vias Hdur i (visited v i)). pose proof (staying_nonneg vias v i Hstay). lia.
    - left. now apply ready_change.
  Qed.
  Lemma transfers_step_phase k i s v : (v <= nv)%nat -> pinv k s -> phase k s (via_transfers_step P vias k i s v).
  Proof.
    intros Hv Hp. rewrite via_transfers_step_eq. destruct (s_tmp s (ix i v) =? kInvalid) eqn:E; [now apply phase_refl|]. apply Z.eqb_neq in E.
    destruct (change_label k i v s Hv Hp E) as (Hl & He & HL). apply to_phase; auto. apply visited_le; auto.
  Qed.
  Lemma transfers_step_achieves k i s v ta : (v <= nv)%nat -> pinv k s -> o (s_tmp s (ix i v)) <= o ta -> H <= o ta -> (k <= K)%nat ->
    let t' := after P ta (tr_via P vias i (visited v i) + staying v i) in
    nd (via_transfers_step P vias k i s v) -> rel (ix i (visited v i)) t' ->
    reached k (via_transfers_step P vias k i s v) (ix i (visited v i)) t'.
  Proof.
    intros Hv Hp Hle Hlow HkK t' Hnd Hrel. rewrite via_transfers_step_eq in *.
    pose proof (tr_via_nonneg P vias Hdur i (visited v i)). pose proof (staying_nonneg vias v i Hstay).
    pose proof (lb_nonneg _ _ HD i).
    assert (Hrel' := proj1 (rel_ix i (visited v i) t' (proj2 (visited_le vias v i Hv))) Hrel). unfold t' in Hrel'. rewrite o_after in Hrel'.
    assert (E : s_tmp s (ix i v) <> kInvalid). { intros E. rewrite E, (o_kInvalid P) in Hle. lia. }
    rewrite (proj2 (Z.eqb_neq _ _) E) in *.
    destruct (change_label k i v s Hv Hp E) as (Hl & He & HL).
    apply to_achieves; auto; [apply visited_le; auto|]. unfold t'. apply clampo; rewrite !o_after; lia.
  Qed.
  Definition transfers_loc (k : nat) (s : state) (i : nat) : state :=
    if marked vias (s_prev s) i then fold_left (via_transfers_step P vias k i) (slots vias) s else s.
  Lemma transfers_loc_phase k s i : pinv k s -> phase k s (transfers_loc k s i).
  Proof.
    intros Hp. unfold transfers_loc. destruct (marked vias (s_prev s) i); [|now apply phase_refl].
    apply fold_phase; auto. intros s0 v Hv. apply in_slots in Hv. now apply transfers_step_phase.
  Qed.
  Lemma marked_in (m : nat -> bool) l v : (v <= nv)%nat -> m (ix l v) = true -> marked vias m l = true.
  Proof. intros Hv Hm. unfold marked. apply existsb_exists. exists v. split; auto. now apply in_slots. Qed.

  (** *** Footpaths *)
  Lemma foot_label k i fp v s : In fp (footpaths_of P i) -> (v <= nv)%nat -> pinv k s -> s_tmp s (ix i v) <> kInvalid ->
    let t := clamp16 (after P (s_tmp s (ix i v)) (p_adjust P (snd fp) + staying v i + staying (visited v i) (fst fp))) in
    (fst fp < n_loc)%nat /\ at_end P (fst fp) = false /\
    (t <> kInvalid -> exists j, (j <= k)%nat /\ Lbl j (ix (fst fp) (visited (visited v i) (fst fp))) t).
  Proof.
    intros Hin Hv Hp E t. destruct (tmp_arr _ _ _ Hp E) as (j & Hj & Ha). assert (Hw := walk_of P i fp Hin).
    split; [|split; [eapply at_end_walk; eauto|]].
    - destruct Hloc as (_ & Hl & _). destruct fp as [l d]. eapply Hl. exact Hin.
    - apply (label_of P vias Hwf Hdur Hstay St HStL k j (ix i v)); auto.
      + pose proof (walk_nonneg P Hdur _ _ _ Hw). pose proof (staying_nonneg vias v i Hstay).
        pose proof (staying_nonneg vias (visited v i) (fst fp) Hstay). lia.
      + left. now apply ready_foot.
  Qed.
  Lemma footpath_step_phase k i fp s v : In fp (footpaths_of P i) -> (v <= nv)%nat -> pinv k s ->
    phase k s (via_footpath_step P vias k i fp s v).
  Proof.
    intros Hin Hv Hp. rewrite via_footpath_step_eq. destruct (s_tmp s (ix i v) =? kInvalid) eqn:E; [now apply phase_refl|]. apply Z.eqb_neq in E.
    destruct (foot_label k i fp v s Hin Hv Hp E) as (Hl & He & HL). apply to_phase; auto. apply visited_le, visited_le; auto.
  Qed.
  Lemma footpath_step_achieves k i fp s v ta : In fp (footpaths_of P i) -> (v <= nv)%nat -> pinv k s ->
    o (s_tmp s (ix i v)) <= o ta -> H <= o ta -> (k <= K)%nat ->
    let t' := after P ta (p_adjust P (snd fp) + staying v i + staying (visited v i) (fst fp)) in
    let x' := ix (fst fp) (visited (visited v i) (fst fp)) in
    nd (via_footpath_step P vias k i fp s v) -> rel x' t' -> reached k (via_footpath_step P vias k i fp s v) x' t'.
  Proof.
    intros Hin Hv Hp Hle Hlow HkK t' x' Hnd Hrel. rewrite via_footpath_step_eq in *.
    assert (Hw := walk_of P i fp Hin). pose proof (walk_nonneg P Hdur _ _ _ Hw). pose proof (staying_nonneg vias v i Hstay).
    pose proof (staying_nonneg vias (visited v i) (fst fp) Hstay). pose proof (lb_nonneg _ _ HD (fst fp)).
    assert (Hv2 : (visited (visited v i) (fst fp) <= nv)%nat) by (apply visited_le, visited_le; auto).
    assert (Hrel' := proj1 (rel_ix (fst fp) _ t' Hv2) Hrel). unfold t' in Hrel'. rewrite o_after in Hrel'.
    assert (E : s_tmp s (ix i v) <> kInvalid). { intros E. rewrite E, (o_kInvalid P) in Hle. lia. }
    rewrite (proj2 (Z.eqb_neq _ _) E) in *.
    destruct (foot_label k i fp v s Hin Hv Hp E) as (Hl & He & HL).
    apply to_achieves; auto. unfold t'. apply clampo; rewrite !o_after; lia.
  Qed.
  Definition footpaths_loc (k : nat) (s : state) (i : nat) : state :=
    if marked vias (s_prev s) i then
      fold_left (fun s fp => fold_left (via_footpath_step P vias k i fp) (slots vias) s) (footpaths_of P i) s
    else s.
  Lemma footpaths_fp_phase k i fp s : In fp (footpaths_of P i) -> pinv k s -> phase k s (fold_left (via_footpath_step P vias k i fp) (slots vias) s).
  Proof. intros Hin Hp. apply fold_phase; auto. intros s0 v Hv. apply in_slots in Hv. now apply footpath_step_phase. Qed.
  Lemma footpaths_loc_phase k s i : pinv k s -> phase k s (footpaths_loc k s i).
  Proof.
    intros Hp. unfold footpaths_loc. destruct (marked vias (s_prev s) i); [|now apply phase_refl].
    apply fold_phase; auto. intros s0 fp Hfp. now apply footpaths_fp_phase.
  Qed.

  (** *** Offsets to the end *)
  Lemma end_dest : intermodal -> p_is_dest PX (ix (p_end P) nv) = true.
  Proof. intros Him. destruct (XEnd Him) as (Hd & _). now apply Hd. Qed.
  Lemma end_from_phase k off d i v s : p_dist_to_end P = Some off -> off i = Some d -> (v <= nv)%nat -> visited v i = nv ->
    pinv k s -> phase k s (end_from P vias k d i v s).
  Proof.
    intros Hoff Hd Hv Hvn Hp.
    assert (Hs' := end_from_sinv P vias Hwf Hdur Hstay St HStL k off d i v s Hoff Hd Hv Hvn (pi_s _ _ _ _ _ _ Hp)).
    assert (Him : intermodal) by (apply x_intermodal; congruence).
    revert Hs'. unfold end_from. destruct (s_tmp s (ix i v) =? kInvalid) eqn:E; [now auto using phase_refl|]. apply Z.eqb_neq in E.
    unfold via_reach_end. set (e := clamp16 (after P (s_tmp s (ix i v)) (d + staying v i))).
    destruct (is_better_or_eq P e (s_tad s k)) eqn:Eb; [|now auto using phase_refl]. apply is_better_or_eq_o in Eb.
    intros Hs'. destruct Hp as [Hs Hb Hr Ht He]. specialize (He Him).
    change (p_end PX) with (ix (p_end P) nv) in *. change (Raptor_Base.o PX) with o in *.
    set (xe := ix (p_end P) nv) in *.
    assert (Himp : forall j l, o (upd (s_rt s) k (upd (s_rt s k) xe e) j l) <= o (s_rt s j l)).
    { intros j l. destruct (upd_cases (s_rt s) k j (upd (s_rt s k) xe e)) as [[<- ->]|[_ ->]]; [|lia].
      destruct (upd_cases (s_rt s k) xe l e) as [[<- ->]|[_ ->]]; lia. }
    assert (Hdest := end_dest Him). fold xe in Hdest.
    assert (Htu : forall tad i0, o (update_time_at_dest P tad k e i0) = if Nat.leb k i0 then Z.min (o (tad i0)) (o e) else o (tad i0)) by (intros; apply tad_upd).
    assert (Htu' : forall tad i0, o (update_time_at_dest P tad k e i0) <= o (tad i0)) by (intros; apply tad_upd_le).
    split; cbn [s_rt s_tmp s_best s_tad s_mark s_prev]; auto.
    - split; cbn [s_rt s_tmp s_best s_tad s_mark s_prev]; auto; change (Raptor_Base.o PX) with o; change (p_end PX) with xe.
      + intros l. destruct (upd_cases (s_best s) xe l e) as [[<- ->]|[_ ->]].
        * exists k. split; auto. rewrite !upd_eq. lia.
        * destruct (Hb l) as (j & Hj & Hle). exists j. split; auto. specialize (Himp j l). lia.
      + intros l Hl Hle. specialize (Hle Him). rewrite upd_eq, !upd_neq by auto.
        specialize (Htu' (s_tad s) k).
        destruct (Hr l Hl (fun _ => Hle)) as [Hx|[Hx|[Hx|Hx]]]; auto; right; right; [left|right]; lia.
      + intros Hnd i0 Hi0.
        assert (Hnd' : nd s).
        { intros j l Hj Hl. specialize (Hnd j l Hj Hl). cbn [s_rt] in Hnd. change (Raptor_Base.o PX) with o in *. specialize (Himp j l). lia. }
        specialize (Ht Hnd' i0 Hi0). rewrite Htu. destruct (Nat.leb_spec k i0); auto.
        specialize (Hnd k xe ltac:(lia) Hdest). cbn [s_rt] in Hnd. rewrite !upd_eq in Hnd. change (Raptor_Base.o PX) with o in Hnd. lia.
      + intros _. rewrite !upd_eq, Htu, Nat.leb_refl. lia.
    - intros j l Hj. now rewrite upd_neq by auto.
    - intros l Hle Hc. exfalso. apply Hc. rewrite upd_eq, upd_neq; auto. intros Hx. apply (Hle Him). symmetry. exact Hx.
  Qed.
  Lemma end_from_achieves k off d i v s ta : p_dist_to_end P = Some off -> off i = Some d -> (v <= nv)%nat -> visited v i = nv ->
    pinv k s -> o (s_tmp s (ix i v)) <= o ta -> H <= o ta -> (k <= K)%nat ->
    let t' := after P ta (d + staying v i) in
    nd (end_from P vias k d i v s) -> rel (ix (p_end P) nv) t' -> reached k (end_from P vias k d i v s) (ix (p_end P) nv) t'.
  Proof.
    intros Hoff Hd Hv Hvn Hp Hle Hlow HkK t' Hnd Hrel.
    assert (Hph := end_from_phase k off d i v s Hoff Hd Hv Hvn Hp).
    assert (Hnd0 := nd_back _ _ _ _ _ (ph_imp _ _ _ _ _ _ _ _ Hph) Hnd).
    assert (Hta := pi_tad _ _ _ _ _ _ Hp Hnd0 k HkK). change (o a <= o (s_tad s k)) in Hta.
    assert (0 <= d) by (destruct Hdur as (_ & _ & _ & Hw); eapply Hw; eauto).
    pose proof (staying_nonneg vias v i Hstay). pose proof (lb_nonneg _ _ HD (p_end P)).
    assert (Hrel' := proj1 (rel_ix (p_end P) nv t' (le_n _)) Hrel). unfold t' in Hrel'. rewrite o_after in Hrel'.
    assert (E : s_tmp s (ix i v) <> kInvalid). { intros E. rewrite E, (o_kInvalid P) in Hle. lia. }
    unfold end_from in *. rewrite (proj2 (Z.eqb_neq _ _) E) in *.
    assert (Hc : o (clamp16 (after P (s_tmp s (ix i v)) (d + staying v i))) <= o t') by (unfold t'; apply clampo; rewrite !o_after; lia).
    assert (Hc' := Hc). unfold t' in Hc'. rewrite o_after in Hc'.
    unfold via_reach_end in *. rewrite (proj2 (is_better_or_eq_o P (clamp16 (after P (s_tmp s (ix i v)) (d + staying v i))) (s_tad s k)) ltac:(lia)) in *.
    exists k. split; auto. cbn [s_rt]. rewrite !upd_eq. exact Hc.
  Qed.
  Lemma intermodal_step_phase k off s i : p_dist_to_end P = Some off -> pinv k s -> phase k s (via_intermodal_step P vias k off s i).
  Proof.
    intros Hoff Hp. rewrite via_intermodal_step_eq. destruct (marked vias (s_prev s) i); [|now apply phase_refl].
    destruct (off i) as [d|] eqn:Ed; [|now apply phase_refl].
    set (s1 := if negb (Nat.eqb nv 0) && is_via vias (nv - 1) i then end_from P vias k d i (nv - 1) s else s).
    assert (P1 : phase k s s1).
    { unfold s1. destruct (negb (Nat.eqb nv 0) && is_via vias (nv - 1) i) eqn:E; [|now apply phase_refl].
      apply andb_true_iff in E as [E1 E2]. apply negb_true_iff, Nat.eqb_neq in E1.
      apply (end_from_phase k off); auto; [lia|]. now apply visited_last. }
    eapply phase_trans; [exact P1|]. apply (end_from_phase k off); auto; [apply visited_full|apply P1].
  Qed.
  Lemma visited_nv v i : (v <= nv)%nat -> visited v i = nv -> v = nv \/ ((nv <> 0)%nat /\ v = (nv - 1)%nat /\ is_via vias v i = true).
  Proof.
    intros Hv E. rewrite visited_is_via in E. destruct (is_via vias v i) eqn:Ev; [right|left; auto]. repeat split; auto; lia.
  Qed.
  Lemma intermodal_step_achieves k off d s i v ta : p_dist_to_end P = Some off -> off i = Some d -> (v <= nv)%nat -> visited v i = nv ->
    marked vias (s_prev s) i = true -> pinv k s -> o (s_tmp s (ix i v)) <= o ta -> H <= o ta -> (k <= K)%nat ->
    let t' := after P ta (d + staying v i) in
    nd (via_intermodal_step P vias k off s i) -> rel (ix (p_end P) nv) t' ->
    reached k (via_intermodal_step P vias k off s i) (ix (p_end P) nv) t'.
  Proof.
    intros Hoff Hd Hv Hvn Hm Hp Hle Hlow HkK t' Hnd Hrel. rewrite via_intermodal_step_eq, Hm, Hd in *.
    set (s1 := if negb (Nat.eqb nv 0) && is_via vias (nv - 1) i then end_from P vias k d i (nv - 1) s else s) in *.
    assert (P1 : phase k s s1).
    { unfold s1. destruct (negb (Nat.eqb nv 0) && is_via vias (nv - 1) i) eqn:E; [|now apply phase_refl].
      apply andb_true_iff in E as [E1 E2]. apply negb_true_iff, Nat.eqb_neq in E1.
      apply (end_from_phase k off); auto; [lia|]. now apply visited_last. }
    assert (P2 : phase k s1 (end_from P vias k d i nv s1)) by (apply (end_from_phase k off); auto; [apply visited_full|apply P1]).
    destruct (visited_nv v i Hv Hvn) as [E|(Hn & E & Ev)].
    - subst v. apply (end_from_achieves k off); auto; [apply P1|]. rewrite (ph_tmp _ _ _ _ _ _ _ _ P1). auto.
    - apply (reached_improves PX k s1); [apply P2|]. assert (Hnd1 := nd_back _ _ _ _ _ (ph_imp _ _ _ _ _ _ _ _ P2) Hnd).
      unfold s1 in *. rewrite <- E, Ev in *. destruct (Nat.eqb_spec nv 0); [lia|]. cbn [negb andb] in *.
      apply (end_from_achieves k off); auto.
  Qed.

  (** *** All phases *)
  Definition via_phases (k : nat) (s : state) : state :=
    via_update_footpaths P vias k (via_update_intermodal P vias k (via_update_transfers P vias k s)).
  Lemma update_transfers_phase k s : pinv k s -> phase k s (via_update_transfers P vias k s).
  Proof. intros Hp. change (via_update_transfers P vias k s) with (fold_left (transfers_loc k) (seq 0 n_loc) s). apply fold_phase; auto. intros s0 i _. apply transfers_loc_phase. Qed.
  Lemma update_footpaths_phase k s : pinv k s -> phase k s (via_update_footpaths P vias k s).
  Proof. intros Hp. change (via_update_footpaths P vias k s) with (fold_left (footpaths_loc k) (seq 0 n_loc) s). apply fold_phase; auto. intros s0 i _. apply footpaths_loc_phase. Qed.
  Lemma update_intermodal_phase k s : pinv k s -> phase k s (via_update_intermodal P vias k s).
  Proof.
    intros Hp. unfold via_update_intermodal. destruct (p_dist_to_end P) as [off|] eqn:E; [|now apply phase_refl].
    apply fold_phase; auto. intros s0 i _. now apply intermodal_step_phase.
  Qed.
  Lemma via_phases_phase k s : pinv k s -> phase k s (via_phases k s).
  Proof.
    intros Hp. unfold via_phases.
    assert (P1 := update_transfers_phase k s Hp).
    assert (P2 := update_intermodal_phase k _ (ph_inv _ _ _ _ _ _ _ _ P1)).
    assert (P3 := update_footpaths_phase k _ (ph_inv _ _ _ _ _ _ _ _ P2)).
    eapply phase_trans; [exact P1|]. eapply phase_trans; eauto.
  Qed.
  (** Successors in the expanded timetable, by what the search does. *)
  Lemma succ_cases l v ta x' t' : (v <= nv)%nat -> H <= o ta -> succ (ix l v) ta x' t' -> rel x' t' ->
    (x' = ix l (visited v l) /\ t' = after P ta (tr_via P vias l (visited v l) + staying v l)) \/
    (exists l' d0, In (l', d0) (footpaths_of P l) /\ x' = ix l' (visited (visited v l) l') /\
                   t' = after P ta (p_adjust P d0 + staying v l + staying (visited v l) l')) \/
    (exists off d, p_dist_to_end P = Some off /\ off l = Some d /\ visited v l = nv /\ x' = ix (p_end P) nv /\
                   t' = after P ta (d + staying v l)).
  Proof.
    intros Hv Hlow Hs Hrel. destruct Hs as [|x1 d Hw|off d Hoff Hd].
    - left. destruct (is_via vias v l) eqn:Ev.
      + exfalso. assert (E : tr_eff PX (ix l v) = BIG).
        { unfold tr_eff. change (p_is_dest PX (ix l v)) with (p_is_dest P (loc_of vias (ix l v)) && Nat.eqb (slot_of vias (ix l v)) nv).
          rewrite slot_ix by auto. apply is_via_lt in Ev as Hlt. destruct (Nat.eqb_spec v nv); [lia|].
          rewrite !andb_false_r. unfold transfer_time.
          change (p_adjust PX (tt_transfer_time (p_tt PX) (ix l v))) with (x_transfer P vias (ix l v)). unfold x_transfer.
          rewrite loc_ix, slot_ix, Ev by auto. reflexivity. }
        apply (rel_ix l v _ Hv) in Hrel. change (after PX ta) with (after P ta) in Hrel. rewrite o_after, E in Hrel.
        pose proof (range_width P). pose proof (lb_nonneg _ _ HD l). lia.
      + assert (E1 : visited v l = v) by (rewrite visited_is_via, Ev; auto).
        assert (E2 : staying v l = 0) by (rewrite staying_is_via, Ev; auto).
        rewrite E1, E2, Z.add_0_r. split; auto. change (after PX ta) with (after P ta). now rewrite (tr_eff_ix P vias l v Hv Ev).
    - apply x_walk_sound in Hw as (Hx & Hc). rewrite loc_ix, slot_ix in Hc by auto.
      destruct Hc as [(Ev & _ & -> & ->)|(l' & d0 & (d1 & Hin & ->) & -> & ->)].
      + left. rewrite (visited_is_via vias v l), (staying_is_via vias v l), Ev. split; reflexivity.
      + right. left. exists l', d1. split; [exact Hin|]. split; reflexivity.
    - right. right. change (p_dist_to_end PX) with (x_dist P vias) in Hoff. unfold x_dist in Hoff.
      destruct (p_dist_to_end P) as [off0|]; [|discriminate]. injection Hoff as <-. rewrite loc_ix, slot_ix in Hd by auto.
      destruct (Nat.eqb_spec (visited v l) nv) as [Ev|]; [|discriminate]. destruct (off0 l) as [d0|] eqn:Ed0; [|discriminate].
      injection Hd as <-. exists off0, d0. repeat split; auto.
  Qed.
  Lemma via_phases_achieve k s i v ta x' t' : (v <= nv)%nat -> (i < n_loc)%nat ->
    pinv k s -> s_prev s (ix i v) = true -> o (s_tmp s (ix i v)) <= o ta -> H <= o ta -> (k <= K)%nat ->
    nd (via_phases k s) -> succ (ix i v) ta x' t' -> rel x' t' -> reached k (via_phases k s) x' t'.
  Proof.
    intros Hv Hi Hp Hpr Hle Hlow HkK Hnd Hsucc Hrel. unfold via_phases in *.
    assert (P1 := update_transfers_phase k s Hp). set (s1 := via_update_transfers P vias k s) in *.
    assert (P2 := update_intermodal_phase k _ (ph_inv _ _ _ _ _ _ _ _ P1)). set (s2 := via_update_intermodal P vias k s1) in *.
    assert (P3 := update_footpaths_phase k _ (ph_inv _ _ _ _ _ _ _ _ P2)).
    assert (Hnd2 := nd_back _ _ _ _ _ (ph_imp _ _ _ _ _ _ _ _ P3) Hnd).
    assert (Hnd1 := nd_back _ _ _ _ _ (ph_imp _ _ _ _ _ _ _ _ P2) Hnd2).
    assert (Hm : marked vias (s_prev s) i = true) by (eapply marked_in; eauto).
    assert (Hin : In i (seq 0 n_loc)) by (apply in_seq; lia).
    destruct (succ_cases i v ta x' t' Hv Hlow Hsucc Hrel) as [(-> & ->)|[(l1 & d0 & Hfp & -> & ->)|(off & d & Hoff & Hd & Hvn & -> & ->)]].
    - apply (reached_improves PX k s2); [apply P3|]. apply (reached_improves PX k s1); [apply P2|].
      unfold s1 in *. change (via_update_transfers P vias k s) with (fold_left (transfers_loc k) (seq 0 n_loc) s) in *.
      apply (fold_phase_achieves PX DX StX a K k) with (b := i); auto.
      + intros s0 b _. apply transfers_loc_phase.
      + intros s0 Hp0 Et Ep Hnd0. unfold transfers_loc in *. rewrite Ep, Hm in *.
        apply (fold_phase_achieves PX DX StX a K k) with (b := v); auto.
        * intros s3 v0 Hv0. apply in_slots in Hv0. now apply transfers_step_phase.
        * now apply in_slots.
        * intros s3 Hp3 Et3 Ep3 Hnd3. apply transfers_step_achieves; auto. rewrite Et3, Et. auto.
    - change (via_update_footpaths P vias k s2) with (fold_left (footpaths_loc k) (seq 0 n_loc) s2) in *.
      apply (fold_phase_achieves PX DX StX a K k) with (b := i); auto.
      + apply P2.
      + intros s0 b _. apply footpaths_loc_phase.
      + intros s0 Hp0 Et Ep Hnd0. unfold footpaths_loc in *.
        assert (Epr : marked vias (s_prev s0) i = true) by (rewrite Ep, (ph_prev _ _ _ _ _ _ _ _ P2), (ph_prev _ _ _ _ _ _ _ _ P1); auto).
        rewrite Epr in *.
        apply (fold_phase_achieves PX DX StX a K k) with (b := (l1, d0)); auto.
        * intros s3 fp Hf. now apply footpaths_fp_phase.
        * intros s3 Hp3 Et3 Ep3 Hnd3.
          apply (fold_phase_achieves PX DX StX a K k) with (b := v); auto.
          -- intros s4 v0 Hv0. apply in_slots in Hv0. now apply footpath_step_phase.
          -- now apply in_slots.
          -- intros s4 Hp4 Et4 Ep4 Hnd4.
             apply (footpath_step_achieves k i (l1, d0) s4 v ta); auto.
             rewrite Et4, Et3, Et, (ph_tmp _ _ _ _ _ _ _ _ P2), (ph_tmp _ _ _ _ _ _ _ _ P1). auto.
    - apply (reached_improves PX k s2); [apply P3|].
      unfold s2, via_update_intermodal in *. rewrite Hoff in *.
      apply (fold_phase_achieves PX DX StX a K k) with (b := i); auto.
      + apply P1.
      + intros s0 b _. now apply intermodal_step_phase.
      + intros s0 Hp0 Et Ep Hnd0. apply (intermodal_step_achieves k off d s0 i v ta); auto.
        * rewrite Ep, (ph_prev _ _ _ _ _ _ _ _ P1); auto.
        * rewrite Et, (ph_tmp _ _ _ _ _ _ _ _ P1); auto.
  Qed.

  (** *** Scanning a route *)
  Notation six := (stop_idx_of P).
  Notation slotp := (slotp P vias).
  Lemma slotp_crossed r p e v hi : (p < hi)%nat -> (e <= v < slotp r p e hi)%nat ->
    exists q, (p < q < hi)%nat /\ cross vias v (loc_at r (six r q)) = true.
  Proof.
    intros Hp. induction hi as [|hi IH]; intros Hv; [lia|].
    destruct (Nat.eq_dec p hi) as [->|Hne]; [rewrite slotp_here in Hv; lia|].
    rewrite slotp_next in Hv by lia. rewrite passing_cross in Hv.
    destruct (cross vias (slotp r p e hi) (loc_at r (six r hi))) eqn:Ec.
    - destruct (Nat.eq_dec v (slotp r p e hi)) as [->|]; [exists hi; split; [lia|auto]|].
      destruct (IH ltac:(lia) ltac:(lia)) as (q & Hq & Hc). exists q. split; [lia|auto].
    - destruct (IH ltac:(lia) ltac:(lia)) as (q & Hq & Hc). exists q. split; [lia|auto].
  Qed.
  Lemma cross_via v l : cross vias v l = true -> exists w, In w vias /\ nth_error vias v = Some w /\ via_stay w = 0 /\ via_at w l = true.
  Proof.
    unfold cross, is_via, stay_of. destruct (nth_error vias v) as [w|] eqn:E; [|discriminate].
    intros Hc. apply andb_true_iff in Hc as [H1 H2]. apply Z.eqb_eq in H2. exists w. split; [eapply nth_error_In; eauto|auto].
  Qed.
  Lemma cross_once ri r v q q' : nth_error (tt_routes tt) ri = Some r -> (q < length (r_stops r))%nat -> (q' < length (r_stops r))%nat ->
    cross vias v (loc_at r (six r q)) = true -> cross vias v (loc_at r (six r q')) = true -> q = q'.
  Proof.
    intros Hr Hq Hq' H1 H2. apply cross_via in H1 as (w & Hw & E & E0 & Ha). apply cross_via in H2 as (w' & _ & E' & _ & Ha').
    rewrite E in E'. injection E' as <-.
    assert (Es := Honce ri r w (six r q) (six r q') _ _ Hr Hw E0 (stop_at_nth r _ (stop_idx_lt P r q Hq)) (stop_at_nth r _ (stop_idx_lt P r q' Hq')) Ha Ha').
    unfold stop_idx_of in Es. destruct fwd; lia.
  Qed.

  Section Boarding.
    Variables (ri : nat) (r : route) (sx l : nat) (best rtp tmp cb : nat -> Z) (tad : Z).
    Definition board_val (v : nat) (x0 : option ride) : option ride :=
      let et_time := match x0 with Some x => time_at_stop P r x sx (board_ev P) | None => kInvalid end in
      let prev_time := rtp (ix l v) in
      if negb (prev_time =? kInvalid) && is_better_or_eq P prev_time et_time then
        match get_earliest_transport P ri r sx l tad prev_time with
        | Some x =>
            let cb' := get_best P (get_best P (cb v) (best (ix l v))) (tmp (ix l v)) in
            if (cb' =? kInvalid) || is_better_or_eq P (time_at_stop P r x sx (board_ev P)) et_time then Some x else x0
        | None => x0
        end
      else x0.
    Lemma board_step_val et v e oo : board_step P vias ri r sx l best rtp tmp cb tad et v e oo =
      if Nat.eqb v e && Nat.eqb oo 0 then board_val v (et v 0%nat) else et e oo.
    Proof.
      unfold board_step, board_val. cbv zeta.
      assert (G : forall x, upd2 et v 0%nat (Some x) e oo = if Nat.eqb v e && Nat.eqb oo 0 then Some x else et e oo).
      { intros x. destruct (Nat.eqb_spec v e) as [->|Hne]; cbn [andb]; [|now rewrite upd2_neq by auto].
        destruct (Nat.eqb_spec oo 0) as [->|Hne]; [apply upd2_eq|rewrite upd2_neq; auto]. }
      assert (G0 : et e oo = if Nat.eqb v e && Nat.eqb oo 0 then et v 0%nat else et e oo).
      { clear G. destruct (Nat.eqb_spec v e) as [E1|]; cbn [andb]; [|reflexivity]. destruct (Nat.eqb_spec oo 0) as [E2|]; [now rewrite E1, E2|reflexivity]. }
      destruct (negb (rtp (ix l v) =? kInvalid) && _); [|exact G0].
      destruct (get_earliest_transport P ri r sx l tad (rtp (ix l v))) as [x|]; [|exact G0].
      destruct ((_ =? kInvalid) || _); [apply G|exact G0].
    Qed.
    Lemma board_fold_other et e oo lst : oo <> 0%nat -> fold_left (board_step P vias ri r sx l best rtp tmp cb tad) lst et e oo = et e oo.
    Proof.
      intros Ho. revert et. induction lst as [|v lst IH]; intros et; cbn [fold_left]; auto. rewrite IH, board_step_val.
      destruct (Nat.eqb_spec oo 0); [lia|]. now rewrite andb_false_r.
    Qed.
    Lemma board_fold_notin et e lst : ~ In e lst -> fold_left (board_step P vias ri r sx l best rtp tmp cb tad) lst et e 0%nat = et e 0%nat.
    Proof.
      revert et. induction lst as [|v lst IH]; intros et Hn; cbn [fold_left]; auto. rewrite IH, board_step_val by (intros Hx; apply Hn; now right).
      destruct (Nat.eqb_spec v e) as [->|]; [exfalso; apply Hn; now left|reflexivity].
    Qed.
    Lemma board_fold et e : (e <= nv)%nat ->
      fold_left (board_step P vias ri r sx l best rtp tmp cb tad) (slots vias) et e 0%nat = board_val e (et e 0%nat).
    Proof.
      intros He. assert (Hin : In e (slots vias)) by now apply in_slots. assert (Hnd : NoDup (slots vias)) by apply seq_NoDup.
      apply in_split in Hin as (l1 & l2 & E). rewrite E in *. apply NoDup_remove_2 in Hnd. rewrite fold_left_app. cbn [fold_left].
      rewrite board_fold_notin by (intros Hx; apply Hnd, in_or_app; auto). rewrite board_step_val, Nat.eqb_refl. cbn [Nat.eqb andb].
      rewrite board_fold_notin; auto. intros Hx; apply Hnd, in_or_app; auto.
    Qed.
  End Boarding.

  Section Alighting.
    Variables (r : route) (sx l : nat) (best rtp : nat -> Z) (tad : Z) (et : nat -> nat -> option ride).
    Notation astep := (alight_step P vias r sx l best rtp tad et).
    Definition a_tmp (x : (nat -> Z) * (nat -> Z) * (nat -> bool)) := snd (fst x).
    Definition a_mark (x : (nat -> Z) * (nat -> Z) * (nat -> bool)) := snd x.
    Lemma alight_mono x c : (forall y, o (a_tmp (astep x c) y) <= o (a_tmp x y)) /\ (forall y, a_mark x y = true -> a_mark (astep x c) y = true).
    Proof.
      destruct x as [[cb tmp] mark], c as [cs e]. unfold alight_step, a_tmp, a_mark. cbn [fst snd].
      assert (Hrefl : (forall y, o (tmp y) <= o (tmp y)) /\ (forall y, mark y = true -> mark y = true)) by (split; auto; intros; lia).
      destruct (et e (cs - e)%nat) as [x|]; [|exact Hrefl]. destruct (can_finish fwd _ _); [|exact Hrefl]. cbv zeta.
      destruct (is_better_or_eq P _ tad && _ && _); [|exact Hrefl]. cbn [fst snd]. split.
      - intros y. destruct (upd_cases tmp (ix l cs) y (get_best P (time_at_stop P r x sx (alight_ev P)) (tmp (ix l cs)))) as [[<- ->]|[_ ->]]; [rewrite o_get_best|]; lia.
      - intros y Hy. unfold upd. destruct (Nat.eqb (ix l cs) y); auto.
    Qed.
    Lemma alight_fold_mono lst x : (forall y, o (a_tmp (fold_left astep lst x) y) <= o (a_tmp x y)) /\ (forall y, a_mark x y = true -> a_mark (fold_left astep lst x) y = true).
    Proof.
      revert x. induction lst as [|c lst IH]; intros x; cbn [fold_left]; [split; auto; intros; lia|].
      destruct (IH (astep x c)) as [I1 I2]. destruct (alight_mono x c) as [M1 M2]. split; auto.
      intros y. specialize (I1 y). specialize (M1 y). lia.
    Qed.
    Lemma alight_achieves x cs e ve t : (cs <= nv)%nat -> (e <= cs)%nat -> et e (cs - e)%nat = Some ve ->
      can_finish fwd (is_wheelchair P) (stop_at r sx) = true -> lb_reachable P l = true ->
      o (time_at_stop P r ve sx (alight_ev P)) <= o t -> o t <= o tad -> o t + p_lb P l <= o tad ->
      o (a_tmp (fold_left astep (alight_order vias) x) (ix l cs)) <= o t /\ a_mark (fold_left astep (alight_order vias) x) (ix l cs) = true.
    Proof.
      intros Hcs He Hve Hf Hlr Hle Ht1 Ht2. assert (Hin : In (cs, e) (alight_order vias)) by now apply in_alight_order.
      apply in_split in Hin as (l1 & l2 & ->). rewrite fold_left_app. cbn [fold_left].
      set (x1 := fold_left astep l1 x). clearbody x1. destruct (alight_fold_mono l2 (astep x1 (cs, e))) as [M1 M2].
      assert (G : o (a_tmp (astep x1 (cs, e)) (ix l cs)) <= o t /\ a_mark (astep x1 (cs, e)) (ix l cs) = true).
      { destruct x1 as [[cb tmp] mark]. unfold alight_step, a_tmp, a_mark. rewrite Hve, Hf. cbv zeta. rewrite Hlr.
        rewrite (proj2 (is_better_or_eq_o P (time_at_stop P r ve sx (alight_ev P)) tad)) by lia.
        rewrite (proj2 (is_better_or_eq_o P (time_at_stop P r ve sx (alight_ev P) + dir P (p_lb P l)) tad)) by (rewrite o_dir; lia).
        cbn [andb fst snd]. rewrite !upd_eq, o_get_best. split; auto. lia. }
      destruct G as [G1 G2]. split; auto. specialize (M1 (ix l cs)). lia.
    Qed.
  End Alighting.

  Lemma via_scan_stop_mono ri r best rtp tad pm c i :
    (forall y, o (vs_tmp (via_scan_stop P vias ri r best rtp tad pm c i) y) <= o (vs_tmp c y)) /\
    (forall y, vs_mark c y = true -> vs_mark (via_scan_stop P vias ri r best rtp tad pm c i) y = true).
  Proof.
    unfold via_scan_stop. destruct (vs_break c); [split; auto; intros; lia|].
    set (s := six r i). set (l := loc_at r s).
    set (et := cross_vias P vias r s l _).
    destruct (alight_fold_mono r s l best rtp tad et (alight_order vias) ((fun _ => kInvalid), vs_tmp c, vs_mark c)) as [M1 M2].
    match goal with |- context [match ?m with (_, _) => _ end] => destruct m as [[cb tmp] mark] eqn:Eal end.
    unfold a_tmp, a_mark in M1, M2. cbn [fst snd] in M1, M2.
    destruct (_ || _ || _); [split; auto|]. destruct (negb (lb_reachable P l)); split; auto.
  Qed.

  Section Scan.
    Variables (k ri : nat) (r : route) (vi : nat) (v : vehicle) (day : Z) (p p' : nat) (e0 : nat) (s : state).
    Hypothesis Hk : (1 <= k)%nat.
    Hypothesis Hr : nth_error (tt_routes tt) ri = Some r.
    Hypothesis Hra : route_allowed P r = true.
    Hypothesis Hv : nth_error (r_vehicles r) vi = Some v.
    Hypothesis Hrun : runs_on v day.
    Notation n := (length (r_stops r)).
    Notation sx := (stop_idx_of P r).
    Notation B w d q := (bt P w d (stop_idx_of P r q)).
    Notation A w d q := (at_ P w d (stop_idx_of P r q)).
    Notation loc q := (loc_at r (stop_idx_of P r q)).
    Notation sl i := (slotp r p e0 i).
    Hypothesis Hpp : (p < p' < n)%nat.
    Hypothesis He0 : (e0 <= nv)%nat.
    Hypothesis Hon : get_on_allowed P (stop_at r (sx p)) = true.
    Hypothesis Hoff : get_off_allowed P (stop_at r (sx p')) = true.
    Hypothesis Hsec : forall q, (p < q <= p')%nat -> section_ok P r (section_before P r q) = true.
    Hypothesis Hprev : s_prev s (ix (loc p) e0) = true.
    Hypothesis Hlab : s_rt s (k - 1) (ix (loc p) e0) <> kInvalid.
    Hypothesis Hcatch : o (s_rt s (k - 1) (ix (loc p) e0)) <= o (B v day p).
    Hypothesis Hrel : o (A v day p') + D (loc p') <= o a.
    Hypothesis Htad : o a <= o (s_tad s k).
    Hypothesis Hprevok : forall x, s_prev s x = true -> lb_reachable PX x = true \/ exists t, StX x t.
    Hypothesis Hs : sinv k s.

    Notation step := (via_scan_stop P vias ri r (s_best s) (s_rt s (k - 1)) (s_tad s k) (s_prev s)).

    Lemma sx_lt q : (q < n)%nat -> (sx q < n)%nat.
    Proof. apply stop_idx_lt. Qed.
    Lemma sx_order q q' : (q < q' < n)%nat -> if fwd then (sx q < sx q')%nat else (sx q' < sx q)%nat.
    Proof. apply stop_idx_order. Qed.
    Lemma loc_end q : (q < n)%nat -> at_end P (loc q) = false.
    Proof. intros Hq. eapply at_end_stop; eauto using sx_lt. Qed.
    Lemma vIn : In v (r_vehicles r).
    Proof. eauto using nth_error_In. Qed.
    Lemma BA w d q q' : In w (r_vehicles r) -> (q < q' < n)%nat -> o (B w d q) <= o (A w d q').
    Proof. intros Hw Hq. eapply event_order; eauto using sx_lt. { apply sx_lt; lia. } { apply sx_lt; lia. } now apply sx_order. Qed.
    Lemma AB w d q : In w (r_vehicles r) -> (q < n)%nat -> o (A w d q) <= o (B w d q).
    Proof.
      intros Hw Hq. destruct (proj1 Hwf _ _ _ Hr Hw) as (_ & Hm & _). specialize (Hm (sx q) (sx_lt q Hq)).
      unfold at_, bt, event_time, Raptor_Base.o. unfold event_minutes in Hm. destruct fwd; lia.
    Qed.
    Lemma vlab_low x : s_rt s (k - 1) x <> kInvalid -> H <= o (s_rt s (k - 1) x).
    Proof.
      intros Hne. destruct (si_rt _ _ _ _ Hs _ _ Hne) as (i & _ & HL).
      exact (label_lower PX XWf XDur StX H XStH _ _ _ HL).
    Qed.
    Lemma vB_low q : (p <= q < p')%nat -> H <= o (B v day q).
    Proof.
      intros Hq. pose proof (vlab_low _ Hlab). destruct (Nat.eq_dec q p) as [->|]; [lia|].
      pose proof (BA v day p q vIn ltac:(lia)). pose proof (AB v day q vIn ltac:(lia)). lia.
    Qed.
    Lemma vA_low : H <= o (A v day p').
    Proof. pose proof (vB_low p ltac:(lia)). pose proof (BA v day p p' vIn ltac:(lia)). lia. Qed.
    Lemma vB_rel q : (q < p')%nat -> get_on_allowed P (stop_at r (sx q)) = true -> o (B v day q) + D (loc q) <= o a.
    Proof.
      intros Hq Hg. pose proof (BA v day q p' vIn ltac:(lia)) as Hord.
      assert (HDr := lb_ride _ _ HD ri r v (sx q) (sx p') _ _ Hr vIn (stop_at_nth r (sx q) (sx_lt q ltac:(lia)))
                       (stop_at_nth r (sx p') (sx_lt p' ltac:(lia))) (sx_order q p' ltac:(lia)) Hg Hoff (allowed_flags P r Hra)).
      fold (loc_at r (sx q)) in HDr. fold (loc_at r (sx p')) in HDr.
      unfold bt, at_, event_time, Raptor_Base.o, event_minutes in *. destruct fwd; lia.
    Qed.
    Lemma lb_at q t : (q < n)%nat -> H <= o t -> o t + D (loc q) <= o a -> lb_reachable P (loc q) = true /\ p_lb P (loc q) <= D (loc q).
    Proof.
      intros Hq Ht Hr1. destruct (rel_lb PX DX XD H a XHaH (ix (loc q) e0) t) as [X1 X2]; auto.
      - apply ix_not_end; auto. now apply loc_end.
      - now apply rel_ix.
      - destruct (lb_reach_ix P vias (loc q) e0 He0 (loc_end q Hq)) as [E1 E2]. rewrite E1 in X1. rewrite E2 in X2. split; auto.
        change (p_lb P (loc q) <= D (loc_of vias (ix (loc q) e0))) in X2. now rewrite loc_ix in X2 by auto.
    Qed.
    Lemma vrel_p' : lb_reachable P (loc p') = true /\ p_lb P (loc p') <= D (loc p').
    Proof. apply lb_at with (A v day p'); auto using vA_low. lia. Qed.
    Lemma vno_break q : (q < p')%nat -> get_on_allowed P (stop_at r (sx q)) = true -> marked vias (s_prev s) (loc q) = true ->
      lb_reachable P (loc q) = true.
    Proof.
      intros Hq Hg Hm. unfold marked in Hm. apply existsb_exists in Hm as (v0 & Hv0 & Hm). apply in_slots in Hv0.
      destruct (Hprevok _ Hm) as [Hx|(t & (l & Ht & E))].
      { now rewrite (proj1 (lb_reach_ix P vias (loc q) v0 Hv0 (loc_end q ltac:(lia)))) in Hx. }
      apply ix_inj in E as [E _]; auto using start_slot_le. subst l.
      destruct (lb_reachable P (loc q)) eqn:E; auto. exfalso.
      unfold lb_reachable in E. apply negb_false_iff, Z.eqb_eq in E.
      assert (Hu := proj1 HStreach _ _ ri r (sx q) (sx p') _ _ Ht E Hr (stop_at_nth r (sx q) (sx_lt q ltac:(lia)))
                       (stop_at_nth r (sx p') (sx_lt p' ltac:(lia))) (sx_order q p' ltac:(lia)) eq_refl Hg Hoff).
      destruct vrel_p' as [Hx _]. unfold lb_reachable in Hx. unfold loc_at in Hx. rewrite Hu in Hx. discriminate.
    Qed.

    Definition vbefore (x : nat) (w : vehicle) (d : Z) (q : nat) : Prop :=
      o (B w d q) <= o (B v day q) /\ (B w d q = B v day q -> ahead P x vi).
    Lemma vfifo x w d q q' : nth_error (r_vehicles r) x = Some w -> runs_on w d -> (q < q' < n)%nat ->
      vbefore x w d q -> o (B w d q') <= o (B v day q') /\ o (A w d q') <= o (A v day q').
    Proof.
      intros Hw Hrw Hq [Hle Htie].
      assert (HF : no_later P (event_time P w d (sx q') kArr) (event_time P v day (sx q') kArr) /\
                   no_later P (event_time P w d (sx q') kDep) (event_time P v day (sx q') kDep)).
      { eapply (Hfifo ri r x w d vi v day (sx q) (sx q')); eauto.
        - apply sx_lt; lia.
        - apply sx_lt; lia.
        - now apply sx_order.
        - now apply no_later_o. }
      rewrite !no_later_o in HF. unfold bt, at_. destruct fwd; tauto.
    Qed.
    Lemma vget q : (p <= q < p')%nat -> get_on_allowed P (stop_at r (sx q)) = true ->
      s_rt s (k - 1) (ix (loc q) e0) <> kInvalid -> o (s_rt s (k - 1) (ix (loc q) e0)) <= o (B v day q) ->
      exists x w e, get_earliest_transport P ri r (sx q) (loc q) (s_tad s k) (s_rt s (k - 1) (ix (loc q) e0)) = Some (x, e) /\
        nth_error (r_vehicles r) x = Some w /\ runs_on w e /\ vbefore x w e q.
    Proof.
      intros Hq Hg Hne Hle. pose proof (vlab_low _ Hne). pose proof (vB_low q Hq). pose proof (vB_rel q ltac:(lia) Hg) as Hr1.
      destruct (lb_at q (B v day q)) as [_ Hlb]; auto; [lia|].
      pose proof (lb_nonneg _ _ HD (loc q)).
      destruct (get_earliest_transport_complete P ri r (sx q) (loc q) (s_tad s k) (s_rt s (k - 1) (ix (loc q) e0)) vi v day)
        as (x & w & e & E & Hx & Hb); auto.
      - apply sx_lt; lia.
      - lia.
      - rewrite o_clamp. lia.
      - exists x, w, e. split; [exact E|]. split; [exact Hx|]. split; [|exact Hb].
        apply get_earliest_transport_sound in E as (w' & Hw' & Hrw & _); auto; [|apply sx_lt; lia].
        assert (w' = w) by congruence; subst w'; apply Hrw.
    Qed.
    Lemma vtas x w d q e : nth_error (r_vehicles r) x = Some w -> (q < n)%nat ->
      time_at_stop P r (x, d) (sx q) e = clamp16 (event_time P w d (sx q) e).
    Proof. intros. eapply time_at_stop_eq; eauto using sx_lt. Qed.

    Notation good q0 ox := (exists x w, ox = Some x /\ nth_error (r_vehicles r) (fst x) = Some w /\ runs_on w (snd x) /\
          forall q, (q0 <= q < n)%nat -> o (B w (snd x) q) <= o (B v day q) /\ o (A w (snd x) q) <= o (A v day q)).
    Definition VJ (i : nat) (c : vscan) : Prop :=
      vscan_inv P vias St k r i c /\
      ((i <= p')%nat -> vs_break c = false) /\
      ((p < i <= p')%nat -> good i (vs_et c e0 (sl i - e0)%nat)) /\
      ((p' < i)%nat -> o (vs_tmp c (ix (loc p') (sl (S p')))) <= o (A v day p') /\ vs_mark c (ix (loc p') (sl (S p'))) = true).

    (** The vehicle stays on board when a via is crossed. *)
    Lemma vcross i et : (p < i < n)%nat -> (forall e oo x, et e oo = Some x -> vboard P vias St k r i (S i) i e oo x) ->
      cross_vias P vias r (sx i) (loc i) et e0 (sl (S i) - e0)%nat = et e0 (sl i - e0)%nat \/ et e0 (sl i - e0)%nat = None.
    Proof.
      intros Hi Hb. rewrite cross_vias_spec. rewrite slotp_next by lia. rewrite passing_cross.
      pose proof (slotp_le P vias r p e0 i He0) as Hsl. set (j := (sl i - e0)%nat). assert (Ej : sl i = (e0 + j)%nat) by lia. rewrite Ej.
      destruct (cross vias (e0 + j) (loc i)) eqn:Ec.
      - replace (S (e0 + j) - e0)%nat with (S j) by lia. unfold crossed. rewrite Ec.
        destruct (et e0 j) as [f|] eqn:Ef; [left|right; reflexivity]. unfold merge_et.
        assert (En : (if cross vias (e0 + S j) (loc i) then None else et e0 (S j)) = None).
        { destruct (cross vias (e0 + S j) (loc i)); [reflexivity|]. destruct (et e0 (S j)) as [y|] eqn:Ey; [|reflexivity]. exfalso.
          destruct (Hb _ _ _ Ey) as (w & q & j0 & t & _ & _ & Hq & Hqn & _ & _ & _ & _ & _ & _ & Hslot).
          destruct (slotp_crossed r q e0 (e0 + j) i Hq ltac:(lia)) as (q' & Hq' & Hc').
          assert (q' = i) by (eapply (cross_once ri r (e0 + j)); eauto; lia). lia. }
        rewrite En. reflexivity.
      - replace (e0 + j - e0)%nat with j by lia. unfold crossed. rewrite Ec.
        destruct j as [|j']; [left; reflexivity|]. destruct (cross vias (e0 + j') (loc i)) eqn:Ec'; [|left; reflexivity]. exfalso.
        destruct (slotp_crossed r p e0 (e0 + j') i ltac:(lia) ltac:(lia)) as (q' & Hq' & Hc').
        assert (q' = i) by (eapply (cross_once ri r (e0 + j')); eauto; lia). lia.
    Qed.

    Lemma VJ_step i c : (i < n)%nat -> VJ i c -> VJ (S i) (step c i).
    Proof.
      intros Hi (Hsc & Hbr & Het & Hdone).
      assert (Hsc' : vscan_inv P vias St k r (S i) (step c i)).
      { apply (via_scan_stop_sinv P vias Hwf Hdur Hend Hstay St HStL); auto. intros x Hx. destruct (si_rt _ _ _ _ Hs _ _ Hx) as (j & Hj & HL). exists j. split; [lia|auto]. }
      destruct (via_scan_stop_mono ri r (s_best s) (s_rt s (k - 1)) (s_tad s k) (s_prev s) c i) as [Hmt Hmm].
      split; [exact Hsc'|].
      destruct (Nat.lt_ge_cases p' i) as [Hgt|Hle].
      { split; [lia|]. split; [lia|]. intros _. destruct (Hdone Hgt) as [H1 H2]. split; auto.
        specialize (Hmt (ix (loc p') (sl (S p')))). lia. }
      specialize (Hbr Hle). clear Hdone Hmt Hmm.
      assert (Hgoal : ((S i <= p')%nat -> vs_break (step c i) = false) /\
        ((p < S i <= p')%nat -> exists x w, vs_et (step c i) e0 (sl (S i) - e0)%nat = Some x /\ nth_error (r_vehicles r) (fst x) = Some w /\ runs_on w (snd x) /\
          (vbefore (fst x) w (snd x) i \/ forall q, (S i <= q < n)%nat -> o (B w (snd x) q) <= o (B v day q) /\ o (A w (snd x) q) <= o (A v day q))) /\
        ((p' < S i)%nat -> o (vs_tmp (step c i) (ix (loc p') (sl (S p')))) <= o (A v day p') /\ vs_mark (step c i) (ix (loc p') (sl (S p'))) = true)).
      2:{ destruct Hgoal as (G1 & G2 & G3). split; [exact G1|split; [|exact G3]].
          intros Hpi. destruct (G2 Hpi) as (x & w & E & Hx & Hrw & Hor). exists x, w. do 3 (split; auto).
          destruct Hor as [Hor|Hor]; [|exact Hor]. intros q Hq. apply (vfifo (fst x) w (snd x) i); auto; lia. }
      clear Hsc'. unfold via_scan_stop. rewrite Hbr.
      set (et0 := if negb (Nat.eqb i 0) && negb (section_ok P r (section_before P r i)) then (fun _ _ => None) else vs_et c).
      assert (Het0 : forall e oo x, et0 e oo = Some x -> vboard P vias St k r i (S i) i e oo x).
      { destruct Hsc as (Hob & _). intros e oo x Hx. unfold et0 in Hx. destruct (Nat.eqb_spec i 0) as [->|Hi0]; cbn [negb andb] in Hx.
        - exfalso. destruct (Hob _ _ _ Hx Hbr) as (w & q & ? & ? & ? & ? & Hq & _). lia.
        - destruct (section_ok P r (section_before P r i)) eqn:Es; cbn [negb] in Hx; [|discriminate].
          destruct (Hob _ _ _ Hx Hbr) as (w & q & j & t & H1 & H2 & H3 & H4 & H5 & H6 & H7 & H8 & H9 & Hsec' & Hslot).
          exists w, q, j, t. do 9 (split; [assumption|]). split; [|assumption]. intros q' Hq'.
          destruct (Nat.eq_dec q' i) as [->|]; auto. apply Hsec'. lia. }
      assert (Het1 : (p < i)%nat -> good i (et0 e0 (sl i - e0)%nat)).
      { intros Hpi. destruct (Het ltac:(lia)) as (x & w & E & Hx & Hrw & Hq). exists x, w. split; auto.
        unfold et0. rewrite (Hsec i ltac:(lia)). rewrite andb_false_r. auto. }
      clearbody et0.
      set (et := cross_vias P vias r (sx i) (loc i) et0).
      assert (Het2 : (p < i)%nat -> good i (et e0 (sl (S i) - e0)%nat)).
      { intros Hpi. destruct (Het1 Hpi) as (x & w & E & Hx). exists x, w. split; [|exact Hx].
        destruct (vcross i et0 ltac:(lia) Het0) as [Ex|Ex]; [|congruence]. unfold et. now rewrite Ex. }
      assert (Het3 : forall e oo x, et e oo = Some x -> exists w, nth_error (r_vehicles r) (fst x) = Some w /\ runs_on w (snd x)).
      { intros e oo x Hx. destruct (vboard_cross P vias St k r i (loc i) et0 eq_refl Het0 e oo x Hx) as (w & q & ? & ? & Hw & Hrw & _). exists w. auto. }
      clearbody et. clear Het0 Het1.
      match goal with |- context [match ?m with (_, _) => _ end] => destruct m as [[cb tmp] mark] eqn:Eal end.
      (* alighting at p' *)
      assert (Hal : i = p' -> o (tmp (ix (loc p') (sl (S p')))) <= o (A v day p') /\ mark (ix (loc p') (sl (S p'))) = true).
      { intros ->. destruct (Het2 ltac:(lia)) as ([x d] & w & E & Hx & Hrw & Hq). cbn [fst snd] in *.
        pose proof (slotp_le P vias r p e0 (S p') He0) as Hsl.
        destruct (Hq p' ltac:(lia)) as [_ Ha]. destruct vrel_p' as [Hlr Hlb]. pose proof (lb_nonneg _ _ HD (loc p')).
        destruct (alight_achieves r (sx p') (loc p') (s_best s) (s_rt s (k - 1)) (s_tad s k) et ((fun _ => kInvalid), vs_tmp c, vs_mark c)
                    (sl (S p')) e0 (x, d) (A v day p')) as [G1 G2]; auto; try lia.
        - rewrite (vtas x w d p' (alight_ev P) Hx ltac:(lia)). apply clampo; [apply vA_low|exact Ha].
        - rewrite Eal in G1, G2. split; [exact G1|exact G2]. }
      destruct (Nat.eq_dec i p') as [Eip|Hne].
      { specialize (Hal Eip). split; [lia|]. split; [lia|]. intros _.
        destruct (_ || _ || _); [exact Hal|]. destruct (negb (lb_reachable P _)); exact Hal. }
      clear Hal Eal. assert (Hlt : (i < p')%nat) by lia.
      assert (Hkeep : (p < i)%nat -> exists x w, et e0 (sl (S i) - e0)%nat = Some x /\ nth_error (r_vehicles r) (fst x) = Some w /\ runs_on w (snd x) /\
             (vbefore (fst x) w (snd x) i \/ forall q, (S i <= q < n)%nat -> o (B w (snd x) q) <= o (B v day q) /\ o (A w (snd x) q) <= o (A v day q))).
      { intros Hpi. destruct (Het2 Hpi) as (x & w & E & Hx & Hrw & Hq). exists x, w. do 3 (split; auto).
        right. intros q Hqq. apply (Hq q). lia. }
      destruct (Nat.eqb i (n - 1) || negb (can_start fwd (is_wheelchair P) (stop_at r (sx i))) || negb (marked vias (s_prev s) (loc i))) eqn:Eb.
      { cbn [vs_break vs_et]. split; auto. split; [|lia]. intros Hpi. destruct (Nat.eq_dec i p) as [->|]; [|apply Hkeep; lia]. exfalso.
        rewrite can_start_on, Hon, (marked_in _ _ _ He0 Hprev) in Eb. destruct (Nat.eqb_spec p (n - 1)); [lia|discriminate]. }
      apply orb_false_iff in Eb as [Eb Em]. apply orb_false_iff in Eb as [_ Eb].
      apply negb_false_iff in Em. apply negb_false_iff in Eb. rewrite can_start_on in Eb.
      rewrite (vno_break i Hlt Eb Em). cbn [negb vs_break vs_et]. split; [auto|]. split; [|lia]. intros Hpi.
      destruct (sl (S i) - e0)%nat as [|oo] eqn:Eoo.
      2:{ rewrite board_fold_other by lia. destruct (Nat.eq_dec i p) as [->|]; [rewrite slotp_here in Eoo; lia|]. apply Hkeep. lia. }
      rewrite board_fold by auto. clear Eoo. unfold board_val. cbv zeta.
      set (et_time := match et e0 0%nat with Some x => time_at_stop P r x (sx i) (board_ev P) | None => kInvalid end).
      set (prev_time := s_rt s (k - 1) (ix (loc i) e0)).
      assert (Hetb : forall b, o et_time < b -> b <= OI -> exists x w, et e0 0%nat = Some x /\ nth_error (r_vehicles r) (fst x) = Some w /\
                     runs_on w (snd x) /\ o (B w (snd x) i) < b).
      { intros b Hlt1 Hb. unfold et_time in Hlt1. destruct (et e0 0%nat) as [x|] eqn:Ex; [|rewrite o_kInvalid in Hlt1; lia].
        destruct (Het3 _ _ x Ex) as (w & Hx & Hrw). exists x, w. do 3 (split; auto).
        destruct x as [x d]. cbn [fst snd] in *. rewrite (vtas x w d i _ Hx Hi), o_clamp in Hlt1.
        change (event_time P w d (sx i) (board_ev P)) with (B w d i) in Hlt1. lia. }
      destruct (negb (prev_time =? kInvalid) && is_better_or_eq P prev_time et_time) eqn:Ep.
      - apply andb_true_iff in Ep as [Ep1 Ep2]. apply negb_true_iff, Z.eqb_neq in Ep1. apply is_better_or_eq_o in Ep2.
        assert (Hcb : o prev_time <= o (B v day i)).
        { destruct (Nat.eq_dec i p) as [->|]; [exact Hcatch|]. destruct (Het2 ltac:(lia)) as (x & w & E & Hx & Hrw & Hq).
          unfold et_time in Ep2. rewrite E in Ep2. destruct x as [x d]. cbn [fst snd] in *. rewrite (vtas x w d i _ Hx Hi) in Ep2.
          destruct (Hq i ltac:(lia)) as [Hb _].
          assert (o (clamp16 (event_time P w d (sx i) (board_ev P))) <= o (B v day i)); [|lia].
          apply clampo; [apply vB_low; lia|exact Hb]. }
        destruct (vget i ltac:(lia) Eb Ep1 Hcb) as (x & w & e & E & Hx & Hrw & Hb).
        fold prev_time in E. rewrite E.
        destruct ((_ =? kInvalid) || is_better_or_eq P (time_at_stop P r (x, e) (sx i) (board_ev P)) et_time) eqn:Ea.
        + exists (x, e), w. cbn [fst snd]. do 3 (split; auto).
        + apply orb_false_iff in Ea as [_ Ea]. apply is_better_or_eq_o_false in Ea.
          rewrite (vtas x w e i _ Hx Hi) in Ea.
          assert (Hrg : o (clamp16 (event_time P w e (sx i) (board_ev P))) <= OI) by apply clamp_range.
          destruct (Hetb _ Ea Hrg) as (x0 & w0 & E0 & Hx0 & Hrw0 & Hlt0).
          exists x0, w0. do 3 (split; [auto|]). left.
          assert (Hcl : o (clamp16 (event_time P w e (sx i) (board_ev P))) <= o (B v day i)).
          { apply clampo; [apply vB_low; lia|exact (proj1 Hb)]. }
          split; [lia|]. intros Heq. rewrite Heq in Hlt0. lia.
      - destruct (Nat.eq_dec i p) as [->|]; [|apply Hkeep; lia].
        assert (Hprange : o prev_time <= OI) by apply (si_rt_range _ _ _ _ Hs).
        apply andb_false_iff in Ep as [Ep|Ep].
        { apply negb_false_iff, Z.eqb_eq in Ep. contradiction. }
        apply is_better_or_eq_o_false in Ep.
        destruct (Hetb _ Ep Hprange) as (x0 & w0 & E0 & Hx0 & Hrw0 & Hlt0).
        exists x0, w0. do 3 (split; [auto|]). left. unfold prev_time in *.
        split; [lia|]. intros Heq. rewrite Heq in Hlt0. lia.
    Qed.

    Lemma via_update_route_achieves :
      let s' := via_update_route P vias k ri r s in
      o (s_tmp s' (ix (loc p') (sl (S p')))) <= o (A v day p') /\ s_mark s' (ix (loc p') (sl (S p'))) = true.
    Proof.
      cbn zeta. unfold via_update_route. cbn [s_tmp s_mark].
      assert (HJ : VJ n (fold_left step (seq 0 n) (mk_vscan (fun _ _ => None) (s_tmp s) (s_mark s) false))).
      { apply (fold_left_seq_inv step VJ).
        - split; [|split; [|split]]; cbn [vs_break vs_et vs_tmp vs_mark]; auto; try lia. split; [discriminate|]. split; [apply Hs|apply Hs].
        - intros i c Hi. now apply VJ_step. }
      apply HJ. lia.
    Qed.
  End Scan.

  (** *** All routes of a round *)
  Notation frame s s' := (s_rt s' = s_rt s /\ s_best s' = s_best s /\ s_tad s' = s_tad s /\ s_prev s' = s_prev s /\
    (forall y : nat, o (s_tmp s' y) <= o (s_tmp s y)) /\ (forall y : nat, s_mark s y = true -> s_mark s' y = true)).
  Lemma via_update_route_frame k ri r s : let s' := via_update_route P vias k ri r s in frame s s'.
  Proof.
    cbn zeta. unfold via_update_route. cbn [s_rt s_best s_tad s_prev s_tmp s_mark].
    do 4 (split; [reflexivity|]).
    apply (fold_left_inv _ (fun c => (forall y, o (vs_tmp c y) <= o (s_tmp s y)) /\ (forall y, s_mark s y = true -> vs_mark c y = true))).
    - cbn [vs_tmp vs_mark]. split; auto. intros; lia.
    - intros c i _ [H1 H2].
      destruct (via_scan_stop_mono ri r (s_best s) (s_rt s (k - 1)) (s_tad s k) (s_prev s) c i) as [M1 M2].
      split; auto. intros y. specialize (M1 y). specialize (H1 y). lia.
  Qed.
  Definition vroute_step (k : nat) (rm : nat -> bool) (s : state) (ri : nat) : state :=
    match nth_error (tt_routes tt) ri with
    | Some r => if rm ri && route_allowed P r then via_update_route P vias k ri r s else s
    | None => s
    end.
  Lemma frame_refl s : frame s s.
  Proof. do 4 (split; [reflexivity|]). split; auto. intros; lia. Qed.
  Lemma vroute_step_frame k rm s ri : let s' := vroute_step k rm s ri in frame s s'.
  Proof.
    cbn zeta. unfold vroute_step. destruct (nth_error (tt_routes tt) ri) as [r|]; [|apply frame_refl].
    destruct (rm ri && route_allowed P r); [apply via_update_route_frame|apply frame_refl].
  Qed.
  Lemma vroute_fold_frame k rm l s : let s' := fold_left (vroute_step k rm) l s in frame s s'.
  Proof.
    cbn zeta. revert s; induction l as [|ri l IH]; intros s; cbn [fold_left]; [apply frame_refl|].
    destruct (IH (vroute_step k rm s ri)) as (I1 & I2 & I3 & I4 & I5 & I6).
    destruct (vroute_step_frame k rm s ri) as (F1 & F2 & F3 & F4 & F5 & F6).
    do 4 (split; [congruence|]). split; auto. intros y. specialize (I5 y). specialize (F5 y). lia.
  Qed.
  Lemma vroute_step_sinv k rm s ri : (1 <= k)%nat -> sinv k s -> sinv k (vroute_step k rm s ri).
  Proof.
    intros Hk Hs. unfold vroute_step. destruct (nth_error (tt_routes tt) ri) as [r|] eqn:E; auto.
    destruct (rm ri && route_allowed P r) eqn:Ea; auto. apply andb_true_iff in Ea as [_ Ea].
    apply (via_update_route_sinv P vias Hwf Hdur Hend Hstay St HStL); auto.
  Qed.
  Lemma vroute_fold_sinv k rm l s : (1 <= k)%nat -> sinv k s -> sinv k (fold_left (vroute_step k rm) l s).
  Proof. intros Hk Hs. apply fold_left_inv; auto. intros. now apply vroute_step_sinv. Qed.

  Lemma vloop_achieves k rm s l e0 tb l' e' ta :
    (1 <= k)%nat -> sinv k s -> (e0 <= nv)%nat -> s_prev s (ix l e0) = true ->
    (forall ri, In ri (tt_location_routes tt l) -> rm ri = true) ->
    (forall x, s_prev s x = true -> lb_reachable PX x = true \/ exists t, StX x t) ->
    via_ride P vias e0 l tb e' l' ta -> s_rt s (k - 1) (ix l e0) <> kInvalid -> o (s_rt s (k - 1) (ix l e0)) <= o tb ->
    o ta + D l' <= o a -> o a <= o (s_tad s k) ->
    let s' := via_loop_routes P vias k rm s in o (s_tmp s' (ix l' e')) <= o ta /\ s_mark s' (ix l' e') = true.
  Proof.
    intros Hk Hs He0 Hprev Hrm Hpok Hride Hne Hle Hrel Htad. cbn zeta.
    destruct Hride as [ri r vi v day s1 s2 st st' Hr Hv Hrun Hs1 Hs2 Hlt El El' Hon Hoff Hcl Hsec Etb Eta Ev].
    change (via_loop_routes P vias k rm s) with (fold_left (vroute_step k rm) (seq 0 (length (tt_routes tt))) s).
    assert (Hri : (ri < length (tt_routes tt))%nat) by (apply nth_error_Some; congruence).
    assert (Hin : In ri (seq 0 (length (tt_routes tt)))) by (apply in_seq; lia).
    apply in_split in Hin as (la & lb & ->). rewrite fold_left_app. cbn [fold_left].
    destruct (vroute_fold_frame k rm la s) as (F1 & F2 & F3 & F4 & _ & _).
    assert (Hs' := vroute_fold_sinv k rm la s Hk Hs).
    set (sa := fold_left (vroute_step k rm) la s) in *.
    destruct (vroute_fold_frame k rm lb (vroute_step k rm sa ri)) as (_ & _ & _ & _ & G5 & G6).
    assert (Hl1 : (s1 < length (r_stops r))%nat) by (apply nth_error_Some; congruence).
    assert (Hl2 : (s2 < length (r_stops r))%nat) by (apply nth_error_Some; congruence).
    destruct (pos_of P r s1 Hl1) as (p & Hp & Ep). destruct (pos_of P r s2 Hl2) as (p' & Hp' & Ep').
    assert (Hpp : (p < p')%nat).
    { unfold stop_idx_of in Ep, Ep'. destruct fwd; lia. }
    assert (Est : stop_at r s1 = st). { pose proof (stop_at_nth r s1 Hl1). congruence. }
    assert (Est' : stop_at r s2 = st'). { pose proof (stop_at_nth r s2 Hl2). congruence. }
    assert (Hra : route_allowed P r = true).
    { unfold route_allowed. rewrite Hcl. cbn [andb]. apply forallb_forall. intros f Hf.
      destruct (p_require P f) eqn:Ef; [|reflexivity]. cbn [negb orb].
      assert (f < 4)%nat by (simpl in Hf; intuition lia).
      destruct (Hsec f (Nat.min s1 s2)) as [Hx|[Hx _]]; auto.
      - destruct fwd; lia.
      - rewrite Hx. reflexivity.
      - rewrite Hx. apply orb_true_r. }
    assert (Hri_in : In ri (tt_location_routes tt l)).
    { destruct Hidx as (Hl & _). rewrite <- El. eapply Hl; eauto using nth_error_In. }
    assert (Eslot : e' = slotp r p e0 (S p')).
    { rewrite Ev, <- Ep, <- Ep'. apply slotp_spec. lia. }
    assert (Hach : o (s_tmp (vroute_step k rm sa ri) (ix l' e')) <= o ta /\ s_mark (vroute_step k rm sa ri) (ix l' e') = true).
    { unfold vroute_step. rewrite Hr, (Hrm ri Hri_in), Hra. cbn [andb].
      assert (Eloc : loc_at r (stop_idx_of P r p) = l) by (unfold loc_at; rewrite Ep, Est; auto).
      assert (Eloc' : loc_at r (stop_idx_of P r p') = l') by (unfold loc_at; rewrite Ep', Est'; auto).
      rewrite <- Eloc', Eta, Eslot.
      change (event_time P v day s2 (if fwd then kArr else kDep)) with (at_ P v day s2). rewrite <- Ep'.
      apply (via_update_route_achieves k ri r vi v day p p' e0 sa); auto.
      - rewrite Ep, Est. auto.
      - rewrite Ep', Est'. auto.
      - intros q Hq. unfold section_ok. apply forallb_forall. intros f Hf. unfold section_filter.
        destruct (p_require P f) eqn:Ef; [|reflexivity]. cbn [andb].
        destruct (r_flag_all r f) eqn:Eall; [reflexivity|]. cbn [negb orb].
        assert (f < 4)%nat by (simpl in Hf; intuition lia).
        destruct (Hsec f (section_before P r q)) as [Hx|[_ Hx]]; auto; [|congruence].
        unfold section_before, stop_idx_of in *. destruct fwd; lia.
      - rewrite F4, Eloc. auto.
      - rewrite F1, Eloc. auto.
      - rewrite F1, Eloc. rewrite Ep. rewrite Etb in Hle. exact Hle.
      - rewrite Eloc', Ep'. rewrite Eta in Hrel. exact Hrel.
      - rewrite F3. auto.
      - rewrite F4. auto. }
    destruct Hach as [Ha1 Ha2]. split; auto. specialize (G5 (ix l' e')). lia.
  Qed.

  (** *** Rounds *)
  Notation rinv := (rinv PX StX a K).
  Notation CL := (wCL PX DX a K).
  Notation CLall := (wCLall PX DX a K).
  Notation Cl := (wCl PX DX a).
  Notation ginv := (wginv PX DX StX a K).
  Lemma vdest_lt l : p_is_dest P l = true -> (ix l nv < n_loc * S nv)%nat.
  Proof. intros Hd. apply ix_lt; [now apply Hloc|auto]. Qed.
  Lemma vdest l : p_is_dest P l = true -> p_is_dest PX (ix l nv) = true.
  Proof. intros Hd. rewrite dest_ix, Nat.eqb_refl, Hd by auto. reflexivity. Qed.
  Lemma vmerge_pinv k s : rinv k s -> pinv k (via_merge_best P vias k s).
  Proof.
    intros [Hs Hb Ht Hm]. assert (Hs' := via_merge_best_sinv P vias St k s Hs).
    unfold via_merge_best in *. split; cbn [s_rt s_best s_tad] in *; auto.
    - intros l. destruct (Nat.ltb_spec l (n_loc * S nv)); auto.
      change (Raptor_Base.o PX) with o in *. rewrite o_get_best.
      destruct (Hb l) as (j & Hj & Hle). destruct (Z.le_gt_cases (o (s_rt s k l)) (o (s_best s l))).
      + exists k. split; auto. lia.
      + exists j. split; auto. lia.
    - intros l Hl _. left. change (l < n_loc * S nv)%nat in Hl. rewrite (proj2 (Nat.ltb_lt _ _) Hl).
      change (Raptor_Base.o PX) with o. rewrite o_get_best. lia.
    - intros Hnd i Hi. change (Raptor_Base.o PX) with o.
      set (best := fun x => if Nat.ltb x (n_loc * S nv) then get_best P (s_rt s k x) (s_best s x) else s_best s x).
      destruct (merge_tad P (fun i => best (ix i nv)) k (seq 0 n_loc) (s_tad s) i) as (_ & _ & M3). apply M3.
      + apply Ht; auto.
      + intros Hki l Hl. unfold best. rewrite (proj2 (Nat.ltb_lt _ _) (vdest_lt l Hl)), o_get_best.
        destruct (Hb (ix l nv)) as (j & Hj & Hle). change (Raptor_Base.o PX) with o in Hle.
        assert (X1 := Hnd j _ ltac:(lia) (vdest l Hl)). assert (X2 := Hnd k _ ltac:(lia) (vdest l Hl)). cbn [s_rt] in X1, X2.
        change (Raptor_Base.o PX) with o in *. lia.
    - intros Him. apply (x_intermodal P vias) in Him. destruct (Hend Him) as (Hd & _).
      assert (Hed : p_is_dest P (p_end P) = true) by now apply Hd.
      change (p_end PX) with (ix (p_end P) nv). change (Raptor_Base.o PX) with o.
      set (best := fun x => if Nat.ltb x (n_loc * S nv) then get_best P (s_rt s k x) (s_best s x) else s_best s x).
      destruct (merge_tad P (fun i => best (ix i nv)) k (seq 0 n_loc) (s_tad s) k) as (_ & M2 & _).
      assert (Hlt : (p_end P < n_loc)%nat) by now apply Hloc.
      specialize (M2 (p_end P) ltac:(apply in_seq; lia) Hed ltac:(lia)). unfold best in M2 at 2.
      rewrite (proj2 (Nat.ltb_lt _ _) (vdest_lt _ Hed)), o_get_best in M2.
      match goal with |- o (?x k) <= _ => change (o (fold_left (fun (tad : nat -> Z) (i : nat) => if p_is_dest P i then update_time_at_dest P tad k (best (ix i nv)) else tad) (seq 0 n_loc) (s_tad s) k) <= o (s_rt s k (ix (p_end P) nv))) end.
      lia.
  Qed.
  Lemma vride_loc x tb x' ta : ride_ok PX x tb x' ta ->
    exists v l v' l', (v <= nv)%nat /\ (v' <= nv)%nat /\ x = ix l v /\ x' = ix l' v' /\ via_ride P vias v l tb v' l' ta /\
      (exists ri, In ri (tt_location_routes tt l)) /\ (l < n_loc)%nat /\ (l' < n_loc)%nat /\ (intermodal -> x <> p_end PX).
  Proof.
    intros Hride. apply x_ride_sound in Hride as (v & l & v' & l' & Hv & Hv' & Ex & Ex' & Hr).
    exists v, l, v', l'. do 5 (split; [auto|]).
    destruct Hr as [ri r vi w day s1 s2 st st' Hr Hw Hrun Hs1 Hs2 Hlt El El' Hon Hoff Hcl Hsec Etb Eta Ev].
    apply nth_error_In in Hs1, Hs2. destruct Hidx as (Hi & _). destruct Hloc as (Hl & _). subst l l'.
    split; [exists ri; eapply Hi; eauto|]. split; [eapply Hl; eauto|]. split; [eapply Hl; eauto|].
    rewrite Ex. apply ix_not_end; auto. unfold at_end. destruct (is_intermodal_dest P) eqn:Eid; [|reflexivity].
    destruct (Nat.eqb_spec (Z.to_nat (s_loc st)) (p_end P)) as [E|]; [|reflexivity]. exfalso.
    assert (Him : p_dist_to_end P <> None) by (unfold is_intermodal_dest in Eid; destruct (p_dist_to_end P); congruence).
    destruct (Hend Him) as (_ & Hne & _). exact (Hne _ _ _ Hr Hs1 E).
  Qed.

  Lemma vround_inv k s s' go :
    (1 <= k)%nat -> rinv k s -> via_round P vias k s = (s', go) ->
    improves s s' /\ (forall j l, j <> k -> s_rt s' j l = s_rt s j l) /\
    (go = true -> rinv (S k) s') /\
    (go = false -> (forall j l, s_rt s' j l = s_rt s j l) /\ rinv k s') /\
    ((k <= K)%nat -> CL k s -> if go then CL (S k) s' else CLall s').
  Proof.
    intros Hk Hinv. assert (Hp1 := vmerge_pinv k s Hinv). unfold via_round.
    set (s1 := via_merge_best P vias k s) in *.
    assert (Ert1 : s_rt s1 = s_rt s) by reflexivity.
    assert (Emk1 : s_mark s1 = s_mark s) by reflexivity.
    destruct (negb (via_any_marked P vias s1)) eqn:Eany.
    - intros [= <- <-]. split; [intros j l; rewrite Ert1; lia|]. split; [intros; now rewrite Ert1|]. split; [discriminate|]. split.
      + intros _. split; [intros; now rewrite Ert1|]. destruct Hp1 as [X1 X2 X3 X4 X5]. split; auto. apply Hinv.
      + intros HkK HC Hnd j l Hj. apply negb_true_iff in Eany.
        destruct (Nat.eq_dec (S j) k) as [Ej|]; [|apply (HC Hnd); auto].
        destruct (s_mark s l) eqn:Em; [|apply (HC Hnd); auto].
        intros tb l' ta l'' t'' Hride _ _ _ _. exfalso.
        destruct (vride_loc _ _ _ _ Hride) as (v & l0 & v' & l0' & Hv & _ & -> & _ & _ & (ri & Hri) & Hl & _).
        assert (Hx : via_any_marked P vias s1 = true); [|congruence].
        unfold via_any_marked. apply existsb_exists. exists l0. split; [apply in_seq; lia|].
        rewrite Emk1, (marked_in _ _ _ Hv Em). cbn [andb]. destruct (tt_location_routes tt l0); [destruct Hri|reflexivity].
    - set (rm := via_route_marks P vias s1).
      set (s2 := mk_state (s_tmp s1) (s_best s1) (s_rt s1) (s_tad s1) (fun _ => false) (s_mark s1)).
      set (s3 := via_loop_routes P vias k rm s2).
      set (s4 := mk_state (s_tmp s3) (s_best s3) (s_rt s3) (s_tad s3) (fun _ => false) (s_mark s3)).
      intros [= <- <-]. fold (via_phases k s4). set (s5 := via_phases k s4).
      assert (Hs2 : sinv k s2) by (apply marks_sinv; apply Hp1).
      destruct (vroute_fold_frame k rm (seq 0 (length (tt_routes tt))) s2) as (F1 & F2 & F3 & F4 & _ & _).
      change (fold_left (vroute_step k rm) (seq 0 (length (tt_routes tt))) s2) with s3 in F1, F2, F3, F4.
      assert (Hs3 : sinv k s3) by (apply (vroute_fold_sinv k rm (seq 0 (length (tt_routes tt))) s2 Hk Hs2)).
      assert (Hp4 : pinv k s4).
      { assert (Hs4 : sinv k s4) by (apply marks_sinv; exact Hs3).
        destruct Hp1 as [X1 X2 X3 X4 X5]. split; [exact Hs4| | | |]; unfold s4, Raptor_Opt.nd; cbn [s_rt s_best s_tad]; rewrite ?F1, ?F2, ?F3; auto. }
      assert (Hph := via_phases_phase k s4 Hp4). fold s5 in Hph.
      assert (Ert4 : s_rt s4 = s_rt s) by (unfold s4; cbn [s_rt]; rewrite F1; reflexivity).
      assert (Himp : improves s s5).
      { intros j l. pose proof (ph_imp _ _ _ _ _ _ _ _ Hph j l) as X. rewrite Ert4 in X. exact X. }
      assert (Hfr : forall j l, j <> k -> s_rt s5 j l = s_rt s j l).
      { intros j l Hj. rewrite (ph_rt _ _ _ _ _ _ _ _ Hph j l Hj), Ert4. reflexivity. }
      split; [exact Himp|]. split; [exact Hfr|]. split; [|split; [discriminate|]].
      + intros _. destruct (ph_inv _ _ _ _ _ _ _ _ Hph) as [X1 X2 X3 X4 X5]. split; auto.
        * apply sinv_weaken with k; auto.
        * intros l. destruct (X2 l) as (j & Hj & Hle). exists j. split; auto.
        * intros l Hm. destruct (ph_mark_new _ _ _ _ _ _ _ _ Hph l Hm) as [Hx|Hx]; auto. unfold s4 in Hx. cbn [s_mark] in Hx. discriminate.
      + intros HkK HC Hnd j l Hj Hc.
        assert (Hnd0 : nd s) by (eapply nd_back; eauto).
        destruct (Nat.eq_dec (S j) k) as [Ej|Hjk].
        * destruct (s_mark s l) eqn:Em.
          -- intros tb l' ta l'' t'' Hride Hne Hle Hsucc Hrel.
             rewrite (Hfr j l ltac:(lia)) in Hne, Hle.
             assert (Ekj : (k - 1 = j)%nat) by lia.
             assert (Hrel' : rel l' ta) by (eapply (succ_rel PX XDur DX XD); eauto).
             destruct (vride_loc _ _ _ _ Hride) as (v & l0 & v' & l0' & Hv & Hv' & -> & -> & Hvr & _ & Hll & Hll' & _).
             assert (Hlow : H <= o ta).
             { destruct (si_rt _ _ _ _ (ri_s _ _ _ _ _ _ Hinv) _ _ Hne) as (i & _ & HL).
               apply (label_lower PX XWf XDur StX H XStH) in HL.
               apply (ride_ok_order PX XWf) in Hride; auto. change (Raptor_Base.o PX) with o in *. lia. }
             assert (Hach : o (s_tmp s3 (ix l0' v')) <= o ta /\ s_mark s3 (ix l0' v') = true).
             { apply (vloop_achieves k rm s2 l0 v tb l0' v' ta); auto.
               - intros ri Hri. unfold rm, via_route_marks. apply existsb_exists. exists l0. split; [apply in_seq; lia|].
                 rewrite Emk1, (marked_in _ _ _ Hv Em). cbn [andb]. apply existsb_exists. exists ri. split; auto. apply Nat.eqb_refl.
               - intros x Hx. apply (ri_mark _ _ _ _ _ _ Hinv). exact Hx.
               - rewrite Ekj. exact Hne.
               - rewrite Ekj. exact Hle.
               - now apply (rel_ix l0' v' ta Hv').
               - apply (pi_tad _ _ _ _ _ _ Hp1 Hnd0 k HkK). }
             destruct Hach as [Ht3 Hm3].
             rewrite Ej. apply (via_phases_achieve k s4 l0' v' ta l'' t''); auto.
          -- apply wCl_improves with s; [apply Hfr; lia|exact Himp|]. apply (HC Hnd0); auto.
        * destruct (Nat.eq_dec j k) as [->|Hjk'].
          -- destruct Hc as [Hc|Hm]; [lia|].
             destruct (Z.eq_dec (s_rt s5 k l) (s_rt s k l)) as [E|E].
             ++ apply wCl_improves with s; [exact E|exact Himp|]. apply (HC Hnd0); auto.
             ++ intros tb l' ta l'' t'' Hride. destruct (vride_loc _ _ _ _ Hride) as (v & l0 & v' & l0' & _ & _ & _ & _ & _ & _ & _ & _ & Hle).
                revert l'' t''. intros l'' t'' Hne Hle' Hsucc Hrel.
                assert (HCi : Cl s5 k l).
                { apply (wCl_irrelevant PX XWf XDur DX XD StX H a XStH XHaH HaOI XStL). intros Hrl.
                  assert (Hx : s_mark s5 l = true); [|congruence].
                  apply (ph_changed _ _ _ _ _ _ _ _ Hph); auto. rewrite Ert4. exact E. }
                eapply HCi; eauto.
          -- apply wCl_improves with s; [apply Hfr; auto|exact Himp|]. apply (HC Hnd0); auto.
  Qed.

  Lemma vrounds_inv n k s :
    (1 <= k)%nat -> rinv k s -> (if Nat.leb k K then CL k s /\ (K < k + n)%nat else CLall s) ->
    let s' := via_rounds P vias n k s in
    CLall s' /\ (exists k', rinv k' s') /\ improves s s' /\ (forall j l, (j < k)%nat -> s_rt s' j l = s_rt s j l).
  Proof.
    revert k s; induction n as [|n IH]; intros k s Hk Hinv HC; cbn zeta; cbn [via_rounds].
    - assert (HA : CLall s) by (destruct (Nat.leb_spec k K); [lia|auto]).
      split; [auto|split; [eauto|split; [apply improves_refl|auto]]].
    - destruct (via_round P vias k s) as [s' go] eqn:Er.
      destruct (vround_inv k s s' go Hk Hinv Er) as (R1 & R2 & R3 & R4 & R5).
      assert (HCpass : (K < k)%nat -> CLall s -> CLall s').
      { intros HkK HA Hnd j l Hj. apply wCl_improves with s; [apply R2; lia|exact R1|].
        apply HA; auto. eapply nd_back; eauto. }
      destruct go.
      + specialize (R3 eq_refl).
        assert (HC' : if Nat.leb (S k) K then CL (S k) s' /\ (K < S k + n)%nat else CLall s').
        { destruct (Nat.leb_spec k K) as [Hle|Hgt].
          - destruct HC as [HC HkK]. specialize (R5 Hle HC).
            destruct (Nat.leb_spec (S k) K); [split; auto; lia|].
            intros Hnd j l Hj. apply (R5 Hnd); auto. lia.
          - destruct (Nat.leb_spec (S k) K); [lia|]. auto. }
        destruct (IH (S k) s' ltac:(lia) R3 HC') as (I1 & I2 & I3 & I4).
        split; auto. split; auto. split; [eapply improves_trans; eauto|].
        intros j l Hj. rewrite I4 by lia. apply R2. lia.
      + destruct (R4 eq_refl) as [R4a R4b].
        split; [|split; [eauto|split; auto]].
        destruct (Nat.leb_spec k K) as [Hle|Hgt]; [|auto]. destruct HC as [HC _]. apply (R5 Hle HC).
  Qed.

  (** *** One start time *)
  Definition xstart (lt : nat * Z) : nat * Z := (ix (fst lt) (visited 0 (fst lt)), snd lt).
  Lemma vadd_starts starts s : fold_left (via_add_start P vias) starts s = fold_left (add_start PX) (map xstart starts) s.
  Proof. revert s. induction starts as [|[l t] starts IH]; intros s; cbn [map fold_left]; auto. now rewrite IH, via_add_start_eq. Qed.
  Lemma vrun_group_ginv mt s g :
    (K < end_k mt)%nat -> o a <= o (g_worst g) ->
    (forall l t, In (l, t) (g_starts g) -> St l t /\ o t <= OI) ->
    ginv s ->
    let s' := via_run_group P vias mt s g in
    ginv s' /\ (forall l t, In (l, t) (g_starts g) -> o (s_rt s' 0%nat (ix l (visited 0 l))) <= o t) /\ improves s s'.
  Proof.
    intros HK Hw Hst [(k0 & Hs) Ht HC]. cbn zeta. unfold via_run_group. rewrite vadd_starts.
    set (sn := next_start_time P s). set (starts := map xstart (g_starts g)).
    assert (Hst' : forall x t, In (x, t) starts -> StX x t /\ o t <= OI).
    { intros x t Hin. unfold starts in Hin. apply in_map_iff in Hin as ([l t0] & [= <- <-] & Hin). cbn [fst snd].
      destruct (Hst l t0 Hin). split; auto. exists l. auto. }
    assert (Hsn : sinv 1 sn).
    { destruct Hs as [X1 X2 X3 X4 X5]. unfold sn, next_start_time. split; cbn [s_rt s_tmp s_best]; auto.
      - intros. change (o kInvalid <= OI). rewrite (o_kInvalid P). lia.
      - intros. change (o kInvalid <= OI). rewrite (o_kInvalid P). lia.
      - intros l0 Hl0. exfalso. apply Hl0. reflexivity. }
    destruct (add_starts_spec PX starts sn) as (A1 & A2 & A3 & A4 & A5 & A6 & A7 & A8 & A9).
    assert (Hsa : sinv 1 (fold_left (add_start PX) starts sn)).
    { apply fold_left_inv; auto. intros s' [l t] Hin Hs'. destruct (Hst' l t Hin). apply add_start_sinv; auto. }
    set (sa := fold_left (add_start PX) starts sn) in *.
    set (sw := set_worst P (g_worst g) sa).
    assert (Hrw : s_rt sw = s_rt sa) by reflexivity.
    assert (Hwi : improves s sw). { intros j l. rewrite Hrw. exact (A4 j l). }
    assert (Hrinv : rinv 1 sw).
    { split.
      - destruct Hsa as [X1 X2 X3 X4 X5]. split; auto.
      - intros l. exists 0%nat. split; [lia|]. rewrite Hrw. apply A9. intros l0.
        unfold sn, next_start_time. cbn [s_rt s_best]. change (Raptor_Base.o PX) with o. rewrite (o_kInvalid P). apply Hs.
      - intros Hnd i Hi. cbn [sw set_worst s_tad]. change (Raptor_Base.o PX) with o. rewrite o_get_best. rewrite A2. cbn [sn next_start_time s_tad].
        assert (o a <= o (s_tad s i)); [|lia]. apply Ht; auto. eapply nd_back; eauto.
      - intros l Hm. right. destruct (A8 l Hm) as [Hx|(t & Hx)]; [discriminate|]. exists t. now apply Hst'. }
    assert (HCL1 : CL 1 sw).
    { intros Hnd j l Hj Hc.
      assert (Hcl : Cl s j l) by (apply HC; auto; eapply nd_back; eauto).
      destruct (Nat.eq_dec j 0) as [->|].
      - destruct Hc as [Hc|Hm]; [lia|]. apply wCl_improves with s; auto. rewrite Hrw.
        destruct (Z.eq_dec (s_rt sa 0%nat l) (s_rt sn 0%nat l)) as [E|E]; auto.
        apply A6 in E. change (s_mark sa l = false) in Hm. congruence.
      - apply wCl_improves with s; auto. rewrite Hrw, A3 by lia. reflexivity. }
    destruct (vrounds_inv (end_k mt - 1) 1 sw) as (I1 & (k' & I2) & I3 & I4); auto.
    { destruct (Nat.leb_spec 1 K); [split; auto; unfold end_k in *; lia|].
      intros Hnd j l Hj. lia. }
    split; [|split].
    - split; [exists k'; apply I2|apply I2|auto].
    - intros l t Hin. rewrite I4 by lia. rewrite Hrw. apply (A5 (ix l (visited 0 l)) t).
      unfold starts. change (ix l (visited 0 l), t) with (xstart (l, t)). now apply in_map.
    - eapply improves_trans; eauto.
  Qed.
End VOpt.
