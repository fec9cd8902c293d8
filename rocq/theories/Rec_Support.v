(** Every label of the search is either supported - there is a vehicle that can be boarded with a label of the previous round and that
    explains the label exactly, which is what the reconstruction looks for - or it is also reached with fewer rides. *)
From Coq Require Import List ZArith Bool Arith Lia.
From Verif Require Import Base Time_Model Raptor_Model Raptor_Spec Raptor_Base Raptor_Sound Raptor_Genuine.
Import ListNotations.
Local Open Scope Z_scope.

Section Support.
  Variable P : params.
  Notation fwd := (p_fwd P).
  Notation tt := (p_tt P).
  Notation o := (o P).
  Notation OI := (OI P).
  Notation OL := (OL P).
  Notation kInvalid := (kInvalid P).

  Hypothesis Hwf : all_vehicles_wf P.
  Hypothesis Hdur : durations_ok P.
  Hypothesis Hend : end_ok P.
  Hypothesis Hloc : locations_ok P.
  Notation n_loc := (tt_n_locations tt).
  Variable St : nat -> Z -> Prop.
  Hypothesis HSt : forall l t, St l t -> OL < o t.
  Notation Tr := (transfer_time P).
  Notation GL := (GL P St).
  Notation GArr := (GArr P St).
  Notation taint := (taint P).
  Notation gsinv := (gsinv P St).

  (** Not the virtual end of a query with offsets. *)
  Definition real (l : nat) : Prop := p_dist_to_end P <> None -> l <> p_end P.

  Definition RS (F : nat -> nat -> Z) (k l : nat) (t : Z) : Prop :=
    (1 <= k)%nat /\ exists l' tb, o (F (k - 1)%nat l') <= o tb /\ ride_ok P l' tb l t.
  Inductive Supp (F : nat -> nat -> Z) (k l : nat) (t : Z) : Prop :=
  | Supp_transfer t0 : (p_dist_to_end P = None -> p_is_dest P l = false) -> RS F k l t0 -> t = after P t0 (Tr l) -> Supp F k l t
  | Supp_dest : p_dist_to_end P = None -> p_is_dest P l = true -> RS F k l t -> Supp F k l t
  | Supp_walk l0 t0 d : RS F k l0 t0 -> walk P l0 l d -> t = after P t0 d -> Supp F k l t
  | Supp_off off l0 t0 d : p_dist_to_end P = Some off -> l = p_end P -> RS F k l0 t0 -> off l0 = Some d -> t = after P t0 d -> Supp F k l t.
  Definition older (F : nat -> nat -> Z) (k l : nat) (t : Z) : Prop := exists i, (1 <= i < k)%nat /\ GL F i l t.

  Definition le_lab (F F' : nat -> nat -> Z) : Prop := forall j l, real l -> OL < o (F' j l) /\ o (F' j l) <= o (F j l).
  Lemma le_lab_rt F F' : le_lab F F' -> le_rt P F F'.
  Proof. intros H Hn j l. apply H. intros X. congruence. Qed.

  Lemma stop_real ri r s st : nth_error (tt_routes tt) ri = Some r -> nth_error (r_stops r) s = Some st -> real (Z.to_nat (s_loc st)).
  Proof. intros Hr Hs Hn. destruct (Hend Hn) as (_ & Hx & _). eapply Hx; eauto using nth_error_In. Qed.
  Lemma ride_real l tb l' ta : ride_ok P l tb l' ta -> real l /\ real l'.
  Proof. intros [ri r vi v day s s' st st' Hr Hv Hrun Hs Hs' Hlt <- <- _ _ _ _ _ _]. eauto using stop_real. Qed.
  Lemma RS_mono F F' k l t : le_lab F F' -> RS F k l t -> RS F' k l t.
  Proof.
    intros Hm (Hk & l' & tb & Hle & Hr). split; auto. exists l', tb. split; auto.
    destruct (ride_real _ _ _ _ Hr) as [Hl' _]. destruct (Hm (k - 1)%nat l' Hl'). lia.
  Qed.
  Lemma Supp_mono F F' k l t : le_lab F F' -> Supp F k l t -> Supp F' k l t.
  Proof.
    intros Hm H. inversion H; [eapply Supp_transfer|eapply Supp_dest|eapply Supp_walk|eapply Supp_off]; eauto using RS_mono.
  Qed.
  Lemma older_mono F F' k l t : le_lab F F' -> older F k l t -> older F' k l t.
  Proof. intros Hm (i & Hi & H). exists i. split; auto. eapply GL_mono; eauto using le_lab_rt. Qed.

  (** [tmp]: arrival by vehicle. *)
  Record sup (k : nat) (s : state) : Prop := mk_sup {
    su_rt : forall j l, (1 <= j)%nat -> s_rt s j l <> kInvalid -> Supp (s_rt s) j l (s_rt s j l) \/ older (s_rt s) j l (s_rt s j l);
    su_tmp : forall l, s_tmp s l <> kInvalid ->
       real l /\ (RS (s_rt s) k l (s_tmp s l) \/ exists i, (i < k)%nat /\ GArr (s_rt s) i l (s_tmp s l)) }.
  Definition prt2 (k : nat) (s : state) : Prop := forall l, (l < n_loc)%nat -> real l ->
       o (s_best s l) <= o (s_rt s k l) \/ lb_reachable P l = false \/
       o (s_tad s k) < o (s_rt s k l) \/ o (s_tad s k) < o (s_rt s k l) + p_lb P l.
  Definition inv2 (k : nat) (s : state) : Prop := gsinv k s /\ prt2 k s /\ sup k s.
  Lemma prt2_prt k s : prt2 k s -> prt P k s.
  Proof. intros H Hn l Hl. apply H; auto. intros X. congruence. Qed.
  Lemma inv2_inv k s : inv2 k s -> inv P St k s.
  Proof. intros (H1 & H2 & _). split; auto using prt2_prt. Qed.

  Lemma write_sup k target fp s rt tmp b t mk pv :
    (1 <= k)%nat -> gsinv k s -> sup k s -> OL < o fp -> (real target -> o fp <= o (s_rt s k target)) ->
    (fp <> kInvalid -> fp <> s_rt s k target -> Supp (s_rt s) k target fp \/ older (s_rt s) k target fp) ->
    tmp = s_tmp s -> (forall j l, rt j l = upd (s_rt s) k (upd (s_rt s k) target fp) j l) ->
    sup k (mk_state tmp b rt t mk pv).
  Proof.
    intros Hk Hg [H1 H2] Hlow Hle Hfp -> Ert.
    assert (Hmono : le_lab (s_rt s) rt).
    { intros j l Hr. rewrite Ert. unfold upd. pose proof (gs_rt_range _ _ _ _ Hg j l).
      destruct (Nat.eqb_spec k j) as [<-|]; [|lia]. destruct (Nat.eqb_spec target l) as [<-|]; [|lia]. specialize (Hle Hr). lia. }
    split; cbn [s_rt s_tmp].
    - intros j l Hj. rewrite Ert. unfold upd.
      assert (Hold : s_rt s j l <> kInvalid -> Supp rt j l (s_rt s j l) \/ older rt j l (s_rt s j l)).
      { intros Hne. destruct (H1 j l Hj Hne); eauto using Supp_mono, older_mono. }
      destruct (Nat.eqb_spec k j) as [<-|]; auto.
      destruct (Nat.eqb_spec target l) as [<-|]; auto. intros Hne.
      destruct (Z.eq_dec fp (s_rt s k target)) as [E|E]; [rewrite E in *; auto|].
      destruct (Hfp Hne E); eauto using Supp_mono, older_mono.
    - intros l Hne. destruct (H2 l Hne) as (Hr & H). split; auto.
      destruct H as [H|(i & Hi & H)]; [left; eauto using RS_mono|right]. exists i. split; auto. eapply GArr_mono; eauto using le_lab_rt.
  Qed.

  Lemma transfer_to_inv2 k target fp b s :
    (1 <= k)%nat -> (target < n_loc)%nat -> real target ->
    (fp <> kInvalid -> exists i, (1 <= i <= k)%nat /\ GL (s_rt s) i target fp) ->
    (fp <> kInvalid -> Supp (s_rt s) k target fp \/ older (s_rt s) k target fp) ->
    inv2 k s -> inv2 k (transfer_to P k target fp b s).
  Proof.
    intros Hk Htg Hreal Hfp Hsp Hinv.
    assert (Hgi := transfer_to_inv P Hwf Hdur St HSt k target fp b s Htg Hfp (inv2_inv k s Hinv)).
    destruct Hinv as (Hg & Hp & Hs). split; [apply Hgi|]. clear Hgi. unfold transfer_to.
    destruct (is_better P fp (s_best s target)) eqn:Eb; cbn [andb].
    2:{ split; [exact Hp|]. destruct Hs as [H1 H2]. split; auto. }
    apply is_better_o in Eb. assert (H3 := gs_best_range _ _ _ _ Hg target).
    assert (Hne : fp <> kInvalid) by (intros ->; rewrite o_kInvalid in Eb; lia).
    assert (Hlow : OL < o fp). { destruct (Hfp Hne) as (i & _ & HL). eapply (GL_lower P Hwf Hdur St HSt); eauto. }
    destruct (is_better_or_eq P fp (s_tad s k) && (lb_reachable P target && is_better_or_eq P (fp + dir P (p_lb P target)) (s_tad s k))) eqn:Et.
    - apply andb_true_iff in Et as [Et1 Et]. apply andb_true_iff in Et as [Et2 Et3].
      apply is_better_or_eq_o in Et1, Et3. rewrite o_dir in Et3.
      assert (Hle : o fp <= o (s_rt s k target)).
      { destruct (Hp target Htg Hreal) as [X|[X|[X|X]]]; [lia|congruence|lia|lia]. }
      set (rt' := upd (s_rt s) k (upd (s_rt s k) target (get_best P fp (s_rt s k target)))).
      assert (E : forall j l, upd rt' k (upd (rt' k) target fp) j l = upd (s_rt s) k (upd (s_rt s k) target fp) j l).
      { intros j' l'. unfold rt', upd. rewrite Nat.eqb_refl. destruct (Nat.eqb k j'); auto. destruct (Nat.eqb target l'); auto. }
      split.
      + intros l Hl Hr. cbn [s_rt s_best s_tad]. rewrite E. unfold upd. rewrite Nat.eqb_refl.
        destruct (Nat.eqb_spec target l) as [<-|]; [lia|].
        assert (X : o ((if b then update_time_at_dest P (s_tad s) k fp else s_tad s) k) <= o (s_tad s k)).
        { destruct b; [|lia]. unfold update_time_at_dest. rewrite Nat.leb_refl, o_get_best. lia. }
        destruct (Hp l Hl Hr) as [Y|[Y|[Y|Y]]]; auto; right; right; [left|right]; lia.
      + eapply (write_sup k target fp s); eauto.
    - split.
      + intros l Hl Hr. cbn [s_rt s_best s_tad]. unfold upd. rewrite Nat.eqb_refl.
        destruct (Nat.eqb_spec target l) as [<-|]; [|auto].
        rewrite o_get_best.
        destruct (Z.le_gt_cases (o (s_rt s k target)) (o fp)) as [Hc|Hc].
        { rewrite Z.min_r by lia. auto. }
        rewrite Z.min_l by lia.
        destruct (is_better_or_eq P fp (s_tad s k)) eqn:E1; cbn [andb] in Et.
        2:{ apply is_better_or_eq_o_false in E1. auto. }
        destruct (lb_reachable P target) eqn:E2; cbn [andb] in Et; auto.
        apply is_better_or_eq_o_false in Et. rewrite o_dir in Et. auto.
      + pose proof (gs_rt_range _ _ _ _ Hg k target).
        eapply (write_sup k target (get_best P fp (s_rt s k target)) s); eauto; try (rewrite o_get_best; lia).
        intros _ Hd. destruct (get_best_cases P fp (s_rt s k target)) as [E|E]; rewrite E in *; [auto|congruence].
  Qed.

  (** Following an arrival in a vehicle. *)
  Definition transfer_dist (i : nat) : Z := if negb (is_intermodal_dest P) && p_is_dest P i then 0 else dir P (p_adjust P (tt_transfer_time tt i)).
  Lemma GArr_transfer F j i t : GArr F j i t -> clamp16 (t + transfer_dist i) <> kInvalid -> GL F j i (clamp16 (t + transfer_dist i)).
  Proof.
    intros [Hj1 Ha] Hne. pose proof (GArr_lower P Hwf Hdur St HSt _ _ _ _ (conj Hj1 Ha)) as Hlow. pose proof (tr_nonneg P Hdur i).
    unfold transfer_dist, is_intermodal_dest in *. destruct (p_dist_to_end P) as [off|] eqn:Eoff; cbn [negb andb] in *.
    - rewrite <- after_dir in *. fold (Tr i) in *.
      destruct (clamp_cases P (after P t (Tr i))) as [E'|?]; [rewrite o_after; lia| |contradiction]. rewrite E'.
      destruct Ha as [Ha|(Hn & _)]; [|congruence]. eapply GL_transfer; eauto. congruence.
    - destruct (p_is_dest P i) eqn:Ed.
      + rewrite Z.add_0_r in *. destruct (clamp_cases P t) as [E'|?]; [lia| |contradiction]. rewrite E'.
        destruct Ha as [Ha|Ht]; [eapply GL_dest|eapply GL_taint]; eauto.
      + rewrite <- after_dir in *. fold (Tr i) in *.
        destruct (clamp_cases P (after P t (Tr i))) as [E'|?]; [rewrite o_after; lia| |contradiction]. rewrite E'.
        destruct Ha as [Ha|Ht]; [eapply GL_transfer; eauto|eapply GL_taint; auto].
        eapply taint_later; [apply le_n| |exact Ht]. rewrite o_after. lia.
  Qed.
  Lemma RS_transfer F k i t : OL < o t -> RS F k i t -> clamp16 (t + transfer_dist i) <> kInvalid -> Supp F k i (clamp16 (t + transfer_dist i)).
  Proof.
    intros Hlow Ha Hne. pose proof (tr_nonneg P Hdur i).
    unfold transfer_dist, is_intermodal_dest in *. destruct (p_dist_to_end P) as [off|] eqn:Eoff; cbn [negb andb] in *.
    - rewrite <- after_dir in *. fold (Tr i) in *.
      destruct (clamp_cases P (after P t (Tr i))) as [E'|?]; [rewrite o_after; lia| |contradiction]. rewrite E'.
      eapply Supp_transfer; eauto. congruence.
    - destruct (p_is_dest P i) eqn:Ed.
      + rewrite Z.add_0_r in *. destruct (clamp_cases P t) as [E'|?]; [lia| |contradiction]. rewrite E'. now apply Supp_dest.
      + rewrite <- after_dir in *. fold (Tr i) in *.
        destruct (clamp_cases P (after P t (Tr i))) as [E'|?]; [rewrite o_after; lia| |contradiction]. rewrite E'. eapply Supp_transfer; eauto.
  Qed.
  Lemma GArr_walk F j i l' d t : GArr F j i t -> walk P i l' d -> clamp16 (t + dir P d) <> kInvalid -> GL F j l' (clamp16 (t + dir P d)).
  Proof.
    intros [Hj1 Ha] Hw Hne. pose proof (GArr_lower P Hwf Hdur St HSt _ _ _ _ (conj Hj1 Ha)) as Hlow. pose proof (walk_nonneg P Hdur _ _ _ Hw).
    rewrite <- after_dir in *.
    destruct (clamp_cases P (after P t d)) as [E'|?]; [rewrite o_after; lia| |contradiction]. rewrite E'.
    destruct Ha as [Ha|Ht]; [eapply GL_walk; eauto|eapply GL_taint; auto].
    eapply taint_later; [apply le_n| |exact Ht]. rewrite o_after. lia.
  Qed.
  Lemma RS_walk F k i l' d t : OL < o t -> RS F k i t -> walk P i l' d -> clamp16 (t + dir P d) <> kInvalid -> Supp F k l' (clamp16 (t + dir P d)).
  Proof.
    intros Hlow Ha Hw Hne. pose proof (walk_nonneg P Hdur _ _ _ Hw). rewrite <- after_dir in *.
    destruct (clamp_cases P (after P t d)) as [E'|?]; [rewrite o_after; lia| |contradiction]. rewrite E'. eapply Supp_walk; eauto.
  Qed.

  Lemma tmp_lower k s l : gsinv k s -> s_tmp s l <> kInvalid -> OL < o (s_tmp s l).
  Proof. intros Hg Hne. destruct (gs_tmp _ _ _ _ Hg _ Hne) as (j & _ & Ha). eapply (GArr_lower P Hwf Hdur St HSt); eauto. Qed.

  Lemma update_transfers_inv2 k s : (1 <= k)%nat -> inv2 k s -> inv2 k (update_transfers P k s).
  Proof.
    intros Hk H. unfold update_transfers. apply fold_left_inv; auto. clear s H. intros s i Hi H. apply in_seq0' in Hi.
    destruct (s_prev s i && negb (s_tmp s i =? kInvalid)) eqn:E; auto.
    apply andb_true_iff in E as [_ E]. apply negb_true_iff, Z.eqb_neq in E.
    fold (transfer_dist i).
    destruct (gs_tmp _ _ _ _ (proj1 H) _ E) as (j & Hj & Ha).
    destruct (su_tmp _ _ (proj2 (proj2 H)) _ E) as (Hr & Hs).
    apply transfer_to_inv2; auto.
    - intros Hne. exists j. split; [destruct Ha; lia|]. now apply GArr_transfer.
    - intros Hne. destruct Hs as [Hs|(i0 & Hi0 & Hs)]; [left; apply RS_transfer; auto; eapply tmp_lower; eauto; apply H|right].
      exists i0. split; [destruct Hs; lia|]. now apply GArr_transfer.
  Qed.

  Lemma update_footpaths_inv2 k s : (1 <= k)%nat -> inv2 k s -> inv2 k (update_footpaths P k s).
  Proof.
    intros Hk H. unfold update_footpaths. apply fold_left_inv; auto. clear s H. intros s i _ H.
    destruct (s_prev s i); auto.
    apply fold_left_inv; auto. clear s H. intros s [l' d0] Hin H. cbn [fst snd].
    destruct (s_tmp s i =? kInvalid) eqn:E; auto. apply Z.eqb_neq in E.
    destruct (gs_tmp _ _ _ _ (proj1 H) _ E) as (j & Hj & Ha).
    destruct (su_tmp _ _ (proj2 (proj2 H)) _ E) as (Hr & Hs).
    assert (Hw : walk P i l' (p_adjust P d0)) by (exists d0; auto).
    apply transfer_to_inv2; auto.
    - destruct Hloc as (_ & Hl & _). unfold footpaths_of in Hin. eapply Hl; eauto.
    - intros Hn ->. destruct (Hend Hn) as (_ & _ & Hx). eapply Hx; eauto.
    - intros Hne. exists j. split; [destruct Ha; lia|]. eapply GArr_walk; eauto.
    - intros Hne. destruct Hs as [Hs|(i0 & Hi0 & Hs)]; [left; eapply RS_walk; eauto; eapply tmp_lower; eauto; apply H|right].
      exists i0. split; [destruct Hs; lia|]. eapply GArr_walk; eauto.
  Qed.

  Lemma update_intermodal_inv2 k s : (1 <= k)%nat -> inv2 k s -> inv2 k (update_intermodal_footpaths P k s).
  Proof.
    intros Hk H. unfold update_intermodal_footpaths. destruct (p_dist_to_end P) as [off|] eqn:Eoff; auto.
    apply fold_left_inv; auto. clear s H. intros s i _ H.
    destruct (s_prev s i); auto. destruct (off i) as [d|] eqn:Ed; auto.
    destruct (s_tmp s i =? kInvalid) eqn:E; auto. apply Z.eqb_neq in E.
    destruct (is_better_or_eq P _ _); auto.
    destruct H as (Hg & Hp & Hs).
    destruct (gs_tmp _ _ _ _ Hg _ E) as (j & Hj & Ha). pose proof (tmp_lower _ _ _ Hg E) as Hlow.
    destruct (su_tmp _ _ Hs _ E) as (Hr & Hsu).
    assert (0 <= d) by (destruct Hdur as (_ & _ & _ & Hw); eapply Hw; eauto).
    assert (Hcl : OL < o (clamp16 (s_tmp s i + dir P d)) <= OI).
    { rewrite o_clamp, o_dir. pose proof (OL_lt_OI P). lia. }
    assert (HGL : forall j, GArr (s_rt s) j i (s_tmp s i) -> clamp16 (s_tmp s i + dir P d) <> kInvalid -> GL (s_rt s) j (p_end P) (clamp16 (s_tmp s i + dir P d))).
    { intros j0 [Hj1 [Ha0|(Hn & _)]] Hne; [|congruence]. rewrite <- after_dir in *.
      destruct (clamp_cases P (after P (s_tmp s i) d)) as [E'| ?]; [rewrite o_after; lia| |contradiction]. rewrite E'. eapply GL_off; eauto. }
    split; [|split].
    - eapply write_gsinv with (target := p_end P) (fp := clamp16 (s_tmp s i + dir P d)); eauto.
      + intros l. destruct (upd_cases (s_best s) (p_end P) l (clamp16 (s_tmp s i + dir P d))) as [[<- ->]|[_ ->]]; [lia|apply Hg].
      + intros Hne _. exists j. split; [destruct Ha; lia|]. now apply HGL.
      + congruence.
    - intros l Hl Hrl. cbn [s_best s_rt s_tad].
      assert (Hne : p_end P <> l) by (intros <-; apply Hrl; congruence).
      rewrite upd_neq by auto. rewrite upd_eq, upd_neq by auto.
      assert (X : o (update_time_at_dest P (s_tad s) k (clamp16 (s_tmp s i + dir P d)) k) <= o (s_tad s k)).
      { unfold update_time_at_dest. rewrite Nat.leb_refl, o_get_best. lia. }
      destruct (Hp l Hl Hrl) as [Y|[Y|[Y|Y]]]; auto; right; right; [left|right]; lia.
    - eapply (write_sup k (p_end P) (clamp16 (s_tmp s i + dir P d)) s); eauto; [lia| |].
      + intros Hx. exfalso. apply Hx; congruence.
      + intros Hne _. destruct Hsu as [Hsu|(i0 & Hi0 & Hsu)]; [left|right].
        * rewrite <- after_dir in *.
          destruct (clamp_cases P (after P (s_tmp s i) d)) as [E'| ?]; [rewrite o_after; lia| |contradiction]. rewrite E'. eapply Supp_off; eauto.
        * exists i0. split; [destruct Hsu; lia|]. now apply HGL.
  Qed.

  (** *** Scanning *)
  Definition on_board2 (F : nat -> nat -> Z) (k : nat) (r : route) (i : nat) (x : ride) : Prop :=
    exists v p, nth_error (r_vehicles r) (fst x) = Some v /\ runs_on v (snd x) /\
      (p < i)%nat /\ (p < length (r_stops r))%nat /\
      get_on_allowed P (stop_at r (stop_idx_of P r p)) = true /\
      o (F (k - 1)%nat (loc_at r (stop_idx_of P r p))) <= o (bt P v (snd x) (stop_idx_of P r p)) /\
      (forall q, (p < q < i)%nat -> section_ok P r (section_before P r q) = true).

  Lemma on_board_arrive2 F k ri r i x :
    (1 <= k)%nat -> (forall l, OL < o (F (k - 1)%nat l)) ->
    nth_error (tt_routes tt) ri = Some r -> route_allowed P r = true -> (i < length (r_stops r))%nat ->
    on_board2 F k r i x -> (section_ok P r (section_before P r i) = true) ->
    get_off_allowed P (stop_at r (stop_idx_of P r i)) = true ->
    time_at_stop P r x (stop_idx_of P r i) (alight_ev P) <> kInvalid ->
    RS F k (loc_at r (stop_idx_of P r i)) (time_at_stop P r x (stop_idx_of P r i) (alight_ev P)).
  Proof.
    intros Hk HF Hr Hra Hi (v & p & Hv & Hrun & Hp & Hpl & Hon & Hle & Hsec) Hsi Hoff Hne.
    destruct x as [x d]. cbn [fst snd] in *.
    rewrite (time_at_stop_eq P Hwf ri r x v) in * by auto using stop_idx_lt.
    assert (Hord : o (bt P v d (stop_idx_of P r p)) <= o (at_ P v d (stop_idx_of P r i))).
    { eapply (event_order P Hwf); eauto using nth_error_In, stop_idx_lt. apply stop_idx_order; auto. }
    specialize (HF (loc_at r (stop_idx_of P r p))).
    assert (Eat : event_time P v d (stop_idx_of P r i) (alight_ev P) = at_ P v d (stop_idx_of P r i)) by reflexivity.
    rewrite Eat in *.
    destruct (clamp_cases P (at_ P v d (stop_idx_of P r i))) as [E| E]; [lia| |congruence].
    rewrite E. split; auto. exists (loc_at r (stop_idx_of P r p)), (bt P v d (stop_idx_of P r p)). split; auto.
    eapply (ride_intro P _ _ _ _ ri r x v d (stop_idx_of P r p) (stop_idx_of P r i)); eauto using stop_at_nth, stop_idx_lt.
    - apply stop_idx_order; auto.
    - unfold route_allowed in Hra. apply andb_true_iff in Hra. tauto.
    - intros f sec. eapply sections_spec; eauto. intros q Hq.
      destruct (Nat.eq_dec q i) as [->|]; auto. apply Hsec. lia.
  Qed.

  Definition scan_inv2 (F : nat -> nat -> Z) (k : nat) (r : route) (i : nat) (c : scan) : Prop :=
    (forall x, sc_et c = Some x -> sc_break c = false -> on_board2 F k r i x) /\
    (forall l, sc_tmp c l <> kInvalid -> real l /\ (RS F k l (sc_tmp c l) \/ exists i, (i < k)%nat /\ GArr F i l (sc_tmp c l))).

  Lemma scan_stop_inv2 F k ri r best tad pm c i :
    (1 <= k)%nat -> nth_error (tt_routes tt) ri = Some r -> route_allowed P r = true -> (i < length (r_stops r))%nat ->
    (forall l, OL < o (F (k - 1)%nat l)) ->
    scan_inv2 F k r i c -> scan_inv2 F k r (S i) (scan_stop P k ri r best (F (k - 1)%nat) tad pm c i).
  Proof.
    intros Hk Hr Hra Hi HFl (Het & Htmp). unfold scan_stop.
    destruct (sc_break c) eqn:Ebr.
    { split; [intros x _ Hb; congruence|auto]. }
    set (s := stop_idx_of P r i). set (l := loc_at r s).
    assert (Hsl : (s < length (r_stops r))%nat) by (apply stop_idx_lt; auto).
    assert (Hreal : real l). { unfold l, loc_at. eapply stop_real; eauto using stop_at_nth. }
    set (et := if negb (Nat.eqb i 0) && negb (section_ok P r (section_before P r i)) then None else sc_et c).
    assert (Het' : forall x, et = Some x -> on_board2 F k r i x /\ section_ok P r (section_before P r i) = true /\ i <> 0%nat).
    { intros x Hx. unfold et in Hx. destruct (Nat.eqb_spec i 0) as [->|Hi0]; simpl in Hx.
      - exfalso. destruct (Het x Hx eq_refl) as (v & p & ? & ? & Hp & _). lia.
      - destruct (section_ok P r (section_before P r i)) eqn:Es; simpl in Hx; [|discriminate]. auto. }
    match goal with |- scan_inv2 _ _ _ _ (match ?m with _ => _ end) => destruct m as [[cb tmp] mark] eqn:Eal end.
    assert (Htmp' : forall l, tmp l <> kInvalid -> real l /\ (RS F k l (tmp l) \/ exists i, (i < k)%nat /\ GArr F i l (tmp l))).
    { destruct et as [x|] eqn:Ee; [|injection Eal as _ <- _; auto].
      destruct (can_finish fwd (is_wheelchair P) (stop_at r s)) eqn:Ef; [|injection Eal as _ <- _; auto].
      destruct (is_better_or_eq P _ tad && _ && _) eqn:Eu; injection Eal as _ <- _; auto.
      rewrite can_finish_off in Ef. destruct (Het' x eq_refl) as (Hob & Hs & Hi0).
      intros l0. destruct (upd_cases (sc_tmp c) l l0 (get_best P (time_at_stop P r x s (alight_ev P)) (sc_tmp c l))) as [[<- ->]|[_ ->]]; auto.
      destruct (get_best_cases P (time_at_stop P r x s (alight_ev P)) (sc_tmp c l)) as [->| ->]; auto.
      intros Hne. split; auto. left. eapply on_board_arrive2; eauto. }
    assert (Hcarry : forall x, et = Some x -> on_board2 F k r (S i) x).
    { intros x Hx. destruct (Het' x Hx) as ((v & p & Hv & Hrun & Hp & Hpl & Hon & Hle & Hsec) & Hs & Hi0).
      exists v, p. do 6 (split; [first [assumption|lia]|]). intros q Hq.
      destruct (Nat.eq_dec q i) as [->|]; auto. apply Hsec. lia. }
    destruct (Nat.eqb i (length (r_stops r) - 1) || negb (can_start fwd (is_wheelchair P) (stop_at r s)) || negb (pm l)) eqn:Eb1.
    { split; cbn; auto. }
    apply orb_false_iff in Eb1 as [Eb1 _]. apply orb_false_iff in Eb1 as [_ Ecs]. apply negb_false_iff in Ecs.
    rewrite can_start_on in Ecs.
    destruct (negb (lb_reachable P l)).
    { split; cbn; [intros; discriminate|auto]. }
    destruct (negb (F (k - 1)%nat l =? kInvalid) && is_better_or_eq P (F (k - 1)%nat l) _) eqn:Eprev; [|split; cbn; auto].
    destruct (get_earliest_transport P ri r s l tad (F (k - 1)%nat l)) as [[x d]|] eqn:Eget; [|split; cbn; auto].
    assert (Hnew : on_board2 F k r (S i) (x, d)).
    { apply get_earliest_transport_sound in Eget as (v & Hv & Hrun & Hle & _); auto.
      exists v, i. cbn [fst snd]. do 6 (split; [first [assumption|lia]|]). intros; lia. }
    destruct ((get_best P (get_best P cb (best l)) (tmp l) =? kInvalid) || _).
    - split; cbn; auto. intros x0 [= <-]. auto.
    - split; cbn; auto.
  Qed.

  (** *** Scanning a real-time transport *)
  Definition scan_rt_inv2 (F : nat -> nat -> Z) (k : nat) (r : route) (i : nat) (c : scan) : Prop :=
    (forall x, sc_et c = Some x -> sc_break c = false -> on_board2 F k r i x \/ board_saturated P r i x) /\
    (forall l, sc_tmp c l <> kInvalid -> real l /\ (RS F k l (sc_tmp c l) \/ exists i, (i < k)%nat /\ GArr F i l (sc_tmp c l))).

  Lemma scan_rt_stop_inv2 F k ri r day tad pm c i :
    (1 <= k)%nat -> nth_error (tt_routes tt) ri = Some r -> r_rt r = Some day -> route_allowed P r = true -> (i < length (r_stops r))%nat ->
    (forall l, OL < o (F (k - 1)%nat l) <= OI) ->
    scan_rt_inv2 F k r i c -> scan_rt_inv2 F k r (S i) (scan_rt_stop P r day (F (k - 1)%nat) tad pm c i).
  Proof.
    intros Hk Hr Hrtr Hra Hi HFl (Het & Htmp). unfold scan_rt_stop.
    destruct (proj2 Hwf _ _ _ Hr Hrtr) as (Hday & v & Ev & Hdays).
    destruct (sc_break c) eqn:Ebr.
    { split; [intros x _ Hb; congruence|auto]. }
    set (s := stop_idx_of P r i). set (l := loc_at r s).
    assert (Hsl : (s < length (r_stops r))%nat) by (apply stop_idx_lt; auto).
    assert (Hreal : real l). { unfold l, loc_at. eapply stop_real; eauto using stop_at_nth. }
    set (et := if negb (Nat.eqb i 0) && negb (section_ok P r (section_before P r i)) then None else sc_et c).
    assert (Het' : forall x, et = Some x -> (on_board2 F k r i x \/ board_saturated P r i x) /\ section_ok P r (section_before P r i) = true /\ i <> 0%nat).
    { intros x Hx. unfold et in Hx. destruct (Nat.eqb_spec i 0) as [->|Hi0]; simpl in Hx.
      - exfalso. destruct (Het x Hx eq_refl) as [(w & p & ? & ? & Hp & _)|(w & p & _ & Hp & _)]; lia.
      - destruct (section_ok P r (section_before P r i)) eqn:Es; simpl in Hx; [|discriminate]. auto. }
    match goal with |- scan_rt_inv2 _ _ _ _ (match ?m with _ => _ end) => destruct m as [tmp mark] eqn:Eal end.
    assert (Htmp' : forall l, tmp l <> kInvalid -> real l /\ (RS F k l (tmp l) \/ exists i, (i < k)%nat /\ GArr F i l (tmp l))).
    { destruct et as [x|] eqn:Ee; [|injection Eal as <- _; auto].
      destruct (negb (Nat.eqb i 0) && can_finish fwd (is_wheelchair P) (stop_at r s) && is_better_or_eq P _ tad && _ && _) eqn:Eu; injection Eal as <- _; auto.
      do 3 (apply andb_true_iff in Eu as [Eu _]). apply andb_true_iff in Eu as [_ Ef].
      rewrite can_finish_off in Ef. destruct (Het' x eq_refl) as (Hob & Hs & Hi0).
      intros l0. destruct (upd_cases (sc_tmp c) l l0 (get_best P (time_at_stop P r x s (alight_ev P)) (sc_tmp c l))) as [[<- ->]|[_ ->]]; auto.
      destruct (get_best_cases P (time_at_stop P r x s (alight_ev P)) (sc_tmp c l)) as [->| ->]; auto.
      intros Hne. split; auto. left. destruct Hob as [Hob|Hob].
      - eapply on_board_arrive2; eauto. intros l1. apply HFl.
      - exfalso. apply Hne. eapply (saturated_arrive P Hwf); eauto. }
    assert (Hcarry : forall x, et = Some x -> on_board2 F k r (S i) x \/ board_saturated P r (S i) x).
    { intros x Hx. destruct (Het' x Hx) as ([(w & p & Hv & Hrun & Hp & Hpl & Hon & Hle & Hsec)|Hsat] & Hs & Hi0).
      - left. exists w, p. do 6 (split; [first [assumption|lia]|]). intros q Hq.
        destruct (Nat.eq_dec q i) as [->|]; auto. apply Hsec. lia.
      - right. now apply saturated_next. }
    destruct (negb (lb_reachable P l)).
    { split; cbn; [intros; discriminate|auto]. }
    destruct (Nat.eqb i (length (r_stops r) - 1) || negb (can_start fwd (is_wheelchair P) (stop_at r s)) || negb (pm l)) eqn:Eb1.
    { split; cbn; auto. }
    apply orb_false_iff in Eb1 as [Eb1 _]. apply orb_false_iff in Eb1 as [_ Ecs]. apply negb_false_iff in Ecs.
    rewrite can_start_on in Ecs.
    destruct (is_better_or_eq P (F (k - 1)%nat l) _) eqn:Eprev; [|split; cbn; auto].
    split; cbn; auto. intros x [= <-] _.
    destruct (rt_board P Hwf ri r day i v (F (k - 1)%nat l) Hr Ev Hi (fun _ => proj1 (HFl l)) (proj2 (HFl l)) Eprev) as [Hsat|[Hne Hle]]; [now right|left].
    exists v, i. cbn [fst snd].
    split; [rewrite Ev; reflexivity|]. split; [split; [exact Hday|rewrite Hdays; apply Z.eqb_refl]|].
    do 4 (split; [first [assumption|lia]|]). intros; lia.
  Qed.

  Lemma update_route_inv2 k ri r s :
    (1 <= k)%nat -> nth_error (tt_routes tt) ri = Some r -> route_allowed P r = true ->
    inv2 k s -> inv2 k (update_route P k ri r s).
  Proof.
    intros Hk Hr Hra H.
    assert (Hgi := update_route_inv P Hwf Hdur Hend St HSt k ri r s Hk Hr Hra (inv2_inv k s H)).
    destruct H as (Hg & Hp & [H1 H2]). split; [apply Hgi|]. clear Hgi. unfold update_route. destruct (r_rt r) as [day|] eqn:Ert.
    { set (f := scan_rt_stop P r day (s_rt s (k - 1)) (s_tad s k) (s_prev s)).
      assert (Hinv : scan_rt_inv2 (s_rt s) k r (length (r_stops r)) (fold_left f (seq 0 (length (r_stops r))) (mk_scan None (s_tmp s) (s_mark s) false))).
      { apply (fold_left_seq_inv f (fun i c => scan_rt_inv2 (s_rt s) k r i c)).
        - split; cbn; [discriminate|auto].
        - intros i c Hi Hc. eapply scan_rt_stop_inv2; eauto. intros l. apply (gs_rt_range _ _ _ _ Hg). }
      destruct Hinv as (_ & Ht). split; [exact Hp|]. split; cbn [s_rt s_tmp]; auto. }
    set (f := scan_stop P k ri r (s_best s) (s_rt s (k - 1)) (s_tad s k) (s_prev s)).
    assert (Hinv : scan_inv2 (s_rt s) k r (length (r_stops r)) (fold_left f (seq 0 (length (r_stops r))) (mk_scan None (s_tmp s) (s_mark s) false))).
    { apply (fold_left_seq_inv f (fun i c => scan_inv2 (s_rt s) k r i c)).
      - split; cbn; [discriminate|auto].
      - intros i c Hi Hc. apply scan_stop_inv2; auto. intros l. apply (gs_rt_range _ _ _ _ Hg). }
    destruct Hinv as (_ & Ht). split; [exact Hp|]. split; cbn [s_rt s_tmp]; auto.
  Qed.

  Lemma loop_routes_inv2 k rm s : (1 <= k)%nat -> inv2 k s -> inv2 k (loop_routes P k rm s).
  Proof.
    intros Hk H. unfold loop_routes. apply fold_left_inv; auto. clear s H. intros s ri _ H.
    destruct (nth_error (tt_routes tt) ri) as [r|] eqn:Er; auto.
    destruct (rm ri && route_allowed P r) eqn:E; auto. apply andb_true_iff in E as [_ E].
    now apply update_route_inv2.
  Qed.

  Lemma merge_best_inv2 k s : gsinv k s -> sup k s -> inv2 k (merge_best P k s).
  Proof.
    intros Hg [H1 H2]. split; [apply (merge_best_inv P St k s Hg)|]. split.
    - intros l Hl _. left. cbn [merge_best s_rt s_best]. rewrite (proj2 (Nat.ltb_lt _ _) Hl), o_get_best. lia.
    - split; auto.
  Qed.
  Lemma marks_inv2 k s m p : inv2 k s -> inv2 k (mk_state (s_tmp s) (s_best s) (s_rt s) (s_tad s) m p).
  Proof. intros (Hg & Hp & [H1 H2]). split; [destruct Hg; split; auto|]. split; [exact Hp|]. split; auto. Qed.

  Lemma round_inv2 k s : (1 <= k)%nat -> gsinv k s -> sup k s -> gsinv k (fst (round P k s)) /\ sup k (fst (round P k s)).
  Proof.
    intros Hk Hg Hs. unfold round. assert (Hm := merge_best_inv2 k s Hg Hs).
    assert (X : forall s, inv2 k s -> gsinv k s /\ sup k s) by (intros x (A & _ & B); auto).
    destruct (negb (any_marked P (merge_best P k s))); cbn [fst]; apply X; auto.
    apply update_footpaths_inv2, update_intermodal_inv2, update_transfers_inv2, marks_inv2, loop_routes_inv2; auto.
    apply (marks_inv2 k (merge_best P k s)). exact Hm.
  Qed.
  Lemma sup_next k s : gsinv k s -> sup k s -> sup (S k) s.
  Proof.
    intros Hg [H1 H2]. split; auto. intros l Hne. split; [now apply H2|]. right.
    destruct (gs_tmp _ _ _ _ Hg l Hne) as (i & Hi & Ha). exists i. split; auto. lia.
  Qed.
  Lemma rounds_sup n k s : (1 <= k)%nat -> gsinv k s -> sup k s -> exists k', gsinv k' (rounds P n k s) /\ sup k' (rounds P n k s).
  Proof.
    revert k s; induction n as [|n IH]; intros k s Hk Hg Hs; simpl; [eauto|].
    pose proof (round_inv2 k s Hk Hg Hs) as Hr. destruct (round P k s) as [s' go]. cbn [fst] in Hr. destruct Hr as [Hg' Hs'].
    destruct go; [|eauto]. apply IH; [lia| |].
    - apply gsinv_weaken with k; auto.
    - now apply sup_next.
  Qed.

  (** Between groups only the labels matter. *)
  Definition sup_rt (s : state) : Prop :=
    forall j l, (1 <= j)%nat -> s_rt s j l <> kInvalid -> Supp (s_rt s) j l (s_rt s j l) \/ older (s_rt s) j l (s_rt s j l).
  Lemma add_start_sup k s l t : St l t -> o t <= OI -> gsinv k s -> s_tmp s = (fun _ => kInvalid) -> sup_rt s ->
    sup_rt (add_start P s (l, t)) /\ s_tmp (add_start P s (l, t)) = (fun _ => kInvalid).
  Proof.
    intros Hst Ht Hg Htmp Hs. split; [|exact Htmp].
    assert (Hm : le_lab (s_rt s) (s_rt (add_start P s (l, t)))).
    { intros j l0 _. cbn [add_start s_rt]. unfold upd. pose proof (gs_rt_range _ _ _ _ Hg j l0). pose proof (HSt _ _ Hst).
      destruct (Nat.eqb_spec 0 j) as [<-|]; [|lia]. destruct (Nat.eqb_spec l l0) as [<-|]; [rewrite o_get_best|]; lia. }
    intros j l0 Hj. assert (E : s_rt (add_start P s (l, t)) j l0 = s_rt s j l0).
    { cbn [add_start s_rt]. rewrite upd_neq by lia. reflexivity. }
    rewrite E. intros Hne. destruct (Hs j l0 Hj Hne); eauto using Supp_mono, older_mono.
  Qed.
  Lemma run_group_sup mt s g k :
    (forall l t, In (l, t) (g_starts g) -> St l t /\ o t <= OI) ->
    gsinv k s -> sup_rt s -> exists k', gsinv k' (run_group P mt s g) /\ sup_rt (run_group P mt s g).
  Proof.
    intros Hg Hgs Hs. unfold run_group.
    assert (Hadd : gsinv 1 (fold_left (add_start P) (g_starts g) (next_start_time P s)) /\
                   sup_rt (fold_left (add_start P) (g_starts g) (next_start_time P s)) /\
                   s_tmp (fold_left (add_start P) (g_starts g) (next_start_time P s)) = (fun _ => kInvalid)).
    { apply (fold_left_inv (add_start P) (fun s => gsinv 1 s /\ sup_rt s /\ s_tmp s = (fun _ => kInvalid))).
      - split; [|split; [exact Hs|reflexivity]]. destruct Hgs as [H1 H2 H3 H4 H5].
        unfold next_start_time. split; cbn [s_rt s_tmp s_best]; auto.
        + intros. rewrite o_kInvalid. lia.
        + intros. rewrite o_kInvalid. lia.
        + congruence.
      - intros s' [l t] Hin (A & B & C). destruct (Hg l t Hin). split; [now apply add_start_gsinv|]. eapply add_start_sup; eauto. }
    destruct Hadd as (A & B & C). set (s1 := fold_left (add_start P) (g_starts g) (next_start_time P s)) in *. clearbody s1.
    assert (X : exists k', gsinv k' (rounds P (end_k mt - 1) 1 (set_worst P (g_worst g) s1)) /\ sup k' (rounds P (end_k mt - 1) 1 (set_worst P (g_worst g) s1))).
    { apply rounds_sup; auto.
      - destruct A as [A1 A2 A3 A4 A5]. unfold set_worst. split; cbn [s_rt s_tmp s_best]; auto.
      - unfold set_worst. split; cbn [s_rt s_tmp]; auto. rewrite C. congruence. }
    destruct X as (k' & X1 & [X2 _]). exists k'. auto.
  Qed.
  Lemma groups_sup mt gs : (forall g l t, In g gs -> In (l, t) (g_starts g) -> St l t /\ o t <= OI) ->
    exists k, gsinv k (fold_left (run_group P mt) gs (reset_arrivals P)) /\ sup_rt (fold_left (run_group P mt) gs (reset_arrivals P)).
  Proof.
    intros Hg. apply (fold_left_inv (run_group P mt) (fun s => exists k, gsinv k s /\ sup_rt s)).
    - exists 0%nat. split; [apply reset_gsinv|]. intros j l _ Hne. cbn in Hne. congruence.
    - intros s g Hin (k & H1 & H2). eapply run_group_sup; eauto.
  Qed.
End Support.
