(** [Raptor_Genuine] for the search with bounds ([Prune_Model]), whatever the bounds are. *)
From Coq Require Import List ZArith Bool Arith Lia.
From Verif Require Import Base Time_Model Raptor_Model Raptor_Spec Raptor_Base Prune_Model Prune_Sound.
Import ListNotations.
Local Open Scope Z_scope.

Section Genuine.
  Variable P : params.
  Variable W : nat -> nat -> Z -> bool.
  Notation fwd := (p_fwd P).
  Notation tt := (p_tt P).
  Notation o := (o P).
  Notation OI := (OI P).
  Notation OL := (OL P).
  Notation kInvalid := (kInvalid P).

  Hypothesis Hwf : all_vehicles_wf P.
  Hypothesis Hdur : durations_ok P.
  Hypothesis Hend : end_ok P.
  Hypothesis Hloc : locations_ok P.
  Notation n_loc := (tt_n_locations tt).
  Variable St : nat -> Z -> Prop.
  Hypothesis HSt : forall l t, St l t -> OL < o t.

  Notation Tr := (transfer_time P).
  Notation Ready := (ready P St Tr).
  Notation Arr := (arrived P St Tr).

  (** [F]: labels of the search state. *)
  Definition taint (F : nat -> nat -> Z) (k : nat) (t : Z) : Prop :=
    p_dist_to_end P = None /\ exists i l, (1 <= i < k)%nat /\ p_is_dest P l = true /\ OL < o (F i l) /\ o (F i l) <= o t.
  Definition GArr (F : nat -> nat -> Z) (k l : nat) (t : Z) : Prop := (1 <= k)%nat /\ (Arr k l t \/ taint F k t).
  Inductive GL (F : nat -> nat -> Z) (k l : nat) (t : Z) : Prop :=
  | GL_start : k = 0%nat -> St l t -> GL F k l t
  | GL_transfer t0 : (p_dist_to_end P = None -> p_is_dest P l = false) -> Arr k l t0 -> t = after P t0 (Tr l) -> GL F k l t
  | GL_dest : p_dist_to_end P = None -> p_is_dest P l = true -> Arr k l t -> GL F k l t
  | GL_walk l0 t0 d : Arr k l0 t0 -> walk P l0 l d -> t = after P t0 d -> GL F k l t
  | GL_off off l0 t0 d : p_dist_to_end P = Some off -> l = p_end P -> Arr k l0 t0 -> off l0 = Some d -> t = after P t0 d -> GL F k l t
  | GL_taint : (1 <= k)%nat -> taint F k t -> GL F k l t.

  Definition le_rt (F F' : nat -> nat -> Z) : Prop :=
    p_dist_to_end P = None -> forall j l, OL < o (F' j l) /\ o (F' j l) <= o (F j l).
  Lemma taint_mono F F' k t : le_rt F F' -> taint F k t -> taint F' k t.
  Proof.
    intros Hm (Hn & i & l & Hi & Hd & _ & Hle). split; auto. exists i, l. specialize (Hm Hn i l).
    repeat split; auto; lia.
  Qed.
  Lemma GArr_mono F F' k l t : le_rt F F' -> GArr F k l t -> GArr F' k l t.
  Proof. intros Hm [Hk [H|H]]; split; auto. right. eapply taint_mono; eauto. Qed.
  Lemma GL_mono F F' k l t : le_rt F F' -> GL F k l t -> GL F' k l t.
  Proof.
    intros Hm H. inversion H; [eapply GL_start|eapply GL_transfer|eapply GL_dest|eapply GL_walk|eapply GL_off|eapply GL_taint]; eauto.
    eapply taint_mono; eauto.
  Qed.
  Lemma taint_later F k k' t t' : (k <= k')%nat -> o t <= o t' -> taint F k t -> taint F k' t'.
  Proof. intros Hk Ht (Hn & i & l & Hi & Hd & Ho & Hle). split; auto. exists i, l. repeat split; auto; lia. Qed.

  Lemma tr_nonneg l : 0 <= Tr l.
  Proof. unfold transfer_time. apply (adjust_nonneg P Hdur). apply Hdur. Qed.

  Lemma arr_ready_lower : (forall k l t, Ready k l t -> OL < o t) /\ (forall k l t, Arr k l t -> OL < o t).
  Proof.
    assert (H : forall k, (forall l t, Arr k l t -> OL < o t) /\ (forall l t, Ready k l t -> OL < o t)).
    { assert (HR : forall k, (forall l t, Arr k l t -> OL < o t) -> forall l t, Ready k l t -> OL < o t).
      { intros k HA l t Hrd. inversion Hrd as [l0 t0 Hs|k0 l0 t0 Ha|k0 l0 t0 l1 d Ha Hw]; subst.
        - eauto.
        - rewrite o_after. pose proof (tr_nonneg l). apply HA in Ha. lia.
        - rewrite o_after. pose proof (walk_nonneg P Hdur _ _ _ Hw). apply HA in Ha. lia. }
      induction k as [|k [IHa IHr]].
      - assert (H0 : forall l t, Arr 0 l t -> OL < o t) by (intros l t Ha; inversion Ha). split; auto. now apply HR.
      - assert (HA : forall l t, Arr (S k) l t -> OL < o t).
        { intros l t Ha. inversion Ha as [k0 l0 t0 tb l' ta Hr Hn Hride]; subst.
          apply IHr in Hr. apply no_later_o in Hn. apply (ride_ok_order P Hwf) in Hride. lia. }
        split; [exact HA|]. exact (HR _ HA). }
    split; intros k l t; apply H.
  Qed.
  Lemma GArr_lower F k l t : GArr F k l t -> OL < o t.
  Proof.
    intros [_ [Ha|(_ & i & l0 & _ & _ & Ho & Hle)]]; [eapply (proj2 arr_ready_lower); eauto|]. lia.
  Qed.
  Lemma GL_lower F k l t : GL F k l t -> OL < o t.
  Proof.
    destruct arr_ready_lower as [HR HA].
    intros [-> Hs|t0 _ Ha ->|_ _ Ha|l0 t0 d Ha Hw ->|off l0 t0 d Hoff _ Ha Hd ->|_ (_ & i & l0 & _ & _ & Ho & Hle)];
      rewrite ?o_after; eauto.
    - apply HA in Ha. pose proof (tr_nonneg l). lia.
    - apply HA in Ha. pose proof (walk_nonneg P Hdur _ _ _ Hw). lia.
    - apply HA in Ha. assert (0 <= d) by (destruct Hdur as (_ & _ & _ & Hw); eapply Hw; eauto). lia.
    - lia.
  Qed.
  Lemma arr_pos k l t : Arr k l t -> (1 <= k)%nat.
  Proof. intros Ha; inversion Ha; lia. Qed.

  Record gsinv (k : nat) (s : state) : Prop := mk_gsinv {
    gs_rt_range : forall j l, OL < o (s_rt s j l) <= OI;
    gs_tmp_range : forall l, o (s_tmp s l) <= OI;
    gs_best_range : forall l, o (s_best s l) <= OI;
    gs_rt : forall j l, s_rt s j l <> kInvalid -> exists i, (i <= j)%nat /\ ((1 <= j)%nat -> (1 <= i)%nat) /\ GL (s_rt s) i l (s_rt s j l);
    gs_tmp : forall l, s_tmp s l <> kInvalid -> exists i, (i <= k)%nat /\ GArr (s_rt s) i l (s_tmp s l) }.

  (** Inside round [k]: the best label is at least as good as that of the round. *)
  Definition prt (k : nat) (s : state) : Prop := p_dist_to_end P = None -> forall l, (l < n_loc)%nat ->
       o (s_best s l) <= o (s_rt s k l).
  Definition inv (k : nat) (s : state) : Prop := gsinv k s /\ prt k s.

  Lemma gsinv_weaken k k' s : (k <= k')%nat -> gsinv k s -> gsinv k' s.
  Proof.
    intros Hk [H1 H2 H3 H4 H5]. split; auto. intros l Hl. destruct (H5 l Hl) as (i & ? & ?). exists i. split; auto. lia.
  Qed.

  (** Writing label [fp] for [target] in round [k]. *)
  Lemma write_gsinv k target fp s b t mk pv tmp :
    gsinv k s -> tmp = s_tmp s -> (forall l, o (b l) <= OI) -> OL < o fp <= OI ->
    (fp <> kInvalid -> fp <> s_rt s k target -> exists i, (1 <= i <= k)%nat /\ GL (s_rt s) i target fp) ->
    (p_dist_to_end P = None -> o fp <= o (s_rt s k target)) ->
    forall rt, (forall j l, rt j l = upd (s_rt s) k (upd (s_rt s k) target fp) j l) ->
    gsinv k (mk_state tmp b rt t mk pv) /\ le_rt (s_rt s) rt.
  Proof.
    intros [H1 H2 H3 H4 H5] -> Hb Hfpr Hfp Hle rt Ert.
    assert (Hmono : le_rt (s_rt s) rt).
    { intros Hn j l. rewrite Ert. unfold upd. specialize (Hle Hn). pose proof (H1 j l).
      destruct (Nat.eqb_spec k j) as [<-|]; [|lia]. destruct (Nat.eqb_spec target l) as [<-|]; lia. }
    split; auto. split; cbn [s_rt s_tmp s_best]; auto.
    - intros j l. rewrite Ert. unfold upd. pose proof (H1 j l).
      destruct (Nat.eqb_spec k j) as [<-|]; [|lia]. destruct (Nat.eqb_spec target l) as [<-|]; lia.
    - intros j l. rewrite Ert. unfold upd.
      destruct (Nat.eqb_spec k j) as [<-|].
      + destruct (Nat.eqb_spec target l) as [<-|]; intros Hne.
        * destruct (Z.eq_dec fp (s_rt s k target)) as [E|E].
          -- rewrite E in *. destruct (H4 k target Hne) as (i & Hi & Hp & HL). exists i. eauto using GL_mono.
          -- destruct (Hfp Hne E) as (i & Hi & HL). exists i. split; [lia|]. split; [lia|]. eauto using GL_mono.
        * destruct (H4 k l Hne) as (i & Hi & Hp & HL). exists i. eauto using GL_mono.
      + intros Hne. destruct (H4 j l Hne) as (i & Hi & Hp & HL). exists i. eauto using GL_mono.
    - intros l Hne. destruct (H5 l Hne) as (i & Hi & HA). exists i. eauto using GArr_mono.
  Qed.

  Lemma transfer_to_inv k target fp b s :
    (target < n_loc)%nat ->
    (fp <> kInvalid -> exists i, (1 <= i <= k)%nat /\ GL (s_rt s) i target fp) ->
    inv k s -> inv k (ptransfer_to P W k target fp b s).
  Proof.
    intros Htg Hfp [Hg Hp]. unfold ptransfer_to.
    destruct (is_better P fp (s_best s target)) eqn:Eb; cbn [andb].
    2:{ destruct Hg as [H1 H2 H3 H4 H5]. split; [split; auto|]. exact Hp. }
    apply is_better_o in Eb. assert (H3 := gs_best_range _ _ Hg target).
    assert (Hne : fp <> kInvalid).
    { intros ->. rewrite o_kInvalid in Eb. lia. }
    assert (Hex := Hfp Hne).
    assert (Hlow : OL < o fp). { destruct Hex as (i & _ & HL). eapply GL_lower; eauto. }
    destruct (_ && _ && _) eqn:Et; [|split; auto].
    assert (Hle : p_dist_to_end P = None -> o fp <= o (s_rt s k target)).
    { intros Hn. specialize (Hp Hn target Htg). lia. }
    split.
    + eapply write_gsinv with (target := target) (fp := fp); try reflexivity; eauto; [|lia].
      intros l. destruct (upd_cases (s_best s) target l fp) as [[<- ->]|[_ ->]]; [lia|]. apply Hg.
    + intros Hn l Hl. cbn [s_rt s_best s_tad]. unfold upd. rewrite Nat.eqb_refl.
      destruct (Nat.eqb_spec target l) as [<-|]; [lia|]. auto.
  Qed.

  Lemma in_seq0' i n : In i (seq 0 n) -> (i < n)%nat.
  Proof. intros H. apply in_seq in H. lia. Qed.

  Lemma update_transfers_inv k s : inv k s -> inv k (pupdate_transfers P W k s).
  Proof.
    intros H. unfold pupdate_transfers. apply fold_left_inv; auto. clear s H. intros s i Hi H. apply in_seq0' in Hi.
    destruct (s_prev s i && negb (s_tmp s i =? kInvalid)) eqn:E; auto.
    apply andb_true_iff in E as [_ E]. apply negb_true_iff, Z.eqb_neq in E.
    destruct (gs_tmp _ _ (proj1 H) _ E) as (j & Hj & Ha).
    apply transfer_to_inv; auto. intros Hne. exists j. destruct Ha as [Hj1 Ha]. split; [lia|].
    pose proof (GArr_lower _ _ _ _ (conj Hj1 Ha)) as Hlow. pose proof (tr_nonneg i).
    unfold is_intermodal_dest in *. destruct (p_dist_to_end P) as [off|] eqn:Eoff; cbn [negb andb] in *.
    - rewrite <- after_dir in *. fold (Tr i) in *.
      destruct (clamp_cases P (after P (s_tmp s i) (Tr i))) as [E'|?]; [rewrite o_after; lia| |contradiction]. rewrite E'.
      destruct Ha as [Ha|(Hn & _)]; [|congruence]. eapply GL_transfer; eauto. congruence.
    - destruct (p_is_dest P i) eqn:Ed.
      + rewrite Z.add_0_r in *. destruct (clamp_cases P (s_tmp s i)) as [E'|?]; [lia| |contradiction]. rewrite E'.
        destruct Ha as [Ha|Ht]; [eapply GL_dest|eapply GL_taint]; eauto.
      + rewrite <- after_dir in *. fold (Tr i) in *.
        destruct (clamp_cases P (after P (s_tmp s i) (Tr i))) as [E'|?]; [rewrite o_after; lia| |contradiction]. rewrite E'.
        destruct Ha as [Ha|Ht]; [eapply GL_transfer; eauto|eapply GL_taint; auto].
        eapply taint_later; [apply le_n| |exact Ht]. rewrite o_after. lia.
  Qed.

  Lemma update_footpaths_inv k s : inv k s -> inv k (pupdate_footpaths P W k s).
  Proof.
    intros H. unfold pupdate_footpaths. apply fold_left_inv; auto. clear s H. intros s i _ H.
    destruct (s_prev s i); auto.
    apply fold_left_inv; auto. clear s H. intros s [l' d0] Hin H. cbn [fst snd].
    destruct (s_tmp s i =? kInvalid) eqn:E; auto. apply Z.eqb_neq in E.
    destruct (gs_tmp _ _ (proj1 H) _ E) as (j & Hj & Ha).
    assert (Hw : walk P i l' (p_adjust P d0)) by (exists d0; auto).
    pose proof (walk_nonneg P Hdur _ _ _ Hw). pose proof (GArr_lower _ _ _ _ Ha).
    apply transfer_to_inv; auto.
    { destruct Hloc as (_ & Hl & _). unfold footpaths_of in Hin. eapply Hl; eauto. }
    intros Hne. rewrite <- after_dir in *. destruct Ha as [Hj1 Ha].
    exists j. split; [lia|].
    destruct (clamp_cases P (after P (s_tmp s i) (p_adjust P d0))) as [E'|?]; [rewrite o_after; lia| |contradiction]. rewrite E'.
    destruct Ha as [Ha|Ht]; [eapply GL_walk; eauto|eapply GL_taint; auto].
    eapply taint_later; [apply le_n| |exact Ht]. rewrite o_after. lia.
  Qed.

  Lemma update_intermodal_inv k s : inv k s -> inv k (update_intermodal_footpaths P k s).
  Proof.
    intros H. unfold update_intermodal_footpaths. destruct (p_dist_to_end P) as [off|] eqn:Eoff; auto.
    apply fold_left_inv; auto. clear s H. intros s i _ H.
    destruct (s_prev s i); auto. destruct (off i) as [d|] eqn:Ed; auto.
    destruct (s_tmp s i =? kInvalid) eqn:E; auto. apply Z.eqb_neq in E.
    destruct (is_better_or_eq P _ _); auto.
    destruct H as [Hg _].
    destruct (gs_tmp _ _ Hg _ E) as (j & Hj & Ha). pose proof (GArr_lower _ _ _ _ Ha).
    assert (0 <= d) by (destruct Hdur as (_ & _ & _ & Hw); eapply Hw; eauto).
    assert (Hcl : OL < o (clamp16 (s_tmp s i + dir P d)) <= OI).
    { rewrite o_clamp, o_dir. pose proof (OL_lt_OI P). lia. }
    split; [|intros Hn; congruence].
    eapply write_gsinv with (target := p_end P) (fp := clamp16 (s_tmp s i + dir P d)); eauto.
    - intros l. destruct (upd_cases (s_best s) (p_end P) l (clamp16 (s_tmp s i + dir P d))) as [[<- ->]|[_ ->]]; [lia|apply Hg].
    - intros Hne _. rewrite <- after_dir in *. destruct Ha as [Hj1 [Ha|(Hn & _)]]; [|congruence]. exists j. split; [lia|].
      destruct (clamp_cases P (after P (s_tmp s i) d)) as [E'| ?]; [rewrite o_after; lia| |contradiction]. rewrite E'.
      eapply GL_off; eauto.
    - congruence.
  Qed.

  (** *** Scanning *)
  Definition on_board' (F : nat -> nat -> Z) (k : nat) (r : route) (i : nat) (x : ride) : Prop :=
    exists v p j t, nth_error (r_vehicles r) (fst x) = Some v /\ runs_on v (snd x) /\
      (p < i)%nat /\ (p < length (r_stops r))%nat /\ (S j <= k)%nat /\
      get_on_allowed P (stop_at r (stop_idx_of P r p)) = true /\
      (Ready j (loc_at r (stop_idx_of P r p)) t \/ taint F (S j) t) /\
      o t <= o (bt P v (snd x) (stop_idx_of P r p)) /\
      (forall q, (p < q < i)%nat -> section_ok P r (section_before P r q) = true).

  Lemma on_board_arrive' F k ri r i x :
    nth_error (tt_routes tt) ri = Some r -> route_allowed P r = true -> (i < length (r_stops r))%nat ->
    on_board' F k r i x -> (section_ok P r (section_before P r i) = true) ->
    get_off_allowed P (stop_at r (stop_idx_of P r i)) = true ->
    time_at_stop P r x (stop_idx_of P r i) (alight_ev P) <> kInvalid ->
    exists j, (j <= k)%nat /\ GArr F j (loc_at r (stop_idx_of P r i)) (time_at_stop P r x (stop_idx_of P r i) (alight_ev P)).
  Proof.
    intros Hr Hra Hi (v & p & j & t & Hv & Hrun & Hp & Hpl & Hj & Hon & Hrd & Hle & Hsec) Hsi Hoff Hne.
    destruct x as [x d]. cbn [fst snd] in *.
    rewrite (time_at_stop_eq P Hwf ri r x v) in * by auto using stop_idx_lt.
    assert (Hord : o (bt P v d (stop_idx_of P r p)) <= o (at_ P v d (stop_idx_of P r i))).
    { eapply (event_order P Hwf); eauto using nth_error_In, stop_idx_lt. apply stop_idx_order; auto. }
    assert (Hlow : OL < o t).
    { destruct Hrd as [Hrd|(_ & i0 & l0 & _ & _ & X & Y)]; [eapply (proj1 arr_ready_lower); eauto|lia]. }
    assert (Eat : event_time P v d (stop_idx_of P r i) (alight_ev P) = at_ P v d (stop_idx_of P r i)) by reflexivity.
    rewrite Eat in *.
    destruct (clamp_cases P (at_ P v d (stop_idx_of P r i))) as [E| E]; [lia| |congruence].
    rewrite E. exists (S j). split; auto. split; [lia|].
    destruct Hrd as [Hrd|Ht]; [left|right; eapply taint_later; [apply le_n| |exact Ht]; lia].
    eapply arrived_ride; [exact Hrd|apply no_later_o; exact Hle|].
    eapply (ride_intro P _ _ _ _ ri r x v d (stop_idx_of P r p) (stop_idx_of P r i)); eauto using stop_at_nth, stop_idx_lt.
    - apply stop_idx_order; auto.
    - unfold route_allowed in Hra. apply andb_true_iff in Hra. tauto.
    - intros f sec. eapply sections_spec; eauto. intros q Hq.
      destruct (Nat.eq_dec q i) as [->|]; auto. apply Hsec. lia.
  Qed.

  Definition scan_inv' (F : nat -> nat -> Z) (k : nat) (r : route) (i : nat) (c : scan) : Prop :=
    (forall x, sc_et c = Some x -> sc_break c = false -> on_board' F k r i x) /\
    (forall l, o (sc_tmp c l) <= OI) /\
    (forall l, sc_tmp c l <> kInvalid -> exists j, (j <= k)%nat /\ GArr F j l (sc_tmp c l)).

  Lemma scan_stop_inv' F k ri r best rtp tad pm c i :
    (1 <= k)%nat -> nth_error (tt_routes tt) ri = Some r -> route_allowed P r = true -> (i < length (r_stops r))%nat ->
    (forall l, rtp l <> kInvalid -> exists j, (S j <= k)%nat /\ (1 < k -> 1 <= j)%nat /\ GL F j l (rtp l)) ->
    (forall l, rtp l = F (k - 1)%nat l) -> (forall l, OL < o (rtp l) <= OI) ->
    scan_inv' F k r i c -> scan_inv' F k r (S i) (pscan_stop P W k ri r best rtp tad pm c i).
  Proof.
    intros Hk Hr Hra Hi Hrt HF HFl (Het & Hrange & Htmp). unfold pscan_stop.
    destruct (sc_break c) eqn:Ebr.
    { split; [intros x _ Hb; congruence|split; auto]. }
    set (s := stop_idx_of P r i). set (l := loc_at r s).
    set (et := if negb (Nat.eqb i 0) && negb (section_ok P r (section_before P r i)) then None else sc_et c).
    assert (Het' : forall x, et = Some x -> on_board' F k r i x /\ section_ok P r (section_before P r i) = true /\ i <> 0%nat).
    { intros x Hx. unfold et in Hx. destruct (Nat.eqb_spec i 0) as [->|Hi0]; simpl in Hx.
      - exfalso. destruct (Het x Hx eq_refl) as (v & p & ? & ? & ? & ? & Hp & _). lia.
      - destruct (section_ok P r (section_before P r i)) eqn:Es; simpl in Hx; [|discriminate]. auto. }
    match goal with |- scan_inv' _ _ _ _ (match ?m with _ => _ end) => destruct m as [[cb tmp] mark] eqn:Eal end.
    assert (Htmp' : (forall l, o (tmp l) <= OI) /\ (forall l, tmp l <> kInvalid -> exists j, (j <= k)%nat /\ GArr F j l (tmp l))).
    { destruct et as [x|] eqn:Ee; [|injection Eal as _ <- _; auto].
      destruct (can_finish fwd (is_wheelchair P) (stop_at r s)) eqn:Ef; [|injection Eal as _ <- _; auto].
      destruct (is_better_or_eq P _ tad && _ && _ && _) eqn:Eu; injection Eal as _ <- _; auto.
      rewrite can_finish_off in Ef. destruct (Het' x eq_refl) as (Hob & Hs & Hi0).
      assert (Hrg : o (time_at_stop P r x s (alight_ev P)) <= OI) by (unfold time_at_stop, to_delta; apply clamp_range).
      split.
      - intros l0. destruct (upd_cases (sc_tmp c) l l0 (get_best P (time_at_stop P r x s (alight_ev P)) (sc_tmp c l))) as [[<- ->]|[_ ->]]; auto.
        rewrite o_get_best. specialize (Hrange l). lia.
      - intros l0. destruct (upd_cases (sc_tmp c) l l0 (get_best P (time_at_stop P r x s (alight_ev P)) (sc_tmp c l))) as [[<- ->]|[_ ->]]; auto.
        destruct (get_best_cases P (time_at_stop P r x s (alight_ev P)) (sc_tmp c l)) as [->| ->]; auto.
        intros Hne. eapply on_board_arrive'; eauto. }
    destruct Htmp' as [Hrange' Htmp'].
    assert (Hcarry : forall x, et = Some x -> on_board' F k r (S i) x).
    { intros x Hx. destruct (Het' x Hx) as ((v & p & j & t & Hv & Hrun & Hp & Hpl & Hj & Hon & Hrd & Hle & Hsec) & Hs & Hi0).
      exists v, p, j, t. do 8 (split; [first [assumption|lia]|]). intros q Hq.
      destruct (Nat.eq_dec q i) as [->|]; auto. apply Hsec. lia. }
    destruct (Nat.eqb i (length (r_stops r) - 1) || negb (can_start fwd (is_wheelchair P) (stop_at r s)) || negb (pm l)) eqn:Eb1.
    { split; cbn; auto. }
    apply orb_false_iff in Eb1 as [Eb1 _]. apply orb_false_iff in Eb1 as [_ Ecs]. apply negb_false_iff in Ecs.
    rewrite can_start_on in Ecs.
    destruct (negb (lb_reachable P l)).
    { split; cbn; [intros; discriminate|auto]. }
    destruct (negb (rtp l =? kInvalid) && is_better_or_eq P (rtp l) _) eqn:Eprev; [|split; cbn; auto].
    apply andb_true_iff in Eprev as [Eprev _]. apply negb_true_iff, Z.eqb_neq in Eprev.
    destruct (get_earliest_transport P ri r s l tad (rtp l)) as [[x d]|] eqn:Eget; [|split; cbn; auto].
    assert (Hnew : on_board' F k r (S i) (x, d)).
    { apply get_earliest_transport_sound in Eget as (v & Hv & Hrun & Hle & _); auto; [|now apply stop_idx_lt].
      destruct (Hrt l Eprev) as (j & Hj & Hj1 & HL).
      assert (Hrd : exists j', (S j' <= k)%nat /\ (Ready j' l (rtp l) \/ taint F (S j') (rtp l))).
      { destruct HL as [-> Hs|t0 _ Ha Et|Hn Hd Ha|l0 t0 d0 Ha Hw Et|off l0 t0 d0 Hoff El Ha Hd Et|Hj0 Ht].
        - exists 0%nat. split; auto. left. now constructor.
        - exists j. split; auto. left. rewrite Et. now constructor.
        - exists (k - 1)%nat. split; [lia|]. right. split; auto.
          assert (1 <= j)%nat by (eapply arr_pos; eauto).
          exists (k - 1)%nat, l. split; [lia|]. split; auto. rewrite <- HF. split; [apply HFl|lia].
        - exists j. split; auto. left. rewrite Et. econstructor; eauto.
        - exfalso. eapply (stop_not_end P Hend ri r s); eauto using stop_idx_lt. congruence.
        - exists j. split; auto. right. eapply taint_later; [| |exact Ht]; lia. }
      destruct Hrd as (j' & Hj' & Hrd).
      exists v, i, j', (rtp l). cbn [fst snd]. do 8 (split; [first [assumption|lia]|]). intros; lia. }
    destruct ((get_best P (get_best P cb (best l)) (tmp l) =? kInvalid) || _).
    - split; cbn; auto. intros x0 [= <-]. auto.
    - split; cbn; auto.
  Qed.

  (** *** Scanning a real-time transport *)
  Definition scan_rt_inv' (F : nat -> nat -> Z) (k : nat) (r : route) (i : nat) (c : scan) : Prop :=
    (forall x, sc_et c = Some x -> sc_break c = false -> on_board' F k r i x \/ board_saturated P r i x) /\
    (forall l, o (sc_tmp c l) <= OI) /\
    (forall l, sc_tmp c l <> kInvalid -> exists j, (j <= k)%nat /\ GArr F j l (sc_tmp c l)).

  Lemma scan_rt_stop_inv' F k ri r day rtp tad pm c i :
    (1 <= k)%nat -> nth_error (tt_routes tt) ri = Some r -> r_rt r = Some day -> route_allowed P r = true -> (i < length (r_stops r))%nat ->
    (forall l, rtp l <> kInvalid -> exists j, (S j <= k)%nat /\ (1 < k -> 1 <= j)%nat /\ GL F j l (rtp l)) ->
    (forall l, rtp l = F (k - 1)%nat l) -> (forall l, OL < o (rtp l) <= OI) ->
    scan_rt_inv' F k r i c -> scan_rt_inv' F k r (S i) (pscan_rt_stop P W k r day rtp tad pm c i).
  Proof.
    intros Hk Hr Hrtr Hra Hi Hrt HF HFl (Het & Hrange & Htmp). unfold pscan_rt_stop.
    destruct (proj2 Hwf _ _ _ Hr Hrtr) as (Hday & v & Ev & Hdays).
    destruct (sc_break c) eqn:Ebr.
    { split; [intros x _ Hb; congruence|split; auto]. }
    set (s := stop_idx_of P r i). set (l := loc_at r s).
    set (et := if negb (Nat.eqb i 0) && negb (section_ok P r (section_before P r i)) then None else sc_et c).
    assert (Het' : forall x, et = Some x -> (on_board' F k r i x \/ board_saturated P r i x) /\ section_ok P r (section_before P r i) = true /\ i <> 0%nat).
    { intros x Hx. unfold et in Hx. destruct (Nat.eqb_spec i 0) as [->|Hi0]; simpl in Hx.
      - exfalso. destruct (Het x Hx eq_refl) as [(w & p & ? & ? & ? & ? & Hp & _)|(w & p & _ & Hp & _)]; lia.
      - destruct (section_ok P r (section_before P r i)) eqn:Es; simpl in Hx; [|discriminate]. auto. }
    match goal with |- scan_rt_inv' _ _ _ _ (match ?m with _ => _ end) => destruct m as [tmp mark] eqn:Eal end.
    assert (Htmp' : (forall l, o (tmp l) <= OI) /\ (forall l, tmp l <> kInvalid -> exists j, (j <= k)%nat /\ GArr F j l (tmp l))).
    { destruct et as [x|] eqn:Ee; [|injection Eal as <- _; auto].
      destruct (negb (Nat.eqb i 0) && can_finish fwd (is_wheelchair P) (stop_at r s) && is_better_or_eq P _ tad && _ && _ && _) eqn:Eu; injection Eal as <- _; auto.
      do 4 (apply andb_true_iff in Eu as [Eu _]). apply andb_true_iff in Eu as [_ Ef].
      rewrite can_finish_off in Ef. destruct (Het' x eq_refl) as (Hob & Hs & Hi0).
      assert (Hrg : o (time_at_stop P r x s (alight_ev P)) <= OI) by (unfold time_at_stop, to_delta; apply clamp_range).
      split.
      - intros l0. destruct (upd_cases (sc_tmp c) l l0 (get_best P (time_at_stop P r x s (alight_ev P)) (sc_tmp c l))) as [[<- ->]|[_ ->]]; auto.
        rewrite o_get_best. specialize (Hrange l). lia.
      - intros l0. destruct (upd_cases (sc_tmp c) l l0 (get_best P (time_at_stop P r x s (alight_ev P)) (sc_tmp c l))) as [[<- ->]|[_ ->]]; auto.
        destruct (get_best_cases P (time_at_stop P r x s (alight_ev P)) (sc_tmp c l)) as [->| ->]; auto.
        intros Hne. destruct Hob as [Hob|Hob]; [eapply on_board_arrive'; eauto|].
        exfalso. apply Hne. eapply (saturated_arrive P Hwf); eauto. }
    destruct Htmp' as [Hrange' Htmp'].
    assert (Hcarry : forall x, et = Some x -> on_board' F k r (S i) x \/ board_saturated P r (S i) x).
    { intros x Hx. destruct (Het' x Hx) as ([(w & p & j & t & Hv & Hrun & Hp & Hpl & Hj & Hon & Hrd & Hle & Hsec)|Hsat] & Hs & Hi0).
      - left. exists w, p, j, t. do 8 (split; [first [assumption|lia]|]). intros q Hq.
        destruct (Nat.eq_dec q i) as [->|]; auto. apply Hsec. lia.
      - right. now apply saturated_next. }
    destruct (negb (lb_reachable P l)).
    { split; cbn; [intros; discriminate|auto]. }
    destruct (Nat.eqb i (length (r_stops r) - 1) || negb (can_start fwd (is_wheelchair P) (stop_at r s)) || negb (pm l)) eqn:Eb1.
    { split; cbn; auto. }
    apply orb_false_iff in Eb1 as [Eb1 _]. apply orb_false_iff in Eb1 as [_ Ecs]. apply negb_false_iff in Ecs.
    rewrite can_start_on in Ecs.
    destruct (is_better_or_eq P (rtp l) _) eqn:Eprev; [|split; cbn; auto].
    split; cbn; auto. intros x [= <-] _.
    assert (Hlow : rtp l <> kInvalid -> OL < o (rtp l)) by (intros; apply HFl).
    destruct (rt_board P Hwf ri r day i v (rtp l) Hr Ev Hi Hlow (proj2 (HFl l)) Eprev) as [Hsat|[Hne Hle]]; [now right|left].
    destruct (Hrt l Hne) as (j & Hj & Hj1 & HL).
    assert (Hrd : exists j', (S j' <= k)%nat /\ (Ready j' l (rtp l) \/ taint F (S j') (rtp l))).
    { destruct HL as [-> Hs|t0 _ Ha Et|Hn Hd Ha|l0 t0 d0 Ha Hw Et|off l0 t0 d0 Hoff El Ha Hd Et|Hj0 Ht].
      - exists 0%nat. split; auto. left. now constructor.
      - exists j. split; auto. left. rewrite Et. now constructor.
      - exists (k - 1)%nat. split; [lia|]. right. split; auto.
        assert (1 <= j)%nat by (eapply arr_pos; eauto).
        exists (k - 1)%nat, l. split; [lia|]. split; auto. rewrite <- HF. split; [apply HFl|lia].
      - exists j. split; auto. left. rewrite Et. econstructor; eauto.
      - exfalso. eapply (stop_not_end P Hend ri r s); eauto using stop_idx_lt. congruence.
      - exists j. split; auto. right. eapply taint_later; [| |exact Ht]; lia. }
    destruct Hrd as (j' & Hj' & Hrd).
    exists v, i, j', (rtp l). cbn [fst snd].
    split; [rewrite Ev; reflexivity|]. split; [split; [exact Hday|rewrite Hdays; apply Z.eqb_refl]|].
    do 6 (split; [first [assumption|lia]|]). intros; lia.
  Qed.

  Lemma update_route_inv k ri r s :
    (1 <= k)%nat -> nth_error (tt_routes tt) ri = Some r -> route_allowed P r = true ->
    inv k s -> inv k (pupdate_route P W k ri r s).
  Proof.
    intros Hk Hr Hra [[H1 H2 H3 H4 H5] Hp]. unfold pupdate_route. destruct (r_rt r) as [day|] eqn:Ert.
    { set (f := pscan_rt_stop P W k r day (s_rt s (k - 1)) (s_tad s k) (s_prev s)).
      assert (Hinv : scan_rt_inv' (s_rt s) k r (length (r_stops r)) (fold_left f (seq 0 (length (r_stops r))) (mk_scan None (s_tmp s) (s_mark s) false))).
      { apply (fold_left_seq_inv f (fun i c => scan_rt_inv' (s_rt s) k r i c)).
        - split; cbn; [discriminate|auto].
        - intros i c Hi Hc. eapply scan_rt_stop_inv'; eauto.
          intros l Hl. destruct (H4 _ _ Hl) as (j & Hj & Hj1 & HL). exists j. split; [lia|]. split; [lia|auto]. }
      destruct Hinv as (_ & Hrg & Ht). split; [split; cbn [s_rt s_tmp s_best]; auto|exact Hp]. }
    set (f := pscan_stop P W k ri r (s_best s) (s_rt s (k - 1)) (s_tad s k) (s_prev s)).
    assert (Hinv : scan_inv' (s_rt s) k r (length (r_stops r)) (fold_left f (seq 0 (length (r_stops r))) (mk_scan None (s_tmp s) (s_mark s) false))).
    { apply (fold_left_seq_inv f (fun i c => scan_inv' (s_rt s) k r i c)).
      - split; cbn; [discriminate|auto].
      - intros i c Hi Hc. apply scan_stop_inv'; auto.
        + intros l Hl. destruct (H4 _ _ Hl) as (j & Hj & Hj1 & HL). exists j. split; [lia|]. split; [lia|auto]. }
    destruct Hinv as (_ & Hrg & Ht). split; [split; cbn [s_rt s_tmp s_best]; auto|exact Hp].
  Qed.

  Lemma loop_routes_inv k rm s : (1 <= k)%nat -> inv k s -> inv k (ploop_routes P W k rm s).
  Proof.
    intros Hk H. unfold ploop_routes. apply fold_left_inv; auto. clear s H. intros s ri _ H.
    destruct (nth_error (tt_routes tt) ri) as [r|] eqn:Er; auto.
    destruct (rm ri && route_allowed P r) eqn:E; auto. apply andb_true_iff in E as [_ E].
    now apply update_route_inv.
  Qed.

  Lemma merge_best_inv k s : gsinv k s -> inv k (merge_best P k s).
  Proof.
    intros [H1 H2 H3 H4 H5]. split; [split; cbn [merge_best s_rt s_tmp s_best]; auto|].
    - intros l. destruct (Nat.ltb l n_loc); auto. rewrite o_get_best. specialize (H1 k l). lia.
    - intros _ l Hl. cbn [merge_best s_rt s_best]. rewrite (proj2 (Nat.ltb_lt _ _) Hl), o_get_best. lia.
  Qed.
  Lemma marks_inv k s m p : inv k s -> inv k (mk_state (s_tmp s) (s_best s) (s_rt s) (s_tad s) m p).
  Proof. intros [[H1 H2 H3 H4 H5] Hp]. split; [split; auto|exact Hp]. Qed.

  Lemma round_inv' k s : (1 <= k)%nat -> gsinv k s -> gsinv k (fst (pround P W k s)).
  Proof.
    intros Hk H. unfold pround. assert (Hm := merge_best_inv k s H).
    destruct (negb (any_marked P (merge_best P k s))); cbn [fst]; [apply Hm|].
    eapply proj1. apply update_footpaths_inv, update_intermodal_inv, update_transfers_inv, marks_inv, loop_routes_inv; auto.
    apply (marks_inv k (merge_best P k s)). exact Hm.
  Qed.

  Lemma rounds_gsinv n k s : (1 <= k)%nat -> gsinv k s -> exists k', gsinv k' (prounds P W n k s).
  Proof.
    revert k s; induction n as [|n IH]; intros k s Hk H; simpl; [eauto|].
    pose proof (round_inv' k s Hk H) as Hr. destruct (pround P W k s) as [s' go]. cbn [fst] in Hr.
    destruct go; [|eauto]. apply IH; [lia|]. apply gsinv_weaken with k; auto.
  Qed.

  Lemma add_start_gsinv k s l t :
    St l t -> o t <= OI -> gsinv k s -> gsinv k (add_start P s (l, t)).
  Proof.
    intros Hst Ht Hg. assert (Hl := HSt _ _ Hst). assert (Hll : OL < OI) by apply OL_lt_OI.
    destruct Hg as [H1 H2 H3 H4 H5]. unfold add_start.
    assert (Hm : le_rt (s_rt s) (upd (s_rt s) 0%nat (upd (s_rt s 0%nat) l (get_best P t (s_rt s 0%nat l))))).
    { intros _ j l0. unfold upd. destruct (Nat.eqb_spec 0 j) as [<-|]; [|specialize (H1 j l0); lia].
      pose proof (H1 0%nat l0). destruct (Nat.eqb_spec l l0) as [<-|]; [rewrite o_get_best|]; lia. }
    split; cbn [s_rt s_tmp s_best]; auto.
    - intros j l0. unfold upd. destruct (Nat.eqb_spec 0 j) as [<-|]; [|specialize (H1 j l0); lia].
      pose proof (H1 0%nat l0). destruct (Nat.eqb_spec l l0) as [<-|]; [rewrite o_get_best|]; lia.
    - intros l0. unfold upd. pose proof (H3 l0). destruct (Nat.eqb_spec l l0) as [<-|]; [rewrite o_get_best|]; lia.
    - intros j l0.
      destruct (upd_cases (s_rt s) 0%nat j (upd (s_rt s 0%nat) l (get_best P t (s_rt s 0%nat l)))) as [[<- ->]|[_ ->]].
      + destruct (upd_cases (s_rt s 0%nat) l l0 (get_best P t (s_rt s 0%nat l))) as [[<- ->]|[_ ->]].
        * destruct (get_best_cases P t (s_rt s 0%nat l)) as [E|E]; rewrite E in *; intros Hne.
          -- exists 0%nat. split; auto. split; [lia|]. now apply GL_start.
          -- destruct (H4 _ _ Hne) as (i & Hi & Hp & HL). exists i. eauto using GL_mono.
        * intros Hne. destruct (H4 _ _ Hne) as (i & Hi & Hp & HL). exists i. eauto using GL_mono.
      + intros Hne. destruct (H4 _ _ Hne) as (i & Hi & Hp & HL). exists i. eauto using GL_mono.
    - intros l0 Hne. destruct (H5 _ Hne) as (i & Hi & HA). exists i. eauto using GArr_mono.
  Qed.

  Lemma run_group_gsinv mt s g k :
    (forall l t, In (l, t) (g_starts g) -> St l t /\ o t <= OI) ->
    gsinv k s -> exists k', gsinv k' (prun_group P W mt s g).
  Proof.
    intros Hg [H1 H2 H3 H4 H5]. unfold prun_group. apply rounds_gsinv; auto.
    assert (Hadd : gsinv 1 (fold_left (add_start P) (g_starts g) (next_start_time P s))).
    { apply fold_left_inv.
      - unfold next_start_time. split; cbn [s_rt s_tmp s_best]; auto.
        + intros. rewrite o_kInvalid. lia.
        + intros. rewrite o_kInvalid. lia.
        + congruence.
      - intros s' [l t] Hin Hs'. destruct (Hg l t Hin). now apply add_start_gsinv. }
    destruct Hadd as [A1 A2 A3 A4 A5]. unfold set_worst. split; cbn [s_rt s_tmp s_best]; auto.
  Qed.
  Lemma reset_gsinv : gsinv 0 (reset_arrivals P).
  Proof.
    pose proof (OL_lt_OI P).
    unfold reset_arrivals. split; cbn [s_rt s_tmp s_best]; intros; rewrite ?o_kInvalid; try lia; congruence.
  Qed.
End Genuine.
