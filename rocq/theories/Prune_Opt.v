(** [Raptor_Opt] for the search with bounds ([Prune_Model]): the destination label after [K] rounds is at least as good as every
    connection with at most [K] rides all of whose labels are within the bounds [W0]; the bounds [W] in force may be looser. *)
From Coq Require Import List ZArith Bool Arith Lia.
From Verif Require Import Base Time_Model Raptor_Model Raptor_Spec Raptor_Base Prune_Model Prune_Sound.
Import ListNotations.
Local Open Scope Z_scope.

Section Opt.
  Variable P : params.
  Variables W W0 : nat -> nat -> Z -> bool.
  Hypothesis HWW : forall k l t, W0 k l t = true -> W k l t = true.
  Hypothesis HWt : forall k l t t', Raptor_Base.o P t <= Raptor_Base.o P t' -> W0 k l t' = true -> W0 k l t = true.
  Notation fwd := (p_fwd P).
  Notation tt := (p_tt P).
  Notation o := (o P).
  Notation OI := (OI P).
  Notation OL := (OL P).
  Notation kInvalid := (kInvalid P).
  Notation n_loc := (tt_n_locations tt).

  Hypothesis Hwf : all_vehicles_wf P.
  Hypothesis Hdur : durations_ok P.
  Hypothesis Hend : end_ok P.
  Hypothesis Hcol : columns_sorted P.
  Hypothesis Hidx : index_ok P.
  Hypothesis Hfifo : fifo P.
  Hypothesis Hloc : locations_ok P.
  Variable D : nat -> Z.
  Hypothesis HD : lower_bounds_ok P D.
  Variable St : nat -> Z -> Prop.
  Hypothesis HStreach : starts_reach_ok P St.
  Hypothesis HStloc : forall l t, St l t -> (l < n_loc)%nat.
  (** Horizon. *)
  Variables (H a : Z) (K : nat).
  Hypothesis HStH : forall l t, St l t -> H <= o t.
  Hypothesis HH : OL <= H.
  Hypothesis HaH : o a <= H + 7200.
  Hypothesis HaOI : o a < OI.
  Hypothesis HStL : forall l t, St l t -> OL < o t.

  Notation sinv := (sinv P St).
  Notation Ready := (ready P St (tr_eff P)).
  Notation Arr := (arrived P St (tr_eff P)).
  Notation Lbl := (Lbl P St).

  Definition intermodal : Prop := p_dist_to_end P <> None.
  Lemma intermodal_dec : intermodal \/ p_dist_to_end P = None.
  Proof. unfold intermodal. destruct (p_dist_to_end P); [left; discriminate|auto]. Qed.

  Lemma ready_low k l t : Ready k l t -> H <= o t.
  Proof. exact (proj1 (reach_lower P Hwf Hdur St H HStH) k l t). Qed.
  Lemma arr_low k l t : Arr k l t -> H <= o t.
  Proof. exact (proj2 (reach_lower P Hwf Hdur St H HStH) k l t). Qed.
  Lemma label_lower j l t : Lbl j l t -> H <= o t.
  Proof.
    intros [Hr|(off & l0 & t0 & d & Hoff & _ & Ha & Hd & ->)].
    - eapply ready_low; eauto.
    - rewrite o_after. apply arr_low in Ha.
      destruct Hdur as (_ & _ & _ & Hw). specialize (Hw _ _ _ Hoff Hd). lia.
  Qed.

  Lemma allowed_flags r : route_allowed P r = true -> has_required_flags P r.
  Proof.
    unfold route_allowed. rewrite andb_true_iff, forallb_forall. intros [_ Hra] f Hf Hreq.
    assert (Hin : In f [0; 1; 2; 3]%nat) by (simpl; lia).
    specialize (Hra f Hin). rewrite Hreq in Hra. cbn [negb orb] in Hra. now apply orb_true_iff in Hra.
  Qed.

  Definition rel (l : nat) (t : Z) : Prop := o t + D l <= o a.

  Lemma rel_lb l t : (intermodal -> l <> p_end P) -> H <= o t -> rel l t ->
    lb_reachable P l = true /\ p_lb P l <= D l.
  Proof.
    intros Hl Ht Hr. pose proof (lb_nonneg _ _ HD l). unfold rel in Hr.
    assert (E : p_lb P l <= D l).
    { apply (lb_value _ _ HD l Hl). lia. }
    split; auto. unfold lb_reachable. apply negb_true_iff, Z.eqb_neq. unfold kUnreachable. lia.
  Qed.

  (** No destination label better than the target so far. *)
  Definition nd (s : state) : Prop := forall j l, (j <= K)%nat -> p_is_dest P l = true -> o a <= o (s_rt s j l).
  Definition improves (s s' : state) : Prop := forall j l, o (s_rt s' j l) <= o (s_rt s j l).
  Lemma improves_refl s : improves s s.
  Proof. intros j l; lia. Qed.
  Lemma improves_trans s1 s2 s3 : improves s1 s2 -> improves s2 s3 -> improves s1 s3.
  Proof. intros A B j l. specialize (A j l); specialize (B j l); lia. Qed.
  Lemma nd_back s s' : improves s s' -> nd s' -> nd s.
  Proof. intros Hi Hn j l Hj Hl. specialize (Hi j l). specialize (Hn j l Hj Hl). lia. Qed.

  (** Invariant inside round [k]. *)
  Record pinv (k : nat) (s : state) : Prop := mk_pinv {
    pi_s : sinv k s;
    pi_best : forall l, exists j, (j <= k)%nat /\ o (s_rt s j l) <= o (s_best s l);
    pi_rt : forall l, (l < n_loc)%nat -> (intermodal -> l <> p_end P) ->
       o (s_best s l) <= o (s_rt s k l);
    pi_tad : nd s -> forall i, (i <= K)%nat -> o a <= o (s_tad s i);
    pi_end : intermodal -> o (s_tad s k) <= o (s_rt s k (p_end P)) }.

  Lemma tad_upd tad k t i : o (update_time_at_dest P tad k t i) = if Nat.leb k i then Z.min (o (tad i)) (o t) else o (tad i).
  Proof. unfold update_time_at_dest. destruct (Nat.leb k i); auto using o_get_best. Qed.
  Lemma tad_upd_le tad k t i : o (update_time_at_dest P tad k t i) <= o (tad i).
  Proof. rewrite tad_upd. destruct (Nat.leb k i); lia. Qed.

  (** *** transfer_to *)
  Lemma transfer_to_frame k target fp b s :
    let s' := ptransfer_to P W k target fp b s in
    s_tmp s' = s_tmp s /\ s_prev s' = s_prev s /\
    (forall j l, (j <> k \/ l <> target) -> s_rt s' j l = s_rt s j l) /\
    (forall l, s_mark s l = true -> s_mark s' l = true) /\
    (forall l, s_mark s' l = true -> s_mark s l = true \/ (l = target /\ lb_reachable P l = true)).
  Proof.
    intros s'. unfold s', ptransfer_to. clear s'.
    destruct (is_better P fp (s_best s target)); cbn [andb]; [|auto 10].
    destruct (is_better_or_eq P fp (s_tad s k)); cbn [andb]; [|auto 10].
    destruct (lb_reachable P target) eqn:El; cbn [andb]; [|auto 10].
    destruct (is_better_or_eq P _ _ && _); [|auto 10].
    cbn. repeat split; auto.
    - intros j l Hne. unfold upd. destruct (Nat.eqb_spec k j); auto. destruct (Nat.eqb_spec target l); auto. subst; tauto.
    - intros l Hm. unfold upd. destruct (Nat.eqb target l); auto.
    - intros l. unfold upd. destruct (Nat.eqb_spec target l); subst; auto.
  Qed.

  Lemma transfer_to_pinv k target fp s :
    (target < n_loc)%nat -> (intermodal -> target <> p_end P) ->
    (fp <> kInvalid -> exists i, (i <= k)%nat /\ Lbl i target fp) ->
    pinv k s ->
    let s' := ptransfer_to P W k target fp (p_is_dest P target) s in
    pinv k s' /\ improves s s' /\
    (forall l, s_rt s' k l <> s_rt s k l -> s_mark s' l = true) /\
    (forall t, o fp <= o t -> (k <= K)%nat -> nd s' -> rel target t -> W0 k target t = true ->
       exists j, (j <= k)%nat /\ o (s_rt s' j target) <= o t).
  Proof.
    intros Htl Hte Hfp Hp s'.
    assert (Hs' : sinv k s').
    { apply transfer_to_sinv; auto. apply Hp. }
    destruct Hp as [Hs Hb Hr Ht He].
    assert (Hrange := si_best_range _ _ _ _ Hs target).
    unfold s' in *. clear s'. revert Hs'. unfold ptransfer_to.
    destruct (is_better P fp (s_best s target)) eqn:Eb; cbn [andb].
    2:{ intros Hs'. apply is_better_o_false in Eb. split; [|split; [|split]].
        - split; auto.
        - intros j l; cbn [s_rt]; lia.
        - intros l Hne. cbn in Hne. congruence.
        - intros t Hle _ _ _ _. destruct (Hb target) as (j & Hj & Hjl). exists j. cbn. split; auto. lia. }
    apply is_better_o in Eb.
    assert (Hne : fp <> kInvalid).
    { intros ->. rewrite o_kInvalid in Eb. lia. }
    destruct (Hfp Hne) as (i & Hi & HL). assert (Hlow := label_lower _ _ _ HL).
    destruct (is_better_or_eq P fp (s_tad s k) && (lb_reachable P target && is_better_or_eq P (fp + dir P (p_lb P target)) (s_tad s k))
              && W k target fp) eqn:Eu.
    - (* accepted *)
      assert (Himp : forall j l, o (upd (s_rt s) k (upd (s_rt s k) target fp) j l) <= o (s_rt s j l)).
      { intros j l. destruct (upd_cases (s_rt s) k j (upd (s_rt s k) target fp)) as [[<- ->]|[_ ->]]; [|lia].
        destruct (upd_cases (s_rt s k) target l fp) as [[<- ->]|[_ ->]]; [|lia].
        specialize (Hr target Htl Hte). lia. }
      intros Hs'. split; [|split; [|split]].
      + split; cbn [s_rt s_tmp s_best s_tad s_mark s_prev]; auto.
        * intros l. destruct (upd_cases (s_best s) target l fp) as [[<- ->]|[Hn ->]].
          -- exists k. split; auto. rewrite !upd_eq. lia.
          -- destruct (Hb l) as (j & Hj & Hle). exists j. split; auto. specialize (Himp j l). lia.
        * intros l Hl Hle. destruct (upd_cases (s_best s) target l fp) as [[<- ->]|[Hn ->]].
          -- rewrite !upd_eq. lia.
          -- rewrite upd_eq, upd_neq by auto. auto.
        * intros Hnd i0 Hi0.
          assert (Hnd' : nd s).
          { intros j l Hj Hl. specialize (Hnd j l Hj Hl). cbn [s_rt] in Hnd. specialize (Himp j l). lia. }
          specialize (Ht Hnd' i0 Hi0). destruct (p_is_dest P target) eqn:Ed; auto. rewrite tad_upd.
          destruct (Nat.leb_spec k i0); auto.
          specialize (Hnd k target ltac:(lia) Ed). cbn [s_rt] in Hnd. rewrite !upd_eq in Hnd. lia.
        * intros Him. rewrite upd_eq, upd_neq by auto. specialize (He Him).
          destruct (p_is_dest P target); auto. pose proof (tad_upd_le (s_tad s) k fp k). lia.
      + intros j l. cbn [s_rt]. apply Himp.
      + intros l. cbn [s_rt s_mark]. rewrite upd_eq. intros Hc.
        destruct (upd_cases (s_mark s) target l true) as [[_ ->]|[Hn _]]; auto.
        exfalso. rewrite upd_neq in Hc by auto. congruence.
      + intros t Hle _ _ _ _. exists k. split; auto. cbn [s_rt]. rewrite !upd_eq. lia.
    - (* rejected: nothing is written *)
      intros Hs'. split; [|split; [|split]].
      + split; auto.
      + apply improves_refl.
      + intros l Hc. congruence.
      + intros t Hle HkK Hnd Hrel HW. exfalso. specialize (Ht Hnd k HkK).
        destruct (rel_lb target t Hte ltac:(lia) Hrel) as [Hlr Hle']. pose proof (lb_nonneg _ _ HD target).
        unfold rel in Hrel. rewrite (HWW _ _ _ (HWt _ _ _ _ Hle HW)), Hlr in Eu.
        rewrite (proj2 (is_better_or_eq_o P fp (s_tad s k)) ltac:(lia)) in Eu.
        rewrite (proj2 (is_better_or_eq_o P (fp + dir P (p_lb P target)) (s_tad s k)) ltac:(rewrite o_dir; lia)) in Eu. discriminate.
  Qed.

  (** *** The transfer phases *)
  (** Relation between the state before and after a transfer phase of round [k]. *)
  Record phase (k : nat) (s s' : state) : Prop := mk_phase {
    ph_inv : pinv k s';
    ph_imp : improves s s';
    ph_tmp : s_tmp s' = s_tmp s;
    ph_prev : s_prev s' = s_prev s;
    ph_rt : forall j l, j <> k -> s_rt s' j l = s_rt s j l;
    ph_mark_mono : forall l, s_mark s l = true -> s_mark s' l = true;
    ph_mark_new : forall l, s_mark s' l = true -> s_mark s l = true \/ lb_reachable P l = true;
    ph_changed : forall l, (intermodal -> l <> p_end P) -> s_rt s' k l <> s_rt s k l -> s_mark s' l = true }.
  Lemma phase_refl k s : pinv k s -> phase k s s.
  Proof. intros Hp. split; auto using improves_refl. Qed.
  Lemma phase_trans k s1 s2 s3 : phase k s1 s2 -> phase k s2 s3 -> phase k s1 s3.
  Proof.
    intros [A1 A2 A3 A4 A5 A6 A7 A8] [B1 B2 B3 B4 B5 B6 B7 B8]. split; auto; try congruence.
    - eapply improves_trans; eauto.
    - intros. rewrite B5, A5; auto.
    - intros l Hm. destruct (B7 l Hm); auto.
    - intros l Hl Hc. destruct (Z.eq_dec (s_rt s3 k l) (s_rt s2 k l)) as [E|E].
      + apply B6. apply A8; auto. congruence.
      + auto.
  Qed.
  Lemma transfer_to_phase k target fp s :
    (target < n_loc)%nat -> (intermodal -> target <> p_end P) ->
    (fp <> kInvalid -> exists i, (i <= k)%nat /\ Lbl i target fp) ->
    pinv k s -> phase k s (ptransfer_to P W k target fp (p_is_dest P target) s).
  Proof.
    intros Htl Hte Hfp Hp.
    destruct (transfer_to_pinv k target fp s Htl Hte Hfp Hp) as (H1 & H2 & H3 & _).
    destruct (transfer_to_frame k target fp (p_is_dest P target) s) as (F1 & F2 & F3 & F4 & F5).
    split; auto. intros l Hm. destruct (F5 l Hm) as [?|[? ?]]; auto.
  Qed.

  (** Alighting locations are real stops. *)
  Lemma arr_loc k l t : Arr k l t -> (l < n_loc)%nat /\ (intermodal -> l <> p_end P).
  Proof.
    intros Ha. inversion Ha as [k0 l0 t0 tb l' ta _ _ Hride]; subst.
    destruct Hride as [ri r vi v day s s' st st' Hr Hv _ Hs Hs' _ _ <- _ _ _ _ _ _].
    apply nth_error_In in Hs'. split.
    - destruct Hloc as (Hl & _). eapply Hl; eauto.
    - intros Him. destruct (Hend Him) as (_ & Hne & _). eapply Hne; eauto.
  Qed.

  (** Successor labels of an arrival (by transfer, footpath, offset). *)
  Inductive succ (l : nat) (t : Z) : nat -> Z -> Prop :=
  | succ_transfer : succ l t l (after P t (tr_eff P l))
  | succ_walk l' d : walk P l l' d -> succ l t l' (after P t d)
  | succ_off off d : p_dist_to_end P = Some off -> off l = Some d -> succ l t (p_end P) (after P t d).

  Lemma succ_rel l t l' t' : succ l t l' t' -> (l' < n_loc)%nat \/ True -> rel l' t' -> rel l t.
  Proof.
    unfold rel. intros [|l1 d Hw|off d Hoff Hd] _; rewrite o_after; intros Hr.
    - pose proof (tr_eff_nonneg P Hdur l). lia.
    - pose proof (lb_walk _ _ HD _ _ _ Hw). lia.
    - pose proof (lb_offset _ _ HD _ _ _ Hoff Hd). pose proof (lb_nonneg _ _ HD (p_end P)). lia.
  Qed.

  Definition reached (k : nat) (s : state) (l : nat) (t : Z) : Prop := exists j, (j <= k)%nat /\ o (s_rt s j l) <= o t.
  Lemma reached_improves k s s' l t : improves s s' -> reached k s l t -> reached k s' l t.
  Proof. intros Hi (j & Hj & Hle). exists j. split; auto. specialize (Hi j l). lia. Qed.

  (** One generic fold: every step is a phase; and the step for element [b] achieves [G b]. *)
  Lemma fold_phase {B} k (f : state -> B -> state) (l : list B) s :
    pinv k s -> (forall s b, In b l -> pinv k s -> phase k s (f s b)) -> phase k s (fold_left f l s).
  Proof.
    revert s; induction l as [|b l IH]; simpl; intros s Hp Hf; [now apply phase_refl|].
    assert (Hph : phase k s (f s b)) by auto.
    eapply phase_trans; [exact Hph|]. apply IH; auto. apply Hph.
  Qed.
  Lemma fold_phase_achieves {B} k (f : state -> B -> state) (l : list B) s b l0 t :
    pinv k s -> (forall s b, In b l -> pinv k s -> phase k s (f s b)) -> In b l ->
    (forall s1, pinv k s1 -> s_tmp s1 = s_tmp s -> s_prev s1 = s_prev s -> nd (f s1 b) -> reached k (f s1 b) l0 t) ->
    nd (fold_left f l s) -> reached k (fold_left f l s) l0 t.
  Proof.
    intros Hp Hf Hin HG Hnd.
    apply in_split in Hin as (l1 & l2 & ->). rewrite fold_left_app in *. simpl in *.
    assert (P1 : phase k s (fold_left f l1 s)) by (apply fold_phase; auto; intros; apply Hf; auto; apply in_or_app; auto).
    set (s1 := fold_left f l1 s) in *.
    assert (P2 : phase k s1 (f s1 b)) by (apply Hf; [apply in_or_app; simpl; auto|apply P1]).
    assert (P3 : phase k (f s1 b) (fold_left f l2 (f s1 b))).
    { apply fold_phase; [apply P2|]. intros; apply Hf; auto. apply in_or_app; simpl; auto. }
    apply reached_improves with (f s1 b); [apply P3|].
    apply HG; [apply P1|apply P1|apply P1|]. eapply nd_back; [apply P3|exact Hnd].
  Qed.

  Lemma clamp_le x t : H <= o t -> o x <= o t -> o (clamp16 x) <= o t.
  Proof. intros. rewrite o_clamp. lia. Qed.

  Lemma tmp_arr k s i : pinv k s -> s_tmp s i <> kInvalid -> exists j, (j <= k)%nat /\ Arr j i (s_tmp s i).
  Proof. intros Hp. apply (si_tmp _ _ _ _ (pi_s _ _ Hp)). Qed.

  Definition transfers_step (k : nat) (s : state) (i : nat) : state :=
    if s_prev s i && negb (s_tmp s i =? kInvalid) then
      let transfer_time := if negb (is_intermodal_dest P) && p_is_dest P i then 0
                           else dir P (p_adjust P (tt_transfer_time tt i)) in
      ptransfer_to P W k i (clamp16 (s_tmp s i + transfer_time)) (p_is_dest P i) s
    else s.
  Lemma transfer_value s i :
    s_tmp s i + (if negb (is_intermodal_dest P) && p_is_dest P i then 0 else dir P (p_adjust P (tt_transfer_time tt i)))
    = after P (s_tmp s i) (tr_eff P i).
  Proof.
    rewrite after_dir. unfold tr_eff, transfer_time. destruct (_ && _); auto. unfold dir; destruct fwd; lia.
  Qed.
  Lemma label_clamp k i j t d (Hd : 0 <= d) :
    Arr j i t -> (j <= k)%nat -> forall l, (Ready j l (after P t d) \/ Lbl j l (after P t d)) ->
    clamp16 (after P t d) <> kInvalid -> exists j', (j' <= k)%nat /\ Lbl j' l (clamp16 (after P t d)).
  Proof.
    intros Ha Hj l Hl Hne. exists j. split; auto.
    assert (Hlow : H <= o t) by (eapply arr_low; eauto).
    destruct (clamp_cases P (after P t d)) as [E|E]; [rewrite o_after; lia| |congruence].
    rewrite E. destruct Hl; auto. now left.
  Qed.
  Lemma transfers_step_phase k s i : (i < n_loc)%nat -> pinv k s -> phase k s (transfers_step k s i).
  Proof.
    intros Hi Hp. unfold transfers_step. destruct (s_prev s i && negb (s_tmp s i =? kInvalid)) eqn:E; [|now apply phase_refl].
    apply andb_true_iff in E as [_ E]. apply negb_true_iff, Z.eqb_neq in E.
    destruct (tmp_arr _ _ _ Hp E) as (j & Hj & Ha). destruct (arr_loc _ _ _ Ha).
    cbn zeta. rewrite transfer_value. apply transfer_to_phase; auto.
    apply (label_clamp k i j); auto. { now apply tr_eff_nonneg. } left. now constructor.
  Qed.
  Lemma transfers_step_achieves k s i ta :
    (i < n_loc)%nat -> pinv k s -> s_prev s i = true -> o (s_tmp s i) <= o ta -> H <= o ta ->
    (k <= K)%nat -> nd (transfers_step k s i) -> rel i (after P ta (tr_eff P i)) -> W0 k i (after P ta (tr_eff P i)) = true ->
    reached k (transfers_step k s i) i (after P ta (tr_eff P i)).
  Proof.
    intros Hi Hp Hpr Hle Hlow HkK Hnd Hrel HW. unfold transfers_step in *. rewrite Hpr in *. cbn [andb] in *.
    pose proof (tr_eff_nonneg P Hdur i) as Htr. pose proof (lb_nonneg _ _ HD i) as HDi.
    assert (E : s_tmp s i <> kInvalid).
    { intros E. rewrite E, o_kInvalid in Hle. unfold rel in Hrel. rewrite o_after in Hrel. lia. }
    rewrite (proj2 (Z.eqb_neq _ _) E) in *. cbn [negb] in *. cbn zeta in *. rewrite transfer_value in *.
    destruct (tmp_arr _ _ _ Hp E) as (j & Hj & Ha). destruct (arr_loc _ _ _ Ha) as [_ Hne].
    assert (Hl : clamp16 (after P (s_tmp s i) (tr_eff P i)) <> kInvalid -> exists j', (j' <= k)%nat /\ Lbl j' i (clamp16 (after P (s_tmp s i) (tr_eff P i)))).
    { apply (label_clamp k i j); auto. left. now constructor. }
    destruct (transfer_to_pinv k i _ s Hi Hne Hl Hp) as (_ & _ & _ & Hach).
    apply Hach; auto. apply clamp_le; rewrite ?o_after; lia.
  Qed.
  Lemma update_transfers_eq k s : pupdate_transfers P W k s = fold_left (transfers_step k) (seq 0 n_loc) s.
  Proof. reflexivity. Qed.

  Definition footpath_step (k i : nat) (s : state) (fp : nat * Z) : state :=
    if s_tmp s i =? kInvalid then s else
    ptransfer_to P W k (fst fp) (clamp16 (s_tmp s i + dir P (p_adjust P (snd fp)))) (p_is_dest P (fst fp)) s.
  Definition footpaths_step (k : nat) (s : state) (i : nat) : state :=
    if s_prev s i then fold_left (footpath_step k i) (footpaths_of P i) s else s.
  Lemma update_footpaths_eq k s : pupdate_footpaths P W k s = fold_left (footpaths_step k) (seq 0 n_loc) s.
  Proof. reflexivity. Qed.
  Lemma footpath_target i fp : In fp (footpaths_of P i) -> (fst fp < n_loc)%nat /\ (intermodal -> fst fp <> p_end P).
  Proof.
    intros Hin. destruct fp as [l d]. cbn [fst]. unfold footpaths_of in Hin. split.
    - destruct Hloc as (_ & Hl & _). eapply Hl. destruct fwd; eauto.
    - intros Him. destruct (Hend Him) as (_ & _ & Hne). intros ->. apply (Hne i d). exact Hin.
  Qed.
  Lemma footpath_step_phase k i s fp : In fp (footpaths_of P i) -> pinv k s -> phase k s (footpath_step k i s fp).
  Proof.
    intros Hin Hp. unfold footpath_step. destruct (s_tmp s i =? kInvalid) eqn:E; [now apply phase_refl|].
    apply Z.eqb_neq in E. destruct (tmp_arr _ _ _ Hp E) as (j & Hj & Ha).
    destruct (footpath_target _ _ Hin) as [Ht Hte].
    rewrite <- after_dir. assert (Hw : walk P i (fst fp) (p_adjust P (snd fp))) by (exists (snd fp); destruct fp; auto).
    apply transfer_to_phase; auto. apply (label_clamp k i j); auto.
    - now apply walk_nonneg in Hw.
    - left. econstructor; eauto.
  Qed.
  Lemma footpath_step_achieves k i s fp ta :
    In fp (footpaths_of P i) -> pinv k s -> o (s_tmp s i) <= o ta -> H <= o ta -> (k <= K)%nat ->
    let t' := after P ta (p_adjust P (snd fp)) in
    nd (footpath_step k i s fp) -> rel (fst fp) t' -> W0 k (fst fp) t' = true -> reached k (footpath_step k i s fp) (fst fp) t'.
  Proof.
    intros Hin Hp Hle Hlow HkK t' Hnd Hrel HW. unfold footpath_step in *.
    assert (Hw : walk P i (fst fp) (p_adjust P (snd fp))) by (exists (snd fp); destruct fp; auto).
    pose proof (walk_nonneg P Hdur _ _ _ Hw) as Htr. pose proof (lb_nonneg _ _ HD (fst fp)) as HDi.
    assert (E : s_tmp s i <> kInvalid).
    { intros E. rewrite E, o_kInvalid in Hle. unfold rel, t' in Hrel. rewrite o_after in Hrel. lia. }
    rewrite (proj2 (Z.eqb_neq _ _) E) in *.
    destruct (tmp_arr _ _ _ Hp E) as (j & Hj & Ha).
    destruct (footpath_target _ _ Hin) as [Ht Hte].
    rewrite <- after_dir in *.
    assert (Hl : clamp16 (after P (s_tmp s i) (p_adjust P (snd fp))) <> kInvalid ->
                 exists j', (j' <= k)%nat /\ Lbl j' (fst fp) (clamp16 (after P (s_tmp s i) (p_adjust P (snd fp))))).
    { apply (label_clamp k i j); auto. left. econstructor; eauto. }
    destruct (transfer_to_pinv k (fst fp) _ s Ht Hte Hl Hp) as (_ & _ & _ & Hach).
    apply Hach; auto. unfold t'. apply clamp_le; rewrite ?o_after; lia.
  Qed.
  Lemma footpaths_step_phase k s i : pinv k s -> phase k s (footpaths_step k s i).
  Proof.
    intros Hp. unfold footpaths_step. destruct (s_prev s i); [|now apply phase_refl].
    apply fold_phase; auto. intros; now apply footpath_step_phase.
  Qed.

  Definition intermodal_step (k : nat) (off : nat -> option Z) (s : state) (i : nat) : state :=
    match s_prev s i, off i with
    | true, Some d =>
        if s_tmp s i =? kInvalid then s else
        let end_time := clamp16 (s_tmp s i + dir P d) in
        if is_better_or_eq P end_time (s_tad s k)
        then mk_state (s_tmp s) (upd (s_best s) (p_end P) end_time)
                      (upd (s_rt s) k (upd (s_rt s k) (p_end P) end_time))
                      (update_time_at_dest P (s_tad s) k end_time) (s_mark s) (s_prev s)
        else s
    | _, _ => s
    end.
  Lemma update_intermodal_eq k s off : p_dist_to_end P = Some off ->
    update_intermodal_footpaths P k s = fold_left (intermodal_step k off) (seq 0 n_loc) s.
  Proof. intros E. unfold update_intermodal_footpaths. rewrite E. reflexivity. Qed.

  Lemma intermodal_step_sinv k off s i : p_dist_to_end P = Some off -> sinv k s -> sinv k (intermodal_step k off s i).
  Proof.
    intros Hoff Hs. pose proof (tmp_arr) as _.
    destruct Hs as [H1 H2 H3 H4 H5]. unfold intermodal_step.
    destruct (s_prev s i); [|now split]. destruct (off i) as [d|] eqn:Ed; [|now split].
    destruct (s_tmp s i =? kInvalid) eqn:E; [now split|]. apply Z.eqb_neq in E.
    cbn zeta. destruct (is_better_or_eq P _ _); [|now split].
    destruct (H5 _ E) as (j & Hj & Ha).
    assert (0 <= d) by (destruct Hdur as (_ & _ & _ & Hw); eapply Hw; eauto).
    assert (Hl : clamp16 (s_tmp s i + dir P d) <> kInvalid -> exists i0, (i0 <= k)%nat /\ Lbl i0 (p_end P) (clamp16 (s_tmp s i + dir P d))).
    { rewrite <- after_dir. apply (label_clamp k i j); auto. right. right. exists off, i, (s_tmp s i), d. auto. }
    split; cbn [s_rt s_tmp s_best]; auto.
    - intros j0 l. destruct (upd_cases (s_rt s) k j0 (upd (s_rt s k) (p_end P) (clamp16 (s_tmp s i + dir P d)))) as [[<- ->]|[_ ->]]; auto.
      destruct (upd_cases (s_rt s k) (p_end P) l (clamp16 (s_tmp s i + dir P d))) as [[<- ->]|[_ ->]]; auto using clamp_range.
    - intros l. destruct (upd_cases (s_best s) (p_end P) l (clamp16 (s_tmp s i + dir P d))) as [[<- ->]|[_ ->]]; auto using clamp_range.
    - intros j0 l. destruct (upd_cases (s_rt s) k j0 (upd (s_rt s k) (p_end P) (clamp16 (s_tmp s i + dir P d)))) as [[<- ->]|[_ ->]]; auto.
      destruct (upd_cases (s_rt s k) (p_end P) l (clamp16 (s_tmp s i + dir P d))) as [[<- ->]|[_ ->]]; auto.
  Qed.

  Lemma intermodal_step_phase k off s i : p_dist_to_end P = Some off -> pinv k s -> phase k s (intermodal_step k off s i).
  Proof.
    intros Hoff Hp. pose proof (intermodal_step_sinv k off s i Hoff (pi_s _ _ Hp)) as Hs'.
    assert (Him : intermodal) by (unfold intermodal; congruence).
    revert Hs'. unfold intermodal_step.
    destruct (s_prev s i); [|now auto using phase_refl]. destruct (off i) as [d|] eqn:Ed; [|now auto using phase_refl].
    destruct (s_tmp s i =? kInvalid) eqn:E; [now auto using phase_refl|]. apply Z.eqb_neq in E.
    cbn zeta. destruct (is_better_or_eq P _ _) eqn:Eb; [|now auto using phase_refl].
    apply is_better_or_eq_o in Eb. set (e := clamp16 (s_tmp s i + dir P d)) in *. intros Hs'.
    destruct Hp as [Hs Hb Hr Ht He]. specialize (He Him).
    assert (Himp : forall j l, o (upd (s_rt s) k (upd (s_rt s k) (p_end P) e) j l) <= o (s_rt s j l)).
    { intros j l. destruct (upd_cases (s_rt s) k j (upd (s_rt s k) (p_end P) e)) as [[<- ->]|[_ ->]]; [|lia].
      destruct (upd_cases (s_rt s k) (p_end P) l e) as [[<- ->]|[_ ->]]; lia. }
    assert (Hdest : p_is_dest P (p_end P) = true) by (destruct (Hend Him) as (Hd & _); now apply Hd).
    split; cbn [s_rt s_tmp s_best s_tad s_mark s_prev]; auto.
    - split; cbn [s_rt s_tmp s_best s_tad s_mark s_prev]; auto.
      + intros l. destruct (upd_cases (s_best s) (p_end P) l e) as [[<- ->]|[_ ->]].
        * exists k. split; auto. rewrite !upd_eq. lia.
        * destruct (Hb l) as (j & Hj & Hle). exists j. split; auto. specialize (Himp j l). lia.
      + intros l Hl Hle. specialize (Hle Him). rewrite upd_eq, !upd_neq by auto. auto.
      + intros Hnd i0 Hi0.
        assert (Hnd' : nd s). { intros j l Hj Hl. specialize (Hnd j l Hj Hl). cbn [s_rt] in Hnd. specialize (Himp j l). lia. }
        specialize (Ht Hnd' i0 Hi0). rewrite tad_upd. destruct (Nat.leb_spec k i0); auto.
        specialize (Hnd k (p_end P) ltac:(lia) Hdest). cbn [s_rt] in Hnd. rewrite !upd_eq in Hnd. lia.
      + intros _. rewrite !upd_eq, tad_upd, Nat.leb_refl. lia.
    - intros j l Hj. now rewrite upd_neq by auto.
    - intros l Hle Hc. exfalso. apply Hc. rewrite upd_eq, upd_neq; auto. intros Hx. now apply Hle.
  Qed.
  Lemma intermodal_step_achieves k off s i d ta :
    p_dist_to_end P = Some off -> off i = Some d -> pinv k s -> s_prev s i = true ->
    o (s_tmp s i) <= o ta -> H <= o ta -> (k <= K)%nat -> nd (intermodal_step k off s i) ->
    rel (p_end P) (after P ta d) -> reached k (intermodal_step k off s i) (p_end P) (after P ta d).
  Proof.
    intros Hoff Hd Hp Hpr Hle Hlow HkK Hnd Hrel.
    assert (Hph := intermodal_step_phase k off s i Hoff Hp).
    assert (Hnd0 := nd_back _ _ (ph_imp _ _ _ Hph) Hnd).
    assert (Hta := pi_tad _ _ Hp Hnd0 k HkK).
    assert (0 <= d) by (destruct Hdur as (_ & _ & _ & Hw); eapply Hw; eauto).
    pose proof (lb_nonneg _ _ HD (p_end P)). unfold rel in Hrel. rewrite o_after in Hrel.
    unfold intermodal_step in *. rewrite Hpr, Hd in *.
    assert (E : s_tmp s i <> kInvalid) by (intros E; rewrite E, o_kInvalid in Hle; lia).
    rewrite (proj2 (Z.eqb_neq _ _) E) in *. cbn zeta in *. rewrite <- after_dir in *.
    assert (Hc : o (clamp16 (after P (s_tmp s i) d)) <= o (after P ta d)) by (apply clamp_le; rewrite !o_after; lia).
    rewrite o_after in Hc.
    assert (Eb : is_better_or_eq P (clamp16 (after P (s_tmp s i) d)) (s_tad s k) = true) by (apply is_better_or_eq_o; lia).
    rewrite Eb in *. exists k. split; auto. cbn [s_rt]. rewrite !upd_eq, o_after. lia.
  Qed.

  (** All three phases together. *)
  Definition transfer_phases (k : nat) (s : state) : state :=
    pupdate_footpaths P W k (update_intermodal_footpaths P k (pupdate_transfers P W k s)).
  Lemma in_seq0 i n : In i (seq 0 n) <-> (i < n)%nat.
  Proof. rewrite in_seq. lia. Qed.
  Lemma update_transfers_phase k s : pinv k s -> phase k s (pupdate_transfers P W k s).
  Proof. intros Hp. rewrite update_transfers_eq. apply fold_phase; auto. intros s0 i Hi. apply transfers_step_phase. now apply in_seq0. Qed.
  Lemma update_footpaths_phase k s : pinv k s -> phase k s (pupdate_footpaths P W k s).
  Proof. intros Hp. rewrite update_footpaths_eq. apply fold_phase; auto. intros s0 i Hi. apply footpaths_step_phase. Qed.
  Lemma update_intermodal_phase k s : pinv k s -> phase k s (update_intermodal_footpaths P k s).
  Proof.
    intros Hp. destruct (p_dist_to_end P) as [off|] eqn:E.
    - rewrite (update_intermodal_eq k s off E). apply fold_phase; auto. intros s0 i Hi. now apply intermodal_step_phase.
    - unfold update_intermodal_footpaths. rewrite E. now apply phase_refl.
  Qed.
  Lemma transfer_phases_phase k s : pinv k s -> phase k s (transfer_phases k s).
  Proof.
    intros Hp. unfold transfer_phases.
    assert (P1 := update_transfers_phase k s Hp).
    assert (P2 := update_intermodal_phase k _ (ph_inv _ _ _ P1)).
    assert (P3 := update_footpaths_phase k _ (ph_inv _ _ _ P2)).
    eapply phase_trans; [exact P1|]. eapply phase_trans; eauto.
  Qed.
  (** Within the bounds, or the end of an offset (no bounds there). *)
  Definition wok (k l : nat) (t : Z) : Prop := (intermodal /\ l = p_end P) \/ W0 k l t = true.
  Lemma transfer_phases_achieve k s i ta l' t' :
    pinv k s -> (i < n_loc)%nat -> s_prev s i = true -> o (s_tmp s i) <= o ta -> H <= o ta -> (k <= K)%nat ->
    (intermodal -> i <> p_end P) ->
    nd (transfer_phases k s) -> succ i ta l' t' -> wok k l' t' -> rel l' t' -> reached k (transfer_phases k s) l' t'.
  Proof.
    intros Hp Hi Hpr Hle Hlow HkK Hie Hnd Hsucc Hwok Hrel. unfold transfer_phases in *.
    assert (P1 := update_transfers_phase k s Hp). set (s1 := pupdate_transfers P W k s) in *.
    assert (P2 := update_intermodal_phase k _ (ph_inv _ _ _ P1)). set (s2 := update_intermodal_footpaths P k s1) in *.
    assert (P3 := update_footpaths_phase k _ (ph_inv _ _ _ P2)).
    assert (Hnd2 := nd_back _ _ (ph_imp _ _ _ P3) Hnd).
    assert (Hnd1 := nd_back _ _ (ph_imp _ _ _ P2) Hnd2).
    destruct Hsucc as [|l1 d (d0 & Hin & ->)|off d Hoff Hd].
    - destruct Hwok as [[Him Ei]|HW]; [exfalso; exact (Hie Him Ei)|].
      apply (reached_improves k s2); [apply P3|]. apply (reached_improves k s1); [apply P2|].
      unfold s1 in *. rewrite update_transfers_eq in *.
      apply fold_phase_achieves with (b := i); auto.
      + intros s0 b Hb. apply transfers_step_phase. now apply in_seq0.
      + now apply in_seq0.
      + intros s0 Hp0 Et Ep Hnd0. apply transfers_step_achieves; auto; congruence.
    - destruct (footpath_target i (l1, d0) Hin) as [_ Hte].
      destruct Hwok as [[Him Ei]|HW]; [exfalso; exact (Hte Him Ei)|].
      rewrite update_footpaths_eq in *.
      apply fold_phase_achieves with (b := i); auto.
      + apply P2.
      + intros s0 b Hb. apply footpaths_step_phase.
      + now apply in_seq0.
      + intros s0 Hp0 Et Ep Hnd0. unfold footpaths_step in *.
        assert (Epr : s_prev s0 i = true) by (rewrite Ep, (ph_prev _ _ _ P2), (ph_prev _ _ _ P1); auto).
        rewrite Epr in *.
        apply fold_phase_achieves with (b := (l1, d0)); auto.
        * intros. now apply footpath_step_phase.
        * intros s3 Hp3 Et3 Ep3 Hnd3.
          apply (footpath_step_achieves k i s3 (l1, d0) ta); auto.
          rewrite Et3, Et, (ph_tmp _ _ _ P2), (ph_tmp _ _ _ P1). auto.
    - apply (reached_improves k s2); [apply P3|].
      unfold s2 in *. rewrite (update_intermodal_eq k s1 off Hoff) in *.
      apply fold_phase_achieves with (b := i); auto.
      + apply P1.
      + intros s0 b Hb. now apply intermodal_step_phase.
      + now apply in_seq0.
      + intros s0 Hp0 Et Ep Hnd0. eapply intermodal_step_achieves; eauto.
        * rewrite Ep, (ph_prev _ _ _ P1); auto.
        * rewrite Et, (ph_tmp _ _ _ P1); auto.
  Qed.

  (** *** Scanning a route *)
  Lemma scan_stop_mono k ri r best rtp tad pm c i :
    let c' := pscan_stop P W k ri r best rtp tad pm c i in
    (forall l, o (sc_tmp c' l) <= o (sc_tmp c l)) /\ (forall l, sc_mark c l = true -> sc_mark c' l = true).
  Proof.
    intros c'. unfold c', pscan_stop. clear c'. destruct (sc_break c); [split; auto; intros; lia|].
    set (s := stop_idx_of P r i). set (l := loc_at r s).
    set (et := if negb (Nat.eqb i 0) && negb (section_ok P r (section_before P r i)) then None else sc_et c).
    match goal with |- context [match ?m with (_, _) => _ end] => destruct m as [[cb tmp] mark] eqn:Eal end.
    assert (Hm : (forall l, o (tmp l) <= o (sc_tmp c l)) /\ (forall l, sc_mark c l = true -> mark l = true)).
    { assert (Hid : (forall l, o (sc_tmp c l) <= o (sc_tmp c l)) /\ (forall l, sc_mark c l = true -> sc_mark c l = true)) by (split; auto; intros; lia).
      destruct et as [x|]; [|injection Eal as _ <- <-; auto].
      destruct (can_finish fwd (is_wheelchair P) (stop_at r s)); [|injection Eal as _ <- <-; auto].
      destruct (is_better_or_eq P _ tad && _ && _ && _); injection Eal as _ <- <-; auto.
      split.
      - intros l0. destruct (upd_cases (sc_tmp c) l l0 (get_best P (time_at_stop P r x s (alight_ev P)) (sc_tmp c l))) as [[<- ->]|[_ ->]]; [rewrite o_get_best|]; lia.
      - intros l0 Hl0. unfold upd. destruct (Nat.eqb l l0); auto. }
    destruct (_ || _ || _); [exact Hm|]. destruct (negb (lb_reachable P l)); [exact Hm|].
    cbn zeta. destruct (negb (rtp l =? kInvalid) && _); [|exact Hm]. destruct (get_earliest_transport _ _ _ _ _ _ _); [|exact Hm].
    destruct (_ || _); exact Hm.
  Qed.

  Lemma scan_rt_stop_mono k r day rtp tad pm c i :
    let c' := pscan_rt_stop P W k r day rtp tad pm c i in
    (forall l, o (sc_tmp c' l) <= o (sc_tmp c l)) /\ (forall l, sc_mark c l = true -> sc_mark c' l = true).
  Proof.
    intros c'. unfold c', pscan_rt_stop. clear c'. destruct (sc_break c); [split; auto; intros; lia|].
    set (s := stop_idx_of P r i). set (l := loc_at r s).
    set (et := if negb (Nat.eqb i 0) && negb (section_ok P r (section_before P r i)) then None else sc_et c).
    match goal with |- context [match ?m with (_, _) => _ end] => destruct m as [tmp mark] eqn:Eal end.
    assert (Hm : (forall l, o (tmp l) <= o (sc_tmp c l)) /\ (forall l, sc_mark c l = true -> mark l = true)).
    { assert (Hid : (forall l, o (sc_tmp c l) <= o (sc_tmp c l)) /\ (forall l, sc_mark c l = true -> sc_mark c l = true)) by (split; auto; intros; lia).
      destruct et as [x|]; [|injection Eal as <- <-; auto].
      destruct (_ && _ && is_better_or_eq P _ tad && _ && _ && _); injection Eal as <- <-; auto.
      split.
      - intros l0. destruct (upd_cases (sc_tmp c) l l0 (get_best P (time_at_stop P r x s (alight_ev P)) (sc_tmp c l))) as [[<- ->]|[_ ->]]; [rewrite o_get_best|]; lia.
      - intros l0 Hl0. unfold upd. destruct (Nat.eqb l l0); auto. }
    destruct (negb (lb_reachable P l)); [exact Hm|]. destruct (_ || _ || _); [exact Hm|].
    destruct (is_better_or_eq P _ _); exact Hm.
  Qed.

  Section Scan.
    Variables (k ri : nat) (r : route) (vi : nat) (v : vehicle) (day : Z) (p p' : nat) (s : state).
    Hypothesis Hk : (1 <= k)%nat.
    Hypothesis Hr : nth_error (tt_routes tt) ri = Some r.
    Hypothesis Hra : route_allowed P r = true.
    Hypothesis Hv : nth_error (r_vehicles r) vi = Some v.
    Hypothesis Hrun : runs_on v day.
    Notation n := (length (r_stops r)).
    Notation six := (stop_idx_of P r).
    Notation B w d q := (bt P w d (stop_idx_of P r q)).
    Notation A w d q := (at_ P w d (stop_idx_of P r q)).
    Notation loc q := (loc_at r (stop_idx_of P r q)).
    Hypothesis Hpp : (p < p' < n)%nat.
    Hypothesis Hon : get_on_allowed P (stop_at r (six p)) = true.
    Hypothesis Hoff : get_off_allowed P (stop_at r (six p')) = true.
    Hypothesis Hsec : forall q, (p < q <= p')%nat -> section_ok P r (section_before P r q) = true.
    Hypothesis Hprev : s_prev s (loc p) = true.
    Hypothesis Hlab : s_rt s (k - 1) (loc p) <> kInvalid.
    Hypothesis Hcatch : o (s_rt s (k - 1) (loc p)) <= o (B v day p).
    Hypothesis Hrel : rel (loc p') (A v day p').
    Hypothesis HW : W0 k (loc p') (A v day p') = true.
    Hypothesis Htad : o a <= o (s_tad s k).
    Hypothesis Hprevok : forall l, s_prev s l = true -> lb_reachable P l = true \/ exists t, St l t.
    Hypothesis Hs : sinv k s.

    Notation step := (pscan_stop P W k ri r (s_best s) (s_rt s (k - 1)) (s_tad s k) (s_prev s)).

    Lemma six_lt q : (q < n)%nat -> (six q < n)%nat.
    Proof. apply stop_idx_lt. Qed.
    Lemma six_inj_order q q' : (q < q' < n)%nat -> if fwd then (six q < six q')%nat else (six q' < six q)%nat.
    Proof. apply stop_idx_order. Qed.
    Lemma loc_not_end q : (q < n)%nat -> intermodal -> loc q <> p_end P.
    Proof. intros Hq Him. eapply stop_not_end; eauto using six_lt. Qed.
    Lemma HvIn : In v (r_vehicles r).
    Proof. eauto using nth_error_In. Qed.

    Lemma BA_order w d q q' : In w (r_vehicles r) -> (q < q' < n)%nat -> o (B w d q) <= o (A w d q').
    Proof. intros Hw Hq. eapply event_order; eauto using six_lt. { apply six_lt; lia. } { apply six_lt; lia. } now apply six_inj_order. Qed.
    Lemma AB_order w d q : In w (r_vehicles r) -> (q < n)%nat -> o (A w d q) <= o (B w d q).
    Proof.
      intros Hw Hq. destruct (proj1 Hwf _ _ _ Hr Hw) as (_ & Hm & _). specialize (Hm (six q) (six_lt q Hq)).
      unfold at_, bt, event_time, Raptor_Base.o. unfold event_minutes in Hm. destruct fwd; lia.
    Qed.
    Lemma lab_low l : s_rt s (k - 1) l <> kInvalid -> H <= o (s_rt s (k - 1) l).
    Proof. intros Hne. destruct (si_rt _ _ _ _ Hs _ _ Hne) as (i & _ & HL). eapply label_lower; eauto. Qed.
    Lemma B_low q : (p <= q < p')%nat -> H <= o (B v day q).
    Proof.
      intros Hq. pose proof (lab_low _ Hlab). destruct (Nat.eq_dec q p) as [->|]; [lia|].
      pose proof (BA_order v day p q HvIn ltac:(lia)). pose proof (AB_order v day q HvIn ltac:(lia)). lia.
    Qed.
    Lemma A_low : H <= o (A v day p').
    Proof. pose proof (B_low p ltac:(lia)). pose proof (BA_order v day p p' HvIn ltac:(lia)). lia. Qed.
    Lemma B_rel q : (q < p')%nat -> get_on_allowed P (stop_at r (six q)) = true -> rel (loc q) (B v day q).
    Proof.
      intros Hq Hg. pose proof (BA_order v day q p' HvIn ltac:(lia)) as Hord. unfold rel in *.
      assert (HDr := lb_ride _ _ HD ri r v (six q) (six p') _ _ Hr HvIn (stop_at_nth r (six q) (six_lt q ltac:(lia)))
                       (stop_at_nth r (six p') (six_lt p' ltac:(lia))) (six_inj_order q p' ltac:(lia)) Hg Hoff (allowed_flags r Hra)).
      fold (loc_at r (six q)) in HDr. fold (loc_at r (six p')) in HDr.
      unfold bt, at_, event_time, Raptor_Base.o, event_minutes in *. destruct fwd; lia.
    Qed.
    Lemma rel_p' : lb_reachable P (loc p') = true /\ p_lb P (loc p') <= D (loc p').
    Proof. apply rel_lb with (A v day p'); auto using A_low. apply loc_not_end. lia. Qed.

    Lemma no_break q : (q < p')%nat -> get_on_allowed P (stop_at r (six q)) = true -> s_prev s (loc q) = true ->
      lb_reachable P (loc q) = true.
    Proof.
      intros Hq Hg Hm. destruct (Hprevok _ Hm) as [?|(t & Ht)]; auto.
      destruct (lb_reachable P (loc q)) eqn:E; auto. exfalso.
      unfold lb_reachable in E. apply negb_false_iff, Z.eqb_eq in E.
      assert (Hu := proj1 HStreach _ _ ri r (six q) (six p') _ _ Ht E Hr (stop_at_nth r (six q) (six_lt q ltac:(lia)))
                       (stop_at_nth r (six p') (six_lt p' ltac:(lia))) (six_inj_order q p' ltac:(lia)) eq_refl Hg Hoff).
      destruct rel_p' as [Hx _]. unfold lb_reachable in Hx. unfold loc_at in Hx. rewrite Hu in Hx. discriminate.
    Qed.

    Definition before (x : nat) (w : vehicle) (d : Z) (q : nat) : Prop :=
      o (B w d q) <= o (B v day q) /\ (B w d q = B v day q -> ahead P x vi).
    Lemma fifo_at x w d q q' : nth_error (r_vehicles r) x = Some w -> runs_on w d -> (q < q' < n)%nat ->
      before x w d q -> o (B w d q') <= o (B v day q') /\ o (A w d q') <= o (A v day q').
    Proof.
      intros Hw Hrw Hq [Hle Htie].
      assert (HF : no_later P (event_time P w d (six q') kArr) (event_time P v day (six q') kArr) /\
                   no_later P (event_time P w d (six q') kDep) (event_time P v day (six q') kDep)).
      { eapply (Hfifo ri r x w d vi v day (six q) (six q')); eauto.
        - apply six_lt; lia.
        - apply six_lt; lia.
        - now apply six_inj_order.
        - now apply no_later_o. }
      rewrite !no_later_o in HF. unfold bt, at_. destruct fwd; tauto.
    Qed.

    Lemma get_at q : (p <= q < p')%nat -> get_on_allowed P (stop_at r (six q)) = true ->
      s_rt s (k - 1) (loc q) <> kInvalid -> o (s_rt s (k - 1) (loc q)) <= o (B v day q) ->
      exists x w e, get_earliest_transport P ri r (six q) (loc q) (s_tad s k) (s_rt s (k - 1) (loc q)) = Some (x, e) /\
        nth_error (r_vehicles r) x = Some w /\ runs_on w e /\ before x w e q.
    Proof.
      intros Hq Hg Hne Hle. pose proof (lab_low _ Hne). pose proof (B_low q Hq). pose proof (B_rel q ltac:(lia) Hg) as Hr1.
      destruct (rel_lb (loc q) (B v day q)) as [_ Hlb]; auto. { apply loc_not_end. lia. }
      unfold rel in Hr1. pose proof (lb_nonneg _ _ HD (loc q)).
      destruct (get_earliest_transport_complete P ri r (six q) (loc q) (s_tad s k) (s_rt s (k - 1) (loc q)) vi v day)
        as (x & w & e & E & Hx & Hb); auto.
      - apply six_lt; lia.
      - lia.
      - rewrite o_clamp. lia.
      - exists x, w, e. split; [exact E|]. split; [exact Hx|]. split; [|exact Hb].
        apply get_earliest_transport_sound in E as (w' & Hw' & Hrw & _); auto; [|apply six_lt; lia].
        assert (w' = w) by congruence; subst w'; apply Hrw.
    Qed.

    Definition J (i : nat) (c : scan) : Prop :=
      scan_inv P St k r i c /\
      ((i <= p')%nat -> sc_break c = false) /\
      ((p < i <= p')%nat -> exists x w, sc_et c = Some x /\ nth_error (r_vehicles r) (fst x) = Some w /\ runs_on w (snd x) /\
          forall q, (i <= q < n)%nat -> o (B w (snd x) q) <= o (B v day q) /\ o (A w (snd x) q) <= o (A v day q)) /\
      ((p' < i)%nat -> o (sc_tmp c (loc p')) <= o (A v day p') /\ sc_mark c (loc p') = true).

    Lemma tas x w d q e : nth_error (r_vehicles r) x = Some w -> (q < n)%nat ->
      time_at_stop P r (x, d) (six q) e = clamp16 (event_time P w d (six q) e).
    Proof. intros. eapply time_at_stop_eq; eauto using six_lt. Qed.

    Lemma J_step i c : (i < n)%nat -> J i c -> J (S i) (step c i).
    Proof.
      intros Hi (Hsc & Hbr & Het & Hdone).
      assert (Hsc' : scan_inv P St k r (S i) (step c i)).
      { eapply scan_stop_sinv; eauto using HStL. intros l Hl. destruct (si_rt _ _ _ _ Hs _ _ Hl) as (j & Hj & HL). exists j. split; [lia|auto]. }
      destruct (scan_stop_mono k ri r (s_best s) (s_rt s (k - 1)) (s_tad s k) (s_prev s) c i) as [Hmt Hmm].
      split; [exact Hsc'|].
      destruct (Nat.lt_ge_cases p' i) as [Hgt|Hle].
      { split; [lia|]. split; [lia|]. intros _. destruct (Hdone Hgt) as [H1 H2]. split; auto.
        specialize (Hmt (loc p')). lia. }
      specialize (Hbr Hle). clear Hdone Hmt Hmm.
      assert (Hgoal : ((S i <= p')%nat -> sc_break (step c i) = false) /\
        ((p < S i <= p')%nat -> exists x w, sc_et (step c i) = Some x /\ nth_error (r_vehicles r) (fst x) = Some w /\ runs_on w (snd x) /\
          (before (fst x) w (snd x) i \/ forall q, (S i <= q < n)%nat -> o (B w (snd x) q) <= o (B v day q) /\ o (A w (snd x) q) <= o (A v day q))) /\
        ((p' < S i)%nat -> o (sc_tmp (step c i) (loc p')) <= o (A v day p') /\ sc_mark (step c i) (loc p') = true)).
      2:{ destruct Hgoal as (G1 & G2 & G3). split; [exact G1|split; [|exact G3]].
          intros Hpi. destruct (G2 Hpi) as (x & w & E & Hx & Hrw & Hor). exists x, w. repeat split; auto; try apply Hrw.
          all: destruct Hor as [Hor|Hor]; [|apply Hor; auto].
          all: apply (fifo_at (fst x) w (snd x) i); auto; lia. }
      clear Hsc'. unfold pscan_stop. rewrite Hbr.
      set (et := if negb (Nat.eqb i 0) && negb (section_ok P r (section_before P r i)) then None else sc_et c).
      (* the vehicle we sit in while approaching position i *)
      assert (Het1 : (p < i)%nat -> exists x w, et = Some x /\ nth_error (r_vehicles r) (fst x) = Some w /\ runs_on w (snd x) /\
          forall q, (i <= q < n)%nat -> o (B w (snd x) q) <= o (B v day q) /\ o (A w (snd x) q) <= o (A v day q)).
      { intros Hpi. destruct (Het ltac:(lia)) as (x & w & E & Hx & Hrw & Hq). exists x, w. split; auto.
        unfold et. rewrite (Hsec i ltac:(lia)). rewrite andb_false_r. auto. }
      assert (Het2 : forall x, et = Some x -> exists w, nth_error (r_vehicles r) (fst x) = Some w /\ runs_on w (snd x)).
      { intros x Hx. assert (Hx' : sc_et c = Some x) by (unfold et in Hx; destruct (_ && _); congruence).
        destruct Hsc as (Hob & _). destruct (Hob x Hx' Hbr) as (w & ? & ? & ? & Hw & Hrw & _). eauto. }
      match goal with |- context [match ?m with (_, _) => _ end] => destruct m as [[cb tmp] mark] eqn:Eal end.
      (* alighting at p' *)
      assert (Hal : i = p' -> o (tmp (loc p')) <= o (A v day p') /\ mark (loc p') = true).
      { intros ->. destruct (Het1 ltac:(lia)) as (x & w & E & Hx & Hrw & Hq). rewrite E in Eal.
        rewrite can_finish_off, Hoff in Eal. destruct (Hq p' ltac:(lia)) as [_ Ha].
        destruct x as [x d]. cbn [fst snd] in *.
        rewrite (tas x w d p' (alight_ev P) Hx ltac:(lia)) in Eal.
        set (by_ := clamp16 (event_time P w d (six p') (alight_ev P))) in *.
        assert (Hby : o by_ <= o (A v day p')).
        { unfold by_. apply clamp_le; [apply A_low|exact Ha]. }
        destruct rel_p' as [Hlr Hlb]. pose proof (lb_nonneg _ _ HD (loc p')). unfold rel in Hrel.
        rewrite Hlr in Eal.
        rewrite (HWW _ _ _ (HWt _ _ _ _ Hby HW)) in Eal.
        rewrite (proj2 (is_better_or_eq_o P by_ (s_tad s k)) ltac:(lia)) in Eal.
        rewrite (proj2 (is_better_or_eq_o P (by_ + dir P (p_lb P (loc p'))) (s_tad s k)) ltac:(rewrite o_dir; lia)) in Eal.
        cbn [andb] in Eal. injection Eal as _ <- <-. rewrite !upd_eq, o_get_best. split; auto. lia. }
      destruct (Nat.eq_dec i p') as [Eip|Hne].
      { specialize (Hal Eip). split; [lia|]. split; [lia|]. intros _.
        destruct (_ || _ || _); [exact Hal|]. destruct (negb (lb_reachable P _)); [exact Hal|].
        cbn zeta. destruct (negb (s_rt s (k - 1) _ =? kInvalid) && _); [|exact Hal]. destruct (get_earliest_transport _ _ _ _ _ _ _); [|exact Hal].
        destruct (_ || _); exact Hal. }
      clear Hal Eal. assert (Hlt : (i < p')%nat) by lia.
      cut (let c' := (if Nat.eqb i (n - 1) || negb (can_start fwd (is_wheelchair P) (stop_at r (six i))) || negb (s_prev s (loc i))
             then mk_scan et tmp mark false
             else if negb (lb_reachable P (loc i)) then mk_scan et tmp mark true
             else
               let et_time := match et with Some x => time_at_stop P r x (six i) (board_ev P) | None => kInvalid end in
               let prev_time := s_rt s (k - 1) (loc i) in
               if negb (prev_time =? kInvalid) && is_better_or_eq P prev_time et_time then
                 match get_earliest_transport P ri r (six i) (loc i) (s_tad s k) prev_time with
                 | Some x =>
                     let cb' := get_best P (get_best P cb (s_best s (loc i))) (tmp (loc i)) in
                     if (cb' =? kInvalid) || is_better_or_eq P (time_at_stop P r x (six i) (board_ev P)) et_time
                     then mk_scan (Some x) tmp mark false
                     else mk_scan et tmp mark false
                 | None => mk_scan et tmp mark false
                 end
               else mk_scan et tmp mark false) in
           sc_break c' = false /\
           ((p <= i)%nat -> exists x w, sc_et c' = Some x /\ nth_error (r_vehicles r) (fst x) = Some w /\ runs_on w (snd x) /\
             (before (fst x) w (snd x) i \/ forall q, (S i <= q < n)%nat -> o (B w (snd x) q) <= o (B v day q) /\ o (A w (snd x) q) <= o (A v day q)))).
      { intros [G1 G2]. split; [intros _; exact G1|]. split; [|lia]. intros Hpi. apply G2. lia. }
      assert (Hkeep : (p < i)%nat -> exists x w, et = Some x /\ nth_error (r_vehicles r) (fst x) = Some w /\ runs_on w (snd x) /\
             (before (fst x) w (snd x) i \/ forall q, (S i <= q < n)%nat -> o (B w (snd x) q) <= o (B v day q) /\ o (A w (snd x) q) <= o (A v day q))).
      { intros Hpi. destruct (Het1 Hpi) as (x & w & E & Hx & Hrw & Hq). exists x, w. repeat split; auto; try apply Hrw.
        right. intros q Hqq. apply (Hq q). lia. }
      destruct (Nat.eqb i (n - 1) || negb (can_start fwd (is_wheelchair P) (stop_at r (six i))) || negb (s_prev s (loc i))) eqn:Eb.
      { cbn. split; auto. intros Hpi. destruct (Nat.eq_dec i p) as [->|]; [|apply Hkeep; lia]. exfalso.
        rewrite can_start_on, Hon, Hprev in Eb. destruct (Nat.eqb_spec p (n - 1)); [lia|discriminate]. }
      apply orb_false_iff in Eb as [Eb Em]. apply orb_false_iff in Eb as [_ Eb].
      apply negb_false_iff in Em. apply negb_false_iff in Eb. rewrite can_start_on in Eb.
      rewrite (no_break i Hlt Eb Em). cbn [negb]. cbn zeta.
      set (et_time := match et with Some x => time_at_stop P r x (six i) (board_ev P) | None => kInvalid end).
      set (prev_time := s_rt s (k - 1) (loc i)).
      (* an et whose time is strictly better than the boarding time bound *)
      assert (Hetb : forall b, o et_time < b -> b <= OI -> exists x w, et = Some x /\ nth_error (r_vehicles r) (fst x) = Some w /\
                     runs_on w (snd x) /\ o (B w (snd x) i) < b).
      { intros b Hlt1 Hb. unfold et_time in Hlt1. destruct et as [x|] eqn:Ex; [|rewrite o_kInvalid in Hlt1; lia].
        destruct (Het2 x eq_refl) as (w & Hx & Hrw). exists x, w. repeat split; auto; try apply Hrw.
        destruct x as [x d]. cbn [fst snd] in *. rewrite (tas x w d i _ Hx Hi), o_clamp in Hlt1.
        change (event_time P w d (six i) (board_ev P)) with (B w d i) in Hlt1. lia. }
      destruct (negb (prev_time =? kInvalid) && is_better_or_eq P prev_time et_time) eqn:Ep.
      - apply andb_true_iff in Ep as [Ep1 Ep2]. apply negb_true_iff, Z.eqb_neq in Ep1. apply is_better_or_eq_o in Ep2.
        destruct (Nat.lt_ge_cases i p) as [Hip|Hip].
        { destruct (get_earliest_transport _ _ _ _ _ _ _); [destruct (_ || _)|]; cbn; split; auto; lia. }
        assert (Hcb : o prev_time <= o (B v day i)).
        { destruct (Nat.eq_dec i p) as [->|]; [exact Hcatch|]. destruct (Het1 ltac:(lia)) as (x & w & E & Hx & Hrw & Hq).
          unfold et_time in Ep2. rewrite E in Ep2. destruct x as [x d]. cbn [fst snd] in *. rewrite (tas x w d i _ Hx Hi) in Ep2.
          destruct (Hq i ltac:(lia)) as [Hb _].
          assert (o (clamp16 (event_time P w d (six i) (board_ev P))) <= o (B v day i)); [|lia].
          apply clamp_le; [apply B_low; lia|exact Hb]. }
        destruct (get_at i ltac:(lia) Eb Ep1 Hcb) as (x & w & e & E & Hx & Hrw & Hb).
        fold prev_time in E. rewrite E.
        destruct ((_ =? kInvalid) || is_better_or_eq P (time_at_stop P r (x, e) (six i) (board_ev P)) et_time) eqn:Ea; cbn.
        + split; auto. intros _. exists (x, e), w. cbn [fst snd]. repeat split; auto; apply Hrw.
        + split; auto. intros _. apply orb_false_iff in Ea as [_ Ea]. apply is_better_or_eq_o_false in Ea.
          rewrite (tas x w e i _ Hx Hi) in Ea.
          assert (Hrg : o (clamp16 (event_time P w e (six i) (board_ev P))) <= OI) by apply clamp_range.
          destruct (Hetb _ Ea Hrg) as (x0 & w0 & E0 & Hx0 & Hrw0 & Hlt0).
          exists x0, w0. split; [auto|]. split; [auto|]. split; [apply Hrw0|]. left.
          assert (Hcl : o (clamp16 (event_time P w e (six i) (board_ev P))) <= o (B v day i)).
          { apply clamp_le; [apply B_low; lia|exact (proj1 Hb)]. }
          split; [lia|]. intros Heq. rewrite Heq in Hlt0. lia.
      - cbn. split; auto. intros Hip. destruct (Nat.eq_dec i p) as [->|]; [|apply Hkeep; lia].
        assert (Hprange : o prev_time <= OI) by apply (si_rt_range _ _ _ _ Hs).
        apply andb_false_iff in Ep as [Ep|Ep].
        { apply negb_false_iff, Z.eqb_eq in Ep. contradiction. }
        apply is_better_or_eq_o_false in Ep.
        destruct (Hetb _ Ep Hprange) as (x0 & w0 & E0 & Hx0 & Hrw0 & Hlt0).
        exists x0, w0. split; [auto|]. split; [auto|]. split; [apply Hrw0|]. left. unfold prev_time in *.
        split; [lia|]. intros Heq. rewrite Heq in Hlt0. lia.
    Qed.

    (** A real-time transport: the only vehicle is [v], the only day [day]. *)
    Lemma rt_achieves rday : r_rt r = Some rday ->
      let c := fold_left (pscan_rt_stop P W k r rday (s_rt s (k - 1)) (s_tad s k) (s_prev s)) (seq 0 n) (mk_scan None (s_tmp s) (s_mark s) false) in
      o (sc_tmp c (loc p')) <= o (A v day p') /\ sc_mark c (loc p') = true.
    Proof.
      intros Hrt. cbn zeta. destruct (proj2 Hwf _ _ _ Hr Hrt) as (Hday & w & Ew & Hdays).
      assert (E0 : vi = 0%nat /\ v = w).
      { rewrite Ew in Hv. destruct vi as [|[|]]; cbn in Hv; [injection Hv as <-; auto|discriminate|discriminate]. }
      destruct E0 as [E0 E0w]. assert (Ed : day = rday).
      { destruct Hrun as [_ Hd]. rewrite E0w, Hdays in Hd. now apply Z.eqb_eq in Hd. }
      assert (Hv0 : nth_error (r_vehicles r) 0 = Some v) by (rewrite E0 in Hv; exact Hv).
      rewrite <- Ed. clear Hdays Ew.
      set (f := pscan_rt_stop P W k r day (s_rt s (k - 1)) (s_tad s k) (s_prev s)).
      set (JR := fun (i : nat) (c : scan) =>
        ((i <= p')%nat -> sc_break c = false) /\ ((p < i <= p')%nat -> sc_et c = Some (0%nat, day)) /\
        ((p' < i)%nat -> o (sc_tmp c (loc p')) <= o (A v day p') /\ sc_mark c (loc p') = true)).
      assert (HJ : JR n (fold_left f (seq 0 n) (mk_scan None (s_tmp s) (s_mark s) false))); [|apply HJ; lia].
      apply (fold_left_seq_inv f JR).
      { split; [|split]; cbn; auto; lia. }
      intros i c Hi (Hbr & Het & Hdone).
      destruct (scan_rt_stop_mono k r day (s_rt s (k - 1)) (s_tad s k) (s_prev s) c i) as [Hmt Hmm]. fold f in Hmt, Hmm.
      destruct (Nat.lt_ge_cases p' i) as [Hgt|Hle].
      { split; [lia|]. split; [lia|]. intros _. destruct (Hdone Hgt) as [H1 H2]. split; auto. specialize (Hmt (loc p')). lia. }
      specialize (Hbr Hle). clear Hdone Hmt Hmm.
      unfold f, pscan_rt_stop. rewrite Hbr.
      set (et := if negb (Nat.eqb i 0) && negb (section_ok P r (section_before P r i)) then None else sc_et c).
      assert (Het1 : (p < i)%nat -> et = Some (0%nat, day)).
      { intros Hpi. unfold et. rewrite (Hsec i ltac:(lia)), andb_false_r. apply Het. lia. }
      match goal with |- context [match ?m with (_, _) => _ end] => destruct m as [tmp mark] eqn:Eal end.
      assert (Hal : i = p' -> o (tmp (loc p')) <= o (A v day p') /\ mark (loc p') = true).
      { intros ->. rewrite (Het1 ltac:(lia)) in Eal. rewrite can_finish_off, Hoff in Eal.
        rewrite (tas 0%nat v day p' (alight_ev P) Hv0 ltac:(lia)) in Eal.
        set (by_ := clamp16 (event_time P v day (six p') (alight_ev P))) in *.
        assert (Hby : o by_ <= o (A v day p')). { unfold by_. apply clamp_le; [apply A_low|apply Z.le_refl]. }
        destruct rel_p' as [Hlr Hlb]. pose proof (lb_nonneg _ _ HD (loc p')). unfold rel in Hrel.
        rewrite Hlr in Eal. destruct (Nat.eqb_spec p' 0) as [|_]; [lia|].
        rewrite (HWW _ _ _ (HWt _ _ _ _ Hby HW)) in Eal.
        rewrite (proj2 (is_better_or_eq_o P by_ (s_tad s k)) ltac:(lia)) in Eal.
        rewrite (proj2 (is_better_or_eq_o P (by_ + dir P (p_lb P (loc p'))) (s_tad s k)) ltac:(rewrite o_dir; lia)) in Eal.
        cbn [negb andb] in Eal. injection Eal as <- <-. rewrite !upd_eq, o_get_best. split; auto. lia. }
      destruct (Nat.eq_dec i p') as [Eip|Hne].
      { specialize (Hal Eip). split; [lia|]. split; [lia|]. intros _.
        destruct (negb (lb_reachable P _)); [exact Hal|]. destruct (_ || _ || _); [exact Hal|].
        destruct (is_better_or_eq P _ _); exact Hal. }
      clear Hal Eal. assert (Hlt : (i < p')%nat) by lia.
      assert (Hreach : lb_reachable P (loc i) = true).
      { destruct (lb_reachable P (loc i)) eqn:E; auto. exfalso. unfold lb_reachable in E. apply negb_false_iff, Z.eqb_eq in E.
        assert (Hu := proj2 HStreach ri r rday (six i) (six p') _ _ Hr Hrt (stop_at_nth r (six i) (six_lt i ltac:(lia)))
                       (stop_at_nth r (six p') (six_lt p' ltac:(lia))) (six_inj_order i p' ltac:(lia)) E Hoff).
        destruct rel_p' as [Hx _]. unfold lb_reachable in Hx. unfold loc_at in Hx. rewrite Hu in Hx. discriminate. }
      rewrite Hreach. cbn [negb].
      destruct (Nat.eqb i (n - 1) || negb (can_start fwd (is_wheelchair P) (stop_at r (six i))) || negb (s_prev s (loc i))) eqn:Eb.
      { split; [reflexivity|]. split; [|lia]. intros Hpi. cbn [sc_et]. apply Het1.
        destruct (Nat.eq_dec i p) as [->|]; [|lia]. exfalso.
        rewrite can_start_on, Hon, Hprev in Eb. destruct (Nat.eqb_spec p (n - 1)); [lia|discriminate]. }
      destruct (is_better_or_eq P (s_rt s (k - 1) (loc i)) _) eqn:Ep.
      { split; [reflexivity|]. split; [reflexivity|lia]. }
      split; [reflexivity|]. split; [|lia]. intros Hpi. cbn [sc_et]. apply Het1.
      destruct (Nat.eq_dec i p) as [->|]; [|lia]. exfalso. apply is_better_or_eq_o_false in Ep.
      rewrite (tas 0%nat v day p (board_ev P) Hv0 Hi) in Ep.
      change (event_time P v day (six p) (board_ev P)) with (B v day p) in Ep. rewrite o_clamp in Ep.
      pose proof (si_rt_range _ _ _ _ Hs (k - 1)%nat (loc p)). lia.
    Qed.

    Lemma update_route_achieves :
      let s' := pupdate_route P W k ri r s in
      o (s_tmp s' (loc p')) <= o (A v day p') /\ s_mark s' (loc p') = true.
    Proof.
      cbn zeta. unfold pupdate_route. cbn [s_tmp s_mark]. destruct (r_rt r) as [rday|] eqn:Ert; [exact (rt_achieves rday Ert)|].
      assert (HJ : J n (fold_left step (seq 0 n) (mk_scan None (s_tmp s) (s_mark s) false))).
      { apply (fold_left_seq_inv step J).
        - split; [|split; [|split]]; cbn; auto; try lia. split; [discriminate|]. split; [apply Hs|apply Hs].
        - intros i c Hi. now apply J_step. }
      apply HJ. lia.
    Qed.
  End Scan.

  (** *** All routes of a round *)
  Lemma pos_of r q : (q < length (r_stops r))%nat -> exists p, (p < length (r_stops r))%nat /\ stop_idx_of P r p = q.
  Proof.
    intros Hq. unfold stop_idx_of. destruct fwd; [exists q; auto|]. exists (length (r_stops r) - 1 - q)%nat. lia.
  Qed.
  Lemma update_route_frame k ri r s :
    let s' := pupdate_route P W k ri r s in
    s_rt s' = s_rt s /\ s_best s' = s_best s /\ s_tad s' = s_tad s /\ s_prev s' = s_prev s /\
    (forall l, o (s_tmp s' l) <= o (s_tmp s l)) /\ (forall l, s_mark s l = true -> s_mark s' l = true).
  Proof.
    cbn zeta. unfold pupdate_route. cbn [s_rt s_best s_tad s_prev s_tmp s_mark].
    do 4 (split; [reflexivity|]).
    apply (fold_left_inv _ (fun c => (forall l, o (sc_tmp c l) <= o (s_tmp s l)) /\ (forall l, s_mark s l = true -> sc_mark c l = true))).
    - cbn. split; auto. intros; lia.
    - intros c i _ [H1 H2]. destruct (r_rt r) as [day|].
      { destruct (scan_rt_stop_mono k r day (s_rt s (k - 1)) (s_tad s k) (s_prev s) c i) as [M1 M2].
        split; auto. intros l. specialize (M1 l). specialize (H1 l). lia. }
      destruct (scan_stop_mono k ri r (s_best s) (s_rt s (k - 1)) (s_tad s k) (s_prev s) c i) as [M1 M2].
      split; auto. intros l. specialize (M1 l). specialize (H1 l). lia.
  Qed.
  Definition route_step (k : nat) (rm : nat -> bool) (s : state) (ri : nat) : state :=
    match nth_error (tt_routes tt) ri with
    | Some r => if rm ri && route_allowed P r then pupdate_route P W k ri r s else s
    | None => s
    end.
  Lemma route_step_frame k rm s ri :
    let s' := route_step k rm s ri in
    s_rt s' = s_rt s /\ s_best s' = s_best s /\ s_tad s' = s_tad s /\ s_prev s' = s_prev s /\
    (forall l, o (s_tmp s' l) <= o (s_tmp s l)) /\ (forall l, s_mark s l = true -> s_mark s' l = true).
  Proof.
    cbn zeta. unfold route_step. destruct (nth_error (tt_routes tt) ri) as [r|].
    - destruct (rm ri && route_allowed P r); [apply update_route_frame|repeat split; auto; intros; lia].
    - repeat split; auto; intros; lia.
  Qed.
  Lemma route_fold_frame k rm l s :
    let s' := fold_left (route_step k rm) l s in
    s_rt s' = s_rt s /\ s_best s' = s_best s /\ s_tad s' = s_tad s /\ s_prev s' = s_prev s /\
    (forall l, o (s_tmp s' l) <= o (s_tmp s l)) /\ (forall l, s_mark s l = true -> s_mark s' l = true).
  Proof.
    cbn zeta. revert s; induction l as [|ri l IH]; intros s; simpl.
    - repeat split; auto; intros; lia.
    - destruct (IH (route_step k rm s ri)) as (I1 & I2 & I3 & I4 & I5 & I6).
      destruct (route_step_frame k rm s ri) as (F1 & F2 & F3 & F4 & F5 & F6).
      repeat split; try congruence; auto. intros l0. specialize (I5 l0). specialize (F5 l0). lia.
  Qed.
  Lemma route_step_sinv k rm s ri : (1 <= k)%nat -> sinv k s -> sinv k (route_step k rm s ri).
  Proof.
    intros Hk Hs. unfold route_step. destruct (nth_error (tt_routes tt) ri) as [r|] eqn:E; auto.
    destruct (rm ri && route_allowed P r) eqn:Ea; auto. apply andb_true_iff in Ea as [_ Ea].
    apply update_route_sinv; auto; exact HStL.
  Qed.
  Lemma route_fold_sinv k rm l s : (1 <= k)%nat -> sinv k s -> sinv k (fold_left (route_step k rm) l s).
  Proof. intros Hk Hs. apply fold_left_inv; auto. intros. now apply route_step_sinv. Qed.

  Lemma loop_routes_achieves k rm s l tb l' ta :
    (1 <= k)%nat -> sinv k s -> s_prev s l = true ->
    (forall ri, In ri (tt_location_routes tt l) -> rm ri = true) ->
    (forall l, s_prev s l = true -> lb_reachable P l = true \/ exists t, St l t) ->
    ride_ok P l tb l' ta -> s_rt s (k - 1) l <> kInvalid -> o (s_rt s (k - 1) l) <= o tb ->
    rel l' ta -> W0 k l' ta = true -> o a <= o (s_tad s k) ->
    let s' := ploop_routes P W k rm s in o (s_tmp s' l') <= o ta /\ s_mark s' l' = true.
  Proof.
    intros Hk Hs Hprev Hrm Hpok Hride Hne Hle Hrel HW Htad. cbn zeta.
    destruct Hride as [ri r vi v day s1 s2 st st' Hr Hv Hrun Hs1 Hs2 Hlt El El' Hon Hoff Hcl Hsec Etb Eta].
    change (ploop_routes P W k rm s) with (fold_left (route_step k rm) (seq 0 (length (tt_routes tt))) s).
    assert (Hri : (ri < length (tt_routes tt))%nat) by (apply nth_error_Some; congruence).
    assert (Hin : In ri (seq 0 (length (tt_routes tt)))) by (apply in_seq; lia).
    apply in_split in Hin as (la & lb & ->). rewrite fold_left_app. simpl.
    destruct (route_fold_frame k rm la s) as (F1 & F2 & F3 & F4 & _ & _).
    assert (Hs' := route_fold_sinv k rm la s Hk Hs).
    set (sa := fold_left (route_step k rm) la s) in *.
    destruct (route_fold_frame k rm lb (route_step k rm sa ri)) as (_ & _ & _ & _ & G5 & G6).
    assert (Hl1 : (s1 < length (r_stops r))%nat) by (apply nth_error_Some; congruence).
    assert (Hl2 : (s2 < length (r_stops r))%nat) by (apply nth_error_Some; congruence).
    destruct (pos_of r s1 Hl1) as (p & Hp & Ep). destruct (pos_of r s2 Hl2) as (p' & Hp' & Ep').
    assert (Hpp : (p < p')%nat).
    { unfold stop_idx_of in Ep, Ep'. destruct fwd; lia. }
    assert (Est : stop_at r s1 = st). { pose proof (stop_at_nth r s1 Hl1). congruence. }
    assert (Est' : stop_at r s2 = st'). { pose proof (stop_at_nth r s2 Hl2). congruence. }
    assert (Hra : route_allowed P r = true).
    { unfold route_allowed. rewrite Hcl. cbn [andb]. apply forallb_forall. intros f Hf.
      destruct (p_require P f) eqn:Ef; [|reflexivity]. cbn [negb orb].
      assert (f < 4)%nat by (simpl in Hf; intuition lia).
      destruct (Hsec f (Nat.min s1 s2)) as [Hx|[Hx _]]; auto.
      - destruct fwd; lia.
      - rewrite Hx. reflexivity.
      - rewrite Hx. apply orb_true_r. }
    assert (Hri_in : In ri (tt_location_routes tt l)).
    { destruct Hidx as (Hl & _). rewrite <- El. eapply Hl; eauto using nth_error_In. }
    assert (Hach : o (s_tmp (route_step k rm sa ri) l') <= o ta /\ s_mark (route_step k rm sa ri) l' = true).
    { unfold route_step. rewrite Hr, (Hrm ri Hri_in), Hra. cbn [andb].
      assert (Eloc : loc_at r (stop_idx_of P r p) = l) by (unfold loc_at; rewrite Ep, Est; auto).
      assert (Eloc' : loc_at r (stop_idx_of P r p') = l') by (unfold loc_at; rewrite Ep', Est'; auto).
      rewrite <- Eloc', Eta.
      change (event_time P v day s2 (if fwd then kArr else kDep)) with (at_ P v day s2). rewrite <- Ep'.
      apply (update_route_achieves k ri r vi v day p p' sa); auto.
      - rewrite Ep, Est. auto.
      - rewrite Ep', Est'. auto.
      - intros q Hq. unfold section_ok. apply forallb_forall. intros f Hf. unfold section_filter.
        destruct (p_require P f) eqn:Ef; [|reflexivity]. cbn [andb].
        destruct (r_flag_all r f) eqn:Eall; [reflexivity|]. cbn [negb orb].
        assert (f < 4)%nat by (simpl in Hf; intuition lia).
        destruct (Hsec f (section_before P r q)) as [Hx|[_ Hx]]; auto; [|congruence].
        unfold section_before, stop_idx_of in *. destruct fwd; lia.
      - rewrite F4, Eloc. auto.
      - rewrite F1, Eloc. auto.
      - rewrite F1, Eloc. rewrite Ep. rewrite Etb in Hle. exact Hle.
      - rewrite Eloc', Ep'. rewrite Eta in Hrel. exact Hrel.
      - rewrite Eloc', Ep'. rewrite Eta in HW. exact HW.
      - rewrite F3. auto.
      - rewrite F4. auto. }
    destruct Hach as [Ha1 Ha2]. split; auto. specialize (G5 l'). lia.
  Qed.

  (** *** Rounds *)
  Record rinv (k : nat) (s : state) : Prop := mk_rinv {
    ri_s : sinv k s;
    ri_best : forall l, exists j, (j <= k)%nat /\ o (s_rt s j l) <= o (s_best s l);
    ri_tad : nd s -> forall i, (i <= K)%nat -> o a <= o (s_tad s i);
    ri_mark : forall l, s_mark s l = true -> lb_reachable P l = true \/ exists t, St l t }.

  Lemma dest_lt l : p_is_dest P l = true -> (l < n_loc)%nat.
  Proof. destruct Hloc as (_ & _ & Hd). auto. Qed.

  Lemma merge_tad (best : nat -> Z) k l tad i :
    let tad' := fold_left (fun tad i => if p_is_dest P i then update_time_at_dest P tad k (best i) else tad) l tad in
    o (tad' i) <= o (tad i) /\
    (forall i0, In i0 l -> p_is_dest P i0 = true -> (k <= i)%nat -> o (tad' i) <= o (best i0)) /\
    (forall x, x <= o (tad i) -> ((k <= i)%nat -> forall i0, p_is_dest P i0 = true -> x <= o (best i0)) -> x <= o (tad' i)).
  Proof.
    cbn zeta. revert tad; induction l as [|i1 l IH]; intros tad; simpl; [split; [lia|split; [tauto|auto]]|].
    set (tad1 := if p_is_dest P i1 then update_time_at_dest P tad k (best i1) else tad).
    assert (E1 : o (tad1 i) <= o (tad i)).
    { unfold tad1. destruct (p_is_dest P i1); [apply tad_upd_le|lia]. }
    destruct (IH tad1) as (I1 & I2 & I3). split; [lia|]. split.
    - intros i0 [<-|Hin] Hd Hk; [|auto].
      assert (o (tad1 i) <= o (best i1)); [|lia].
      unfold tad1. rewrite Hd, tad_upd. destruct (Nat.leb_spec k i); lia.
    - intros x Hx Hb. apply I3; auto. unfold tad1. destruct (p_is_dest P i1) eqn:Ed; auto.
      rewrite tad_upd. destruct (Nat.leb_spec k i); auto. specialize (Hb ltac:(lia) i1 Ed). lia.
  Qed.

  Lemma merge_best_pinv k s : rinv k s -> pinv k (merge_best P k s).
  Proof.
    intros [Hs Hb Ht Hm]. assert (Hs' := merge_best_sinv P St k s Hs).
    unfold merge_best in *. split; cbn [s_rt s_best s_tad] in *; auto.
    - intros l. destruct (Nat.ltb_spec l n_loc); auto. rewrite o_get_best.
      destruct (Hb l) as (j & Hj & Hle). destruct (Z.le_gt_cases (o (s_rt s k l)) (o (s_best s l))).
      + exists k. split; auto. lia.
      + exists j. split; auto. lia.
    - intros l Hl _. rewrite (proj2 (Nat.ltb_lt _ _) Hl), o_get_best. lia.
    - intros Hnd i Hi. apply merge_tad.
      + apply Ht; auto.
      + intros Hki l Hl. rewrite (proj2 (Nat.ltb_lt _ _) (dest_lt l Hl)), o_get_best.
        destruct (Hb l) as (j & Hj & Hle).
        assert (X1 := Hnd j l ltac:(lia) Hl). assert (X2 := Hnd k l ltac:(lia) Hl). cbn [s_rt] in X1, X2. lia.
    - intros Him. destruct (Hend Him) as (Hd & _). assert (Hed : p_is_dest P (p_end P) = true) by now apply Hd.
      match goal with |- o (fold_left _ _ _ k) <= _ => idtac end.
      destruct (merge_tad (fun i => if Nat.ltb i n_loc then get_best P (s_rt s k i) (s_best s i) else s_best s i) k (seq 0 n_loc) (s_tad s) k) as (_ & M2 & _).
      specialize (M2 (p_end P) ltac:(apply in_seq0; now apply dest_lt) Hed ltac:(lia)).
      rewrite (proj2 (Nat.ltb_lt _ _) (dest_lt _ Hed)), o_get_best in M2. lia.
  Qed.

  Definition Cl (s : state) (j l : nat) : Prop :=
    forall tb l' ta l'' t'', ride_ok P l tb l' ta -> s_rt s j l <> kInvalid -> o (s_rt s j l) <= o tb ->
      W0 (S j) l' ta = true -> succ l' ta l'' t'' -> wok (S j) l'' t'' -> rel l'' t'' -> reached (S j) s l'' t''.
  Definition CL (k : nat) (s : state) : Prop :=
    nd s -> forall j l, (j < K)%nat -> (S j <> k \/ s_mark s l = false) -> Cl s j l.
  Definition CLall (s : state) : Prop := nd s -> forall j l, (j < K)%nat -> Cl s j l.

  Lemma ride_rel l tb l' ta : ride_ok P l tb l' ta -> rel l' ta -> rel l tb.
  Proof.
    intros [ri r vi v day s1 s2 st st' Hr Hv Hrun Hs1 Hs2 Hlt <- <- Hon Hoff Hcl Hsec -> ->] Hrel.
    assert (HDr := lb_ride _ _ HD ri r v s1 s2 st st' Hr (nth_error_In _ _ Hv) Hs1 Hs2 Hlt Hon Hoff).
    assert (Hfl : has_required_flags P r).
    { intros f Hf Hreq. destruct (Hsec f (Nat.min s1 s2) Hf Hreq) as [H1|[H1 _]]; auto.
      destruct fwd; lia. }
    specialize (HDr Hfl).
    assert (Hord : o (bt P v day s1) <= o (at_ P v day s2)).
    { eapply event_order; eauto using nth_error_In; apply nth_error_Some; congruence. }
    unfold rel in *. unfold bt, at_, event_time, Raptor_Base.o, event_minutes in *. destruct fwd; lia.
  Qed.
  Lemma Cl_improves s s' j l : s_rt s' j l = s_rt s j l -> improves s s' -> Cl s j l -> Cl s' j l.
  Proof.
    intros E Hi HC tb l' ta l'' t'' Hride Hne Hle HW Hsucc Hwok Hrel. rewrite E in *.
    eapply reached_improves; eauto.
  Qed.
  Lemma ride_loc l tb l' ta : ride_ok P l tb l' ta ->
    (exists ri, In ri (tt_location_routes tt l)) /\ (l < n_loc)%nat /\ (l' < n_loc)%nat /\ (intermodal -> l <> p_end P) /\ (intermodal -> l' <> p_end P).
  Proof.
    intros [ri r vi v day s1 s2 st st' Hr Hv Hrun Hs1 Hs2 Hlt <- <- Hon Hoff Hcl Hsec -> ->].
    apply nth_error_In in Hs1, Hs2. destruct Hidx as (Hi & _). destruct Hloc as (Hl & _).
    split; [exists ri; eapply Hi; eauto|]. split; [eapply Hl; eauto|]. split; [eapply Hl; eauto|].
    split; intros Him; destruct (Hend Him) as (_ & Hne & _); eapply Hne; eauto.
  Qed.

  Lemma round_inv k s s' go :
    (1 <= k)%nat -> rinv k s -> pround P W k s = (s', go) ->
    improves s s' /\ (forall j l, j <> k -> s_rt s' j l = s_rt s j l) /\
    (go = true -> rinv (S k) s') /\
    (go = false -> (forall j l, s_rt s' j l = s_rt s j l) /\ rinv k s') /\
    ((k <= K)%nat -> CL k s -> if go then CL (S k) s' else CLall s').
  Proof.
    intros Hk Hinv. assert (Hp1 := merge_best_pinv k s Hinv). unfold pround.
    set (s1 := merge_best P k s) in *.
    assert (Ert1 : s_rt s1 = s_rt s) by reflexivity.
    assert (Emk1 : s_mark s1 = s_mark s) by reflexivity.
    destruct (negb (any_marked P s1)) eqn:Eany.
    - intros [= <- <-]. split; [intros j l; rewrite Ert1; lia|]. split; [auto|]. split; [discriminate|]. split.
      + intros _. split; auto. destruct Hp1 as [X1 X2 X3 X4 X5]. split; auto. apply Hinv.
      + intros HkK HC Hnd j l Hj. apply negb_true_iff in Eany.
        destruct (Nat.eq_dec (S j) k) as [Ej|]; [|apply (HC Hnd); auto].
        destruct (s_mark s l) eqn:Em; [|apply (HC Hnd); auto].
        intros tb l' ta l'' t'' Hride _ _ _ _ _ _. exfalso.
        destruct (ride_loc _ _ _ _ Hride) as ((ri & Hri) & Hl & _ & _ & _).
        assert (Hx : any_marked P s1 = true); [|congruence].
        unfold any_marked. apply existsb_exists. exists l. split; [now apply in_seq0|].
        rewrite Emk1, Em. cbn [andb]. destruct (tt_location_routes tt l); [destruct Hri|reflexivity].
    - set (rm := route_marks P s1).
      set (s2 := mk_state (s_tmp s1) (s_best s1) (s_rt s1) (s_tad s1) (fun _ => false) (s_mark s1)).
      set (s3 := ploop_routes P W k rm s2).
      set (s4 := mk_state (s_tmp s3) (s_best s3) (s_rt s3) (s_tad s3) (fun _ => false) (s_mark s3)).
      intros [= <- <-]. fold (transfer_phases k s4). set (s5 := transfer_phases k s4).
      assert (Hs2 : sinv k s2) by (apply marks_sinv; apply Hp1).
      destruct (route_fold_frame k rm (seq 0 (length (tt_routes tt))) s2) as (F1 & F2 & F3 & F4 & _ & _).
      change (fold_left (route_step k rm) (seq 0 (length (tt_routes tt))) s2) with s3 in F1, F2, F3, F4.
      assert (Hs3 : sinv k s3) by (apply (route_fold_sinv k rm (seq 0 (length (tt_routes tt))) s2 Hk Hs2)).
      assert (Hp4 : pinv k s4).
      { assert (Hs4 : sinv k s4) by (apply marks_sinv; exact Hs3).
        destruct Hp1 as [X1 X2 X3 X4 X5]. split; [exact Hs4| | | |]; unfold s4, nd; cbn [s_rt s_best s_tad]; rewrite ?F1, ?F2, ?F3; auto. }
      assert (Hph := transfer_phases_phase k s4 Hp4). fold s5 in Hph.
      assert (Ert4 : s_rt s4 = s_rt s) by (unfold s4; cbn [s_rt]; rewrite F1; reflexivity).
      assert (Himp : improves s s5).
      { intros j l. pose proof (ph_imp _ _ _ Hph j l) as X. rewrite Ert4 in X. exact X. }
      assert (Hfr : forall j l, j <> k -> s_rt s5 j l = s_rt s j l).
      { intros j l Hj. rewrite (ph_rt _ _ _ Hph j l Hj), Ert4. reflexivity. }
      split; [exact Himp|]. split; [exact Hfr|]. split; [|split; [discriminate|]].
      + intros _. destruct (ph_inv _ _ _ Hph) as [X1 X2 X3 X4 X5]. split; auto.
        * apply sinv_weaken with k; auto.
        * intros l. destruct (X2 l) as (j & Hj & Hle). exists j. split; auto.
        * intros l Hm. destruct (ph_mark_new _ _ _ Hph l Hm) as [Hx|Hx]; auto. unfold s4 in Hx. cbn in Hx. discriminate.
      + intros HkK HC Hnd j l Hj Hc.
        assert (Hnd0 : nd s) by (eapply nd_back; eauto).
        destruct (Nat.eq_dec (S j) k) as [Ej|Hjk].
        * destruct (s_mark s l) eqn:Em.
          -- (* marked: the routes at l are scanned in this round *)
             intros tb l' ta l'' t'' Hride Hne Hle HW Hsucc Hwok Hrel.
             rewrite (Hfr j l ltac:(lia)) in Hne, Hle.
             assert (Ekj : (k - 1 = j)%nat) by lia.
             assert (Hrel' : rel l' ta) by (eapply succ_rel; eauto).
             destruct (ride_loc _ _ _ _ Hride) as (_ & Hll & Hll' & _ & Hie').
             assert (Hlow : H <= o ta).
             { destruct (si_rt _ _ _ _ (ri_s _ _ Hinv) _ _ Hne) as (i & _ & HL). apply label_lower in HL.
               apply ride_ok_order in Hride; auto. lia. }
             assert (Hach : o (s_tmp s3 l') <= o ta /\ s_mark s3 l' = true).
             { apply (loop_routes_achieves k rm s2 l tb l' ta); auto.
               - intros ri Hri. unfold rm, route_marks. apply existsb_exists. exists l. split; [now apply in_seq0|].
                 rewrite Emk1, Em. cbn [andb]. apply existsb_exists. exists ri. split; auto. apply Nat.eqb_refl.
               - intros l0 Hl0. apply (ri_mark _ _ Hinv). exact Hl0.
               - rewrite Ekj. exact Hne.
               - rewrite Ekj. exact Hle.
               - rewrite <- Ej. exact HW.
               - apply (pi_tad _ _ Hp1 Hnd0 k HkK). }
             destruct Hach as [Ht3 Hm3].
             rewrite Ej in *. apply (transfer_phases_achieve k s4 l' ta l'' t''); auto.
          -- apply Cl_improves with s; [apply Hfr; lia|exact Himp|]. apply (HC Hnd0); auto.
        * destruct (Nat.eq_dec j k) as [->|Hjk'].
          -- destruct Hc as [Hc|Hm]; [lia|].
             destruct (Z.eq_dec (s_rt s5 k l) (s_rt s k l)) as [E|E].
             ++ apply Cl_improves with s; [exact E|exact Himp|]. apply (HC Hnd0); auto.
             ++ intros tb l' ta l'' t'' Hride. exfalso. destruct (ride_loc _ _ _ _ Hride) as (_ & _ & _ & Hle & _).
                assert (Hx : s_mark s5 l = true); [|congruence].
                apply (ph_changed _ _ _ Hph); auto. rewrite Ert4. exact E.
          -- apply Cl_improves with s; [apply Hfr; auto|exact Himp|]. apply (HC Hnd0); auto.
  Qed.

  Lemma rounds_inv n k s :
    (1 <= k)%nat -> rinv k s -> (if Nat.leb k K then CL k s /\ (K < k + n)%nat else CLall s) ->
    let s' := prounds P W n k s in
    CLall s' /\ (exists k', rinv k' s') /\ improves s s' /\ (forall j l, (j < k)%nat -> s_rt s' j l = s_rt s j l).
  Proof.
    revert k s; induction n as [|n IH]; intros k s Hk Hinv HC; simpl.
    - assert (HA : CLall s) by (destruct (Nat.leb_spec k K); [lia|auto]).
      split; [auto|split; [eauto|split; [apply improves_refl|auto]]].
    - destruct (pround P W k s) as [s' go] eqn:Er.
      destruct (round_inv k s s' go Hk Hinv Er) as (R1 & R2 & R3 & R4 & R5).
      assert (HCpass : (K < k)%nat -> CLall s -> CLall s').
      { intros HkK HA Hnd j l Hj. apply Cl_improves with s; [apply R2; lia|exact R1|].
        apply HA; auto. eapply nd_back; eauto. }
      destruct go.
      + specialize (R3 eq_refl).
        assert (HC' : if Nat.leb (S k) K then CL (S k) s' /\ (K < S k + n)%nat else CLall s').
        { destruct (Nat.leb_spec k K) as [Hle|Hgt].
          - destruct HC as [HC HkK]. specialize (R5 Hle HC).
            destruct (Nat.leb_spec (S k) K); [split; auto; lia|].
            intros Hnd j l Hj. apply (R5 Hnd); auto. lia.
          - destruct (Nat.leb_spec (S k) K); [lia|]. auto. }
        destruct (IH (S k) s' ltac:(lia) R3 HC') as (I1 & I2 & I3 & I4).
        split; auto. split; auto. split; [eapply improves_trans; eauto|].
        intros j l Hj. rewrite I4 by lia. apply R2. lia.
      + destruct (R4 eq_refl) as [R4a R4b].
        split; [|split; [eauto|split; auto]].
        destruct (Nat.leb_spec k K) as [Hle|Hgt]; [|auto]. destruct HC as [HC _]. apply (R5 Hle HC).
  Qed.

  (** *** One start time *)
  Record ginv (s : state) : Prop := mk_ginv {
    gi_s : exists k, sinv k s;
    gi_tad : nd s -> forall i, (i <= K)%nat -> o a <= o (s_tad s i);
    gi_cl : CLall s }.

  Lemma reset_ginv : ginv (reset_arrivals P).
  Proof.
    split.
    - exists 0%nat. apply reset_sinv.
    - intros _ i _. cbn. rewrite o_kInvalid. lia.
    - intros _ j l _ tb l' ta l'' t'' _ Hne. cbn in Hne. congruence.
  Qed.

  Lemma add_starts_spec starts s :
    let s' := fold_left (add_start P) starts s in
    s_tmp s' = s_tmp s /\ s_tad s' = s_tad s /\
    (forall j l, (0 < j)%nat -> s_rt s' j l = s_rt s j l) /\
    improves s s' /\
    (forall l t, In (l, t) starts -> o (s_rt s' 0%nat l) <= o t) /\
    (forall l, s_rt s' 0%nat l <> s_rt s 0%nat l -> s_mark s' l = true) /\
    (forall l, s_mark s l = true -> s_mark s' l = true) /\
    (forall l, s_mark s' l = true -> s_mark s l = true \/ exists t, In (l, t) starts) /\
    ((forall l, o (s_rt s 0%nat l) <= o (s_best s l)) -> forall l, o (s_rt s' 0%nat l) <= o (s_best s' l)).
  Proof.
    cbn zeta. revert s; induction starts as [|[l0 t0] starts IH]; intros s; cbn [fold_left].
    - repeat split; auto; try apply improves_refl; try tauto. simpl; tauto.
    - destruct (IH (add_start P s (l0, t0))) as (I1 & I2 & I3 & I4 & I5 & I6 & I7 & I8 & I9).
      set (sf := fold_left (add_start P) starts (add_start P s (l0, t0))) in *.
      assert (A0 : forall l, s_rt (add_start P s (l0, t0)) 0%nat l = upd (s_rt s 0%nat) l0 (get_best P t0 (s_rt s 0%nat l0)) l) by reflexivity.
      assert (Aj : forall j l, (0 < j)%nat -> s_rt (add_start P s (l0, t0)) j l = s_rt s j l).
      { intros j l Hj. cbn. rewrite upd_neq by lia. reflexivity. }
      assert (Aimp : improves s (add_start P s (l0, t0))).
      { intros j l. destruct (Nat.eq_dec j 0) as [->|]; [|rewrite Aj by lia; lia].
        rewrite A0. destruct (upd_cases (s_rt s 0%nat) l0 l (get_best P t0 (s_rt s 0%nat l0))) as [[<- ->]|[_ ->]]; [rewrite o_get_best|]; lia. }
      assert (Am : forall l, s_mark (add_start P s (l0, t0)) l = upd (s_mark s) l0 true l) by reflexivity.
      split; [rewrite I1; reflexivity|]. split; [rewrite I2; reflexivity|].
      split; [intros; rewrite I3, Aj; auto|]. split; [eapply improves_trans; eauto|].
      split; [|split; [|split; [|split]]].
      + intros l t [[= <- <-]|Hin]; [|auto]. specialize (I4 0%nat l0). rewrite A0, upd_eq, o_get_best in I4. lia.
      + intros l Hc. destruct (Z.eq_dec (s_rt sf 0%nat l) (s_rt (add_start P s (l0, t0)) 0%nat l)) as [E|E]; [|auto].
        apply I7. rewrite Am. rewrite E, A0 in Hc. unfold upd in *. destruct (Nat.eqb l0 l); auto.
      + intros l Hm. apply I7. rewrite Am. unfold upd. destruct (Nat.eqb l0 l); auto.
      + intros l Hm. destruct (I8 l Hm) as [Hx|(t & Ht)].
        * rewrite Am in Hx. destruct (upd_cases (s_mark s) l0 l true) as [[<- _]|[_ E]]; [right; exists t0; left; auto|].
          rewrite E in Hx. auto.
        * right. exists t. right; auto.
      + intros Hb. apply I9. intros l. rewrite A0. cbn [add_start s_best].
        unfold upd. destruct (Nat.eqb_spec l0 l); auto. subst. rewrite !o_get_best. specialize (Hb l). lia.
  Qed.

  Lemma run_group_ginv mt s g :
    (K < end_k mt)%nat -> o a <= o (g_worst g) ->
    (forall l t, In (l, t) (g_starts g) -> St l t /\ o t <= OI) ->
    ginv s ->
    let s' := prun_group P W mt s g in
    ginv s' /\ (forall l t, In (l, t) (g_starts g) -> o (s_rt s' 0%nat l) <= o t) /\ improves s s'.
  Proof.
    intros HK Hw Hst [(k0 & Hs) Ht HC]. cbn zeta. unfold prun_group.
    set (sn := next_start_time P s).
    assert (Hsn : sinv 1 sn).
    { destruct Hs as [X1 X2 X3 X4 X5]. unfold sn, next_start_time. split; cbn [s_rt s_tmp s_best]; auto.
      - intros. rewrite o_kInvalid. lia.
      - intros. rewrite o_kInvalid. lia.
      - congruence. }
    destruct (add_starts_spec (g_starts g) sn) as (A1 & A2 & A3 & A4 & A5 & A6 & A7 & A8 & A9).
    assert (Hsa : sinv 1 (fold_left (add_start P) (g_starts g) sn)).
    { apply fold_left_inv; auto. intros s' [l t] Hin Hs'. destruct (Hst l t Hin). apply add_start_sinv; auto. }
    set (sa := fold_left (add_start P) (g_starts g) sn) in *.
    set (sw := set_worst P (g_worst g) sa).
    assert (Hrw : s_rt sw = s_rt sa) by reflexivity.
    assert (Hwi : improves s sw). { intros j l. rewrite Hrw. exact (A4 j l). }
    assert (Hrinv : rinv 1 sw).
    { split.
      - destruct Hsa as [X1 X2 X3 X4 X5]. split; auto.
      - intros l. exists 0%nat. split; [lia|]. rewrite Hrw. apply A9. intros l0.
        unfold sn, next_start_time. cbn [s_rt s_best]. rewrite o_kInvalid. apply Hs.
      - intros Hnd i Hi. cbn. rewrite o_get_best. rewrite A2. cbn.
        assert (o a <= o (s_tad s i)); [|lia]. apply Ht; auto. eapply nd_back; eauto.
      - intros l Hm. right. destruct (A8 l Hm) as [Hx|(t & Hx)]; [discriminate|]. exists t. now apply Hst. }
    assert (HCL1 : CL 1 sw).
    { intros Hnd j l Hj Hc.
      assert (Hcl : Cl s j l) by (apply HC; auto; eapply nd_back; eauto).
      destruct (Nat.eq_dec j 0) as [->|].
      - destruct Hc as [Hc|Hm]; [lia|]. apply Cl_improves with s; auto. rewrite Hrw.
        destruct (Z.eq_dec (s_rt sa 0%nat l) (s_rt sn 0%nat l)) as [E|E]; auto.
        apply A6 in E. change (s_mark sa l = false) in Hm. congruence.
      - apply Cl_improves with s; auto. rewrite Hrw, A3 by lia. reflexivity. }
    destruct (rounds_inv (end_k mt - 1) 1 sw) as (I1 & (k' & I2) & I3 & I4); auto.
    { destruct (Nat.leb_spec 1 K); [split; auto; unfold end_k in *; lia|].
      intros Hnd j l Hj. lia. }
    split; [|split].
    - split; [exists k'; apply I2|apply I2|auto].
    - intros l t Hin. rewrite I4 by lia. rewrite Hrw. auto.
    - eapply improves_trans; eauto.
  Qed.

  (** *** Every connection within the bounds is matched *)
  Hypothesis HWk : forall k k' l t, (k <= k')%nat -> W0 k' l t = true -> W0 k l t = true.
  Lemma wok_earlier k k' l t : (k <= k')%nat -> wok k' l t -> wok k l t.
  Proof. intros Hk [H1|H1]; [now left|right]. eauto. Qed.
  (** After [k] rides at [l], ready to go on at [t], all labels on the way within the bounds. *)
  Inductive wready (St0 : nat -> Z -> Prop) : nat -> nat -> Z -> Prop :=
  | wready_start l t : St0 l t -> wready St0 0 l t
  | wready_step k l t tb l' ta l'' t'' :
      wready St0 k l t -> o t <= o tb -> ride_ok P l tb l' ta -> W0 (S k) l' ta = true ->
      succ l' ta l'' t'' -> wok (S k) l'' t'' -> wready St0 (S k) l'' t''.
  Lemma closed_reach s : CLall s -> nd s ->
    (forall St0 : nat -> Z -> Prop, (forall l t, St0 l t -> o (s_rt s 0%nat l) <= o t) ->
     forall k, (k <= K)%nat -> forall l t, wready St0 k l t -> rel l t -> reached k s l t).
  Proof.
    intros HC Hnd St0 H0.
    induction k as [|k IH]; intros HkK l t Hrd Hrel.
    - inversion Hrd as [l0 t0 Hst|]; subst. exists 0%nat. split; auto.
    - inversion Hrd as [|k1 l0 t0 tb l' ta l1 t1 Hr0 Hn Hride HW Hsucc Hwok]; subst.
      assert (Hrel' : rel l0 tb) by (eapply ride_rel; eauto; eapply succ_rel; eauto).
      destruct (IH ltac:(lia) l0 t0 Hr0) as (j & Hj & Hle). { unfold rel in *. lia. }
      assert (Hne : s_rt s j l0 <> kInvalid).
      { intros E. rewrite E, o_kInvalid in Hle. pose proof (lb_nonneg _ _ HD l0). unfold rel in Hrel'. lia. }
      destruct (HC Hnd j l0 ltac:(lia) tb l' ta l t Hride Hne ltac:(lia)) as (j' & Hj' & Hle'); auto.
      + apply (HWk (S j) (S k)); auto. lia.
      + apply (wok_earlier (S j) (S k)); auto. lia.
      + exists j'. split; auto. lia.
  Qed.
End Opt.
