(** From label invariants to statements about the reported journeys. *)
From Coq Require Import List ZArith Bool Arith Lia.
From Verif Require Import Base Pareto_Model Pareto_Proofs Time_Model Time_Proofs
  Raptor_Model Raptor_Spec Raptor_Base Raptor_Sound Raptor_Genuine Raptor_Opt.
Import ListNotations.
Local Open Scope Z_scope.

Section Final.
  Variable P : params.
  Notation fwd := (p_fwd P).
  Notation tt := (p_tt P).
  Notation o := (o P).
  Notation OI := (OI P).
  Notation OL := (OL P).
  Notation kInvalid := (kInvalid P).
  Notation n_loc := (tt_n_locations tt).
  Variable mt : nat.

  Definition after_groups (s : state) (gs : list group) : state := fold_left (run_group P mt) gs s.
  Fixpoint all_reported (s : state) (gs : list group) : list journey :=
    match gs with
    | [] => []
    | g :: gs' => reported P mt g (run_group P mt s g) ++ all_reported (run_group P mt s g) gs'
    end.
  Lemma run_groups_eq gs : forall s res,
    run_groups P mt s res gs =
    (after_groups s gs, fold_left (fun rs j => fst (add journey journey_dominates rs j)) (all_reported s gs) res).
  Proof.
    induction gs as [|g gs IH]; intros s res; cbn [run_groups all_reported after_groups fold_left]; auto.
    rewrite IH, fold_left_app. reflexivity.
  Qed.
  Lemma raptor_results gs : snd (raptor P mt gs) = add_all journey journey_dominates (all_reported (reset_arrivals P) gs).
  Proof. unfold raptor. rewrite run_groups_eq. reflexivity. Qed.

  Lemma in_all_reported gs : forall s j, In j (all_reported s gs) <->
    exists gs1 g gs2, gs = gs1 ++ g :: gs2 /\ In j (reported P mt g (after_groups s (gs1 ++ [g]))).
  Proof.
    induction gs as [|g gs IH]; intros s j; cbn [all_reported].
    - split; [intros []|]. intros (gs1 & g & gs2 & E & _). destruct gs1; discriminate.
    - rewrite in_app_iff, IH. split.
      + intros [H|(gs1 & g' & gs2 & -> & H)].
        * exists [], g, gs. auto.
        * exists (g :: gs1), g', gs2. auto.
      + intros (gs1 & g' & gs2 & E & H). destruct gs1 as [|g1 gs1]; cbn in E; injection E as -> ->.
        * left. exact H.
        * right. exists gs1, g', gs2. auto.
  Qed.

  Lemma in_reported g s j : In j (reported P mt g s) <->
    exists k l, (l < n_loc)%nat /\ p_is_dest P l = true /\ (1 <= k < end_k mt)%nat /\ s_rt s k l <> kInvalid /\
                j = mk_journey (g_start g) (s_rt s k l) (Z.of_nat k - 1).
  Proof.
    unfold reported. rewrite in_flat_map. split.
    - intros (l & Hl & H). apply in_seq in Hl. destruct (p_is_dest P l) eqn:Ed; [|destruct H].
      apply in_flat_map in H as (k & Hk & H). apply in_seq in Hk.
      destruct (s_rt s k l =? kInvalid) eqn:E; [destruct H|]. apply Z.eqb_neq in E.
      destruct H as [<-|[]]. exists k, l. unfold end_k in *. repeat split; auto; lia.
    - intros (k & l & Hl & Hd & Hk & Hne & ->). exists l. split; [apply in_seq; lia|]. rewrite Hd.
      apply in_flat_map. exists k. split; [apply in_seq; unfold end_k in *; lia|].
      apply Z.eqb_neq in Hne. rewrite Hne. left; auto.
  Qed.

  (** Starts used by a list of groups. *)
  Definition starts_of (gs : list group) (l : nat) (t : Z) : Prop := exists g, In g gs /\ In (l, t) (g_starts g).

  Lemma reach_mono (St St' : nat -> Z -> Prop) tr :
    (forall l t, St l t -> St' l t) ->
    forall k, (forall l t, arrived P St tr k l t -> arrived P St' tr k l t) /\
              (forall l t, ready P St tr k l t -> ready P St' tr k l t).
  Proof.
    intros Hs.
    assert (HR : forall k, (forall l t, arrived P St tr k l t -> arrived P St' tr k l t) ->
                           forall l t, ready P St tr k l t -> ready P St' tr k l t).
    { intros k HA l t H. inversion H; subst; [apply ready_start|apply ready_transfer|eapply ready_walk]; eauto. }
    induction k as [|k [IHa IHr]].
    - assert (HA : forall l t, arrived P St tr 0 l t -> arrived P St' tr 0 l t) by (intros l t H; inversion H). auto.
    - assert (HA : forall l t, arrived P St tr (S k) l t -> arrived P St' tr (S k) l t).
      { intros l t H. inversion H; subst. eapply arrived_ride; eauto. }
      auto.
  Qed.
  Lemma connection_mono (St St' : nat -> Z -> Prop) tr k l t :
    (forall l t, St l t -> St' l t) -> connection P St tr k l t -> connection P St' tr k l t.
  Proof.
    intros Hs H. destruct (reach_mono St St' tr Hs k) as [HA _].
    inversion H; subst; [eapply conn_station|eapply conn_walk|eapply conn_offset]; eauto.
  Qed.

  (** Lower bound of all times reached after at least one ride; [e] = 1 if every ride takes time. *)
  Lemma reach_lower_pos (St : nat -> Z -> Prop) tr (B e : Z) :
    (forall l t, St l t -> B <= o t) -> (forall l, 0 <= tr l) -> durations_ok P -> 0 <= e ->
    (forall l tb l' ta, ride_ok P l tb l' ta -> o tb + e <= o ta) ->
    forall k l t, arrived P St tr k l t -> B + e <= o t.
  Proof.
    intros HB Htr Hdur He Hride.
    assert (HR : forall k, (forall l t, arrived P St tr k l t -> B + e <= o t) ->
                           forall l t, ready P St tr k l t -> B <= o t).
    { intros k HA l t H. inversion H as [l0 t0 Hs|k0 l0 t0 Ha|k0 l0 t0 l1 d Ha Hw]; subst.
      - eauto.
      - rewrite o_after. specialize (Htr l). apply HA in Ha. lia.
      - rewrite o_after. pose proof (walk_nonneg P Hdur _ _ _ Hw). apply HA in Ha. lia. }
    assert (H : forall k, (forall l t, arrived P St tr k l t -> B + e <= o t) /\ (forall l t, ready P St tr k l t -> B <= o t)).
    { induction k as [|k [IHa IHr]].
      - assert (HA : forall l t, arrived P St tr 0 l t -> B + e <= o t) by (intros l t Hx; inversion Hx).
        split; auto. now apply HR.
      - assert (HA : forall l t, arrived P St tr (S k) l t -> B + e <= o t).
        { intros l t Hx. inversion Hx as [k0 l0 t0 tb l' ta Hr Hn Hri]; subst. apply IHr in Hr.
          apply no_later_o in Hn. apply Hride in Hri. lia. }
        split; auto. now apply HR. }
    intros k l t. apply H.
  Qed.

  Hypothesis Hwf : all_vehicles_wf P.
  Hypothesis Hdur : durations_ok P.
  Hypothesis Hend : end_ok P.
  Hypothesis Hloc : locations_ok P.

  Lemma rides_take_zero l tb l' ta : ride_ok P l tb l' ta -> o tb + 0 <= o ta.
  Proof. intros Hr. apply (ride_ok_order P Hwf) in Hr. lia. Qed.

  (** A state that satisfies the soundness invariant for starts not before [B]. *)
  Lemma label_lower_pos St k0 s (B e : Z) :
    gsinv P St k0 s -> OL <= B -> (forall l t, St l t -> B <= o t) -> 0 <= e ->
    (forall l tb l' ta, ride_ok P l tb l' ta -> o tb + e <= o ta) ->
    forall j l, (1 <= j)%nat -> s_rt s j l <> kInvalid -> B + e <= o (s_rt s j l).
  Proof.
    intros Hg HBL HB He Hride.
    assert (HA := reach_lower_pos St (transfer_time P) B e HB (tr_nonneg P Hdur) Hdur He Hride).
    assert (HGL : forall n i l t, (i <= n)%nat -> (1 <= i)%nat -> o t < OI -> GL P St (s_rt s) i l t -> B + e <= o t).
    { induction n as [|n IH]; intros i l t Hin Hi Ht HL; [lia|].
      destruct HL as [-> Hs|t0 _ Ha ->|_ _ Ha|l0 t0 d Ha Hw ->|off l0 t0 d Hoff _ Ha Hd ->|_ (Hn & i0 & l0 & Hi0 & _ & Ho & Hle)];
        rewrite ?o_after; try lia; eauto.
      - apply HA in Ha. pose proof (tr_nonneg P Hdur l). lia.
      - apply HA in Ha. pose proof (walk_nonneg P Hdur _ _ _ Hw). lia.
      - apply HA in Ha. assert (0 <= d) by (destruct Hdur as (_ & _ & _ & Hw); eapply Hw; eauto). lia.
      - assert (Hne : s_rt s i0 l0 <> kInvalid).
        { intros E. rewrite E, o_kInvalid in Hle. lia. }
        destruct (gs_rt _ _ _ _ Hg i0 l0 Hne) as (i1 & Hi1 & Hp & HL1).
        assert (B + e <= o (s_rt s i0 l0)); [|lia]. eapply (IH i1); eauto; lia. }
    intros j l Hj Hne. destruct (gs_rt _ _ _ _ Hg j l Hne) as (i & Hi & Hp & HL).
    eapply (HGL i); eauto.
    pose proof (gs_rt_range _ _ _ _ Hg j l). assert (o (s_rt s j l) <> OI); [|lia].
    intros E. apply Hne. apply (o_inj P). now rewrite o_kInvalid.
  Qed.

  Lemma after_groups_gsinv gs (St : nat -> Z -> Prop) :
    (forall l t, St l t -> OL < o t) ->
    (forall g l t, In g gs -> In (l, t) (g_starts g) -> St l t /\ o t <= OI) ->
    exists k, gsinv P St k (after_groups (reset_arrivals P) gs).
  Proof.
    intros HSt Hg. unfold after_groups.
    apply (fold_left_inv (run_group P mt) (fun s => exists k, gsinv P St k s)).
    - exists 0%nat. apply reset_gsinv.
    - intros s g Hin (k & Hk). eapply run_group_gsinv; eauto.
  Qed.

  Definition time_range (t : Z) : Prop := -32768 <= t <= 32767.
  Record groups_ok (gs : list group) : Prop := mk_groups_ok {
    go_range : forall g l t, In g gs -> In (l, t) (g_starts g) -> -32768 < t < 32767;
    go_start_range : forall g, In g gs -> time_range (g_start g);
    go_starts : forall g l t, In g gs -> In (l, t) (g_starts g) -> no_later P (g_start g) t;
    go_order : forall gs1 g gs2 g', gs = gs1 ++ g :: gs2 -> In g' gs1 -> no_later P (g_start g) (g_start g') }.

  Lemma range_o t : time_range t <-> OL <= o t <= OI.
  Proof. unfold time_range, Raptor_Base.OL, Raptor_Base.OI, Raptor_Base.o. destruct fwd; lia. Qed.

  Lemma range_so t : -32768 < t < 32767 <-> OL < o t < OI.
  Proof. unfold Raptor_Base.OL, Raptor_Base.OI, Raptor_Base.o. destruct fwd; lia. Qed.
  Lemma start_so gs g l t : groups_ok gs -> In g gs -> In (l, t) (g_starts g) -> OL < o t /\ o t <= OI.
  Proof. intros Hgs Hg Ht. assert (X := proj1 (range_so t) (go_range _ Hgs _ _ _ Hg Ht)). lia. Qed.

  Section Prefix.
    Variables (gs gs1 : list group) (g : group) (gs2 : list group).
    Hypothesis Hgs : groups_ok gs.
    Hypothesis Egs : gs = gs1 ++ g :: gs2.
    Notation St := (starts_of (gs1 ++ [g])).
    Lemma prefix_in g' : In g' (gs1 ++ [g]) -> In g' gs.
    Proof. rewrite Egs, !in_app_iff. cbn. tauto. Qed.
    Lemma prefix_start l t : St l t -> o (g_start g) <= o t.
    Proof.
      intros (g' & Hin & Ht). assert (Hn := go_starts _ Hgs g' l t (prefix_in _ Hin) Ht). apply no_later_o in Hn.
      apply in_app_iff in Hin as [Hin|[<-|[]]]; auto.
      assert (Hx := go_order _ Hgs _ _ _ _ Egs Hin). apply no_later_o in Hx. lia.
    Qed.
    Lemma prefix_gs_in : In g gs.
    Proof. rewrite Egs, in_app_iff. cbn; tauto. Qed.
    Lemma prefix_g_low : OL <= o (g_start g).
    Proof. apply range_o. apply (go_start_range _ Hgs). exact prefix_gs_in. Qed.
    Lemma prefix_low l t : St l t -> OL < o t.
    Proof. intros (g' & Hin & Ht). eapply start_so; eauto using prefix_in. Qed.
    Lemma prefix_gsinv : exists k, gsinv P St k (after_groups (reset_arrivals P) (gs1 ++ [g])).
    Proof.
      apply after_groups_gsinv.
      - exact prefix_low.
      - intros g' l t Hin Ht. split; [exists g'; auto|].
        eapply start_so; eauto using prefix_in.
    Qed.
  End Prefix.

  (** Every reported journey lies in search direction. *)
  Lemma reported_direction gs j (e : Z) : groups_ok gs -> 0 <= e ->
    (forall l tb l' ta, ride_ok P l tb l' ta -> o tb + e <= o ta) ->
    In j (all_reported (reset_arrivals P) gs) -> o (j_start j) + e <= o (j_dest j).
  Proof.
    intros Hgs He Hride Hin. apply in_all_reported in Hin as (gs1 & g & gs2 & E & Hin).
    apply in_reported in Hin as (k & l & Hl & Hd & Hk & Hne & ->). cbn [j_start j_dest].
    destruct (prefix_gsinv gs gs1 g gs2 Hgs E) as (k0 & Hg).
    eapply (label_lower_pos _ _ _ _ _ Hg); eauto; [|eapply prefix_start; eauto|lia].
    eapply prefix_g_low; eauto.
  Qed.

  Definition rides_take_time : Prop := forall l tb l' ta, ride_ok P l tb l' ta -> tb <> ta.

  Theorem reported_feasible gs j : groups_ok gs -> (fwd = false -> rides_take_time) ->
    In j (snd (raptor P mt gs)) ->
    exists l k, (1 <= k)%nat /\ Z.of_nat k <= j_transfers j + 1 /\
      connection P (fun l t => starts_of gs l t /\ no_later P (j_start j) t) (transfer_time P) k l (j_dest j).
  Proof.
    intros Hgs Htime Hin. rewrite raptor_results in Hin.
    assert (Hrep := add_all_sound _ _ journey_dom_trans _ _ Hin).
    set (L := all_reported (reset_arrivals P) gs) in *.
    assert (Hrep' := Hrep). apply in_all_reported in Hrep' as (gs1 & g & gs2 & E & Hr).
    set (s := after_groups (reset_arrivals P) (gs1 ++ [g])) in *.
    assert (Hr' := Hr). apply in_reported in Hr' as (k & l & Hl & Hd & Hk & Hne & Ej).
    destruct (prefix_gsinv gs gs1 g gs2 Hgs E) as (k0 & Hg). fold s in Hg.
    destruct (gs_rt _ _ _ _ Hg k l Hne) as (i & Hi & Hp & HL). specialize (Hp ltac:(lia)).
    assert (Hsub : forall l t, starts_of (gs1 ++ [g]) l t -> starts_of gs l t /\ no_later P (j_start j) t).
    { intros l' t Hs. split.
      - destruct Hs as (g' & Hin' & Ht). exists g'. split; auto. eapply prefix_in; eauto.
      - rewrite Ej. cbn [j_start]. apply no_later_o. eapply prefix_start; eauto. }
    assert (Htr : Z.of_nat i <= j_transfers j + 1) by (rewrite Ej; cbn [j_transfers]; lia).
    assert (Edest : j_dest j = s_rt s k l) by (rewrite Ej; reflexivity).
    destruct HL as [-> Hs|t0 Hnd Ha Et|Hn _ Ha|l0 t0 d Ha Hw Et|off l0 t0 d Hoff El Ha Hdd Et|_ (Hn & i0 & l0 & Hi0 & Hd0 & Ho & Hle)].
    - lia.
    - destruct (p_dist_to_end P) as [off|] eqn:Eoff; [|rewrite Hnd in Hd by auto; discriminate].
      exfalso. inversion Ha as [k1 l1 t1 tb l2 ta _ _ Hride]; subst.
      destruct (Hend ltac:(congruence)) as (He & _ & _). apply He in Hd. subst l.
      destruct Hride as [ri r vi v day s1 s2 st st' Hri Hv Hrun Hs1 Hs2 Hlt _ El _ _ _ _ _ _].
      destruct (Hend ltac:(congruence)) as (_ & Hx & _). eapply Hx; [exact Hri| |exact El]. eapply nth_error_In; eauto.
    - exists l, i. split; auto. split; auto. eapply connection_mono; [exact Hsub|]. rewrite Edest. apply conn_station; auto.
    - destruct (p_dist_to_end P) as [off|] eqn:Eoff.
      + exfalso. destruct (Hend ltac:(congruence)) as (He & _ & Hx). apply He in Hd. subst l.
        destruct Hw as (d0 & Hw & _). eapply Hx; eauto.
      + exists l, i. split; auto. split; auto. eapply connection_mono; [exact Hsub|]. rewrite Edest.
        eapply conn_walk; eauto.
    - exists l, i. split; auto. split; auto. eapply connection_mono; [exact Hsub|]. rewrite Edest.
      eapply conn_offset; eauto.
    - (* reached through a destination: the label of that destination was reported and dominates *)
      exfalso.
      assert (Hlt : o (s_rt s k l) < OI).
      { pose proof (gs_rt_range _ _ _ _ Hg k l). assert (o (s_rt s k l) <> OI); [|lia].
        intros E'. apply Hne. apply (o_inj P). now rewrite o_kInvalid. }
      assert (Hne0 : s_rt s i0 l0 <> kInvalid).
      { intros E'. rewrite E', o_kInvalid in Hle. lia. }
      set (j0 := mk_journey (g_start g) (s_rt s i0 l0) (Z.of_nat i0 - 1)).
      assert (Hj0 : In j0 L).
      { apply in_all_reported. exists gs1, g, gs2. split; auto. apply in_reported. exists i0, l0.
        split; [now apply Hloc|]. split; auto. split; [lia|]. split; auto. }
      assert (Hdom : journey_dominates j0 j = true).
      { unfold journey_dominates. rewrite Ej. unfold j0. cbn [j_start j_dest j_transfers].
        assert (Hdir : o (g_start g) <= o (s_rt s i0 l0)).
        { change (o (j_start j0) <= o (j_dest j0)). assert (X := reported_direction gs j0 0 Hgs ltac:(lia) rides_take_zero Hj0). lia. }
        destruct fwd eqn:Ef.
        - unfold Raptor_Base.o in Hdir, Hle. rewrite Ef in Hdir, Hle.
          destruct (Z.leb_spec (g_start g) (s_rt s i0 l0)); [|lia].
          rewrite !andb_true_iff, !Z.leb_le. lia.
        - assert (Hdir1 : o (j_start j0) + 1 <= o (j_dest j0)).
          { apply (reported_direction gs); auto; [lia|]. intros l1 tb l' ta Hr1.
            assert (X := Htime eq_refl _ _ _ _ Hr1). apply (ride_ok_order P Hwf) in Hr1.
            assert (o tb <> o ta) by (intros Y; apply o_inj in Y; auto). lia. }
          unfold j0 in Hdir1. cbn [j_start j_dest] in Hdir1. unfold Raptor_Base.o in Hdir1, Hle. rewrite Ef in Hdir1, Hle.
          destruct (Z.leb_spec (g_start g) (s_rt s i0 l0)); [lia|].
          rewrite !andb_true_iff, !Z.leb_le. lia. }
      destruct (add_all_covers _ _ journey_dom_refl journey_dom_trans L j0 Hj0) as (x & Hx & Hxd).
      assert (Hxj := journey_dom_trans _ _ _ Hxd Hdom).
      apply In_nth_error in Hx as (px & Hpx). apply In_nth_error in Hin as (pj & Hpj).
      destruct (Nat.eq_dec px pj) as [->|Hne'].
      + assert (x = j) by congruence. subst x.
        assert (Hts : j_transfers j <= j_transfers j0).
        { unfold journey_dominates in Hxd. destruct (j_start j <=? j_dest j); rewrite !andb_true_iff, !Z.leb_le in Hxd; lia. }
        rewrite Ej in Hts. unfold j0 in Hts. cbn [j_transfers] in Hts. lia.
      + rewrite (add_all_antichain _ _ journey_dom_trans L px pj x j Hpx Hpj Hne') in Hxj. discriminate.
  Qed.

  (** ** Optimality *)
  Lemma genuine_eff St : 
    (forall k, (forall l t, arrived P St (transfer_time P) k l t -> arrived P St (tr_eff P) k l t) /\
               (forall l t, ready P St (transfer_time P) k l t -> exists t', o t' <= o t /\ ready P St (tr_eff P) k l t')).
  Proof.
    assert (HR : forall k, (forall l t, arrived P St (transfer_time P) k l t -> arrived P St (tr_eff P) k l t) ->
      forall l t, ready P St (transfer_time P) k l t -> exists t', o t' <= o t /\ ready P St (tr_eff P) k l t').
    { intros k HA l t H. inversion H as [l0 t0 Hs|k0 l0 t0 Ha|k0 l0 t0 l1 d Ha Hw]; subst.
      - exists t. split; [lia|]. now constructor.
      - exists (after P t0 (tr_eff P l)). split.
        + rewrite !o_after. unfold tr_eff. pose proof (tr_nonneg P Hdur l). destruct (_ && _); lia.
        + constructor. auto.
      - exists (after P t0 d). split; [lia|]. econstructor; eauto. }
    induction k as [|k [IHa IHr]].
    - assert (HA : forall l t, arrived P St (transfer_time P) 0 l t -> arrived P St (tr_eff P) 0 l t) by (intros l t H; inversion H). auto.
    - assert (HA : forall l t, arrived P St (transfer_time P) (S k) l t -> arrived P St (tr_eff P) (S k) l t).
      { intros l t H. inversion H as [k0 l0 t0 tb l' ta Hr Hn Hri]; subst.
        destruct (IHr _ _ Hr) as (t' & Ht' & Hr'). eapply arrived_ride; [exact Hr'| |exact Hri].
        apply no_later_o. apply no_later_o in Hn. lia. }
      auto.
  Qed.

  Hypothesis Hcol : columns_sorted P.
  Hypothesis Hidx : index_ok P.
  Hypothesis Hfifo : fifo P.
  Variable D : nat -> Z.
  Hypothesis HD : lower_bounds_ok P D.

  Lemma dest_label_dec (s : state) K a :
    (exists j l, (j <= K)%nat /\ p_is_dest P l = true /\ o (s_rt s j l) <= o a) \/
    (forall j l, (j <= K)%nat -> p_is_dest P l = true -> o a < o (s_rt s j l)).
  Proof.
    assert (Hj : forall j n, (exists l, (l < n)%nat /\ p_is_dest P l = true /\ o (s_rt s j l) <= o a) \/
                             (forall l, (l < n)%nat -> p_is_dest P l = true -> o a < o (s_rt s j l))).
    { intros j. induction n as [|n [(l & Hl & Hx)|IH]].
      - right. lia.
      - left. exists l. split; [lia|auto].
      - destruct (p_is_dest P n) eqn:Ed.
        + destruct (Z.le_gt_cases (o (s_rt s j n)) (o a)).
          * left. exists n. auto.
          * right. intros l Hl Hd. destruct (Nat.eq_dec l n) as [->|]; [lia|]. apply IH; auto. lia.
        + right. intros l Hl Hd. destruct (Nat.eq_dec l n) as [->|]; [congruence|]. apply IH; auto. lia. }
    induction K as [|K [(j & l & Hjl & Hx)|IH]].
    - destruct (Hj 0%nat n_loc) as [(l & _ & Hx)|Hn].
      + left. exists 0%nat, l. auto.
      + right. intros j l Hj0 Hd. replace j with 0%nat by lia. apply Hn; auto. now apply Hloc.
    - left. exists j, l. split; [lia|auto].
    - destruct (Hj (S K) n_loc) as [(l & _ & Hx)|Hn].
      + left. exists (S K), l. auto.
      + right. intros j l Hjl Hd. destruct (Nat.eq_dec j (S K)) as [->|].
        * apply Hn; auto. now apply Hloc.
        * apply IH; auto. lia.
  Qed.

  Lemma connection_succ St k l a : connection P St (tr_eff P) k l a ->
    exists l' ta, arrived P St (tr_eff P) k l' ta /\ succ P l' ta l a.
  Proof.
    intros [Hn Hd Ha|l0 t0 d Hn Hd Ha Hw ->|off l0 t0 d Hoff Hd -> Ha Ho ->].
    - exists l, a. split; auto. replace a with (after P a (tr_eff P l)) at 2; [constructor|].
      unfold tr_eff, is_intermodal_dest. rewrite Hn, Hd. cbn. unfold after. destruct fwd; lia.
    - exists l0, t0. split; auto. now apply succ_walk.
    - exists l0, t0. split; auto. eapply succ_off; eauto.
  Qed.

  Theorem search_optimal gs gs1 g gs2 K l a :
    groups_ok gs -> gs = gs1 ++ g :: gs2 ->
    starts_reach_ok P (starts_of (gs1 ++ [g])) ->
    (forall l t, starts_of (gs1 ++ [g]) l t -> (l < n_loc)%nat /\ p_is_dest P l = false) ->
    (forall g', In g' (gs1 ++ [g]) -> no_later P a (g_worst g')) ->
    (K < end_k mt)%nat ->
    connection P (fun l t => In (l, t) (g_starts g)) (transfer_time P) K l a ->
    no_later P a (after P (g_start g) 7200) -> o a < OI ->
    exists j, In j (snd (raptor P mt gs)) /\ j_transfers j <= Z.of_nat K - 1 /\
              no_later P (j_dest j) a /\ no_later P (g_start g) (j_start j).
  Proof.
    intros Hgs E Hreach Hsl Hworst HK Hconn Hhor HaOI.
    set (St := starts_of (gs1 ++ [g])) in *.
    set (s := after_groups (reset_arrivals P) (gs1 ++ [g])).
    assert (HStH : forall l t, St l t -> o (g_start g) <= o t) by (eapply prefix_start; eauto).
    assert (HH : OL <= o (g_start g)) by (eapply prefix_g_low; eauto).
    assert (HStL : forall l t, St l t -> OL < o t) by (eapply prefix_low; eauto).
    assert (HaH : o a <= o (g_start g) + 7200). { apply no_later_o in Hhor. rewrite o_after in Hhor. lia. }
    assert (HStloc : forall l t, St l t -> (l < n_loc)%nat) by (intros l0 t0 Hs; now apply Hsl in Hs).
    assert (Hginv : ginv P D St a K s).
    { unfold s, after_groups. apply fold_left_inv.
      - apply reset_ginv; auto.
      - intros s0 g' Hin Hs0.
        apply (run_group_ginv P Hwf Hdur Hend Hcol Hidx Hfifo Hloc D HD St Hreach (o (g_start g)) a K HStH HH HaH HaOI HStL mt s0 g'); auto.
        + apply no_later_o. auto.
        + intros l0 t0 Ht. split; [exists g'; auto|]. eapply start_so; eauto. eapply prefix_in; eauto. }
    assert (Hst0 : forall l t, In (l, t) (g_starts g) -> o (s_rt s 0%nat l) <= o t).
    { intros l0 t0 Ht. unfold s, after_groups. rewrite fold_left_app. cbn [fold_left].
      set (s1 := fold_left (run_group P mt) gs1 (reset_arrivals P)).
      assert (Hg1 : ginv P D St a K s1).
      { unfold s1. apply fold_left_inv.
        - apply reset_ginv; auto.
        - intros s0 g' Hin Hs0. assert (Hin' : In g' (gs1 ++ [g])) by (apply in_app_iff; auto).
          apply (run_group_ginv P Hwf Hdur Hend Hcol Hidx Hfifo Hloc D HD St Hreach (o (g_start g)) a K HStH HH HaH HaOI HStL mt s0 g'); auto.
          + apply no_later_o. auto.
          + intros l1 t1 Ht1. split; [exists g'; auto|]. eapply start_so; eauto. eapply prefix_in; eauto. }
      assert (Hing : In g (gs1 ++ [g])) by (apply in_app_iff; cbn; auto).
      destruct (run_group_ginv P Hwf Hdur Hend Hcol Hidx Hfifo Hloc D HD St Hreach (o (g_start g)) a K HStH HH HaH HaOI HStL mt s1 g) as (_ & X & _); auto.
      - apply no_later_o. auto.
      - intros l1 t1 Ht1. split; [exists g; auto|]. eapply start_so; eauto. eapply prefix_in; eauto. }
    assert (Hdest : p_is_dest P l = true) by (inversion Hconn; auto).
    (* some destination label with at most K rides is no later than a *)
    assert (Hlab : exists j l, (j <= K)%nat /\ p_is_dest P l = true /\ o (s_rt s j l) <= o a).
    { destruct (dest_label_dec s K a) as [Hx|Hsd]; auto. exfalso.
      assert (Hnd : nd P a K s) by (intros j1 l1 Hj1 Hl1; specialize (Hsd j1 l1 Hj1 Hl1); lia).
      assert (Hce : connection P (fun l t => In (l, t) (g_starts g)) (tr_eff P) K l a).
      { destruct (genuine_eff (fun l t => In (l, t) (g_starts g)) K) as [HA _].
        inversion Hconn; subst; [eapply conn_station|eapply conn_walk|eapply conn_offset]; eauto. }
      apply connection_succ in Hce as (l' & ta & Ha & Hsucc).
      assert (HDl : D l = 0) by (apply HD; auto).
      assert (Hrel : rel P D a l a) by (unfold rel; lia).
      inversion Ha as [k1 l0 t0 tb l1 ta1 Hr0 Hn Hride]; subst.
      assert (Hrel' : rel P D a l0 tb).
      { eapply (ride_rel P Hwf D HD St (o (g_start g)) a); eauto. eapply succ_rel; eauto. }
      apply no_later_o in Hn.
      destruct Hginv as [(kk & Hsv) Htad HCL].
      destruct (closed_reach P Hwf Hdur D HD St (o (g_start g)) a (S k1) HStH HaH HaOI HStL s HCL Hnd (ex_intro _ kk Hsv) _ Hst0 k1 ltac:(lia) l0 t0 Hr0) as (j & Hj & Hle).
      { unfold rel in *. lia. }
      assert (Hne : s_rt s j l0 <> kInvalid).
      { intros E'. rewrite E', o_kInvalid in Hle. pose proof (lb_nonneg _ _ HD l0). unfold rel in Hrel'. lia. }
      destruct (HCL Hnd j l0 ltac:(lia) tb l' ta l a Hride Hne ltac:(lia) Hsucc ltac:(eapply succ_rel; eauto) (fun _ _ => Hrel)) as (j' & Hj' & Hle').
      specialize (Hsd j' l ltac:(lia) Hdest). lia. }
    destruct Hlab as (j & l0 & Hj & Hd0 & Hle).
    assert (Hne : s_rt s j l0 <> kInvalid). { intros E'. rewrite E', o_kInvalid in Hle. lia. }
    assert (Hj1 : (1 <= j)%nat).
    { destruct j as [|j]; [|lia]. exfalso. destruct Hginv as [(kk & Hsv) _ _].
      destruct (si_rt _ _ _ _ Hsv _ _ Hne) as (i & Hi & HL). replace i with 0%nat in HL by lia.
      destruct HL as [HL|(off & l1 & t1 & d1 & _ & _ & HL & _)]; [|inversion HL].
      inversion HL as [l1 t1 Hs|k1 l1 t1 Ha|k1 l1 t1 l2 d Ha Hw]; subst; [|inversion Ha|inversion Ha].
      destruct (Hsl _ _ Hs). congruence. }
    set (j0 := mk_journey (g_start g) (s_rt s j l0) (Z.of_nat j - 1)).
    set (L := all_reported (reset_arrivals P) gs).
    assert (Hj0 : In j0 L).
    { apply in_all_reported. exists gs1, g, gs2. split; auto. apply in_reported. exists j, l0.
      split; [now apply Hloc|]. split; auto. split; [lia|]. split; auto. }
    destruct (add_all_covers _ _ journey_dom_refl journey_dom_trans L j0 Hj0) as (x & Hx & Hxd).
    exists x. rewrite raptor_results. split; auto.
    assert (Hxr := add_all_sound _ _ journey_dom_trans L x Hx).
    assert (X1 := reported_direction gs x 0 Hgs ltac:(lia) rides_take_zero Hxr).
    assert (X2 := reported_direction gs j0 0 Hgs ltac:(lia) rides_take_zero Hj0).
    unfold j0 in X2. cbn [j_start j_dest] in X2.
    unfold journey_dominates, j0 in Hxd. cbn [j_start j_dest j_transfers] in Hxd.
    rewrite !no_later_o. unfold Raptor_Base.o in *.
    destruct fwd; destruct (Z.leb_spec (j_start x) (j_dest x)); rewrite !andb_true_iff, !Z.leb_le in Hxd; lia.
  Qed.

  (** ** Transfers *)
  Theorem transfers_limited gs j : In j (snd (raptor P mt gs)) -> 0 <= j_transfers j <= Z.of_nat (Nat.min mt 14).
  Proof.
    rewrite raptor_results. intros Hin. apply (add_all_sound _ _ journey_dom_trans) in Hin.
    apply in_all_reported in Hin as (gs1 & g & gs2 & _ & Hin).
    apply in_reported in Hin as (k & l & _ & _ & Hk & _ & ->). cbn [j_transfers]. unfold end_k, kMaxTransfers in Hk. lia.
  Qed.
  Theorem transfers_unique gs p q x y : groups_ok gs -> (fwd = false -> rides_take_time) ->
    nth_error (snd (raptor P mt gs)) p = Some x -> nth_error (snd (raptor P mt gs)) q = Some y ->
    j_start x = j_start y -> j_transfers x = j_transfers y -> p = q.
  Proof.
    intros Hgs Htime Hx Hy Es Et. destruct (Nat.eq_dec p q) as [|Hne]; auto. exfalso.
    rewrite raptor_results in *. set (L := all_reported (reset_arrivals P) gs) in *.
    assert (A1 := add_all_antichain _ _ journey_dom_trans L p q x y Hx Hy Hne).
    assert (A2 := add_all_antichain _ _ journey_dom_trans L q p y x Hy Hx ltac:(auto)).
    apply nth_error_In in Hx, Hy.
    apply (add_all_sound _ _ journey_dom_trans) in Hx, Hy.
    assert (Hdir : exists e, 0 <= e /\ (fwd = false -> e = 1) /\ (forall l tb l' ta, ride_ok P l tb l' ta -> o tb + e <= o ta)).
    { destruct fwd eqn:Ef; [exists 0|exists 1]; (split; [lia|]); (split; [congruence|]).
      - exact rides_take_zero.
      - intros l1 tb l' ta Hr1.
        assert (X := Htime eq_refl _ _ _ _ Hr1). apply (ride_ok_order P Hwf) in Hr1.
        assert (o tb <> o ta) by (intros Y; apply o_inj in Y; auto). lia. }
    destruct Hdir as (e & He & He1 & Hride).
    assert (X1 := reported_direction gs x e Hgs He Hride Hx).
    assert (X2 := reported_direction gs y e Hgs He Hride Hy).
    unfold journey_dominates in A1, A2. unfold Raptor_Base.o in X1, X2.
    destruct fwd; [|specialize (He1 eq_refl)];
    destruct (Z.leb_spec (j_start x) (j_dest x)), (Z.leb_spec (j_start y) (j_dest y));
      rewrite !andb_false_iff, !Z.leb_gt in A1, A2; lia.
  Qed.
End Final.
