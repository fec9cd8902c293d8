(** No label of the search lies later than the worst admissible time at the destination plus the longest walk.  (The label of a
    footpath or transfer is written before it is compared with the destination bound, raptor.h:705-716 / :795-806.) *)
From Coq Require Import List ZArith Bool Arith Lia.
From Verif Require Import Base Time_Model Raptor_Model Raptor_Spec Raptor_Base Raptor_Sound Raptor_Final.
Import ListNotations.
Local Open Scope Z_scope.

Section Bound.
  Variable P : params.
  Notation o := (o P).
  Notation OL := (OL P).
  Notation OI := (OI P).
  Notation kInvalid := (kInvalid P).
  Variables W B : Z.
  Hypothesis HW : OL <= W.
  Hypothesis HB : 0 <= B.
  Hypothesis Htr : forall l, 0 <= transfer_time P l <= B.
  Hypothesis Hfp : forall l l' d, walk P l l' d -> 0 <= d <= B.

  Record bounded (s : state) : Prop := mk_bounded {
    b_tmp : forall l, s_tmp s l <> kInvalid -> o (s_tmp s l) <= W;
    b_tad : forall i, o (s_tad s i) <= W;
    b_rt : forall k l, (1 <= k)%nat -> s_rt s k l <> kInvalid -> o (s_rt s k l) <= W + B }.

  Lemma clamp_bound x d : o x <= W -> 0 <= d <= B -> o (clamp16 (x + dir P d)) <= W + B.
  Proof. intros. rewrite o_clamp, o_dir. lia. Qed.

  Lemma transfer_to_bounded k target t b s : o t <= W + B -> bounded s -> bounded (transfer_to P k target t b s).
  Proof.
    intros Ht [H1 H2 H3]. unfold transfer_to.
    set (rt := if is_better P t (s_best s target) then _ else _).
    assert (Hrt : forall k l, (1 <= k)%nat -> rt k l <> kInvalid -> o (rt k l) <= W + B).
    { intros k' l' Hk'. unfold rt. destruct (is_better P t (s_best s target)); [|auto]. unfold upd.
      destruct (Nat.eqb_spec k k') as [<-|]; [|auto]. destruct (Nat.eqb_spec target l') as [<-|]; [|auto].
      intros Hne. rewrite o_get_best. lia. }
    destruct (_ && _); cbn [s_tmp s_tad s_rt]; constructor; cbn [s_tmp s_tad s_rt]; auto.
    - intros i. destruct b; [|auto]. unfold update_time_at_dest. destruct (Nat.leb k i); [|auto]. rewrite o_get_best. specialize (H2 i). lia.
    - intros k' l' Hk'. unfold upd at 1 3. destruct (Nat.eqb_spec k k') as [<-|]; [|auto]. unfold upd.
      destruct (Nat.eqb_spec target l') as [<-|]; [auto|]. auto.
  Qed.

  Lemma update_transfers_bounded k s : bounded s -> bounded (update_transfers P k s).
  Proof.
    intros H. unfold update_transfers. apply fold_left_inv; auto. clear s H. intros s i _ H.
    destruct (s_prev s i && negb (s_tmp s i =? kInvalid)) eqn:E; auto.
    apply andb_true_iff in E as [_ E]. apply negb_true_iff, Z.eqb_neq in E.
    assert (X := b_tmp _ H _ E).
    apply transfer_to_bounded; auto. cbv zeta. destruct (negb (is_intermodal_dest P) && p_is_dest P i).
    - rewrite Z.add_0_r, o_clamp. lia.
    - apply clamp_bound; auto. apply Htr.
  Qed.
  Lemma update_footpaths_bounded k s : bounded s -> bounded (update_footpaths P k s).
  Proof.
    intros H. unfold update_footpaths. apply fold_left_inv; auto. clear s H. intros s i _ H.
    destruct (s_prev s i); auto.
    apply fold_left_inv; auto. clear s H. intros s [l' d0] Hin H. cbn [fst snd].
    destruct (s_tmp s i =? kInvalid) eqn:E; auto. apply Z.eqb_neq in E.
    apply transfer_to_bounded; auto. apply clamp_bound; [apply (b_tmp _ H _ E)|].
    apply (Hfp i l'). exists d0. auto.
  Qed.
  Lemma update_intermodal_bounded k s : bounded s -> bounded (update_intermodal_footpaths P k s).
  Proof.
    intros H. unfold update_intermodal_footpaths. destruct (p_dist_to_end P) as [off|]; auto.
    apply fold_left_inv; auto. clear s H. intros s i _ H.
    destruct (s_prev s i); auto. destruct (off i) as [d|]; auto.
    destruct (s_tmp s i =? kInvalid); auto. set (t := clamp16 _).
    destruct (is_better_or_eq P t (s_tad s k)) eqn:E; auto. apply is_better_or_eq_o in E.
    destruct H as [H1 H2 H3]. assert (X := H2 k). constructor; cbn [s_tmp s_tad s_rt]; auto.
    - intros j. unfold update_time_at_dest. destruct (Nat.leb k j); [|auto]. rewrite o_get_best. specialize (H2 j). lia.
    - intros k' l' Hk'. unfold upd at 1 3. destruct (Nat.eqb_spec k k') as [<-|]; [|auto]. unfold upd.
      destruct (Nat.eqb_spec (p_end P) l') as [<-|]; [lia|]. auto.
  Qed.

  Lemma scan_stop_bounded k ri r best rtp tad pm c i : o tad <= W ->
    (forall l, sc_tmp c l <> kInvalid -> o (sc_tmp c l) <= W) ->
    forall l, sc_tmp (scan_stop P k ri r best rtp tad pm c i) l <> kInvalid -> o (sc_tmp (scan_stop P k ri r best rtp tad pm c i) l) <= W.
  Proof.
    intros Ht Hc l. unfold scan_stop. destruct (sc_break c); [apply Hc|]. cbv zeta.
    set (lc := loc_at r (stop_idx_of P r i)).
    set (et := if negb (Nat.eqb i 0) && _ then None else sc_et c).
    match goal with |- context[match et with Some _ => _ | None => _ end] => idtac end.
    set (al := match et with Some _ => _ | None => _ end).
    assert (Hal : forall l, snd (fst al) l <> kInvalid -> o (snd (fst al) l) <= W).
    { intros l'. unfold al. destruct et as [x|]; [|cbn; apply Hc].
      destruct (can_finish _ _ _); [|cbn; apply Hc].
      destruct (is_better_or_eq P _ tad && _ && _) eqn:E; [|cbn; apply Hc]. cbn [fst snd].
      apply andb_true_iff in E as [E _]. apply andb_true_iff in E as [E _]. apply is_better_or_eq_o in E.
      unfold upd. destruct (Nat.eqb_spec lc l') as [<-|]; [|apply Hc]. intros _. rewrite o_get_best. lia. }
    clearbody al. destruct al as [[cb tmp] mark]. cbn [fst snd] in Hal.
    repeat match goal with
    | |- context[sc_tmp (if ?b then _ else _)] => destruct b
    | |- context[sc_tmp (match ?m with Some _ => _ | None => _ end)] => destruct m
    end; apply Hal.
  Qed.
  Lemma scan_rt_stop_bounded r day rtp tad pm c i : o tad <= W ->
    (forall l, sc_tmp c l <> kInvalid -> o (sc_tmp c l) <= W) ->
    forall l, sc_tmp (scan_rt_stop P r day rtp tad pm c i) l <> kInvalid -> o (sc_tmp (scan_rt_stop P r day rtp tad pm c i) l) <= W.
  Proof.
    intros Ht Hc l. unfold scan_rt_stop. destruct (sc_break c); [apply Hc|]. cbv zeta.
    set (lc := loc_at r (stop_idx_of P r i)).
    set (et := if negb (Nat.eqb i 0) && _ then None else sc_et c).
    set (al := match et with Some _ => _ | None => _ end).
    assert (Hal : forall l, fst al l <> kInvalid -> o (fst al l) <= W).
    { intros l'. unfold al. destruct et as [x|]; [|cbn; apply Hc].
      destruct (_ && _ && is_better_or_eq P _ tad && _ && _) eqn:E; [|cbn; apply Hc]. cbn [fst snd].
      apply andb_true_iff in E as [E _]. apply andb_true_iff in E as [E _]. apply andb_true_iff in E as [_ E]. apply is_better_or_eq_o in E.
      unfold upd. destruct (Nat.eqb_spec lc l') as [<-|]; [|apply Hc]. intros _. rewrite o_get_best. lia. }
    clearbody al. destruct al as [tmp mark]. cbn [fst snd] in Hal.
    repeat match goal with
    | |- context[sc_tmp (if ?b then _ else _)] => destruct b
    end; apply Hal.
  Qed.
  Lemma update_route_bounded k ri r s : bounded s -> bounded (update_route P k ri r s).
  Proof.
    intros [H1 H2 H3]. unfold update_route. set (f := match r_rt r with Some _ => _ | None => _ end).
    assert (X : forall l, sc_tmp (fold_left f (seq 0 (length (r_stops r))) (mk_scan None (s_tmp s) (s_mark s) false)) l <> kInvalid ->
                o (sc_tmp (fold_left f (seq 0 (length (r_stops r))) (mk_scan None (s_tmp s) (s_mark s) false)) l) <= W).
    { refine (fold_left_inv _ (fun c => forall l, sc_tmp c l <> kInvalid -> o (sc_tmp c l) <= W) _ _ _ _); [exact H1|].
      intros c i _ Hc. unfold f. destruct (r_rt r) as [day|]; [apply scan_rt_stop_bounded|apply scan_stop_bounded]; auto. }
    constructor; cbn [s_tmp s_tad s_rt]; auto.
  Qed.
  Lemma loop_routes_bounded k rm s : bounded s -> bounded (loop_routes P k rm s).
  Proof.
    intros H. unfold loop_routes. apply fold_left_inv; auto. clear s H. intros s ri _ H.
    destruct (nth_error _ ri) as [r|]; auto. destruct (_ && _); auto. now apply update_route_bounded.
  Qed.
  Lemma merge_best_bounded k s : bounded s -> bounded (merge_best P k s).
  Proof.
    intros [H1 H2 H3]. constructor; cbn [merge_best s_tmp s_rt s_tad]; auto.
    generalize (fun i => if Nat.ltb i (tt_n_locations (p_tt P)) then get_best P (s_rt s k i) (s_best s i) else s_best s i). intros best.
    refine (fold_left_inv _ (fun tad => forall i, o (tad i) <= W) _ _ _ _); auto.
    intros tad l _ Ht i. destruct (p_is_dest P l); [|auto]. unfold update_time_at_dest. destruct (Nat.leb k i); [|auto].
    rewrite o_get_best. specialize (Ht i). lia.
  Qed.
  Lemma marks_bounded s m p : bounded s -> bounded (mk_state (s_tmp s) (s_best s) (s_rt s) (s_tad s) m p).
  Proof. intros [H1 H2 H3]. constructor; auto. Qed.
  Lemma round_bounded k s : bounded s -> bounded (fst (round P k s)).
  Proof.
    intros H. unfold round. cbv zeta. apply (merge_best_bounded k) in H. set (s1 := merge_best P k s) in *. clearbody s1.
    destruct (negb (any_marked P s1)); [exact H|]. cbn [fst].
    apply update_footpaths_bounded, update_intermodal_bounded, update_transfers_bounded, marks_bounded, loop_routes_bounded, marks_bounded, H.
  Qed.
  Lemma rounds_bounded n : forall k s, bounded s -> bounded (rounds P n k s).
  Proof.
    induction n as [|n IH]; intros k s H; cbn [rounds]; auto.
    apply (round_bounded k) in H. destruct (round P k s) as [s' go]. cbn [fst] in H. destruct go; auto.
  Qed.
  (** Between two start times the bounds of the destination of the first one are not set yet: only the labels matter. *)
  Definition labels_bounded (s : state) : Prop := forall k l, (1 <= k)%nat -> s_rt s k l <> kInvalid -> o (s_rt s k l) <= W + B.
  Lemma run_group_bounded mt s g : o (g_worst g) <= W -> labels_bounded s -> labels_bounded (run_group P mt s g).
  Proof.
    intros Hg H. unfold run_group. intros k l. apply b_rt. apply rounds_bounded.
    assert (X : forall xs s, s_tmp s = (fun _ => kInvalid) -> labels_bounded s ->
      s_tmp (fold_left (add_start P) xs s) = (fun _ => kInvalid) /\ labels_bounded (fold_left (add_start P) xs s)).
    { induction xs as [|[l' t'] xs IH]; intros s' E L; cbn [fold_left]; auto. apply IH; [exact E|].
      intros k' l'' Hk'. cbn [add_start s_rt]. unfold upd at 1 3. destruct (Nat.eqb_spec 0 k'); [lia|]. apply L; auto. }
    destruct (X (g_starts g) (next_start_time P s) eq_refl) as [X1 X2]; [exact H|].
    set (s' := fold_left _ _ _) in *. clearbody s'. constructor; cbn [set_worst s_tmp s_tad s_rt].
    - rewrite X1. intros l' Hl'. now contradiction Hl'.
    - intros i. rewrite o_get_best. lia.
    - exact X2.
  Qed.
  Lemma groups_bounded mt gs : (forall g, In g gs -> o (g_worst g) <= W) -> labels_bounded (after_groups P mt (reset_arrivals P) gs).
  Proof.
    intros Hg. unfold after_groups. apply fold_left_inv.
    - intros k l _ Hne. now contradiction Hne.
    - intros s g Hin H. apply run_group_bounded; auto.
  Qed.
End Bound.
