(** The search with via stops seen as a search without via stops in an expanded timetable: one location per (location, via
    state), one route per (route, boarding stop, via state at boarding).  Only used in proofs. *)
From Coq Require Import List ZArith Bool Arith Lia.
From Verif Require Import Base Time_Model Raptor_Model Raptor_Spec Raptor_Base Raptor_Sound Via_Model Via_Spec.
Import ListNotations.
Local Open Scope Z_scope.

Lemma firstn_skipn_map {A} (d : A) l m : forall a, (a + m <= length l)%nat ->
  firstn m (skipn a l) = map (fun j => nth j l d) (seq a m).
Proof.
  induction l as [|x l IH]; intros a H.
  - cbn in H. assert (a = 0 /\ m = 0)%nat as [-> ->] by lia. reflexivity.
  - destruct a as [|a].
    + cbn [skipn]. destruct m as [|m]; [reflexivity|]. cbn [firstn seq map nth]. f_equal.
      clear IH. cbn in H. assert (Hm : (m <= length l)%nat) by lia. clear H. rewrite <- seq_shift, map_map. cbn [nth].
      revert m Hm. clear x. induction l as [|y l IH]; intros m Hm; destruct m as [|m]; cbn in *; try lia; auto.
      f_equal. rewrite <- seq_shift, map_map. apply IH. lia.
    + cbn [skipn]. cbn in H. rewrite (IH a) by lia. rewrite <- seq_shift, map_map. reflexivity.
Qed.
Lemma rev_map_seq {A} (f : nat -> A) n m : forall a b, (a + m = n - b)%nat -> (b <= n)%nat ->
  rev (map f (seq a m)) = map (fun j => f (n - j - 1)%nat) (seq b m).
Proof.
  induction m as [|m IH]; intros a b H Hb; [reflexivity|].
  rewrite seq_S, map_app, rev_app_distr. cbn [map rev app seq]. f_equal; [f_equal; lia|]. apply IH; lia.
Qed.

Section Expand.
  Variable P : params.
  Variable vias : list via.
  Notation fwd := (p_fwd P).
  Notation tt := (p_tt P).
  Notation nv := (nv vias).
  Notation ix := (ix vias).
  Notation n_loc := (tt_n_locations (p_tt P)).
  Notation visited := (visited vias).
  Notation staying := (staying vias).
  Notation passing := (passing vias).
  Notation pass_all := (pass_all vias).

  Definition loc_of (x : nat) : nat := (x / S nv)%nat.
  Definition slot_of (x : nat) : nat := (x mod S nv)%nat.
  #[global] Arguments loc_of : simpl never.
  #[global] Arguments slot_of : simpl never.
  Lemma loc_ix l v : (v <= nv)%nat -> loc_of (ix l v) = l.
  Proof. intros H. unfold loc_of, Via_Model.ix. rewrite Nat.div_add_l by lia. rewrite Nat.div_small by lia. lia. Qed.
  Lemma slot_ix l v : (v <= nv)%nat -> slot_of (ix l v) = v.
  Proof. intros H. unfold slot_of, Via_Model.ix. rewrite Nat.add_comm, Nat.mod_add by lia. apply Nat.mod_small. lia. Qed.
  Lemma ix_loc_slot x : ix (loc_of x) (slot_of x) = x.
  Proof. unfold loc_of, slot_of, Via_Model.ix. pose proof (Nat.div_mod x (S nv) ltac:(lia)). lia. Qed.
  Lemma slot_le x : (slot_of x <= nv)%nat.
  Proof. unfold slot_of. pose proof (Nat.mod_upper_bound x (S nv) ltac:(lia)). lia. Qed.
  Lemma ix_inj l v l' v' : (v <= nv)%nat -> (v' <= nv)%nat -> ix l v = ix l' v' -> l = l' /\ v = v'.
  Proof. intros H H' E. split; [rewrite <- (loc_ix l v), <- (loc_ix l' v'), E; auto|rewrite <- (slot_ix l v), <- (slot_ix l' v'), E; auto]. Qed.
  Lemma ix_lt l v : (l < n_loc)%nat -> (v <= nv)%nat -> (ix l v < n_loc * S nv)%nat.
  Proof. intros. unfold Via_Model.ix. nia. Qed.
  Lemma ix_lt_inv l v : (v <= nv)%nat -> (ix l v < n_loc * S nv)%nat -> (l < n_loc)%nat.
  Proof. intros. unfold Via_Model.ix in *. nia. Qed.

  (** Model functions in terms of the specification. *)
  Lemma visited_is_via v l : visited v l = if is_via vias v l then S v else v.
  Proof. unfold Via_Spec.visited, next_via, is_via. destruct (nth_error vias v) as [w|]; auto. destruct (via_at w l); auto. Qed.
  Lemma staying_is_via v l : staying v l = if is_via vias v l then stay_of vias v else 0.
  Proof. unfold Via_Spec.staying, next_via, is_via, stay_of. destruct (nth_error vias v) as [w|]; auto. destruct (via_at w l); auto. Qed.
  Lemma is_via_lt v l : is_via vias v l = true -> (v < nv)%nat.
  Proof. unfold is_via. destruct (nth_error vias v) eqn:E; [|discriminate]. intros _. apply nth_error_Some. congruence. Qed.
  Definition cross (v l : nat) : bool := is_via vias v l && (stay_of vias v =? 0).
  Lemma passing_cross v l : passing v l = if cross v l then S v else v.
  Proof.
    unfold Via_Spec.passing, next_via, cross, is_via, stay_of. destruct (nth_error vias v) as [w|]; auto.
    destruct (via_at w l); auto.
  Qed.
  Lemma cross_lt v l : cross v l = true -> (v < nv)%nat.
  Proof. unfold cross. intros H. apply andb_true_iff in H as [H _]. now apply is_via_lt in H. Qed.
  Lemma visited_le v l : (v <= nv)%nat -> (v <= visited v l <= nv)%nat.
  Proof. intros. rewrite visited_is_via. destruct (is_via vias v l) eqn:E; [apply is_via_lt in E|]; lia. Qed.
  Lemma passing_le v l : (v <= nv)%nat -> (v <= passing v l <= nv)%nat.
  Proof. intros. rewrite passing_cross. destruct (cross v l) eqn:E; [apply cross_lt in E|]; lia. Qed.
  Lemma pass_all_le l : forall v, (v <= nv)%nat -> (v <= pass_all v l <= nv)%nat.
  Proof.
    induction l as [|st l IH]; intros v Hv; cbn; [lia|]. pose proof (passing_le v (Z.to_nat (s_loc st)) Hv).
    specialize (IH (passing v (Z.to_nat (s_loc st))) ltac:(lia)). unfold Via_Spec.pass_all in IH. lia.
  Qed.
  Lemma start_slot_le l : (visited 0 l <= nv)%nat.
  Proof. apply visited_le. lia. Qed.
  Lemma staying_nonneg v l : stays_ok vias -> 0 <= staying v l.
  Proof.
    intros H. unfold Via_Spec.staying, next_via. destruct (nth_error vias v) as [w|] eqn:E; [|lia].
    destruct (via_at w l); [|lia]. apply H. eapply nth_error_In; eauto.
  Qed.

  (** Transfer time without the stay: none when the destination is reached. *)
  Definition tr_via (l v' : nat) : Z :=
    if negb (is_intermodal_dest P) && (Nat.eqb v' nv && p_is_dest P l) then 0 else transfer_time P l.

  (** *** The expanded timetable *)
  Definition x_stop (r : route) (p e s : nat) : stop :=
    let st := stop_at r s in
    let x := Z.of_nat (ix (Z.to_nat (s_loc st)) (pass_all e (stops_passed P r p s))) in
    let b := Nat.eqb s p in
    if fwd then mk_stop x (s_in st && b) (s_out st) (s_win st && b) (s_wout st)
    else mk_stop x (s_in st) (s_out st && b) (s_win st) (s_wout st && b).
  Definition x_route (r : route) (p e : nat) : route :=
    mk_route (map (x_stop r p e) (seq 0 (length (r_stops r)))) (r_clasz r) (r_flag_all r) (r_flag_some r) (r_flag_section r)
             (r_vehicles r) None.
  Definition x_routes : list route :=
    flat_map (fun r => flat_map (fun p => map (fun e => x_route r p e) (seq 0 (S nv))) (seq 0 (length (r_stops r)))) (tt_routes tt).
  Definition BIG : Z := 70000.
  Definition x_transfer (x : nat) : Z :=
    if is_via vias (slot_of x) (loc_of x) then BIG else transfer_time P (loc_of x).
  Definition x_walk (l v : nat) (fp : nat * Z) : nat * Z :=
    (ix (fst fp) (visited (visited v l) (fst fp)),
     p_adjust P (snd fp) + staying v l + staying (visited v l) (fst fp)).
  Definition at_end (l : nat) : bool := is_intermodal_dest P && Nat.eqb l (p_end P).
  Definition x_footpaths (x : nat) : list (nat * Z) :=
    if Nat.ltb x (n_loc * S nv) then
      let l := loc_of x in let v := slot_of x in
      (if is_via vias v l && negb (at_end l) then [(ix l (S v), tr_via l (S v) + stay_of vias v)] else []) ++
      map (x_walk l v) (if fwd then tt_footpaths_out tt l else tt_footpaths_in tt l)
    else [].
  Definition x_dist : option (nat -> option Z) :=
    match p_dist_to_end P with
    | None => None
    | Some off => Some (fun x => if Nat.eqb (visited (slot_of x) (loc_of x)) nv
                                 then match off (loc_of x) with Some d => Some (d + staying (slot_of x) (loc_of x)) | None => None end
                                 else None)
    end.
  Definition PX : params :=
    mk_params fwd
      (mk_tt (n_loc * S nv) x_routes (fun _ => []) x_transfer x_footpaths x_footpaths (fun _ _ => true))
      (fun x => p_is_dest P (loc_of x) && Nat.eqb (slot_of x) nv)
      x_dist (ix (p_end P) nv)
      (fun x => if at_end (loc_of x) then 0 else p_lb P (loc_of x))
      (p_base P) (p_allowed_clasz P) (p_require P) (fun d => d).

  Lemma in_x_routes r' : In r' x_routes <->
    exists ri r p e, nth_error (tt_routes tt) ri = Some r /\ (p < length (r_stops r))%nat /\ (e <= nv)%nat /\ r' = x_route r p e.
  Proof.
    unfold x_routes. rewrite in_flat_map. split.
    - intros (r & Hr & H). apply In_nth_error in Hr as (ri & Hr). apply in_flat_map in H as (p & Hp & H).
      apply in_map_iff in H as (e & <- & He). apply in_seq in Hp, He. exists ri, r, p, e. repeat split; auto; lia.
    - intros (ri & r & p & e & Hr & Hp & He & ->). exists r. split; [eapply nth_error_In; eauto|].
      apply in_flat_map. exists p. split; [apply in_seq; lia|]. apply in_map_iff. exists e. split; auto. apply in_seq; lia.
  Qed.
  Lemma x_stops_length r p e : length (r_stops (x_route r p e)) = length (r_stops r).
  Proof. cbn. now rewrite map_length, seq_length. Qed.
  Lemma x_stops_nth r p e s st' : nth_error (r_stops (x_route r p e)) s = Some st' ->
    exists st, nth_error (r_stops r) s = Some st /\ st' = x_stop r p e s /\ stop_at r s = st.
  Proof.
    cbn. rewrite nth_error_map. destruct (nth_error (seq 0 (length (r_stops r))) s) as [s0|] eqn:E; [|discriminate].
    cbn. intros [= <-]. assert (Hs : (s < length (r_stops r))%nat).
    { rewrite <- (seq_length (length (r_stops r)) 0). apply nth_error_Some. congruence. }
    rewrite (nth_error_nth' _ 0%nat) in E by (rewrite seq_length; auto). rewrite seq_nth in E by auto. injection E as <-.
    exists (stop_at r s). split; [now apply stop_at_nth|auto].
  Qed.
  Lemma x_stops_nth_inv r p e s st : nth_error (r_stops r) s = Some st -> nth_error (r_stops (x_route r p e)) s = Some (x_stop r p e s).
  Proof.
    intros H. assert (Hs : (s < length (r_stops r))%nat) by (apply nth_error_Some; congruence).
    cbn. rewrite nth_error_map, (nth_error_nth' _ 0%nat) by (rewrite seq_length; auto). rewrite seq_nth by auto. reflexivity.
  Qed.
  Lemma x_stop_loc r p e s : Z.to_nat (s_loc (x_stop r p e s)) = ix (loc_at r s) (pass_all e (stops_passed P r p s)).
  Proof. unfold x_stop, loc_at. destruct fwd; cbn [s_loc]; now rewrite Nat2Z.id. Qed.
  Lemma x_stop_on r p e s : get_on_allowed PX (x_stop r p e s) = get_on_allowed P (stop_at r s) && Nat.eqb s p.
  Proof. unfold get_on_allowed, wheelchair, x_stop. cbn [PX p_fwd p_require]. destruct fwd, (p_require P 2); reflexivity. Qed.
  Lemma x_stop_off r p e s : get_off_allowed PX (x_stop r p e s) = get_off_allowed P (stop_at r s).
  Proof. unfold get_off_allowed, wheelchair, x_stop. cbn [PX p_fwd p_require]. destruct fwd, (p_require P 2); reflexivity. Qed.
  Lemma stops_passed_nil r p : stops_passed P r p p = [].
  Proof. unfold stops_passed. rewrite Nat.sub_diag. destruct fwd; reflexivity. Qed.

  (** *** Rides *)
  Lemma x_ride_sound x tb x' ta : ride_ok PX x tb x' ta ->
    exists v l v' l', (v <= nv)%nat /\ (v' <= nv)%nat /\ x = ix l v /\ x' = ix l' v' /\ via_ride P vias v l tb v' l' ta.
  Proof.
    intros [ri r' vi w day s s' st st' Hr Hv Hrun Hs Hs' Hlt El El' Hon Hoff Hcl Hsec Etb Eta].
    apply nth_error_In in Hr. apply in_x_routes in Hr as (ri0 & r & p & e & Hr & Hp & He & ->).
    apply x_stops_nth in Hs as (st0 & Hs & -> & E0). apply x_stops_nth in Hs' as (st0' & Hs' & -> & E0').
    rewrite x_stop_on in Hon. apply andb_true_iff in Hon as [Hon Ep]. apply Nat.eqb_eq in Ep. subst s.
    rewrite x_stop_off in Hoff. rewrite x_stop_loc in El, El'. rewrite stops_passed_nil in El. cbn in El.
    exists e, (loc_at r p), (pass_all e (stops_passed P r p s')), (loc_at r s').
    split; [auto|]. split; [apply pass_all_le; auto|]. do 2 (split; [congruence|]).
    apply (via_ride_intro P vias _ _ _ _ _ _ ri0 r vi w day p s' st0 st0'); auto; try (unfold loc_at; congruence); congruence.
  Qed.
  Lemma x_ride_complete v l tb v' l' ta : (v <= nv)%nat -> via_ride P vias v l tb v' l' ta ->
    (v' <= nv)%nat /\ ride_ok PX (ix l v) tb (ix l' v') ta.
  Proof.
    intros Hv [ri r vi w day s s' st st' Hr Hw Hrun Hs Hs' Hlt El El' Hon Hoff Hcl Hsec Etb Eta Ev].
    split; [subst v'; apply pass_all_le; auto|].
    assert (Hs0 : (s < length (r_stops r))%nat) by (apply nth_error_Some; congruence).
    assert (Hs0' : (s' < length (r_stops r))%nat) by (apply nth_error_Some; congruence).
    assert (E : stop_at r s = st) by (pose proof (stop_at_nth r s Hs0); congruence).
    assert (E' : stop_at r s' = st') by (pose proof (stop_at_nth r s' Hs0'); congruence).
    assert (Hin : In (x_route r s v) x_routes) by (apply in_x_routes; exists ri, r, s, v; auto).
    apply In_nth_error in Hin as (ri' & Hri').
    apply (ride_intro PX (ix l v) tb (ix l' v') ta ri' (x_route r s v) vi w day s s' (x_stop r s v s) (x_stop r s v s')); auto.
    - now apply x_stops_nth_inv with st.
    - now apply x_stops_nth_inv with st'.
    - rewrite x_stop_loc, stops_passed_nil. cbn. unfold loc_at. congruence.
    - rewrite x_stop_loc. unfold loc_at. congruence.
    - rewrite x_stop_on, E, Hon, Nat.eqb_refl. reflexivity.
    - rewrite x_stop_off, E'. auto.
  Qed.

  (** *** Walks *)
  Lemma x_fp_eq x : (if p_fwd PX then tt_footpaths_out (p_tt PX) x else tt_footpaths_in (p_tt PX) x) = x_footpaths x.
  Proof. cbn. destruct fwd; reflexivity. Qed.
  Lemma x_walk_sound x x' d : walk PX x x' d ->
    (x < n_loc * S nv)%nat /\
    ((is_via vias (slot_of x) (loc_of x) = true /\ at_end (loc_of x) = false /\ x' = ix (loc_of x) (S (slot_of x)) /\
      d = tr_via (loc_of x) (S (slot_of x)) + stay_of vias (slot_of x)) \/
     exists l' d0, walk P (loc_of x) l' d0 /\ x' = ix l' (visited (visited (slot_of x) (loc_of x)) l') /\
       d = d0 + staying (slot_of x) (loc_of x) + staying (visited (slot_of x) (loc_of x)) l').
  Proof.
    intros (d0 & Hin & ->).
    rewrite x_fp_eq in Hin. rename Hin into Hin'. unfold x_footpaths in Hin'.
    change (p_adjust PX d0) with d0.
    destruct (Nat.ltb_spec x (n_loc * S nv)); [|destruct Hin']. split; auto.
    apply in_app_iff in Hin' as [Hin|Hin].
    - left. destruct (is_via vias (slot_of x) (loc_of x)); [|destruct Hin]. destruct (at_end (loc_of x)); [destruct Hin|].
      destruct Hin as [[= <- <-]|[]]. auto.
    - right. apply in_map_iff in Hin as ([l' d1] & E & Hin). unfold x_walk in E. cbn [fst snd] in E. injection E as <- <-.
      exists l', (p_adjust P d1). split; [exists d1; auto|auto].
  Qed.
  Lemma x_walk_complete l v l' d : (l < n_loc)%nat -> (v <= nv)%nat -> walk P l l' d ->
    walk PX (ix l v) (ix l' (visited (visited v l) l')) (d + staying v l + staying (visited v l) l').
  Proof.
    intros Hl Hv (d0 & Hin & ->). exists (p_adjust P d0 + staying v l + staying (visited v l) l'). split; [|reflexivity].
    rewrite x_fp_eq.
    { unfold x_footpaths. rewrite (proj2 (Nat.ltb_lt _ _) (ix_lt l v Hl Hv)). rewrite loc_ix, slot_ix by auto.
      apply in_app_iff. right. apply in_map_iff. exists (l', d0). split; [reflexivity|auto]. }
  Qed.
  Lemma x_walk_via l v : (l < n_loc)%nat -> is_via vias v l = true -> at_end l = false ->
    walk PX (ix l v) (ix l (S v)) (tr_via l (S v) + stay_of vias v).
  Proof.
    intros Hl Hv He. assert (Hv' := is_via_lt _ _ Hv). exists (tr_via l (S v) + stay_of vias v). split; [|reflexivity].
    rewrite x_fp_eq.
    { unfold x_footpaths. rewrite (proj2 (Nat.ltb_lt _ _) (ix_lt l v Hl ltac:(lia))). rewrite loc_ix, slot_ix by lia.
      rewrite Hv, He. left. reflexivity. }
  Qed.

  (** *** Well-formedness carries over *)
  Hypothesis Hwf : all_vehicles_wf P.
  Hypothesis Hdur : durations_ok P.
  Hypothesis Hend : end_ok P.
  Hypothesis Hloc : locations_ok P.
  Hypothesis Hstay : stays_ok vias.

  Lemma tr_via_nonneg l v : 0 <= tr_via l v.
  Proof. unfold tr_via, transfer_time. destruct (_ && _); [lia|]. apply Hdur. apply Hdur. Qed.
  Lemma stay_of_nonneg v : 0 <= stay_of vias v.
  Proof. unfold stay_of. destruct (nth_error vias v) eqn:E; [|lia]. apply Hstay. eapply nth_error_In; eauto. Qed.

  Lemma x_wf : all_vehicles_wf PX.
  Proof.
    split.
    - intros ri r' v Hr Hv. cbn in Hr. apply nth_error_In, in_x_routes in Hr as (ri0 & r & p & e & Hr & _ & _ & ->).
      assert (H := proj1 Hwf _ _ _ Hr Hv). unfold vehicle_wf in *. rewrite x_stops_length. exact H.
    - intros ri r' day Hr E. cbn in Hr. apply nth_error_In, in_x_routes in Hr as (ri0 & r & p & e & Hr & _ & _ & ->). discriminate.
  Qed.
  Lemma x_dur : durations_ok PX.
  Proof.
    split; [cbn; auto|]. split; [|split].
    - intros x. cbn. unfold x_transfer. destruct (is_via _ _ _); [unfold BIG; lia|]. unfold transfer_time. apply Hdur. apply Hdur.
    - intros x x' d H. assert (Hw : walk PX x x' d) by (exists d; split; [exact H|reflexivity]).
      apply x_walk_sound in Hw as (_ & [(_ & _ & _ & ->)|(l' & d0 & Hw & _ & ->)]).
      + pose proof (tr_via_nonneg (loc_of x) (S (slot_of x))). pose proof (stay_of_nonneg (slot_of x)). lia.
      + pose proof (walk_nonneg P Hdur _ _ _ Hw). pose proof (staying_nonneg (slot_of x) (loc_of x) Hstay).
        pose proof (staying_nonneg (visited (slot_of x) (loc_of x)) l' Hstay). lia.
    - intros off x d. cbn. unfold x_dist. destruct (p_dist_to_end P) as [off0|] eqn:E; [|discriminate].
      intros [= <-]. destruct (Nat.eqb _ _); [|discriminate]. destruct (off0 (loc_of x)) as [d0|] eqn:E0; [|discriminate].
      intros [= <-]. assert (0 <= d0) by (destruct Hdur as (_ & _ & _ & Hw); eapply Hw; eauto).
      pose proof (staying_nonneg (slot_of x) (loc_of x) Hstay). lia.
  Qed.
  Lemma x_intermodal : p_dist_to_end PX <> None <-> p_dist_to_end P <> None.
  Proof. cbn. unfold x_dist. destruct (p_dist_to_end P); split; congruence. Qed.
  Lemma x_is_intermodal : is_intermodal_dest PX = is_intermodal_dest P.
  Proof. unfold is_intermodal_dest. cbn. unfold x_dist. destruct (p_dist_to_end P); auto. Qed.
  Lemma route_loc_lt ri r s : nth_error (tt_routes tt) ri = Some r -> (s < length (r_stops r))%nat -> (loc_at r s < n_loc)%nat.
  Proof. intros Hr Hs. destruct Hloc as (H & _). eapply H; eauto. unfold stop_at. now apply nth_In. Qed.
  Lemma x_stop_in ri r p e st : nth_error (tt_routes tt) ri = Some r -> (e <= nv)%nat -> In st (r_stops (x_route r p e)) ->
    exists s v, (s < length (r_stops r))%nat /\ (v <= nv)%nat /\ Z.to_nat (s_loc st) = ix (loc_at r s) v.
  Proof.
    intros Hr He Hin. cbn in Hin. apply in_map_iff in Hin as (s & <- & Hs). apply in_seq in Hs.
    exists s, (pass_all e (stops_passed P r p s)). split; [lia|]. split; [apply pass_all_le; auto|]. apply x_stop_loc.
  Qed.
  Lemma x_walk_in x x' d : walk PX x x' d -> exists l' v', (l' < n_loc)%nat /\ (v' <= nv)%nat /\ x' = ix l' v' /\
    (l' = loc_of x \/ exists d0, walk P (loc_of x) l' d0).
  Proof.
    intros Hw. apply x_walk_sound in Hw as (Hx & [(Hv & _ & -> & _)|(l' & d0 & Hw & -> & _)]).
    - exists (loc_of x), (S (slot_of x)). apply is_via_lt in Hv. split; [|split; [lia|auto]].
      apply (ix_lt_inv (loc_of x) (slot_of x) (slot_le x)). now rewrite ix_loc_slot.
    - exists l', (visited (visited (slot_of x) (loc_of x)) l'). split; [|split; [|split; [reflexivity|eauto]]].
      + destruct Hw as (d1 & Hin & _). destruct Hloc as (_ & H & _). eapply H; eauto.
      + apply visited_le, visited_le, slot_le.
  Qed.
  Lemma x_loc : locations_ok PX.
  Proof.
    split; [|split].
    - intros ri r' st Hr Hin. cbn in Hr. apply nth_error_In, in_x_routes in Hr as (ri0 & r & p & e & Hr & _ & He & ->).
      destruct (x_stop_in _ _ _ _ _ Hr He Hin) as (s & v & Hs & Hv & ->). cbn [PX p_tt tt_n_locations].
      apply ix_lt; auto. eapply route_loc_lt; eauto.
    - intros x x' d Hin. assert (Hw : walk PX x x' d) by (exists d; split; [exact Hin|reflexivity]).
      destruct (x_walk_in _ _ _ Hw) as (l' & v' & Hl & Hv & -> & _). now apply ix_lt.
    - intros x Hd. cbn in Hd. apply andb_true_iff in Hd as [Hd _]. cbn [PX p_tt tt_n_locations].
      rewrite <- (ix_loc_slot x). apply ix_lt; [|apply slot_le]. destruct Hloc as (_ & _ & H). auto.
  Qed.
  Lemma x_end : end_ok PX.
  Proof.
    intros Him. apply x_intermodal in Him. destruct (Hend Him) as (H1 & H2 & H3). split; [|split].
    - intros x. cbn. rewrite andb_true_iff, Nat.eqb_eq, H1. split.
      + intros [E1 E2]. transitivity (ix (loc_of x) (slot_of x)); [symmetry; apply ix_loc_slot|rewrite E1, E2; reflexivity].
      + intros ->. rewrite loc_ix, slot_ix by lia. auto.
    - intros ri r' st Hr Hin. cbn in Hr. apply nth_error_In, in_x_routes in Hr as (ri0 & r & p & e & Hr & _ & He & ->).
      destruct (x_stop_in _ _ _ _ _ Hr He Hin) as (s & v & Hs & Hv & ->). cbn. intros E. apply ix_inj in E as [E _]; auto.
      revert E. eapply H2; eauto. unfold stop_at. now apply nth_In.
    - intros x d Hin. assert (Hw : walk PX x (ix (p_end P) nv) d) by (exists d; split; [exact Hin|reflexivity]).
      apply x_walk_sound in Hw as (Hx & [(Hv & He & E & _)|(l' & d0 & Hw & E & _)]).
      + apply is_via_lt in Hv. apply ix_inj in E as [E _]; try lia. unfold at_end in He. rewrite <- E, Nat.eqb_refl in He.
        unfold is_intermodal_dest in He. destruct (p_dist_to_end P); [discriminate|congruence].
      + apply ix_inj in E as [E _]; [|lia|apply visited_le, visited_le, slot_le]. subst l'.
        destruct Hw as (d1 & Hin' & _). eapply H3; eauto.
  Qed.

  (** *** Lower bounds *)
  Variable D : nat -> Z.
  Hypothesis HD : lower_bounds_ok P D.
  Definition DX (x : nat) : Z := D (loc_of x).
  Lemma x_lb : lower_bounds_ok PX DX.
  Proof.
    split.
    - intros x. apply (lb_nonneg _ _ HD).
    - intros x Hx Hd. unfold DX in *. cbn. unfold at_end. pose proof (lb_nonneg _ _ HD (loc_of x)).
      destruct (is_intermodal_dest P && Nat.eqb (loc_of x) (p_end P)) eqn:E; [lia|].
      apply (lb_value _ _ HD); auto. intros Him He. rewrite He, Nat.eqb_refl, andb_true_r in E.
      unfold is_intermodal_dest in E. destruct (p_dist_to_end P); congruence.
    - intros ri r' v s s' st st' Hr Hv Hs Hs' Hlt Hon Hoff Hf. cbn in Hr.
      apply nth_error_In, in_x_routes in Hr as (ri0 & r & p & e & Hr & _ & He & ->).
      apply x_stops_nth in Hs as (st0 & Hs & -> & E0). apply x_stops_nth in Hs' as (st0' & Hs' & -> & E0').
      rewrite x_stop_on in Hon. apply andb_true_iff in Hon as [Hon _]. rewrite x_stop_off in Hoff.
      rewrite !x_stop_loc. unfold DX. rewrite !loc_ix by (apply pass_all_le; auto).
      assert (Hl := lb_ride _ _ HD ri0 r v s s' st0 st0' Hr Hv Hs Hs' Hlt).
      unfold loc_at. rewrite E0, E0' in *. apply Hl; auto.
    - intros x x' d Hw. apply x_walk_sound in Hw as (Hx & [(Hv & _ & -> & ->)|(l' & d0 & Hw & -> & ->)]); unfold DX.
      + apply is_via_lt in Hv. rewrite loc_ix by lia. pose proof (tr_via_nonneg (loc_of x) (S (slot_of x))).
        pose proof (stay_of_nonneg (slot_of x)). lia.
      + rewrite loc_ix by (apply visited_le, visited_le, slot_le). pose proof (lb_walk _ _ HD _ _ _ Hw).
        pose proof (staying_nonneg (slot_of x) (loc_of x) Hstay).
        pose proof (staying_nonneg (visited (slot_of x) (loc_of x)) l' Hstay). lia.
    - intros x Hd. cbn in Hd. apply andb_true_iff in Hd as [Hd _]. unfold DX. now apply (lb_dest _ _ HD).
    - intros off x d. cbn. unfold x_dist. destruct (p_dist_to_end P) as [off0|] eqn:E; [|discriminate].
      intros [= <-]. destruct (Nat.eqb _ _); [|discriminate]. destruct (off0 (loc_of x)) as [d0|] eqn:E0; [|discriminate].
      intros [= <-]. unfold DX. pose proof (lb_offset _ _ HD _ _ _ E E0). pose proof (staying_nonneg (slot_of x) (loc_of x) Hstay). lia.
  Qed.
End Expand.
