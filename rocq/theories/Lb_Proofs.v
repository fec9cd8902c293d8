From Coq Require Import List ZArith Bool Arith Lia.
From Verif Require Import Base Time_Model Raptor_Model Raptor_Spec Dial_Model Dijkstra_Model Dijkstra_Proofs.
Import ListNotations.
Local Open Scope Z_scope.

(** Station hierarchy: stop -> (platform ->) station, at most two levels below the station. *)
Record hierarchy_ok (L : locations) : Prop := mk_hier {
  h_children : forall i c, In c (lo_children L i) <-> (lo_parent L c = Some i /\ (c < lo_n L)%nat);
  h_parents : forall c i, lo_parent L c = Some i -> (i < lo_n L)%nat;
  h_depth : forall a b c, lo_parent L a = Some b -> lo_parent L b = Some c -> lo_parent L c = None;
  (** a location that has children itself comes after its own parent *)
  h_order : forall c p, lo_children L c <> [] -> lo_parent L c = Some p -> (p < c)%nat }.

Section Roots.
  Variable L : locations.
  Hypothesis HL : hierarchy_ok L.

  Lemma root_cases l :
    (lo_parent L l = None /\ get_root_idx L l = l) \/
    (exists p, lo_parent L l = Some p /\ lo_parent L p = None /\ get_root_idx L l = p) \/
    (exists p g, lo_parent L l = Some p /\ lo_parent L p = Some g /\ lo_parent L g = None /\ get_root_idx L l = g).
  Proof.
    unfold get_root_idx. cbn [root_loop]. destruct (lo_parent L l) as [p|] eqn:Ep; [|auto].
    right. cbn [Nat.ltb Nat.leb]. rewrite orb_false_r.
    destruct (Nat.eqb_spec p l) as [->|Hpl].
    { exfalso. pose proof (h_depth L HL l l l Ep Ep). congruence. }
    destruct (lo_parent L p) as [g|] eqn:Eg; [|left; eauto].
    right. rewrite orb_false_r. destruct (Nat.eqb_spec g l) as [->|Hgl].
    { exfalso. pose proof (h_depth L HL l p l Ep Eg). congruence. }
    pose proof (h_depth L HL l p g Ep Eg) as Hg. exists p, g. rewrite Hg. auto.
  Qed.
  Lemma root_no_parent l : lo_parent L (get_root_idx L l) = None.
  Proof. destruct (root_cases l) as [(H & ->)|[(p & _ & H & ->)|(p & g & _ & _ & H & ->)]]; auto. Qed.
  Lemma root_root l : get_root_idx L (get_root_idx L l) = get_root_idx L l.
  Proof.
    pose proof (root_no_parent l) as H.
    destruct (root_cases (get_root_idx L l)) as [(_ & E)|[(p & E & _)|(p & g & E & _)]]; congruence.
  Qed.
  Lemma root_lt l : (l < lo_n L)%nat -> (get_root_idx L l < lo_n L)%nat.
  Proof.
    intros Hl. destruct (root_cases l) as [(_ & ->)|[(p & Hp & _ & ->)|(p & g & _ & Hg & _ & ->)]]; auto;
      eapply h_parents; eauto.
  Qed.
  Lemma root_family l : (l < lo_n L)%nat -> In l (family L (get_root_idx L l) ++ [get_root_idx L l]).
  Proof.
    intros Hl. rewrite in_app_iff. unfold family.
    destruct (root_cases l) as [(_ & ->)|[(p & Hp & _ & ->)|(p & g & Hp & Hg & _ & ->)]].
    - right. now left.
    - left. apply in_flat_map. exists l. split; [apply h_children; auto|now left].
    - left. apply in_flat_map. exists p. split.
      + apply h_children; auto. split; auto. eapply h_parents; eauto.
      + right. apply h_children; auto.
  Qed.
  (** The bound of a location never exceeds the bound of its station. *)
  Lemma hand_down_le pre l : (l < lo_n L)%nat -> hand_down L pre l <= pre (get_root_idx L l).
  Proof.
    intros Hl. destruct HL as [H1 H2 _ H4].
    destruct (root_cases l) as [(H & ->)|[(p & Hp & H & ->)|(p & g & Hp & Hg & H & ->)]].
    - rewrite (hand_down_root L H1); auto. lia.
    - rewrite (hand_down_child L H1 H2 H4 pre l p Hl Hp).
      rewrite (hand_down_root L H1 pre p (H2 _ _ Hp) H). lia.
    - rewrite (hand_down_child L H1 H2 H4 pre l p Hl Hp).
      rewrite (hand_down_child L H1 H2 H4 pre p g (H2 _ _ Hp) Hg).
      rewrite (hand_down_root L H1 pre g (H2 _ _ Hg) H). lia.
  Qed.
  Lemma metas_root mode l : In (get_root_idx L l) (metas L mode (get_root_idx L l)).
  Proof. destruct mode; simpl; auto. rewrite root_root. auto. Qed.
End Roots.

(** ** Weights of the lower bound graph *)
Section Weights.
  Definition has_weight (w : weights) (t : nat) (d : Z) : Prop := exists x, In (t, x) w /\ x <= d.
  Definition weights_in (Q : nat -> Z -> Prop) (w : weights) : Prop := forall t x, In (t, x) w -> Q t x.

  Lemma update_weight_spec w t d :
    has_weight (update_weight w t d) t d /\
    (forall t' d', has_weight w t' d' -> has_weight (update_weight w t d) t' d') /\
    (forall Q : nat -> Z -> Prop, (forall a x y, Q a x -> Q a y -> Q a (Z.min x y)) -> Q t d -> weights_in Q w ->
        weights_in Q (update_weight w t d)).
  Proof.
    induction w as [|[a x] w (I1 & I2 & I3)]; simpl.
    - split; [exists d; split; [now left|lia]|]. split.
      + intros t' d' (x & [] & _).
      + intros Q _ HQ _ a x [[= <- <-]|[]]; auto.
    - destruct (Nat.eqb_spec a t) as [->|Hne].
      + split; [exists (Z.min x d); split; [now left|lia]|]. split.
        * intros t' d' (y & [[= <- <-]|Hy] & Hle).
          -- exists (Z.min x d). split; [now left|lia].
          -- exists y. split; [now right|auto].
        * intros Q Hm HQ Hw a y [[= <- <-]|Hy]; [|apply Hw; now right].
          apply Hm; auto. apply Hw. now left.
      + split; [|split].
        * destruct I1 as (y & Hy & Hle). exists y. split; [now right|auto].
        * intros t' d' (y & [[= <- <-]|Hy] & Hle).
          -- exists x. split; [now left|auto].
          -- destruct (I2 t' d') as (z & Hz & Hle'); [exists y; auto|]. exists z. split; [now right|auto].
        * intros Q Hm HQ Hw b y [[= <- <-]|Hy]; [apply Hw; now left|].
          apply (I3 Q Hm HQ) in Hy; auto. intros b' y' H. apply Hw. now right.
  Qed.
  Lemma fold_has {A} (f : weights -> A -> weights) (xs : list A) t d :
    (forall w x, In x xs -> has_weight w t d -> has_weight (f w x) t d) ->
    forall w, has_weight w t d -> has_weight (fold_left f xs w) t d.
  Proof.
    induction xs as [|x xs IH]; intros Hf w Hw; simpl; auto.
    apply IH; [intros; apply Hf; auto; now right|]. apply Hf; auto. now left.
  Qed.
  Lemma fold_hit {A} (f : weights -> A -> weights) (xs : list A) t d x0 :
    (forall w x, In x xs -> has_weight w t d -> has_weight (f w x) t d) -> In x0 xs ->
    (forall w, has_weight (f w x0) t d) -> forall w, has_weight (fold_left f xs w) t d.
  Proof.
    intros Hf Hin Hhit. induction xs as [|x xs IH]; intros w; simpl; [destruct Hin|].
    destruct Hin as [->|Hin].
    - apply fold_has; auto. intros; apply Hf; auto; now right.
    - apply IH; auto. intros; apply Hf; auto; now right.
  Qed.
  Lemma fold_in {A} (f : weights -> A -> weights) (xs : list A) Q :
    (forall w x, In x xs -> weights_in Q w -> weights_in Q (f w x)) ->
    forall w, weights_in Q w -> weights_in Q (fold_left f xs w).
  Proof.
    induction xs as [|x xs IH]; intros Hf w Hw; simpl; auto.
    apply IH; [intros; apply Hf; auto; now right|]. apply Hf; auto. now left.
  Qed.
End Weights.

Section Graph.
  Variable L : locations.
  Variable P : params.
  Variable prf_cars prf_bikes : bool.
  Notation tt := (p_tt P).
  Notation fwd := (p_fwd P).
  Hypothesis HL : hierarchy_ok L.
  Hypothesis Hn : lo_n L = tt_n_locations tt.
  Hypothesis Hwf : all_vehicles_wf P.
  Hypothesis Hloc : locations_ok P.
  Hypothesis Hfp : forall l l' d, In (l', d) (tt_footpaths_out tt l) <-> In (l, d) (tt_footpaths_in tt l').
  Hypothesis Hfpn : forall l l' d, In (l', d) (tt_footpaths_out tt l) -> (l < lo_n L)%nat /\ (l' < lo_n L)%nat /\ 0 <= d.
  Notation root := (get_root_idx L).
  Notation edges := (lb_edges L tt fwd prf_cars prf_bikes).

  Lemma stops_lt ri r s : nth_error (tt_routes tt) ri = Some r -> (s < length (r_stops r))%nat -> (route_loc r s < lo_n L)%nat.
  Proof.
    intros Hr Hs. destruct Hloc as (H & _). rewrite Hn. unfold route_loc. eapply H; eauto. now apply nth_In.
  Qed.

  Lemma ride_time_eq ri r v s : nth_error (tt_routes tt) ri = Some r -> In v (r_vehicles r) -> (S s < length (r_stops r))%nat ->
    ride_time v s (S s) = event_minutes v (S s) kArr - event_minutes v s kDep /\ 0 <= ride_time v s (S s).
  Proof.
    intros Hr Hv Hs. destruct (proj1 Hwf _ _ _ Hr Hv) as (H1 & H2 & H3).
    pose proof (H1 s kDep ltac:(lia)) as (A1 & A2 & A3). pose proof (H1 (S s) kArr ltac:(lia)) as (B1 & B2 & B3).
    pose proof (H3 s (S s) ltac:(lia)) as C.
    unfold ride_time. set (x := event_minutes v (S s) kArr - event_minutes v s kDep).
    assert (Hx : 0 <= x <= 32767) by (unfold x, event_minutes in *; lia).
    replace ((d_days (v_ev v (S s) kArr) - d_days (v_ev v s kDep)) * 1440 + (d_mam (v_ev v (S s) kArr) - d_mam (v_ev v s kDep)))
      with x by (unfold x, event_minutes; lia).
    unfold to_u16. rewrite (Z.mod_small x) by lia.
    unfold delta_of_minutes, delta_make, delta_as_duration, to_u16; cbn [d_days d_mam].
    assert (Q : Z.quot x 1440 = x / 1440) by (apply Z.quot_div_nonneg; lia).
    assert (R : Z.rem x 1440 = x mod 1440) by (apply Z.rem_mod_nonneg; lia).
    rewrite Q, R. pose proof (Z.div_mod x 1440 ltac:(lia)). pose proof (Z.mod_pos_bound x 1440 ltac:(lia)).
    assert (0 <= x / 1440 <= 23) by (split; [apply Z.div_pos; lia|apply Z.div_le_upper_bound; lia]).
    rewrite (Z.mod_small (x / 1440) 65536), (Z.mod_small (x mod 1440) 65536) by lia.
    rewrite (Z.mod_small (x / 1440) 32), (Z.mod_small (x mod 1440) 2048) by lia.
    unfold to_i16. rewrite Z.mod_small by lia. lia.
  Qed.
  Lemma min_ride_spec r s : (forall v, In v (r_vehicles r) -> 0 <= ride_time v s (S s)) ->
    0 <= min_ride_time r s /\ forall v, In v (r_vehicles r) -> min_ride_time r s <= ride_time v s (S s).
  Proof.
    unfold min_ride_time. intros H.
    assert (G : forall vs m, 0 <= m -> (forall v, In v vs -> 0 <= ride_time v s (S s)) ->
      let m' := fold_left (fun m v => Z.min (ride_time v s (S s)) m) vs m in
      0 <= m' <= m /\ forall v, In v vs -> m' <= ride_time v s (S s)).
    { induction vs as [|v vs IH]; intros m Hm Hv; simpl; [split; [lia|tauto]|].
      pose proof (Hv v ltac:(now left)).
      destruct (IH (Z.min (ride_time v s (S s)) m) ltac:(lia) ltac:(intros; apply Hv; now right)) as (I1 & I2).
      split; [lia|]. intros x [<-|Hx]; auto. lia. }
    destruct (G (r_vehicles r) i16_max ltac:(unfold i16_max; lia) H) as (G1 & G2). split; [lia|auto].
  Qed.

  Definition Q (t : nat) (x : Z) : Prop := (t < lo_n L)%nat /\ 0 <= x.
  Lemma Q_min a x y : Q a x -> Q a y -> Q a (Z.min x y).
  Proof. unfold Q. lia. Qed.

  Lemma add_edges_has w l t d : has_weight w t d -> has_weight (add_edges L tt fwd prf_cars prf_bikes w l) t d.
  Proof.
    intros H. unfold add_edges. apply fold_has.
    - intros w' ri _ Hw'. destruct (nth_error (tt_routes tt) ri) as [r|]; auto.
      unfold add_route_edges. destruct (negb _); auto. apply fold_has; auto.
      intros w2 s _ Hw2. destruct (negb _); auto. destruct (Nat.eqb _ _); auto.
      apply update_weight_spec; auto.
    - apply fold_has; auto. intros w2 fp _ Hw2. destruct (Nat.eqb _ _); auto. apply update_weight_spec; auto.
  Qed.
  Lemma add_edges_in w l : weights_in Q w -> weights_in Q (add_edges L tt fwd prf_cars prf_bikes w l).
  Proof.
    intros H. unfold add_edges. apply fold_in.
    - intros w' ri _ Hw'. destruct (nth_error (tt_routes tt) ri) as [r|] eqn:Hr; auto.
      unfold add_route_edges. destruct (negb _); auto. apply fold_in; auto.
      intros w2 s Hs Hw2. apply in_seq in Hs. destruct (negb _); auto. destruct (Nat.eqb _ _); auto.
      apply update_weight_spec; auto using Q_min. split.
      + apply root_lt; auto. destruct fwd; eapply stops_lt; eauto; lia.
      + apply min_ride_spec. intros v Hv. eapply ride_time_eq; eauto. lia.
    - apply fold_in; auto. intros w2 [t d] Hin Hw2. cbn [fst snd]. destruct (Nat.eqb _ _); auto.
      apply update_weight_spec; auto using Q_min. unfold Q.
      destruct fwd.
      + apply Hfp in Hin. apply Hfpn in Hin. split; [apply root_lt; tauto|tauto].
      + apply Hfpn in Hin. split; [apply root_lt; tauto|tauto].
  Qed.

  Lemma lb_closed u v w : In (v, w) (edges u) -> (v < lo_n L)%nat /\ 0 <= w.
  Proof.
    unfold lb_edges. destruct (lo_parent L u); [intros []|].
    intros H. apply in_map_iff in H. destruct H as ([t x] & [= <- <-] & H).
    assert (HQ : weights_in Q (fold_left (add_edges L tt fwd prf_cars prf_bikes) (family L u ++ [u]) [])).
    { apply fold_in; [intros; now apply add_edges_in|intros ? ? []]. }
    apply HQ in H. cbn [fst snd]. unfold Q, fp_max_duration in *. lia.
  Qed.

  Definition lb_edge (u v : nat) (d : Z) : Prop := exists w, In (v, w) (edges u) /\ w <= d.

  Lemma edge_of_weight l t d : (l < lo_n L)%nat ->
    (forall w, has_weight (add_edges L tt fwd prf_cars prf_bikes w l) t d) -> lb_edge (root l) t d.
  Proof.
    intros Hl H. unfold lb_edge, lb_edges. rewrite root_no_parent by auto.
    destruct (fold_hit (add_edges L tt fwd prf_cars prf_bikes) (family L (root l) ++ [root l]) t d l) with (w := @nil (nat * Z)) as (x & Hx & Hle); auto.
    - intros; now apply add_edges_has.
    - now apply root_family.
    - exists (Z.min x fp_max_duration). split; [|lia]. apply in_map_iff. exists (t, x). auto.
  Qed.

  (** Walks: an edge in the direction of the search graph (from the side of the destination). *)
  Lemma walk_edge_ok l l' d : In (l', d) (if fwd then tt_footpaths_out tt l else tt_footpaths_in tt l) ->
    root l <> root l' -> lb_edge (root l') (root l) d.
  Proof.
    intros H Hne.
    assert (Hin : In (l, d) (if fwd then tt_footpaths_in tt l' else tt_footpaths_out tt l')).
    { destruct fwd; apply Hfp; auto. }
    apply edge_of_weight.
    { destruct fwd; [apply Hfpn in H|apply Hfpn in Hin]; tauto. }
    intros w. unfold add_edges. apply fold_has.
    - intros w' ri _ Hw'. destruct (nth_error (tt_routes tt) ri) as [r|]; auto.
      unfold add_route_edges. destruct (negb _); auto. apply fold_has; auto.
      intros w2 s _ Hw2. destruct (negb _); auto. destruct (Nat.eqb _ _); auto.
      apply update_weight_spec; auto.
    - apply fold_hit with (x0 := (l, d)); auto.
      + intros w2 fp _ Hw2. destruct (Nat.eqb _ _); auto. apply update_weight_spec; auto.
      + intros w2. cbn [fst snd]. destruct (Nat.eqb_spec (root l) (root l')); [congruence|]. exact (proj1 (update_weight_spec _ _ _)).
  Qed.

  (** Rides between consecutive stops. *)
  Hypothesis Hidx : forall ri r st, nth_error (tt_routes tt) ri = Some r -> In st (r_stops r) ->
     In ri (tt_location_routes tt (Z.to_nat (s_loc st))).
  Lemma ride_edge_ok ri r v s : nth_error (tt_routes tt) ri = Some r -> In v (r_vehicles r) ->
    route_in_profile prf_cars prf_bikes r = true -> (S s < length (r_stops r))%nat ->
    let a := route_loc r (if fwd then s else S s) in      (* left first in search direction *)
    let b := route_loc r (if fwd then S s else s) in
    root a <> root b -> lb_edge (root b) (root a) (event_minutes v (S s) kArr - event_minutes v s kDep).
  Proof.
    intros Hr Hv Hp Hs a b Hne.
    destruct (ride_time_eq _ _ _ _ Hr Hv Hs) as (<- & _).
    assert (Hb : (b < lo_n L)%nat) by (unfold b; destruct fwd; eapply stops_lt; eauto; lia).
    apply edge_of_weight; auto. intros w. unfold add_edges.
    apply fold_hit with (x0 := ri).
    - intros w' ri' _ Hw'. destruct (nth_error (tt_routes tt) ri') as [r'|]; auto.
      unfold add_route_edges. destruct (negb _); auto. apply fold_has; auto.
      intros w2 s' _ Hw2. destruct (negb _); auto. destruct (Nat.eqb _ _); auto.
      apply update_weight_spec; auto.
    - unfold b, route_loc. eapply Hidx; eauto. apply nth_In. destruct fwd; lia.
    - intros w'. rewrite Hr. unfold add_route_edges. rewrite Hp. cbn [negb].
      apply fold_hit with (x0 := s).
      + intros w2 s' _ Hw2. destruct (negb _); auto. destruct (Nat.eqb _ _); auto. apply update_weight_spec; auto.
      + apply in_seq. lia.
      + intros w2.
        assert (E1 : (if fwd then route_loc r (S s) else route_loc r s) = b) by (unfold b; now destruct fwd).
        assert (E2 : (if fwd then route_loc r s else route_loc r (S s)) = a) by (unfold a; now destruct fwd).
        rewrite E1, E2, Nat.eqb_refl. cbn [negb].
        destruct (Nat.eqb_spec (root a) (root b)); [congruence|].
        destruct (update_weight_spec w2 (root a) (min_ride_time r s)) as ((x & Hx & Hle) & _).
        exists x. split; auto.
        assert (Hm : min_ride_time r s <= ride_time v s (S s)).
        { apply min_ride_spec; auto. intros v' Hv'. eapply ride_time_eq; eauto. }
        lia.
  Qed.
End Graph.
