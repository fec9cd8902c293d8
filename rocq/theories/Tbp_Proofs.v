(** Every transfer kept by the pre-processing of the trip based search is feasible. *)
From Coq Require Import List ZArith Bool Arith Lia.
From Verif Require Import Base Time_Model Pareto_Model Calendar_Model Finish_Model Raptor_Model Raptor_Spec Tbp_Model.
From Verif Require Tb_Model.
Import ListNotations.
Local Open Scope Z_scope.

(** ** Day sets *)
Definition subset (a b : bitfield) : Prop := forall d, a d = true -> b d = true.
Lemma subset_refl a : subset a a. Proof. red; auto. Qed.
Lemma subset_trans a b c : subset a b -> subset b c -> subset a c. Proof. unfold subset; auto. Qed.
Lemma and_subset_l a b : subset (bfAnd a b) a.
Proof. intros d H. unfold bfAnd in H. now apply andb_true_iff in H. Qed.
Lemma and_subset_r a b : subset (bfAnd a b) b.
Proof. intros d H. unfold bfAnd in H. now apply andb_true_iff in H. Qed.
Lemma or_subset a b c : subset a c -> subset b c -> subset (bfOr a b) c.
Proof. intros H1 H2 d H. unfold bfOr in H. apply orb_true_iff in H as [H|H]; auto. Qed.
Lemma empty_subset a : subset bf_empty a. Proof. intros d H. discriminate. Qed.
Lemma bfNone_false a : bfNone a = false -> exists d, a d = true.
Proof.
  unfold bfNone. intros H. apply negb_false_iff in H. apply existsb_exists in H as (d & _ & H). eauto.
Qed.

Lemma rlb_update_subset : forall es shift start bf, subset (snd (rlb_update es shift start bf)) bf.
Proof.
  induction es as [|e es IH]; intros shift start bf; cbn [rlb_update]; [apply subset_refl|].
  destruct (bfNone bf); [apply subset_refl|]. destruct (bfNone (rlb_bf e)).
  - specialize (IH shift start bf). destruct (rlb_update es shift start bf). exact IH.
  - destruct (_ || _).
    + specialize (IH shift start bf). destruct (rlb_update es shift start bf). exact IH.
    + specialize (IH shift start (bfAnd bf (bfNot (rlb_bf e)))). destruct (rlb_update es shift start (bfAnd bf (bfNot (rlb_bf e)))).
      eapply subset_trans; [exact IH|apply and_subset_l].
Qed.
Lemma rr_loop_subset : forall es t i bf same over,
  let '(_, b, _, _, _) := Tb_Model.rr_loop t es i bf same over in subset b bf.
Proof.
  induction es as [|e es IH]; intros t i bf same over; cbn [Tb_Model.rr_loop]; [apply subset_refl|].
  destruct (bfNone bf); [apply subset_refl|]. cbv zeta.
  set (bf' := if t <? Tb_Model.rr_time e then bf else bfAnd bf (bfNot (Tb_Model.rr_bf e))).
  match goal with |- context [Tb_Model.rr_loop t es (S i) bf' ?s ?o] => specialize (IH t (S i) bf' s o); destruct (Tb_Model.rr_loop t es (S i) bf' s o) as [[[[? b] ?] ?] ?] end.
  eapply subset_trans; [exact IH|]. unfold bf'. destruct (_ <? _); [apply subset_refl|apply and_subset_l].
Qed.
Lemma rr_update_subset tab l t bf : subset (snd (Tb_Model.rr_update tab l t bf)) bf.
Proof.
  unfold Tb_Model.rr_update, Tb_Model.rr_update_list. pose proof (rr_loop_subset (tab l) t 0 bf None None) as H.
  destruct (Tb_Model.rr_loop t (tab l) 0 bf None None) as [[[[es b] sm] ov] ret].
  destruct ret; cbn [snd]; [apply empty_subset|]. destruct (bfNone b); cbn [snd]; [apply empty_subset|exact H].
Qed.
Lemma rr_update2_subset s l a c bf : subset (snd (rr_update2 s l a c bf)) bf.
Proof.
  unfold rr_update2. pose proof (rr_update_subset (rs_arr s) l (to_u16 a) bf) as H1. pose proof (rr_update_subset (rs_ch s) l (to_u16 c) bf) as H2.
  destruct (Tb_Model.rr_update (rs_arr s) l (to_u16 a) bf), (Tb_Model.rr_update (rs_ch s) l (to_u16 c) bf). now apply or_subset.
Qed.

  Lemma route_at_nth tt q : (q < length (tt_routes tt))%nat -> nth_error (tt_routes tt) q = Some (route_at tt q).
    Proof. intros H. unfold route_at. now apply nth_error_nth'. Qed.
  Lemma vehicle_at_nth tt q u : (u < length (r_vehicles (route_at tt q)))%nat -> nth_error (r_vehicles (route_at tt q)) u = Some (vehicle_at tt q u).
    Proof. intros H. unfold vehicle_at, vehicle_of. now apply nth_error_nth'. Qed.
  Lemma route_exists tt q : (0 < n_stops tt q)%nat -> (q < length (tt_routes tt))%nat.
    Proof.
      intros H. destruct (Nat.lt_ge_cases q (length (tt_routes tt))) as [L|L]; auto.
      unfold n_stops, route_at in H. rewrite nth_overflow in H by exact L. cbn in H. lia.
    Qed.

Section Feasible.
  Variable P : params.
  Hypothesis Hfwd : p_fwd P = true.
  Notation tt := (p_tt P).
  Variable fps0 : nat -> list (nat * Z).
  Hypothesis Hwf : all_vehicles_wf P.
  Hypothesis Hcol : columns_sorted P.
  Hypothesis Hdur : (forall l, 0 <= tt_transfer_time tt l <= 511) /\ (forall l l' d, In (l', d) (tt_footpaths_out tt l) -> 0 <= d <= 511).

  (** ** Reduction only removes *)
  Lemma reduce_arrival_subset x st i : subset (snd st) (x_bf x) -> subset (snd (reduce_arrival tt fps0 x st i)) (x_bf x).
  Proof.
    destruct st as [s impr]. cbn [snd]. intros H. unfold reduce_arrival.
    set (arr := to_u16 _). set (l := loc_at _ i).
    pose proof (rr_update2_subset s l arr (arr + tt_transfer_time tt l) (x_bf x)) as H1.
    destruct (rr_update2 s l arr (arr + tt_transfer_time tt l) (x_bf x)) as [s1 i1]. cbn [snd] in H1.
    assert (H2 : subset (bfOr impr i1) (x_bf x)) by now apply or_subset.
    generalize dependent (bfOr impr i1). generalize s1. clear H1 i1. induction (fps0 l) as [|fp fl IH]; intros s2 b Hb; cbn [fold_left]; [exact Hb|].
    pose proof (rr_update2_subset s2 (fst fp) (arr + snd fp) (arr + snd fp) (x_bf x)) as H3.
    destruct (rr_update2 s2 (fst fp) (arr + snd fp) (arr + snd fp) (x_bf x)) as [s3 i3]. apply IH. now apply or_subset.
  Qed.
  Lemma reduce_transfer_subset s x : subset (snd (reduce_transfer tt fps0 s x)) (x_bf x).
  Proof.
    unfold reduce_transfer. set (is := seq _ _). assert (H : subset (snd (s, bf_empty)) (x_bf x)) by apply empty_subset.
    revert H. generalize (s, bf_empty). induction is as [|i is IH]; intros st H; cbn [fold_left]; [exact H|]. apply IH. now apply reduce_arrival_subset.
  Qed.
  Definition smaller (x y : xtransfer) : Prop :=
    subset (x_bf x) (x_bf y) /\ x_route x = x_route y /\ x_vehicle x = x_vehicle y /\ x_stop x = x_stop y /\ x_day x = x_day y.
  Lemma reduce_stop_smaller : forall xs s x, In x (snd (reduce_stop tt fps0 s xs)) -> (exists d, x_bf x d = true) /\ exists y, In y xs /\ smaller x y.
  Proof.
    induction xs as [|y xs IH]; intros s x; cbn [reduce_stop]; [intros []|].
    pose proof (reduce_transfer_subset s y) as Hs. destruct (reduce_transfer tt fps0 s y) as [s1 impr].
    specialize (IH s1 x). destruct (reduce_stop tt fps0 s1 xs) as [s2 rest]. cbn [snd] in *. destruct (bfNone impr) eqn:En.
    - intros H. destruct (IH H) as (H1 & y' & H2 & H3). split; [exact H1|]. exists y'. split; auto. now right.
    - intros [<-|H].
      + split; [now apply bfNone_false|]. exists y. split; [now left|]. repeat split; auto.
      + destruct (IH H) as (H1 & y' & H2 & H3). split; [exact H1|]. exists y'. split; auto. now right.
  Qed.
  Lemma reduce_stops_smaller r v : forall is s tr i x, In x (reduce_stops tt fps0 r v is s tr i) -> (In x (tr i) \/ (exists d, x_bf x d = true)) /\ exists y, In y (tr i) /\ smaller x y.
  Proof.
    induction is as [|i0 is IH]; intros s tr i x; cbn [reduce_stops].
    - intros H. split; [now left|]. exists x. split; auto. repeat split; auto. apply subset_refl.
    - destruct (negb _); [apply IH|].
      pose proof (reduce_stop_smaller (tr i0) (reach_by_leaving tt r v i0 s)) as HS.
      destruct (reduce_stop tt fps0 (reach_by_leaving tt r v i0 s) (tr i0)) as [s' xs]. cbn [snd] in HS.
      intros H. specialize (IH _ _ _ _ H). unfold Tb_Model.upd in IH. destruct (Nat.eqb_spec i i0) as [->|Hne]; [|exact IH].
      destruct IH as [H1 (y & Hy & Hs)]. destruct (HS y Hy) as (Hne & z & Hz & Hs2).
      assert (Hsm : smaller x z).
      { destruct Hs as (A1 & A2 & A3 & A4 & A5), Hs2 as (B1 & B2 & B3 & B4 & B5). repeat split; try congruence. eapply subset_trans; eauto. }
      split; [|exists z; auto]. right. destruct H1 as [H1|H1]; auto. destruct (HS x H1) as (E & _). exact E.
  Qed.

  (** ** Neighborhood *)
  (** A walk or a change at the same place between the stop left and the stop boarded. *)
  Definition nb_ok (r : nat) (n : neighbor) : Prop :=
    let st := stop_at (route_at tt r) (nb_from n) in
    let su := stop_at (route_at tt (nb_route n)) (nb_to n) in
    (1 <= nb_from n < n_stops tt r)%nat /\ (S (nb_to n) < n_stops tt (nb_route n))%nat /\ s_out st = true /\ s_in su = true /\
    ((Z.to_nat (s_loc su) = Z.to_nat (s_loc st) /\ nb_len n = tt_transfer_time tt (Z.to_nat (s_loc st))) \/
     In (Z.to_nat (s_loc su), nb_len n) (tt_footpaths_out tt (Z.to_nat (s_loc st)))).
  Lemma non_uturn_ok r i fp n : In n (non_uturn_transfers tt r i fp) ->
    nb_from n = i /\ nb_len n = snd fp /\ (S (nb_to n) < n_stops tt (nb_route n))%nat /\ s_in (stop_at (route_at tt (nb_route n)) (nb_to n)) = true /\
    Z.to_nat (s_loc (stop_at (route_at tt (nb_route n)) (nb_to n))) = fst fp /\ In (nb_route n) (tt_location_routes tt (fst fp)).
  Proof.
    unfold non_uturn_transfers. intros H. apply in_flat_map in H as (rt & Hrt & H). apply in_flat_map in H as (j & Hj & H). apply in_seq in Hj.
    destruct (negb (Nat.eqb _ _) || negb (s_in _)) eqn:E1; [destruct H|]. apply orb_false_iff in E1 as [E1 E2]. apply negb_false_iff in E1, E2. apply Nat.eqb_eq in E1.
    destruct (_ && _); [|destruct H]. destruct H as [<-|[]]. cbn [nb_from nb_len nb_to nb_route]. unfold n_stops. repeat split; auto. lia.
  Qed.
  Lemma in_nb_insert x y l : In x (nb_insert y l) <-> x = y \/ In x l.
  Proof.
    induction l as [|z l IH]; cbn [nb_insert]; [cbn; intuition|]. destruct (nb_lt z y); cbn [In]; [rewrite IH|]; intuition.
  Qed.
  Lemma in_nb_sort x l : In x (nb_sort l) <-> In x l.
  Proof. induction l as [|y l IH]; cbn [nb_sort fold_right]; [reflexivity|]. rewrite in_nb_insert, IH. cbn. intuition. Qed.
  Lemma neighborhood_ok r n : In n (neighborhood tt r) -> nb_ok r n.
  Proof.
    unfold neighborhood. rewrite in_nb_sort. intros H. apply in_flat_map in H as (i & Hi & H). apply in_rev in Hi. apply in_seq in Hi.
    destruct (s_out (stop_at (route_at tt r) i)) eqn:Eo; cbn [negb] in H; [|destruct H]. apply in_app_iff in H.
    unfold nb_ok. destruct H as [H|H].
    - apply non_uturn_ok in H as (E1 & E2 & E3 & E4 & E5 & _). cbn [fst snd] in *. rewrite E1. repeat split; auto; try lia.
    - apply in_flat_map in H as ([l d] & Hf & H). apply non_uturn_ok in H as (E1 & E2 & E3 & E4 & E5 & _). cbn [fst snd] in *. rewrite E1.
      repeat split; auto; try lia. right. rewrite E2, E5. exact Hf.
  Qed.

  (** ** Line based pruning *)
  Section Line.
    Variables r v : nat.
    Hypothesis Hr : (r < length (tt_routes tt))%nat.
    Hypothesis Hv : (v < length (r_vehicles (route_at tt r)))%nat.
    (** The claim about one kept transfer when leaving at stop [i]. *)
    Definition xt_ok (i : nat) (x : xtransfer) : Prop :=
      exists n, In n (neighborhood tt r) /\ nb_from n = i /\ nb_route n = x_route x /\ nb_to n = x_stop x /\
        (x_vehicle x < length (r_vehicles (route_at tt (x_route x))))%nat /\ (exists d, x_bf x d = true) /\
        forall d, x_bf x d = true ->
          runs_on (vehicle_at tt r v) d /\ runs_on (vehicle_at tt (x_route x) (x_vehicle x)) (d + x_day x) /\
          event_time P (vehicle_at tt r v) d i kArr + nb_len n <= event_time P (vehicle_at tt (x_route x) (x_vehicle x)) (d + x_day x) (x_stop x) kDep /\
          event_time P (vehicle_at tt (x_route x) (x_vehicle x)) (d + x_day x) (x_stop x) kDep <= event_time P (vehicle_at tt r v) d i kArr + 1440.

    Lemma veh_wf q u : (q < length (tt_routes tt))%nat -> (u < length (r_vehicles (route_at tt q)))%nat -> vehicle_wf (route_at tt q) (vehicle_at tt q u).
    Proof. intros Hq Hu. eapply Hwf; [apply route_at_nth; exact Hq|]. eapply nth_error_In. apply vehicle_at_nth. exact Hu. Qed.
    Lemma ev_bounds q u s e : (q < length (tt_routes tt))%nat -> (u < length (r_vehicles (route_at tt q)))%nat -> (s < n_stops tt q)%nat ->
      0 <= d_mam (mam_of tt q u s e) < 1440 /\ 0 <= d_days (mam_of tt q u s e) <= 22.
    Proof.
      intros Hq Hu Hs. destruct (veh_wf q u Hq Hu) as (W & _ & _). specialize (W s e Hs) as (W1 & W2 & W3).
      unfold event_minutes in W3. unfold mam_of. split; [exact W1|]. lia.
    Qed.
    Lemma to_i8_id z : -128 <= z < 128 -> to_i8 z = z.
    Proof. intros. unfold to_i8. rewrite Z.mod_small; lia. Qed.
    Lemma to_u16_id z : 0 <= z < 65536 -> to_u16 z = z.
    Proof. intros. unfold to_u16. apply Z.mod_small; lia. Qed.

    Lemma handle_departure_ok n tdo u dep rem s :
      In n (neighborhood tt r) -> (u < length (r_vehicles (route_at tt (nb_route n))))%nat -> dep = mam_of tt (nb_route n) u (nb_to n) kDep ->
      0 <= tdo <= 2 -> subset rem (days_of_vehicle tt r v) ->
      d_mam (mam_of tt r v (nb_from n) kArr) + nb_len n <= tdo * 1440 + d_mam dep ->
      tdo * 1440 + d_mam dep <= d_mam (mam_of tt r v (nb_from n) kArr) + 1440 ->
      (forall i x, In x (ls_transfers s i) -> xt_ok i x) ->
      let (rem', s') := handle_departure tt n (to_i8 (d_days (mam_of tt r v (nb_from n) kArr))) tdo u dep rem s in
      subset rem' rem /\ forall i x, In x (ls_transfers s' i) -> xt_ok i x.
    Proof.
      intros Hn Hu Edep Htdo Hrem Hle Hmax Hs. pose proof (neighborhood_ok r n Hn) as (N1 & N2 & N3 & N4 & N5).
      assert (Hru : (nb_route n < length (tt_routes tt))%nat) by (apply route_exists; lia).
      destruct (ev_bounds r v (nb_from n) kArr Hr Hv ltac:(lia)) as [A1 A2].
      destruct (ev_bounds (nb_route n) u (nb_to n) kDep Hru Hu ltac:(lia)) as [B1 B2]. rewrite <- Edep in B1, B2.
      unfold handle_departure. rewrite !(to_i8_id (d_days _)) by lia.
      set (ta := d_days (mam_of tt r v (nb_from n) kArr)) in *. set (ud := d_days dep) in *.
      rewrite !(to_i8_id (_ - _)) by lia.
      set (shifted := if _ <? 0 then _ else _). set (common := bfAnd rem shifted).
      destruct (bfNone common); [split; [apply subset_refl|exact Hs]|].
      assert (SH : forall d, common d = true -> days_of_vehicle tt (nb_route n) u (d + (ta + tdo - ud)) = true).
      { intros d H. apply and_subset_r in H. unfold shifted in H. destruct (Z.ltb_spec (ud - ta - tdo) 0) as [L|L].
        - unfold bfShr in H. rewrite !andb_true_iff in H. destruct H as [_ H]. replace (d + (ta + tdo - ud)) with (d + -1 * (ud - ta - tdo)) by lia. exact H.
        - unfold bfShl in H. rewrite !andb_true_iff in H. destruct H as [_ H]. replace (d + (ta + tdo - ud)) with (d - (ud - ta - tdo)) by lia. exact H. }
      pose proof (rlb_update_subset (ls_reached s (nb_to n)) (ta + tdo - ud) (start_mam tt (nb_route n) u) common) as RS.
      destruct (rlb_update (ls_reached s (nb_to n)) (ta + tdo - ud) (start_mam tt (nb_route n) u) common) as [es common']. cbn [snd] in RS.
      destruct (bfNone common') eqn:Ene; [split; [apply and_subset_l|exact Hs]|].
      split; [apply and_subset_l|]. cbn [ls_transfers]. intros i x. unfold Tb_Model.upd. destruct (Nat.eqb_spec i (nb_from n)) as [->|_]; [|apply Hs].
      rewrite in_app_iff. intros [H|[<-|[]]]; [now apply Hs|].
      exists n. cbn [x_route x_stop x_vehicle x_bf x_day]. do 5 (split; [auto|]). split; [now apply bfNone_false|]. intros d Hd. apply RS in Hd.
      pose proof (SH d Hd) as H2. apply and_subset_l in Hd. apply Hrem in Hd.
      assert (RUN : forall q w d, days_of_vehicle tt q w d = true -> runs_on (vehicle_at tt q w) d).
      { intros q w d' H. unfold days_of_vehicle, is_transport_active in H. rewrite !andb_true_iff, Z.leb_le, Z.ltb_lt in H. unfold runs_on. unfold kMaxDays in H. tauto. }
      split; [now apply RUN|]. split; [now apply RUN|].
      unfold event_time. fold (mam_of tt r v (nb_from n) kArr). fold (mam_of tt (nb_route n) u (nb_to n) kDep). rewrite <- Edep. fold ta. fold ud. lia.
    Qed.

    Lemma line_loop_ok n : In n (neighborhood tt r) ->
      forall fuel tdo evs rem s,
      let all := departures tt (nb_route n) (nb_to n) in
      let t_arr := mam_of tt r v (nb_from n) kArr in
      0 <= tdo <= 2 -> subset rem (days_of_vehicle tt r v) ->
      (forall u dep, In (u, dep) evs -> In (u, dep) all /\ d_mam t_arr + nb_len n <= tdo * 1440 + d_mam dep) ->
      d_mam t_arr + nb_len n <= (tdo + 1) * 1440 ->
      (forall i x, In x (ls_transfers s i) -> xt_ok i x) ->
      forall i x, In x (ls_transfers (line_loop tt fuel n (d_mam t_arr) (to_i8 (d_days t_arr)) tdo evs all rem s) i) -> xt_ok i x.
    Proof.
      intros Hn. pose proof (neighborhood_ok r n Hn) as (N1 & N2 & N3 & N4 & N5).
      assert (Hru : (nb_route n < length (tt_routes tt))%nat) by (apply route_exists; lia).
      assert (Hall : forall u dep, In (u, dep) (departures tt (nb_route n) (nb_to n)) -> (u < length (r_vehicles (route_at tt (nb_route n))))%nat /\ dep = mam_of tt (nb_route n) u (nb_to n) kDep).
      { intros u dep H. unfold departures in H. apply in_map_iff in H as (w & E & H). apply in_seq in H. injection E as <- <-. split; [lia|reflexivity]. }
      induction fuel as [|fuel IH]; intros tdo evs rem s all t_arr Htdo Hrem Hevs Hnext Hs; cbn [line_loop]; [exact Hs|].
      destruct (bfNone rem); [exact Hs|]. destruct evs as [|[u dep] rest]; [exact Hs|].
      destruct (Hevs u dep ltac:(now left)) as [Hin Hle]. destruct (Hall u dep Hin) as [Hu Edep].
      destruct (ev_bounds (nb_route n) u (nb_to n) kDep Hru Hu ltac:(lia)) as [B1 _]. rewrite <- Edep in B1.
      destruct (ev_bounds r v (nb_from n) kArr Hr Hv ltac:(lia)) as [A1 _]. fold t_arr in A1.
      rewrite to_u16_id by lia. unfold kMaxTransferTime. destruct (Z.ltb_spec 1440 (tdo * 1440 + d_mam dep - d_mam t_arr)) as [L|L]; [exact Hs|].
      pose proof (handle_departure_ok n tdo u dep rem s Hn Hu Edep Htdo Hrem Hle ltac:(fold t_arr; lia) Hs) as HD. fold t_arr in HD.
      destruct (handle_departure tt n (to_i8 (d_days t_arr)) tdo u dep rem s) as [rem' s']. destruct HD as [HD1 HD2].
      destruct rest as [|p rest].
      - rewrite (to_i8_id (tdo + 1)) by lia. apply IH; [lia|eapply subset_trans; eauto| |fold t_arr; lia|exact HD2].
        intros u' dep' H'. split; [exact H'|]. destruct (Hall _ _ H') as [Hu' E'].
        destruct (ev_bounds (nb_route n) u' (nb_to n) kDep Hru Hu' ltac:(lia)) as [B1' _]. rewrite <- E' in B1'. fold t_arr. lia.
      - apply IH; [lia|eapply subset_trans; eauto| |fold t_arr; lia|exact HD2]. intros u' dep' H'. apply Hevs. now right.
    Qed.

    Lemma seek_sorted : forall mam evs, (forall a b u du w dw, nth_error evs a = Some (u, du) -> nth_error evs b = Some (w, dw) -> (a <= b)%nat -> d_mam du <= d_mam dw) ->
      forall u dep, In (u, dep) (seek mam evs) -> In (u, dep) evs /\ mam <= d_mam dep.
    Proof.
      intros mam. induction evs as [|[w dw] evs IH]; intros Hs u dep H; cbn [seek] in H; [destruct H|].
      destruct (Z.ltb_spec (d_mam dw) mam) as [L|L].
      - destruct (IH ltac:(intros a b; intros; apply (Hs (S a) (S b) _ _ _ _ H0 H1); lia) u dep H) as [H1 H2]. split; [now right|exact H2].
      - split; [exact H|]. apply In_nth_error in H as (b & Hb). specialize (Hs 0%nat b w dw u dep eq_refl Hb ltac:(lia)). lia.
    Qed.
    Lemma departures_sorted q j : (j < n_stops tt q)%nat ->
      forall a b u du w dw, nth_error (departures tt q j) a = Some (u, du) -> nth_error (departures tt q j) b = Some (w, dw) -> (a <= b)%nat -> d_mam du <= d_mam dw.
    Proof.
      intros Hj a b u du w dw Ha Hb Hab. unfold departures in Ha, Hb.
      assert (K : forall a u du, nth_error (map (fun v0 => (v0, mam_of tt q v0 j kDep)) (seq 0 (length (r_vehicles (route_at tt q))))) a = Some (u, du) ->
        u = a /\ (a < length (r_vehicles (route_at tt q)))%nat /\ du = mam_of tt q a j kDep).
      { intros a' u' du' H. rewrite nth_error_map in H. destruct (nth_error (seq 0 (length (r_vehicles (route_at tt q)))) a') as [z|] eqn:E; [|discriminate].
        assert (L : (a' < length (r_vehicles (route_at tt q)))%nat) by (apply nth_error_Some_lt in E || (rewrite <- (seq_length (length (r_vehicles (route_at tt q))) 0); apply nth_error_Some; congruence); auto).
        apply nth_error_nth with (d := 0%nat) in E. rewrite seq_nth in E by exact L. cbn [option_map] in H. injection H as <- <-. cbn in E. subst z. auto. }
      destruct (K _ _ _ Ha) as (-> & La & ->), (K _ _ _ Hb) as (-> & Lb & ->).
      unfold mam_of. eapply (Hcol q (route_at tt q) a b); [apply route_at_nth, route_exists; lia|exact Hab|now apply vehicle_at_nth|now apply vehicle_at_nth|exact Hj].
    Qed.
    Lemma handle_neighbor_ok n s : In n (neighborhood tt r) -> (forall i x, In x (ls_transfers s i) -> xt_ok i x) ->
      forall i x, In x (ls_transfers (handle_neighbor tt r v s n) i) -> xt_ok i x.
    Proof.
      intros Hn Hs. pose proof (neighborhood_ok r n Hn) as (N1 & N2 & N3 & N4 & N5).
      assert (Hlen : 0 <= nb_len n <= 511) by (destruct N5 as [[_ ->]|N5]; [apply Hdur|destruct Hdur as [_ D]; eapply D; eauto]).
      assert (Hru : (nb_route n < length (tt_routes tt))%nat) by (apply route_exists; lia).
      destruct (ev_bounds r v (nb_from n) kArr Hr Hv ltac:(lia)) as [A1 _].
      unfold handle_neighbor. set (t_arr := mam_of tt r v (nb_from n) kArr) in *. rewrite to_u16_id by lia.
      set (fa := d_mam t_arr + nb_len n) in *.
      assert (Hdiv : fa = 1440 * (fa / 1440) + fa mod 1440) by (apply Z.div_mod; lia).
      assert (Hmod : 0 <= fa mod 1440 < 1440) by (apply Z.mod_pos_bound; lia).
      assert (Hq : 0 <= fa / 1440 <= 1).
      { split; [apply Z.div_pos; lia|]. enough (fa / 1440 < 2) by lia. apply Z.div_lt_upper_bound; lia. }
      pose proof (seek_sorted (fa mod 1440) (departures tt (nb_route n) (nb_to n)) (departures_sorted (nb_route n) (nb_to n) ltac:(lia))) as SK.
      set (all := departures tt (nb_route n) (nb_to n)) in *.
      rewrite (to_i8_id (fa / 1440)) by lia.
      destruct (seek (fa mod 1440) all) as [|p evs].
      - rewrite (to_i8_id (fa / 1440 + 1)) by lia. unfold t_arr, all. apply line_loop_ok; [exact Hn|lia|apply subset_refl| |fold t_arr; fold fa; lia|exact Hs].
        intros u dep H. split; [exact H|]. unfold departures in H. apply in_map_iff in H as (w & E & H). apply in_seq in H. injection E as <- <-.
        destruct (ev_bounds (nb_route n) w (nb_to n) kDep Hru ltac:(lia) ltac:(lia)) as [B1 _]. fold t_arr. fold fa. lia.
      - unfold t_arr, all. apply line_loop_ok; [exact Hn|lia|apply subset_refl| |fold t_arr; fold fa; lia|exact Hs].
        intros u dep H. destruct (SK u dep H) as [H1 H2]. split; [exact H1|]. fold t_arr. fold fa. lia.
    Qed.
    Lemma handle_neighbors_ok : forall ns prev s, incl ns (neighborhood tt r) -> (forall i x, In x (ls_transfers s i) -> xt_ok i x) ->
      forall i x, In x (ls_transfers (handle_neighbors tt r v prev ns s) i) -> xt_ok i x.
    Proof.
      induction ns as [|n ns IH]; intros prev s Hi Hs; cbn [handle_neighbors]; [exact Hs|].
      apply IH; [intros y Hy; apply Hi; now right|]. apply handle_neighbor_ok; [apply Hi; now left|].
      destruct (Nat.eqb prev (nb_route n)); exact Hs.
    Qed.
    Lemma line_based_ok i x : In x (line_based tt r v i) -> xt_ok i x.
    Proof.
      unfold line_based. destruct (neighborhood tt r) as [|n ns] eqn:E; [intros []|].
      intros H. revert i x H. apply handle_neighbors_ok; [rewrite E; apply incl_refl|]. intros i x [].
    Qed.
    Lemma transfers_of_ok i x : In x (transfers_of tt fps0 r v i) -> xt_ok i x.
    Proof.
      unfold transfers_of. intros H. apply reduce_stops_smaller in H as (NE & y & Hy & (S1 & S2 & S3 & S4 & S5)).
      apply line_based_ok in Hy as (n & Hn & E1 & E2 & E3 & E4 & _ & E5).
      assert (NE' : exists d, x_bf x d = true) by (destruct NE as [NE|NE]; [apply line_based_ok in NE as (? & _ & _ & _ & _ & _ & NE & _)|]; exact NE).
      exists n. rewrite S2, S3, S4, S5. do 6 (split; [auto|]). intros d Hd. apply S1 in Hd. apply E5. exact Hd.
    Qed.
  End Line.
End Feasible.
