From Coq Require Import List ZArith Bool Arith Lia.
From Verif Require Import Base Time_Model Raptor_Model Raptor_Spec Raptor_Base Raptor_Sound Raptor_Final Rt_Model Dijkstra_Model Lb_Proofs P_LowerBounds
  RtSearch_Model RtSearch_Spec RtSearch_Proofs.
Import ListNotations.
Local Open Scope Z_scope.

Section Update.
  Variable static : nat -> list edge.
  (** An edge from [u] to [v] of at most [d] minutes in the static or the real-time graph. *)
  Definition edge_le (st : lb_state) (u v : nat) (d : Z) : Prop := exists w, In (v, w) (static u ++ snd st u) /\ w <= d.
  Definition bits_ok (st : lb_state) : Prop := forall u, snd st u <> [] -> fst st u = true.
  Definition in_range (n : nat) (st : lb_state) : Prop := forall u v w, In (v, w) (snd st u) -> (v < n)%nat /\ 0 <= w.

  Lemma lower_first_le l t d : forall v w, In (v, w) l -> (forall x, find (fun x : edge => Nat.eqb (fst x) t) l = Some x -> d <= snd x) ->
    exists w', In (v, w') (lower_first l t d) /\ w' <= w.
  Proof.
    induction l as [|[a x] l IH]; intros v w Hin Hf; [destruct Hin|]. cbn [lower_first fst]. cbn [find fst] in Hf.
    destruct (Nat.eqb_spec a t) as [->|Hne].
    - destruct Hin as [[= <- <-]|Hin]; [|exists w; split; [now right|lia]].
      exists d. split; [now left|]. specialize (Hf _ eq_refl). exact Hf.
    - destruct Hin as [[= <- <-]|Hin]; [exists x; split; [now left|lia]|].
      destruct (IH v w Hin Hf) as (w' & H & Hle). exists w'. split; [now right|auto].
  Qed.
  Lemma lower_first_in l t d v w : In (v, w) (lower_first l t d) -> (v = t /\ w = d) \/ In (v, w) l.
  Proof.
    induction l as [|[a x] l IH]; cbn [lower_first fst]; [intros []|]. destruct (Nat.eqb_spec a t) as [->|Hne].
    - intros [[= <- <-]|H]; [left; auto|right; now right].
    - intros [[= <- <-]|H]; [right; now left|]. destruct (IH H); [auto|right; now right].
  Qed.
  Lemma is_fastest_find l e : is_fastest l e = true -> forall x, find (fun x : edge => Nat.eqb (fst x) (fst e)) l = Some x -> snd e <= snd x.
  Proof. unfold is_fastest. intros H x E. rewrite E in H. apply Z.ltb_lt in H. lia. Qed.
  Lemma is_fastest_no l e : is_fastest l e = false -> exists w, In (fst e, w) l /\ w <= snd e.
  Proof.
    unfold is_fastest. destruct (find _ l) as [[a w]|] eqn:E; [|discriminate]. intros H. apply Z.ltb_ge in H.
    apply find_some in E as [E1 E2]. cbn [fst snd] in *. apply Nat.eqb_eq in E2. subst a. eauto.
  Qed.

  Lemma lb_update_spec st src tgt d n : bits_ok st -> in_range n st -> (tgt < n)%nat -> 0 <= d ->
    let st' := lb_update static st src tgt d in
    bits_ok st' /\ in_range n st' /\ edge_le st' src tgt d /\ (forall u v e, edge_le st u v e -> edge_le st' u v e).
  Proof.
    intros HB HN Ht Hd st'. unfold st', lb_update. clear st'. set (new := (tgt, Z.min d fp_max_duration)).
    assert (Hnew : 0 <= Z.min d fp_max_duration <= d) by (unfold fp_max_duration; lia).
    destruct (is_fastest (static src) new) eqn:E1; cbn [negb].
    2:{ do 2 (split; [auto|]). split; auto. apply is_fastest_no in E1 as (w & Hw & Hle). cbn [new fst snd] in *. exists w. split; [apply in_app_iff; auto|lia]. }
    destruct (fst st src) eqn:E2; cbn [negb].
    - destruct (is_fastest (snd st src) new) eqn:E3; cbn [negb].
      2:{ do 2 (split; [auto|]). split; auto. apply is_fastest_no in E3 as (w & Hw & Hle). cbn [new fst snd] in *. exists w. split; [apply in_app_iff; auto|lia]. }
      split; [|split; [|split]].
      + intros u. cbn [fst snd]. unfold Raptor_Model.upd. destruct (Nat.eqb_spec src u) as [<-|]; auto.
      + intros u v w. cbn [fst snd]. unfold Raptor_Model.upd. destruct (Nat.eqb_spec src u) as [<-|]; [|apply HN].
        rewrite in_app_iff. intros [H|[[= <- <-]|[]]]; [|lia]. apply lower_first_in in H as [[-> ->]|H]; [cbn; lia|eapply HN; eauto].
      + exists (Z.min d fp_max_duration). split; [|lia]. cbn [snd]. unfold Raptor_Model.upd. rewrite Nat.eqb_refl. rewrite !in_app_iff. right. right. now left.
      + intros u v e (w & Hw & Hle). apply in_app_iff in Hw as [Hw|Hw]; [exists w; split; [apply in_app_iff; auto|auto]|].
        unfold edge_le. cbn [snd]. unfold Raptor_Model.upd. destruct (Nat.eqb_spec src u) as [<-|]; [|exists w; split; [apply in_app_iff; auto|auto]].
        destruct (lower_first_le (snd st src) tgt (snd new) v w Hw) as (w' & H' & Hle').
        { intros x Hx. exact (is_fastest_find _ new E3 x Hx). }
        exists w'. split; [rewrite !in_app_iff; auto|lia].
    - split; [|split; [|split]].
      + intros u. cbn [fst snd]. unfold Raptor_Model.upd. destruct (Nat.eqb_spec src u) as [<-|]; auto.
      + intros u v w. cbn [fst snd]. unfold Raptor_Model.upd. destruct (Nat.eqb_spec src u) as [<-|]; [|apply HN].
        rewrite in_app_iff. intros [H|[[= <- <-]|[]]]; [eapply HN; eauto|lia].
      + exists (Z.min d fp_max_duration). split; [|lia]. cbn [snd]. unfold Raptor_Model.upd. rewrite Nat.eqb_refl. rewrite !in_app_iff. right. right. now left.
      + intros u v e (w & Hw & Hle). exists w. split; [|auto]. cbn [snd]. unfold Raptor_Model.upd.
        apply in_app_iff in Hw as [Hw|Hw]; apply in_app_iff; [auto|right]. destruct (Nat.eqb_spec src u) as [<-|]; auto. apply in_app_iff. auto.
  Qed.

  Section Folds.
    Variable A : Type.
    Variable f : lb_state -> A -> lb_state.
    Variable n : nat.
    Definition keeps (g : lb_state -> lb_state) : Prop := forall st, bits_ok st -> in_range n st ->
      bits_ok (g st) /\ in_range n (g st) /\ forall u v e, edge_le st u v e -> edge_le (g st) u v e.
    Lemma keeps_fold xs : (forall x, In x xs -> keeps (fun st => f st x)) -> keeps (fun st => fold_left f xs st).
    Proof.
      induction xs as [|x xs IH]; intros H st HB HN; cbn [fold_left]; [auto|].
      destruct (H x (or_introl eq_refl) st HB HN) as (B & R & K). destruct (IH (fun y Hy => H y (or_intror Hy)) _ B R) as (B' & R' & K'). auto.
    Qed.
    Lemma hit_fold xs x0 u v e : (forall x, In x xs -> keeps (fun st => f st x)) -> In x0 xs ->
      (forall st, bits_ok st -> in_range n st -> edge_le (f st x0) u v e) ->
      forall st, bits_ok st -> in_range n st -> edge_le (fold_left f xs st) u v e.
    Proof.
      induction xs as [|x xs IH]; intros H Hin Hhit st HB HN; [destruct Hin|]. cbn [fold_left].
      destruct (H x (or_introl eq_refl) st HB HN) as (B & R & K). destruct Hin as [->|Hin].
      - apply (keeps_fold xs (fun y Hy => H y (or_intror Hy)) _ B R). now apply Hhit.
      - apply IH; auto. intros y Hy. apply H. now right.
    Qed.
  End Folds.
End Update.

Section LbRt.
  Variable St : stt.
  Variable rt : rtt.
  Variable X : rt_extra.
  Variable number : nat -> nat -> nat.
  Variable P : params.
  Variable lb : nat -> Z.
  Variable L : locations.
  Variable has : nat -> bool.
  Hypothesis HR : rt_data_ok St rt X number P.
  Hypothesis HL : hierarchy_ok L.
  Hypothesis Hn : lo_n L = tt_n_locations (p_tt P).
  Notation Q := (now St rt X number P lb).
  Notation root := (get_root_idx L).
  Notation static := (lb_edges L (p_tt P) (p_fwd P) false false).
  Notation st' := (update_lbs L rt (p_fwd P) static has).
  Notation loc x s := (Z.to_nat (s_loc (stop_of_value (nth s (nth x (rt_stops rt) []) 0)))).

  Lemma loc_lt x s : (x < n_rt rt)%nat -> (s < rt_n_stops rt x)%nat -> (loc x s < lo_n L)%nat.
  Proof. intros Hx Hs. rewrite Hn. apply (rd_locations _ _ _ _ _ HR x _ Hx). now apply nth_In. Qed.
  Definition travel (x s : nat) : Z := Rt_Model.event_time rt x (S s) true - Rt_Model.event_time rt x s false.
  Lemma n_sections x : (x < n_rt rt)%nat -> Nat.div2 (length (nth x (rt_times rt) [])) = (rt_n_stops rt x - 1)%nat.
  Proof. intros Hx. rewrite (rd_times _ _ _ _ _ HR). replace (_ - 2)%nat with (2 * (rt_n_stops rt x - 1))%nat by (unfold rt_n_stops; lia). apply Nat.div2_double. Qed.
  Lemma travel_range x s : (x < n_rt rt)%nat -> (S s < rt_n_stops rt x)%nat -> 0 <= travel x s <= 32767.
  Proof.
    intros Hx Hs. pose proof (rt_minutes_idx St rt X number P HR x s kDep Hx ltac:(lia)) as (i & Hi & Ei & Bi & _).
    pose proof (rt_minutes_idx St rt X number P HR x (S s) kArr Hx ltac:(lia)) as (j & Hj & Ej & Bj & _).
    pose proof (rd_sorted _ _ _ _ _ HR x i j ltac:(lia)) as Hle. pose proof (rt_minutes_ge St rt X number P HR x s kDep Hx ltac:(lia)) as [R1 _].
    pose proof (rt_minutes_ge St rt X number P HR x (S s) kArr Hx ltac:(lia)) as [R2 _].
    unfold rt_minutes in Ei, Ej, R1, R2. destruct (Nat.leb_spec (rt_n_stops rt x) (S s)); [lia|]. unfold travel. unfold tm in *. lia.
  Qed.
  Lemma section_keeps x s : (x < n_rt rt)%nat -> (S s < rt_n_stops rt x)%nat ->
    keeps static (lo_n L) (fun st => update_lbs_section L rt (p_fwd P) static st x s).
  Proof.
    intros Hx Hs st HB HN. unfold update_lbs_section. fold (travel x s). pose proof (travel_range x s Hx Hs) as Ht.
    unfold to_i16. rewrite Z.mod_small by lia. replace (travel x s + 32768 - 32768) with (travel x s) by lia.
    destruct (Z.ltb_spec (travel x s) 0); [lia|]. destruct (Nat.eqb _ _); [auto|].
    pose proof (root_lt L HL _ (loc_lt x s Hx ltac:(lia))). pose proof (root_lt L HL _ (loc_lt x (S s) Hx ltac:(lia))).
    set (sg := static). clearbody sg. destruct (p_fwd P).
    - pose proof (lb_update_spec sg st (root (loc x (S s))) (root (loc x s)) (travel x s) (lo_n L) HB HN ltac:(auto) ltac:(lia)) as N.
      cbv zeta in N. destruct N as (A & B & _ & D). auto.
    - pose proof (lb_update_spec sg st (root (loc x s)) (root (loc x (S s))) (travel x s) (lo_n L) HB HN ltac:(auto) ltac:(lia)) as N.
      cbv zeta in N. destruct N as (A & B & _ & D). auto.
  Qed.
  Lemma vehicle_keeps x : In x (seq 0 (length (rt_static rt))) -> keeps static (lo_n L)
    (fun st => fold_left (fun st s => update_lbs_section L rt (p_fwd P) static st x s) (seq 0 (Nat.div2 (length (nth x (rt_times rt) [])))) st).
  Proof.
    intros Hx. apply in_seq in Hx. assert (Hx' : (x < n_rt rt)%nat) by (unfold n_rt; lia). rewrite n_sections by auto.
    apply (keeps_fold static nat (fun st s => update_lbs_section L rt (p_fwd P) static st x s) (lo_n L)).
    intros s Hs. apply in_seq in Hs. apply section_keeps; auto. lia.
  Qed.
  Lemma start_ok : bits_ok (has, fun _ => []) /\ in_range (lo_n L) (has, fun _ => []).
  Proof. split; [intros u H; now destruct H|intros u v w []]. Qed.
  Lemma update_lbs_ok : bits_ok st' /\ in_range (lo_n L) st'.
  Proof.
    destruct start_ok as [B R]. unfold update_lbs.
    destruct (keeps_fold static nat _ (lo_n L) (seq 0 (length (rt_static rt))) vehicle_keeps _ B R) as (B' & R' & _). auto.
  Qed.
  (** Every section of every real-time vehicle is covered. *)
  Lemma section_covered x s : (x < n_rt rt)%nat -> (S s < rt_n_stops rt x)%nat -> root (loc x s) <> root (loc x (S s)) ->
    exists w, In (root (loc x (if p_fwd P then s else S s)), w) (search_edges static st' (root (loc x (if p_fwd P then S s else s)))) /\ w <= travel x s.
  Proof.
    intros Hx Hs Hne. destruct start_ok as [B R]. destruct update_lbs_ok as [B' _].
    assert (E : edge_le static st' (root (loc x (if p_fwd P then S s else s))) (root (loc x (if p_fwd P then s else S s))) (travel x s)).
    { unfold update_lbs. apply (hit_fold static nat _ (lo_n L)) with (x0 := x); auto; [exact vehicle_keeps|apply in_seq; unfold n_rt in Hx; lia|].
      intros st HB HN. apply (hit_fold static nat (fun st s => update_lbs_section L rt (p_fwd P) static st x s) (lo_n L)) with (x0 := s); auto.
      - intros s1 Hs1. apply in_seq in Hs1. rewrite n_sections in Hs1 by auto. apply section_keeps; auto. lia.
      - apply in_seq. rewrite n_sections by auto. lia.
      - clear st HB HN. intros st HB HN. unfold update_lbs_section. fold (travel x s). pose proof (travel_range x s Hx Hs) as Ht.
        unfold to_i16. rewrite Z.mod_small by lia. replace (travel x s + 32768 - 32768) with (travel x s) by lia.
        destruct (Z.ltb_spec (travel x s) 0); [lia|]. destruct (Nat.eqb_spec (root (loc x s)) (root (loc x (S s)))); [contradiction|].
        pose proof (root_lt L HL _ (loc_lt x s Hx ltac:(lia))). pose proof (root_lt L HL _ (loc_lt x (S s) Hx ltac:(lia))).
        set (sg := static). clearbody sg. destruct (p_fwd P).
        + pose proof (lb_update_spec sg st (root (loc x (S s))) (root (loc x s)) (travel x s) (lo_n L) HB HN ltac:(auto) ltac:(lia)) as N.
          cbv zeta in N. destruct N as (_ & _ & A & _). exact A.
        + pose proof (lb_update_spec sg st (root (loc x s)) (root (loc x (S s))) (travel x s) (lo_n L) HB HN ltac:(auto) ltac:(lia)) as N.
          cbv zeta in N. destruct N as (_ & _ & A & _). exact A. }
    destruct E as (w & Hw & Hle). exists w. split; [|auto]. unfold search_edges. apply in_app_iff in Hw as [Hw|Hw]; apply in_app_iff; auto.
    right. rewrite B'; auto. intros E. rewrite E in Hw. destruct Hw.
  Qed.

  (** The bounds computed on the static graph extended by [update_lbs] are lower bounds for journeys with real-time vehicles. *)
  Lemma rt_lower_bounds mode dest td_dest :
    query_setup_on L mode dest td_dest false false Q (search_edges static st') ->
    all_vehicles_wf P -> durations_ok P -> end_ok P -> locations_ok P -> index_ok P -> exists D, lower_bounds_ok Q D.
  Proof.
    intros S Hwf Hdur Hend Hloc Hidx.
    pose proof (qo_footpaths _ _ _ _ _ _ _ _ S) as Hf. pose proof (qo_footpath_range _ _ _ _ _ _ _ _ S) as Hr. cbn [now p_tt with_rt tt_footpaths_out tt_footpaths_in] in Hf, Hr.
    apply (lower_bounds_ok_on L mode dest td_dest false false Q _ S).
    - now apply now_wf.
    - now apply now_durations.
    - now apply now_end.
    - now apply now_locations.
    - intros u v w H. unfold search_edges in H. apply in_app_iff in H as [H|H].
      + exact (lb_closed L P false false HL Hn Hwf Hloc Hf Hr u v w H).
      + destruct update_lbs_ok as [_ R]. destruct (fst st' u); [eapply R; eauto|destruct H].
    - intros l l' d H Hne. destruct (walk_edge_ok L P false false HL Hn Hf Hr l l' d H Hne) as (w & Hw & Hle).
      exists w. split; auto. unfold search_edges. apply in_app_iff. auto.
    - intros ri r v s Hri Hv _ Hs a b Hne. change (p_fwd Q) with (p_fwd P) in *.
      apply routes_cases in Hri as [(r0 & _ & Hri & ->)|(x & Hx & -> & ->)].
      + apply sched_vehicles_in in Hv as (j & v0 & Hj & ->). apply nth_error_In in Hj.
        assert (Hp : route_in_profile false false r0 = true) by reflexivity.
        destruct (ride_edge_ok L P false false HL Hn Hwf Hloc (proj1 Hidx) ri r0 v0 s Hri Hj Hp Hs Hne) as (w & Hw & Hle).
        exists w. split; auto. unfold search_edges. apply in_app_iff. left. exact Hw.
      + destruct Hv as [<-|[]]. cbn [rt_route r_stops] in Hs. rewrite map_length in Hs.
        assert (E : forall k, (k < rt_n_stops rt x)%nat -> route_loc (rt_route rt X x) k = loc x k).
        { intros k Hk. unfold route_loc. cbn [rt_route r_stops]. f_equal. f_equal. rewrite (nth_indep _ _ (stop_of_value 0)) by now rewrite map_length. apply map_nth. }
        assert (Hne' : root (loc x s) <> root (loc x (Datatypes.S s))).
        { intros E2. apply Hne. unfold a, b. destruct (p_fwd P); rewrite !E by (unfold rt_n_stops; lia); congruence. }
        destruct (section_covered x s Hx Hs Hne') as (w & Hw & Hle). exists w. split.
        * unfold a, b. rewrite !E by (unfold rt_n_stops; destruct (p_fwd P); lia). exact Hw.
        * rewrite !rt_ev_minutes. unfold rt_minutes, travel in *. destruct (Nat.leb_spec (rt_n_stops rt x) (Datatypes.S s)); [unfold rt_n_stops in *; lia|]. lia.
  Qed.
End LbRt.
