(** Property theorems C58, C59: searching forward and backward.
    C58: a backward search over the same timetable sees the trips of the forward search and the other way round.
    C59: the forward-backward ("ping-pong") search (pong.cc) returns exactly the door-to-door trips that cannot be improved.
    Specification: [Raptor_Spec] (rides, connections), [Pong_Spec] (opposite searches, trips). *)
From Coq Require Import List ZArith Bool Arith Lia.
From Verif Require Import Base Pareto_Model Pareto_Proofs Time_Model Time_Proofs
  Raptor_Model Raptor_Spec Raptor_Base Raptor_Sound Raptor_Genuine Raptor_Opt Raptor_Final
  Pong_Spec Pong_Dual Pong_Model Prune_Model Pong_Inst Pong_Search.
From Verif Require Pong_Loop.
Import ListNotations.
Local Open Scope Z_scope.

(** * C58 *)
(** Every trip that leaves at [T] and arrives at [a] is, seen from the other end, a trip of the opposite search that
    begins at [a] with the same number of rides and gets back to [T] or closer (the traveller may leave later). *)
Theorem C58_same_trips : forall P Q accP accQ K,
  opposite P Q -> end_matches accP Q -> end_matches accQ P ->
  (forall T a, trip P accP T K a -> exists T', no_later P T T' /\ trip Q accQ a K T') /\
  (forall T a, trip Q accQ a K T -> exists a', no_later P a' a /\ trip P accP T K a').
Proof.
  intros P Q accP accQ K HO HmP HmQ. split; intros T a Ht.
  - exact (trip_mirror P Q accP accQ T K a HO HmP HmQ Ht).
  - destruct (trip_mirror Q P accQ accP a K T (opposite_sym _ _ HO) HmQ HmP Ht) as (a' & Ha & Hx). exists a'. split; auto.
    now apply (op_no_later P Q HO).
Qed.

Lemma trip_time P M acc T K a : searchable P -> access_ok P M acc -> trip P acc T K a -> o P T < o P a.
Proof.
  intros HP HaP (l & Hc).
  apply connection_egress in Hc as (l0 & t0 & d & Ha & He & ->). rewrite o_after.
  assert (X : o P T + 1 <= o P t0).
  { refine (reach_lower_pos P (start_at P acc T) (transfer_time P) (o P T) 1 _ _ _ _ _ K l0 t0 Ha); try apply HP; try lia.
    - intros l1 t1 (d1 & Hin & ->). rewrite o_after. apply (ac_dur _ _ _ HaP) in Hin. lia.
    - apply tr_nonneg. apply HP.
    - apply ride_strict; apply HP. }
  assert (Y : 0 <= d); [|lia]. destruct He as [_ _ ->|l' _ _ Hw|off Hoff _ Ho]; [lia| |].
  - eapply (walk_nonneg P (sb_dur _ HP)); eauto.
  - destruct (sb_dur _ HP) as (_ & _ & _ & X1). eapply X1; eauto.
Qed.

(** The search itself: whatever the search in direction [P] from [T] reports, the search in the opposite direction, started at
    the reported arrival and allowed the same number of transfers, answers with a journey that is no longer. *)
Theorem C58_way_back : forall P Q accP accQ M D mt mt' T w w' j,
  opposite P Q -> end_matches accP Q -> end_matches accQ P -> searchable P -> searchable Q ->
  access_ok P M accP -> access_ok Q M accQ ->
  lower_bounds_ok Q D -> starts_reach_ok Q (start_at Q accQ (j_dest j)) ->
  groups_ok P [mk_group T w (end_starts P accP T)] ->
  groups_ok Q [mk_group (j_dest j) w' (end_starts Q accQ (j_dest j))] ->
  -32768 < T < 32767 -> -32768 < j_dest j < 32767 ->
  In j (snd (raptor P mt [mk_group T w (end_starts P accP T)])) ->
  Z.abs (j_dest j - T) <= 7200 -> no_later Q T w' -> j_transfers j <= Z.of_nat mt' ->
  exists r, In r (snd (raptor Q mt' [mk_group (j_dest j) w' (end_starts Q accQ (j_dest j))])) /\
    j_transfers r <= j_transfers j /\ no_later P T (j_dest r).
Proof.
  intros P Q accP accQ M D mt mt' T w w' j HO HmP HmQ HP HQ HaP HaQ HD Hreach HgP HgQ HT Hd Hj Htt Hw Hmt.
  set (g := mk_group T w (end_starts P accP T)) in *.
  set (g' := mk_group (j_dest j) w' (end_starts Q accQ (j_dest j))) in *.
  assert (HL := transfers_limited P mt [g] j Hj).
  assert (X : exists l k, (1 <= k)%nat /\ Z.of_nat k <= j_transfers j + 1 /\
        connection P (fun l t => starts_of [g] l t /\ no_later P (j_start j) t) (transfer_time P) k l (j_dest j)).
  { apply (reported_feasible P mt); auto; try apply HP. intros _. apply HP. }
  destruct X as (l & K & HK1 & HK & Hc).
  assert (Htrip : trip P accP T K (j_dest j)).
  { exists l. revert Hc. apply connection_mono. intros l0 t0 [(g0 & [<-|[]] & Hin) _]. apply in_end_starts. exact Hin. }
  assert (HtP := trip_time P M accP T K (j_dest j) HP HaP Htrip).
  destruct (trip_mirror P Q accP accQ T K (j_dest j) HO HmP HmQ Htrip) as (d & Hdd & HtQ).
  assert (HtQ' := trip_time Q M accQ (j_dest j) K d HQ HaQ HtQ). apply no_later_o in Hdd.
  assert (Eo : forall t, o Q t = - o P t) by (intros t; unfold o; rewrite (op_dir _ _ HO); destruct (p_fwd P); cbn; lia).
  rewrite !Eo in HtQ'. destruct HtQ as (l' & Hc').
  assert (Y : exists r, In r (snd (raptor Q mt' [g'])) /\ j_transfers r <= Z.of_nat K - 1 /\
              no_later Q (j_dest r) d /\ no_later Q (g_start g') (j_start r)).
  { assert (Hsub : forall l t, starts_of ([] ++ [g']) l t -> start_at Q accQ (j_dest j) l t).
    { intros l0 t0 (g0 & [<-|[]] & Hin). apply in_end_starts. exact Hin. }
    apply (search_optimal Q mt') with (D := D) (gs1 := []) (gs2 := []) (l := l'); auto; try apply HQ.
    - destruct Hreach as [R1 R2]. split; auto. intros l0 t0 ri r s0 s' st st' H0. apply (R1 l0 t0). auto.
    - intros l0 t0 H0. destruct (Hsub _ _ H0) as (d0 & Hin & _). now apply (ac_loc _ _ _ HaQ) in Hin.
    - intros g0 [<-|[]]. apply no_later_o. apply no_later_o in Hw. cbn [g_worst g']. rewrite Eo in *. lia.
    - unfold end_k, kMaxTransfers. lia.
    - revert Hc'. apply connection_mono. intros l0 t0 H0. now apply in_end_starts.
    - apply no_later_o. rewrite o_after. cbn [g_start g']. rewrite !Eo. unfold o in *. destruct (p_fwd P); lia.
    - rewrite Eo. unfold OI, o in *. rewrite (op_dir _ _ HO). destruct (p_fwd P); cbn [negb]; lia. }
  destruct Y as (r & Hr & Ht & Hrd & _). exists r. split; auto. split; [lia|]. apply no_later_o. apply no_later_o in Hrd.
  rewrite !Eo in Hrd. lia.
Qed.

(** * C59 *)
(** A trip that cannot be improved: no other trip begins no earlier, ends no later and needs no more rides. *)
Definition best_door_to_door (P : params) (acc : list (nat * Z)) (T : Z) (K : nat) (a : Z) : Prop :=
  trip P acc T K a /\
  forall T' K' a', no_later P T T' -> (K' <= K)%nat -> no_later P a' a -> trip P acc T' K' a' -> T' = T /\ K' = K /\ a' = a.

(** Up to the departure [T0], whoever waits a day at most finds a best trip to leave with that ends within the look-ahead. *)
Definition no_gap_before (q : pquery) (P : params) (acc : list (nat * Z)) (mt : nat) (T0 : Z) : Prop :=
  forall T, no_later P (first_start q) T -> no_later P (after P T 1441) T0 ->
    exists T' K a, no_later P T T' /\ no_later P T' (after P T 1440) /\ (K <= S (Nat.min mt 14))%nat /\
      no_later P a (after P T (look_ahead q)) /\ best_door_to_door P acc T' K a.

(** Queries the theorems are about.  [P], [Q]: the two searches; [accP], [accQ]: start and destination with their offsets of
    at most [M] minutes; [D]: estimate behind the lower bounds; [B]: longest transfer or footpath. *)
Record pong_query (q : pquery) (P Q : params) (accP accQ : list (nat * Z)) (M : Z) (D : nat -> Z) (B : Z) : Prop := mk_pong_query {
  pg_dir : pq_fwd q = p_fwd P;
  pg_opp : opposite P Q;
  pg_start : end_matches accP Q;
  pg_dest : end_matches accQ P;
  pg_P : searchable P;
  pg_Q : searchable Q;
  pg_accP : access_ok P M accP;
  pg_accQ : access_ok Q M accQ;
  pg_lb : lower_bounds_ok P D;
  pg_lbQ : forall l, p_lb Q l = 0;                           (* pong.cc:170-172 *)
  pg_reach : forall T, starts_reach_ok P (start_at P accP T);
  pg_travel : 0 <= pq_max_travel q <= 7200;                  (* query.cc:26-30 *)
  pg_min : 0 <= pq_min_conn q;
  pg_transfer : forall l, transfer_time P l <= B;
  pg_walk : forall l l' d, walk P l l' d -> d <= B;
  (* 16 bit range: all start times the search may use are within 17 days of the base day *)
  pg_range : forall T, no_later P (first_start q) T -> iv_contains (pq_external q) T = true ->
    is_better q T (end_time q) = true \/ 0 < pq_min_conn q -> Z.abs T + 7200 + Z.max 0 M < 32767;
  (* no trip ends in the first [B] minutes after the look-ahead; not needed with an offset table at the destination *)
  pg_settled : forall T, no_later P (first_start q) T -> iv_contains (pq_external q) T = true ->
    is_better q T (end_time q) = true \/ 0 < pq_min_conn q ->
    p_dist_to_end P <> None \/
    forall K a, trip P accP T K a -> no_later P a (after P T (look_ahead q + B)) -> no_later P a (after P T (look_ahead q)) }.

Lemma better_s q a b : is_better q a b = true <-> Pong_Loop.sgn q a < Pong_Loop.sgn q b.
Proof. unfold is_better, Pong_Loop.sgn. destruct (pq_fwd q); rewrite Z.ltb_lt; lia. Qed.

Lemma travel_exact T a : Z.abs (a - T) <= 7200 -> to_i16 (Z.abs (a - T)) = Z.abs (a - T).
Proof. intros Hx. unfold to_i16. rewrite Z.mod_small; lia. Qed.
Lemma look_range q : look_ahead q <= 7200.
Proof. unfold look_ahead. lia. Qed.

Section Proofs.
  Variables (q : pquery) (P Q : params) (accP accQ : list (nat * Z)) (M : Z) (D : nat -> Z) (B : Z).
  Hypothesis H : pong_query q P Q accP accQ M D B.
  Notation sgn := (Pong_Loop.sgn q).

  Lemma sgn_oP t : sgn t = o P t.
  Proof. unfold Pong_Loop.sgn, o. now rewrite (pg_dir _ _ _ _ _ _ _ _ H). Qed.
  Lemma sgn_nl a b : no_later P a b <-> sgn a <= sgn b.
  Proof. rewrite !sgn_oP. split; intros X; [now apply no_later_o in X|now apply no_later_o]. Qed.
  Lemma sgn_after a d : sgn (after P a d) = sgn a + d.
  Proof. rewrite !sgn_oP. apply o_after. Qed.

  Lemma best_of (x : journey) : 0 <= j_transfers x -> Pong_Loop.best_trip q (trip P accP) x ->
    best_door_to_door P accP (j_dest x) (S (Z.to_nat (j_transfers x))) (j_start x).
  Proof.
    intros Htr [HF Hb]. replace (S (Z.to_nat (j_transfers x))) with (Z.to_nat (j_transfers x + 1)) by lia. split; auto.
    intros T' K' a' H1 H2 H3 H4. apply sgn_nl in H1, H3. destruct (Hb T' K' a' H1 ltac:(lia) H3 H4) as (E1 & E2 & E3).
    split; auto. split; auto. lia.
  Qed.
  Lemma best_undominated T K a : best_door_to_door P accP T K a -> Pong_Loop.undominated q (trip P accP) T K a.
  Proof. intros [HF Hb]. split; auto. intros T' K' a' H1 H2 H3. apply Hb; auto; now apply sgn_nl. Qed.
  Variable mt : nat.
  Variables (rec : pstate -> journey -> bool) (timeout : nat -> bool).
  Notation mt' := (Nat.min mt 14).
  Lemma ok_all n T R : sgn (first_start q) <= sgn T -> continue q timeout n T R = true -> ok q P accP M B T.
  Proof.
    intros HT Hc. apply sgn_nl in HT. unfold continue in Hc. apply andb_true_iff in Hc as [Hc _]. apply andb_true_iff in Hc as [Hc He].
    assert (Hx : is_better q T (end_time q) = true \/ 0 < pq_min_conn q).
    { apply orb_true_iff in Hc as [Hc|Hc]; auto. right. assert (Hm := pg_min _ _ _ _ _ _ _ _ H).
      destruct (Z.eq_dec (pq_min_conn q) 0) as [E|]; [|lia]. exfalso. rewrite E in Hc. cbn in Hc. apply Z.ltb_lt in Hc.
      unfold result_count, to_u32 in Hc. cbn in Hc. lia. }
    split; [now apply (pg_range _ _ _ _ _ _ _ _ H)|].
    destruct (pg_settled _ _ _ _ _ _ _ _ H T HT He Hx) as [Hy|Hy]; [now left|right].
    intros K a Ht Ha. specialize (Hy K a Ht). rewrite !sgn_nl, !sgn_after in Hy. rewrite !sgn_oP in Hy. lia.
  Qed.

  Lemma spec fuel :
    match loop q pstate (ping_search q P accP mt) (pong_start q P Q accP mt) (pong_exec P Q accQ) rec timeout fuel 0 [] (first_start q) with
    | Done (R2, T2) =>
        Pong_Loop.inv q (trip P accP) (trip Q accQ) (Nat.min mt 14) R2 /\ Pong_Loop.covered q (trip P accP) mt' R2 T2 /\
        sgn (first_start q) <= sgn T2 /\
        ((exists n2, continue q timeout n2 T2 R2 = false) \/ Pong_Loop.nothing_ahead q (trip P accP) mt' T2)
    | Throw e => e = OutOfFuel \/ (e = ReconstructFailed /\ exists a x, rec a x = false)
    end.
  Proof.
    apply pong_loop_spec with (M := M) (D := D) (B := B); try apply H. intros n T R. apply ok_all.
  Qed.

End Proofs.

(** The search does not fail: as long as journeys can be reconstructed (C49), it returns a result; it never throws "no pong"
    or "no progress" and always ends. *)
Theorem C59_no_exception : forall q P Q accP accQ M D B mt rec timeout,
  pong_query q P Q accP accQ M D B -> (forall a x, rec a x = true) ->
  exists js iv, pong_journeys q P Q accP accQ mt rec timeout = Done (js, iv).
Proof.
  intros q P Q accP accQ M D B mt rec timeout H Hrec. unfold pong_journeys, pong_search.
  assert (X := spec q P Q accP accQ M D B H mt rec timeout (pong_fuel q)).
  assert (Y := Pong_Loop.loop_terminates q pstate (ping_search q P accP mt) (pong_start q P Q accP mt) (pong_exec P Q accQ) rec timeout
                 (pong_fuel q) 0 [] (first_start q)).
  destruct (loop _ _ _ _ _ _ _ _ _ _ _) as [[R2 T2]|e].
  - eexists _, _. reflexivity.
  - exfalso. destruct X as [->|(_ & a & x & Ex)]; [|now rewrite Hrec in Ex]. apply Y; auto. unfold pong_fuel.
    destruct (pq_fwd q); lia.
Qed.

Lemma pong_done q P Q accP accQ M D B mt rec timeout js iv :
  pong_query q P Q accP accQ M D B -> pong_journeys q P Q accP accQ mt rec timeout = Done (js, iv) ->
  exists R2 T2, Pong_Loop.inv q (trip P accP) (trip Q accQ) (Nat.min mt 14) R2 /\ Pong_Loop.covered q (trip P accP) (Nat.min mt 14) R2 T2 /\
    Pong_Loop.sgn q (first_start q) <= Pong_Loop.sgn q T2 /\
    ((exists n2, continue q timeout n2 T2 R2 = false) \/ Pong_Loop.nothing_ahead q (trip P accP) (Nat.min mt 14) T2) /\
    (js, iv) = pong_finish q R2 T2.
Proof.
  intros H. unfold pong_journeys, pong_search.
  assert (X := spec q P Q accP accQ M D B H mt rec timeout (pong_fuel q)).
  destruct (loop _ _ _ _ _ _ _ _ _ _ _) as [[R2 T2]|e]; [|discriminate].
  intros E. exists R2, T2. destruct X as (X1 & X2 & X3 & X4). do 4 (split; [assumption|]). injection E as <- <-. reflexivity.
Qed.

(** Everything returned is a best trip with exactly the reported departure, arrival and transfers; it lies in the returned
    interval, in the search interval (unless the interval may be extended), is within the travel time limit and faster than
    walking / cycling directly. *)
Theorem C59_results_are_best_trips : forall q P Q accP accQ M D B mt rec timeout js iv j,
  pong_query q P Q accP accQ M D B -> pong_journeys q P Q accP accQ mt rec timeout = Done (js, iv) -> In j js ->
  0 <= j_transfers j <= Z.of_nat (Nat.min mt 14) /\
  best_door_to_door P accP (j_start j) (S (Z.to_nat (j_transfers j))) (j_dest j) /\
  iv_contains iv (j_start j) = true /\ (pq_extend q = false -> iv_contains (pq_iv q) (j_start j) = true) /\
  Z.abs (j_dest j - j_start j) <= pq_max_travel q /\ Z.abs (j_dest j - j_start j) < pq_fastest_direct q.
Proof.
  intros q P Q accP accQ M D B mt rec timeout js iv j H Hr Hj.
  destruct (pong_done _ _ _ _ _ _ _ _ _ _ _ _ _ H Hr) as (R & T & HI & _ & HT & _ & E). injection E as -> ->.
  apply in_map_iff in Hj as (x & <- & Hx). apply filter_In in Hx as [Hx Hk]. unfold keep in Hk.
  rewrite !andb_true_iff, !negb_true_iff in Hk. destruct Hk as (((Hrec & Hval) & Hout) & Hslow).
  assert (Htr := Pong_Loop.iv_tr _ _ _ _ _ HI _ Hx). assert (Hb := Pong_Loop.iv_best _ _ _ _ _ HI _ Hx Hrec).
  assert (Hf := Pong_Loop.iv_first _ _ _ _ _ HI _ Hx Hrec). assert (Hl := Pong_Loop.iv_len _ _ _ _ _ HI _ Hx Hrec).
  assert (Hd := Pong_Loop.iv_dir _ _ _ _ _ HI _ Hx). apply better_s in Hval.
  assert (Hdir := pg_dir _ _ _ _ _ _ _ _ H). assert (HL := look_range q).
  cbn [swapped j_transfers j_start j_dest].
  assert (Hmt := Pong_Loop.iv_mt _ _ _ _ _ HI _ Hx Hrec).
  split; auto. split; [now apply (best_of q P Q accP accQ M D B H)|].
  assert (Habs : Z.abs (j_dest (pr_j x) - j_start (pr_j x)) <= 7200) by (unfold Pong_Loop.sgn in *; destruct (pq_fwd q); lia).
  unfold too_slow, journey_travel_time in Hslow. rewrite (travel_exact _ _ Habs) in Hslow.
  apply orb_false_iff in Hslow as [S1 S2]. apply Z.leb_gt in S1. apply Z.ltb_ge in S2.
  split; [|split; [|split; lia]].
  - unfold iv_contains, Pong_Loop.sgn, first_start in *. cbn [iv_from iv_to]. destruct (pq_fwd q); lia.
  - intros Ex. unfold out_of_interval in Hout. rewrite Ex in Hout. cbn [negb andb] in Hout.
    unfold iv_contains, Pong_Loop.sgn, first_start in *. destruct (pq_fwd q); lia.
Qed.

(** No duplicates. *)
Theorem C59_no_duplicates : forall q P Q accP accQ M D B mt rec timeout js iv,
  pong_query q P Q accP accQ M D B -> pong_journeys q P Q accP accQ mt rec timeout = Done (js, iv) -> NoDup js.
Proof.
  intros q P Q accP accQ M D B mt rec timeout js iv H Hr.
  destruct (pong_done _ _ _ _ _ _ _ _ _ _ _ _ _ H Hr) as (R & T & HI & _ & HT & _ & E). injection E as -> ->.
  assert (Ha := Pong_Loop.iv_anti _ _ _ _ _ HI). clear -Ha. apply NoDup_nth_error. intros i j Hi E.
  assert (Hf : forall f l, antichain presult presult_dominates l -> antichain presult presult_dominates (filter f l)).
  { clear. intros f l. induction l as [|x l IH]; intros Ha; [exact Ha|].
    assert (Ha' : antichain presult presult_dominates l) by (intros i j y z Hi Hj Hne; apply (Ha (S i) (S j)); auto).
    cbn [filter]. destruct (f x); [|auto]. intros i j y z Hi Hj Hne.
    destruct i as [|i], j as [|j]; cbn in Hi, Hj.
    - congruence.
    - injection Hi as <-. apply nth_error_In in Hj. apply filter_In in Hj as [Hj _]. apply In_nth_error in Hj as (k & Hk).
      apply (Ha 0%nat (S k)); auto.
    - injection Hj as <-. apply nth_error_In in Hi. apply filter_In in Hi as [Hi _]. apply In_nth_error in Hi as (k & Hk).
      apply (Ha (S k) 0%nat); auto.
    - apply (IH Ha' i j); auto. }
  apply (Hf (keep q T)) in Ha. rewrite map_length in Hi. rewrite !nth_error_map in E.
  destruct (nth_error (filter (keep q T) R) i) as [x|] eqn:Ei; [|apply nth_error_None in Ei; lia].
  destruct (nth_error (filter (keep q T) R) j) as [y|] eqn:Ej; [|discriminate]. cbn in E. injection E as E1 E2 E3.
  destruct (Nat.eq_dec i j) as [|Hne]; auto. exfalso. assert (X := Ha _ _ _ _ Ei Ej Hne).
  assert (Y : presult_dominates x y = true); [|congruence]. unfold presult_dominates.
  destruct x as [[x1 x2 x3] xr], y as [[y1 y2 y3] yr]. cbn in *. subst. apply journey_dom_refl.
Qed.

(** Every best trip is returned: if it begins in the returned interval (and in the search interval unless that may be extended),
    respects the limits of the query, and lies in the view of the search (it ends within the look-ahead of the first start, or
    the search did not have to cross a gap to get there). *)
Theorem C59_every_best_trip_is_returned : forall q P Q accP accQ M D B mt rec timeout js iv T0 K a,
  pong_query q P Q accP accQ M D B -> pong_journeys q P Q accP accQ mt rec timeout = Done (js, iv) ->
  iv_contains iv T0 = true -> (pq_extend q = false -> iv_contains (pq_iv q) T0 = true) ->
  best_door_to_door P accP T0 K a -> (K <= S (Nat.min mt 14))%nat ->
  Z.abs (a - T0) <= pq_max_travel q -> Z.abs (a - T0) < pq_fastest_direct q ->
  no_later P a (after P (first_start q) (look_ahead q)) \/
  (Z.abs (a - T0) <= look_ahead q - 1440 /\ no_gap_before q P accP mt T0) ->
  In (mk_journey T0 a (Z.of_nat K - 1)) js.
Proof.
  intros q P Q accP accQ M D B mt rec timeout js iv T0 K a H Hr Hiv Hse [HF Hb] HK Hmax Hfd Hview.
  destruct (pong_done _ _ _ _ _ _ _ _ _ _ _ _ _ H Hr) as (R & T & HI & HC & HT & _ & E). injection E as -> ->.
  assert (Hs := sgn_nl q P Q accP accQ M D B H). assert (Hsa := sgn_after q P Q accP accQ M D B H).
  assert (H0 : Pong_Loop.sgn q (first_start q) <= Pong_Loop.sgn q T0 /\ Pong_Loop.sgn q T0 < Pong_Loop.sgn q T).
  { unfold iv_contains in Hiv. cbn [iv_from iv_to] in Hiv. unfold Pong_Loop.sgn, first_start. destruct (pq_fwd q); lia. }
  destruct H0 as [H0 H1].
  assert (HV : Pong_Loop.in_view q (trip P accP) (Nat.min mt 14) T0 a).
  { destruct Hview as [Hv|[Hv Hg]].
    - left. apply Hs in Hv. rewrite Hsa in Hv. exact Hv.
    - right. split; [unfold Pong_Loop.sgn; destruct (pq_fwd q); lia|]. intros T1 G1 G2.
      destruct (Hg T1) as (T' & K' & a' & A1 & A2 & A3 & A4 & A5).
      + now apply Hs.
      + apply Hs. rewrite Hsa. lia.
      + apply Hs in A1, A2, A4. rewrite Hsa in A2, A4. exists T', K', a'. split; [lia|]. split; auto. split; auto.
        now apply (best_undominated q P Q accP accQ M D B H). }
  destruct (HC T0 K a H0 H1 HF HK HV) as (x & Hx & X1 & X2 & X3).
  assert (Htr := Pong_Loop.iv_tr _ _ _ _ _ HI _ Hx). assert (Hbx := Pong_Loop.iv_best _ _ _ _ _ HI _ Hx eq_refl).
  cbn [pr_j] in Htr, Hbx. destruct Hbx as [HFx _].
  destruct (Hb (j_dest x) (Z.to_nat (j_transfers x + 1)) (j_start x)) as (E1 & E2 & E3); auto; try (now apply Hs); [lia|].
  apply in_map_iff. exists (mk_presult x true). split.
  { unfold swapped. cbn [pr_j]. rewrite E1, E3. f_equal. lia. }
  apply filter_In. split; auto. unfold keep. cbn [pr_rec pr_j].
  assert (Hm := pg_travel _ _ _ _ _ _ _ _ H).
  rewrite !andb_true_iff, !negb_true_iff. split; [split; [split|]|]; auto.
  - apply better_s. cbn [is_validated pr_j]. rewrite E1. exact H1.
  - unfold out_of_interval. destruct (pq_extend q); auto. specialize (Hse eq_refl). unfold iv_contains in Hse. cbn [negb andb].
    rewrite E1. destruct (pq_fwd q); lia.
  - unfold too_slow, journey_travel_time. rewrite E1, E3. rewrite (travel_exact a T0) by lia. apply orb_false_iff. split; [apply Z.leb_gt|apply Z.ltb_ge]; lia.
Qed.

(** How far the search gets: unless it is stopped by the timeout, the returned interval covers the search interval, or the
    search left the timetable, or nothing that can be reached within the look-ahead begins after the returned interval. *)
Definition behind (q : pquery) (iv : interval) : Z := if pq_fwd q then iv_to iv else iv_from iv - 1.
Theorem C59_interval_covered : forall q P Q accP accQ M D B mt rec timeout js iv,
  pong_query q P Q accP accQ M D B -> pong_journeys q P Q accP accQ mt rec timeout = Done (js, iv) ->
  (forall n, timeout n = false) ->
  (forall T, iv_contains (pq_iv q) T = true -> iv_contains iv T = true) \/
  iv_contains (pq_external q) (behind q iv) = false \/
  (forall T K a, no_later P (behind q iv) T -> (K <= S (Nat.min mt 14))%nat -> trip P accP T K a ->
     ~ no_later P a (after P (behind q iv) (look_ahead q))).
Proof.
  intros q P Q accP accQ M D B mt rec timeout js iv H Hr Hto.
  destruct (pong_done _ _ _ _ _ _ _ _ _ _ _ _ _ H Hr) as (R & T & HI & HC & HT & HE & E). injection E as -> ->.
  assert (Hs := sgn_nl q P Q accP accQ M D B H). assert (Hsa := sgn_after q P Q accP accQ M D B H).
  assert (Eb : behind q (mk_iv (if pq_fwd q then iv_from (pq_iv q) else T + 1) (if pq_fwd q then T else iv_to (pq_iv q))) = T).
  { unfold behind. cbn [iv_from iv_to]. destruct (pq_fwd q); lia. }
  rewrite Eb. destruct HE as [(n & Hn)|Hn].
  - unfold continue in Hn. rewrite (Hto n), andb_true_r in Hn. apply andb_false_iff in Hn as [Hn|Hn]; [left|right; now left].
    apply orb_false_iff in Hn as [Hn _]. intros T' HT'. unfold iv_contains in *. cbn [iv_from iv_to] in *.
    unfold is_better, end_time in Hn. destruct (pq_fwd q); lia.
  - right. right. intros T' K a G1 G2 G3 G4. apply Hs in G1, G4. rewrite Hsa in G4. exact (Hn T' K a G1 G3 G2 G4).
Qed.

(** The usual case - a search interval of at most a day inside the timetable, travel times of at most four days, no extension
    of the interval, no timeout: the answer consists of exactly the best trips of the interval within the limits. *)
Theorem C59_day_query_exact : forall q P Q accP accQ M D B mt rec timeout js iv,
  pong_query q P Q accP accQ M D B -> pong_journeys q P Q accP accQ mt rec timeout = Done (js, iv) ->
  (forall n, timeout n = false) -> pq_extend q = false -> pq_max_travel q <= 5760 ->
  iv_to (pq_iv q) - iv_from (pq_iv q) <= 1440 -> iv_contains_iv (pq_external q) (pq_iv q) = true ->
  forall T a n, In (mk_journey T a n) js <->
    exists K, n = Z.of_nat K - 1 /\ (K <= S (Nat.min mt 14))%nat /\ best_door_to_door P accP T K a /\
      iv_contains (pq_iv q) T = true /\ Z.abs (a - T) <= pq_max_travel q /\ Z.abs (a - T) < pq_fastest_direct q.
Proof.
  intros q P Q accP accQ M D B mt rec timeout js iv H Hr Hto Hex Hmax Hlen Hcon T a n. split.
  - intros Hj. destruct (C59_results_are_best_trips _ _ _ _ _ _ _ _ _ _ _ _ _ _ H Hr Hj) as (A1 & A2 & A3 & A4 & A5 & A6).
    cbn [j_start j_dest j_transfers] in *. exists (S (Z.to_nat n)). split; [lia|]. split; [lia|]. auto 6.
  - intros (K & -> & HK & Hb & Hin & Hm & Hf).
    assert (Hs := sgn_nl q P Q accP accQ M D B H). assert (Hsa := sgn_after q P Q accP accQ M D B H).
    assert (Hc := C59_interval_covered _ _ _ _ _ _ _ _ _ _ _ _ _ H Hr Hto).
    destruct (pong_done _ _ _ _ _ _ _ _ _ _ _ _ _ H Hr) as (R & T2 & _ & _ & HT & _ & E).
    assert (E' : iv = mk_iv (if pq_fwd q then iv_from (pq_iv q) else T2 + 1) (if pq_fwd q then T2 else iv_to (pq_iv q)))
      by (injection E as _ E; exact E). clear E. subst iv.
    assert (Eb : behind q (mk_iv (if pq_fwd q then iv_from (pq_iv q) else T2 + 1) (if pq_fwd q then T2 else iv_to (pq_iv q))) = T2).
    { unfold behind. cbn [iv_from iv_to]. destruct (pq_fwd q); lia. }
    rewrite Eb in Hc.
    assert (Hla : look_ahead q = pq_max_travel q + 1440) by (unfold look_ahead; lia).
    assert (Ha : Pong_Loop.sgn q a <= Pong_Loop.sgn q (first_start q) + look_ahead q).
    { unfold iv_contains in Hin. unfold Pong_Loop.sgn, first_start. destruct (pq_fwd q); lia. }
    refine (C59_every_best_trip_is_returned _ _ _ _ _ _ _ _ _ _ _ _ _ T K a H Hr _ (fun _ => Hin) Hb HK Hm Hf _).
    2:{ left. apply Hs. rewrite Hsa. lia. }
    destruct Hc as [Hc|[Hc|Hc]]; [now apply Hc| |].
    + unfold iv_contains, iv_contains_iv in *. cbn [iv_from iv_to]. unfold Pong_Loop.sgn, first_start in HT. destruct (pq_fwd q); lia.
    + destruct (Z.lt_ge_cases (Pong_Loop.sgn q T) (Pong_Loop.sgn q T2)) as [L|L].
      * unfold iv_contains in *. cbn [iv_from iv_to]. unfold Pong_Loop.sgn in L. destruct (pq_fwd q); lia.
      * exfalso. apply (Hc T K a); auto; [now apply Hs|apply Hb|]. apply Hs. rewrite Hsa. lia.
Qed.

(** ** The hypotheses are met *)
Module ExamplePong.
  (** Stations A = 0, B = 1, C = 2; route 0: A -> B 08:00-08:30, 09:00-09:30; route 1: B -> C 08:40-09:10; days 10 .. 19;
      transfer time 5 minutes.  Query: from A to C, departure between 07:50 and 08:20 of day 10, at most two hours. *)
  Definition veh (a b : Z) : vehicle :=
    mk_vehicle (fun s _ => mk_delta 0 (match s with O => a | _ => b end)) (fun d => (10 <=? d) && (d <? 20)).
  Definition st (l : Z) : stop := mk_stop l true true true true.
  Definition r0 := mk_route [st 0; st 1] 3 (fun _ => false) (fun _ => false) (fun _ _ => false) [veh 480 510; veh 540 570] None.
  Definition r1 := mk_route [st 1; st 2] 4 (fun _ => false) (fun _ => false) (fun _ _ => false) [veh 520 550] None.
  Definition tt := mk_tt 3 [r0; r1] (fun l => match l with 0%nat => [0%nat] | 1%nat => [0%nat; 1%nat] | 2%nat => [1%nat] | _ => [] end)
                         (fun _ => 5) (fun _ => []) (fun _ => []) (fun _ d => (10 <=? d) && (d <? 20)).
  Definition D (l : nat) : Z := match l with 0%nat => 60 | 1%nat => 30 | _ => 0 end.
  Definition S (fwd : bool) (dest : nat) (lb : nat -> Z) : params :=
    mk_params fwd tt (fun l => Nat.eqb l dest) None 99 lb 10 (fun _ => true) (fun _ => false) (fun d => d).
  Definition P := S true 2 D.
  Definition Q := S false 0 (fun _ => 0).
  Definition accP : list (nat * Z) := [(0%nat, 0)].
  Definition accQ : list (nat * Z) := [(2%nat, 0)].
  Definition q := mk_pquery true (mk_iv 470 500) (mk_iv 0 14400) 0 120 false 32767.

  Example answer :
    pong_journeys q P Q accP accQ 5 (fun _ _ => true) (fun _ => false) = Done ([mk_journey 480 550 1], mk_iv 470 1921).
  Proof. vm_compute. reflexivity. Qed.

  Lemma routes ri r : nth_error (tt_routes tt) ri = Some r -> (ri = 0%nat /\ r = r0) \/ (ri = 1%nat /\ r = r1).
  Proof. destruct ri as [|[|[|ri]]]; cbn; intros H; try discriminate; injection H as <-; auto. Qed.
  Lemma vehicles v : (In v (r_vehicles r0) -> v = veh 480 510 \/ v = veh 540 570) /\ (In v (r_vehicles r1) -> v = veh 520 550).
  Proof. cbn. intuition. Qed.
  Lemma stop_lt r s : r = r0 \/ r = r1 -> (s < length (r_stops r))%nat -> s = 0%nat \/ s = 1%nat.
  Proof. intros [->| ->]; cbn; lia. Qed.
  Lemma vehicles_of ri r v : nth_error (tt_routes tt) ri = Some r -> In v (r_vehicles r) ->
    exists a b, v = veh a b /\ 0 <= a < 1440 /\ 0 <= b < 1440 /\ b - a = 30.
  Proof.
    intros Hr Hv. apply routes in Hr as [[_ ->]|[_ ->]]; apply vehicles in Hv; [destruct Hv as [->| ->]|subst v];
      eexists _, _; (split; [reflexivity|lia]).
  Qed.

  Lemma search fwd dest lb : (dest < 3)%nat -> searchable (S fwd dest lb).
  Proof.
    intros Hdest. split.
    - split; [|apply static_rt_ok; intros ri r Hr; apply routes in Hr as [[_ ->]|[_ ->]]; reflexivity].
      intros ri r v Hr Hv. cbn [S p_tt] in Hr. destruct (vehicles_of ri r v Hr Hv) as (a & b & -> & Ha & Hb & Hab).
      assert (Hs : r = r0 \/ r = r1) by (apply routes in Hr; tauto).
      split; [|split]; unfold event_minutes, veh; cbn [v_ev d_days d_mam].
      + intros s e Hl. apply stop_lt in Hl as [->| ->]; auto; lia.
      + intros s Hl. lia.
      + intros s s' Hl. destruct (stop_lt r s' Hs ltac:(lia)) as [->| ->]; [lia|].
        destruct (stop_lt r s Hs ltac:(lia)) as [->| ->]; lia.
    - split; [cbn; lia|]. split; [cbn; lia|]. split; [|cbn; discriminate]. cbn. destruct fwd; cbn; tauto.
    - intros H. cbn in H. congruence.
    - split; [|split]; cbn [S p_tt p_fwd p_is_dest].
      + intros ri r s0 Hr Hin. apply routes in Hr as [[_ ->]|[_ ->]]; cbn in Hin; destruct Hin as [<-|[<-|[]]]; cbn; lia.
      + destruct fwd; cbn; tauto.
      + intros l Hl. apply Nat.eqb_eq in Hl. cbn. lia.
    - intros ri r i j v w s e Hr Hij Hv Hw Hs. apply routes in Hr as [[_ ->]|[_ ->]]; cbn in Hv, Hw.
      + destruct (stop_lt r0 s ltac:(auto) Hs) as [->| ->];
        destruct i as [|[|i]]; destruct j as [|[|j]]; cbn in *; try lia; try (destruct i; discriminate); try (destruct j; discriminate);
          injection Hv as <-; injection Hw as <-; cbn; lia.
      + destruct (stop_lt r1 s ltac:(auto) Hs) as [->| ->];
        destruct i as [|i]; destruct j as [|j]; cbn in *; try lia; try (destruct i; discriminate); try (destruct j; discriminate);
          injection Hv as <-; injection Hw as <-; cbn; lia.
    - split.
      + intros ri r s0 Hr Hin. apply routes in Hr as [[-> ->]|[-> ->]]; cbn in Hin; destruct Hin as [<-|[<-|[]]]; vm_compute; auto.
      + intros ri r v day s e Hr Hv [Hd Hrun] Hs. destruct (vehicles_of ri r v Hr Hv) as (a & b & -> & _).
        unfold veh in *. cbn [v_ev d_days v_days] in *. rewrite Z.add_0_r. cbn. split; [lia|exact Hrun].
    - intros ri r i v day j w day' s s' Hr Hi Hj Hrun Hrun' Hs Hs' Hlt tv tw Hle _. cbn [S p_fwd] in *.
      apply nth_error_In in Hi as Hv. apply nth_error_In in Hj as Hw. unfold tv, tw in Hle. clear tv tw.
      destruct (vehicles_of ri r v Hr Hv) as (a & b & -> & Ha & Hb & Hab).
      destruct (vehicles_of ri r w Hr Hw) as (c & d & -> & Hc & Hd & Hcd).
      assert (Hx : r = r0 \/ r = r1) by (apply routes in Hr; tauto).
      unfold no_later, event_time, veh in *. cbn [S p_fwd p_base v_ev d_days d_mam] in *.
      destruct (stop_lt r s Hx Hs) as [->| ->], (stop_lt r s' Hx Hs') as [->| ->]; destruct fwd; lia.
    - intros l tb l' ta [ri r vi v day s s' st0 st0' Hr Hv Hrun Hs Hs' Hlt El El' Hon Hoff Hcl Hsec Etb Eta].
      apply nth_error_In in Hv. destruct (vehicles_of ri r v Hr Hv) as (a & b & -> & Ha & Hb & Hab).
      assert (Hx : r = r0 \/ r = r1) by (apply routes in Hr; tauto).
      assert (Ls : (s < length (r_stops r))%nat) by (apply nth_error_Some; congruence).
      assert (Ls' : (s' < length (r_stops r))%nat) by (apply nth_error_Some; congruence).
      subst tb ta. unfold event_time, veh. cbn [S p_fwd p_base v_ev d_days d_mam] in *.
      destruct (stop_lt r s Hx Ls) as [->| ->], (stop_lt r s' Hx Ls') as [->| ->]; destruct fwd; lia.
  Qed.
  Lemma opp : opposite P Q.
  Proof. split; try reflexivity. Qed.
  Lemma eg fwd dest lb l d : egress (S fwd dest lb) l d <-> l = dest /\ d = 0.
  Proof.
    split.
    - intros [_ Hd ->|l' _ Hd (d0 & Hin & _)|off Hoff _ _]; cbn in *; [now apply Nat.eqb_eq in Hd|destruct fwd; destruct Hin|discriminate].
    - intros [-> ->]. apply eg_here; auto. cbn. apply Nat.eqb_refl.
  Qed.
  Lemma matching fwd dest lb : end_matches [(dest, 0)] (S fwd dest lb).
  Proof.
    split.
    - intros l d [[= <- <-]|[]]. exists 0. split; [lia|]. now apply eg.
    - intros l d He. apply eg in He as [-> ->]. exists 0. split; [lia|]. left; reflexivity.
  Qed.
  Lemma lbs : lower_bounds_ok P D.
  Proof.
    split.
    - intros [|[|l]]; cbn; lia.
    - intros l _ _. cbn [P S p_lb]. destruct l as [|[|l]]; cbn; lia.
    - intros ri r v s s' s0 s0' Hr Hv Hs Hs' Hlt Hon Hoff _. cbn [P S p_fwd] in *.
      destruct (vehicles_of ri r v Hr Hv) as (a & b & -> & _ & _ & Hb).
      apply routes in Hr as [[_ ->]|[_ ->]]; cbn in Hs, Hs'.
      + destruct s as [|[|s]]; destruct s' as [|[|s']]; cbn in *; try lia; try (destruct s'; discriminate); try (destruct s; discriminate).
        injection Hs as <-. injection Hs' as <-. unfold event_minutes, veh. cbn [v_ev d_days d_mam].
        change (D (Z.to_nat (s_loc (st 0)))) with 60. change (D (Z.to_nat (s_loc (st 1)))) with 30. lia.
      + destruct s as [|[|s]]; destruct s' as [|[|s']]; cbn in *; try lia; try (destruct s'; discriminate); try (destruct s; discriminate).
        injection Hs as <-. injection Hs' as <-. unfold event_minutes, veh. cbn [v_ev d_days d_mam].
        change (D (Z.to_nat (s_loc (st 1)))) with 30. change (D (Z.to_nat (s_loc (st 2)))) with 0. lia.
    - intros l l' d (d0 & Hin & _). cbn in Hin. tauto.
    - intros l H. cbn in H. apply Nat.eqb_eq in H. subst. reflexivity.
    - intros off l d H. discriminate.
  Qed.
  (** Trips to C arrive at 09:10. *)
  Lemma arrival T K a : trip P accP T K a -> exists day, a = (day - 10) * 1440 + 550.
  Proof.
    intros (l & Hc). apply connection_egress in Hc as (l0 & t0 & d & Ha & He & ->). apply eg in He as [-> ->].
    inversion Ha as [k l1 t1 tb l2 ta Hr Hn Hride E1 E2 E3]. subst.
    destruct Hride as [ri r vi v day s s' st0 st0' Hr0 Hv Hrun Hs Hs' Hlt El El' Hon Hoff Hcl Hsec Etb Eta].
    apply nth_error_In in Hv. cbn [P S p_fwd] in Hlt. apply routes in Hr0 as [[_ ->]|[_ ->]].
    - exfalso. destruct s' as [|[|s']]; cbn in Hs'; try discriminate; [| |destruct s'; discriminate]; injection Hs' as <-; discriminate.
    - apply vehicles in Hv. subst v. exists day. unfold after. cbn [P S p_fwd]. subst t0. unfold event_time, veh.
      assert (L : (s' < length (r_stops r1))%nat) by (apply nth_error_Some; congruence).
      destruct (stop_lt r1 s' ltac:(auto) L) as [->| ->]; [lia|]. cbn [P S p_fwd p_base v_ev d_days d_mam]. lia.
  Qed.

  Lemma query_ok : pong_query q P Q accP accQ 0 D 5.
  Proof.
    split; try (apply search; lia).
    - reflexivity.
    - exact opp.
    - apply matching.
    - apply matching.
    - split; intros l d [[= <- <-]|[]]; [lia|]. cbn. split; [lia|reflexivity].
    - split; intros l d [[= <- <-]|[]]; [lia|]. cbn. split; [lia|reflexivity].
    - exact lbs.
    - reflexivity.
    - intros T. split; [|intros ri r day s s' s0 s0' Hr E; apply routes in Hr as [[_ ->]|[_ ->]]; discriminate].
      intros l t ri r s s' s0 s0' (d & [[= <- <-]|[]] & _) Hl. cbn in Hl. discriminate.
    - cbn. lia.
    - cbn. lia.
    - intros l. cbn. lia.
    - intros l l' d (d0 & [] & _).
    - intros T _ He _. unfold iv_contains in He. cbn in He. lia.
    - intros T HT He Hx. right. intros K a Ht. destruct (arrival T K a Ht) as (day & ->).
      assert (R : 470 <= T < 500).
      { unfold no_later, first_start in HT. cbn in HT. destruct Hx as [Hx|Hx]; [|cbn in Hx; lia]. unfold is_better, end_time in Hx. cbn in Hx. lia. }
      unfold no_later, after, look_ahead. cbn [P S p_fwd q pq_max_travel]. lia.
  Qed.
  (** The trip A 08:00 - C 09:10 that is returned is a best trip; C59_day_query_exact applies. *)
  Example C59_nonvacuous :
    pong_query q P Q accP accQ 0 D 5 /\
    (forall T a n, In (mk_journey T a n) [mk_journey 480 550 1] <->
       exists K, n = Z.of_nat K - 1 /\ (K <= 6)%nat /\ best_door_to_door P accP T K a /\
         iv_contains (mk_iv 470 500) T = true /\ Z.abs (a - T) <= 120 /\ Z.abs (a - T) < 32767) /\
    best_door_to_door P accP 480 2 550.
  Proof.
    split; [exact query_ok|].
    assert (X := C59_day_query_exact q P Q accP accQ 0 D 5 5 (fun _ _ => true) (fun _ => false) _ _ query_ok answer
                   (fun _ => eq_refl) eq_refl ltac:(cbn; lia) ltac:(cbn; lia) eq_refl).
    split; [exact X|]. destruct (proj1 (X 480 550 1) (or_introl eq_refl)) as (K & EK & _ & Hb & _).
    replace K with 2%nat in Hb by lia. exact Hb.
  Qed.
  (** C58: the forward search from 07:50 and the backward search from its arrival. *)
  Example C58_nonvacuous :
    opposite P Q /\ end_matches accP Q /\ end_matches accQ P /\ lower_bounds_ok Q (fun _ => 0) /\
    groups_ok P [mk_group 470 2030 (end_starts P accP 470)] /\ groups_ok Q [mk_group 550 470 (end_starts Q accQ 550)] /\
    snd (raptor P 5 [mk_group 470 2030 (end_starts P accP 470)]) = [mk_journey 470 550 1] /\
    snd (raptor Q 5 [mk_group 550 470 (end_starts Q accQ 550)]) = [mk_journey 550 480 1] /\ trip P accP 480 2 550.
  Proof.
    split; [exact opp|]. split; [apply matching|]. split; [apply matching|]. split.
    { split; intros; try lia; try (cbn; lia); try discriminate.
      match goal with X : walk _ _ _ _ |- _ => destruct X as (d0 & [] & _) end. }
    split; [|split; [|split; [vm_compute; reflexivity|split; [vm_compute; reflexivity|]]]].
    3:{ destruct C59_nonvacuous as (_ & _ & Hb & _). exact Hb. }
    all: split; [intros g l t [<-|[]] [[= <- <-]|[]]; cbn; lia|intros g [<-|[]]; unfold time_range; cbn; lia|
                 intros g l t [<-|[]] [[= <- <-]|[]]; unfold no_later; cbn; lia|].
    all: intros [|x gs1] g gs2 g' E Hin; [destruct Hin|]; cbn in E; injection E; intros E' _; destruct gs1; discriminate.
  Qed.
End ExamplePong.

(** ** What the hypotheses are for *)
Module ExampleLate.
  (** A = 0, X = 1, Y = 2, C = 3.  A -> X 01:40-03:20, X -> Y 05:00-23:45, Y -> C on foot: 10 minutes, 20 at the requested
      walking speed; direct: A -> C 02:30-24:03.  One day look-ahead from 00:00. *)
  Definition veh (a b : Z) : vehicle :=
    mk_vehicle (fun s _ => match s with O => mk_delta (a / 1440) (a mod 1440) | _ => mk_delta (b / 1440) (b mod 1440) end) (fun d => d =? 10).
  Definition st (l : Z) : stop := mk_stop l true true true true.
  Definition rt (l l' a b : Z) := mk_route [st l; st l'] 3 (fun _ => false) (fun _ => false) (fun _ _ => false) [veh a b] None.
  Definition tt := mk_tt 4 [rt 0 1 100 200; rt 1 2 300 1425; rt 0 3 150 1443]
    (fun l => match l with 0%nat => [0%nat; 2%nat] | 1%nat => [0%nat; 1%nat] | 2%nat => [1%nat] | 3%nat => [2%nat] | _ => [] end)
    (fun _ => 2) (fun l => match l with 2%nat => [(3%nat, 10)] | _ => [] end) (fun l => match l with 3%nat => [(2%nat, 10)] | _ => [] end)
    (fun _ d => (10 <=? d) && (d <? 20)).
  Definition D (l : nat) : Z := match l with 0%nat => 1235 | 1%nat => 1135 | 2%nat => 10 | _ => 0 end.
  Definition S (fwd : bool) (dest : nat) (lb : nat -> Z) : params :=
    mk_params fwd tt (fun l => Nat.eqb l dest) None 99 lb 10 (fun _ => true) (fun _ => false) (fun d => 2 * d).
  Definition P := S true 3 D.
  Definition Q := S false 0 (fun _ => 0).
  Definition q := mk_pquery true (mk_iv 0 60) (mk_iv 0 14400) 0 0 false 32767.
  Lemma feet l l' d : In (l', d) (tt_footpaths_out tt l) <-> In (l, d) (tt_footpaths_in tt l').
  Proof.
    cbn. destruct l as [|[|[|[|l]]]]; destruct l' as [|[|[|[|l']]]]; cbn; split; intros H; repeat destruct H as [H|H]; try discriminate;
      try tauto; injection H; intros; subst; auto.
  Qed.
End ExampleLate.
Module ExampleGap.
  (** A = 0, B = 1, C = 2.  A -> B 24:10-24:20, B -> C 24:40-24:50; direct: A -> C 24:05-25:03; all on day 10 only.
      At most 60 minutes of travel: look-ahead 25 hours. *)
  Definition veh (a b : Z) : vehicle :=
    mk_vehicle (fun s _ => match s with O => mk_delta 1 a | _ => mk_delta 1 b end) (fun d => d =? 10).
  Definition st (l : Z) : stop := mk_stop l true true true true.
  Definition rt (l l' a b : Z) := mk_route [st l; st l'] 3 (fun _ => false) (fun _ => false) (fun _ _ => false) [veh a b] None.
  Definition tt := mk_tt 3 [rt 0 1 10 20; rt 1 2 40 50; rt 0 2 5 63]
    (fun l => match l with 0%nat => [0%nat; 2%nat] | 1%nat => [0%nat; 1%nat] | 2%nat => [1%nat; 2%nat] | _ => [] end)
    (fun _ => 2) (fun _ => []) (fun _ => []) (fun _ d => (10 <=? d) && (d <? 20)).
  Definition D (l : nat) : Z := match l with 0%nat => 20 | 1%nat => 10 | _ => 0 end.
  Definition S (fwd : bool) (dest : nat) (lb : nat -> Z) : params :=
    mk_params fwd tt (fun l => Nat.eqb l dest) None 99 lb 10 (fun _ => true) (fun _ => false) (fun d => d).
  Definition P := S true 2 D.
  Definition Q := S false 0 (fun _ => 0).
  Definition q := mk_pquery true (mk_iv 0 1500) (mk_iv 0 14400) 0 60 false 32767.
  (** Direct trips: only the one at 24:05. *)
  Lemma direct T a : trip P [(0%nat, 0)] T 1 a -> T <= 1445 /\ a = 1503.
  Proof.
    intros (l & Hc). apply connection_egress in Hc as (l0 & t0 & d & Ha & He & ->).
    assert (El : l0 = 2%nat /\ d = 0).
    { destruct He as [_ Hd ->|l' _ Hd (d0 & [] & _)|off Hoff _ _]; [|discriminate]. cbn in Hd. apply Nat.eqb_eq in Hd. auto. }
    destruct El as [-> ->]. inversion Ha as [k l1 t1 tb l2 ta Hr Hn Hride E1 E2 E3]. subst.
    assert (E : l1 = 0%nat /\ t1 = T).
    { inversion Hr as [l3 t3 (d3 & [[= <- <-]|[]] & E)| |]; subst; [|match goal with X : arrived _ _ _ 0 _ _ |- _ => inversion X end ..].
      split; auto. unfold after. cbn. lia. }
    destruct E as [-> ->].
    destruct Hride as [ri r vi v day s s' st0 st0' Hr0 Hv Hrun Hs Hs' Hlt El El' Hon Hoff Hcl Hsec Etb Eta].
    cbn [P S p_fwd p_tt] in Hlt, Hr0, Etb, Eta.
    destruct s as [|s].
    2:{ destruct ri as [|[|[|ri]]]; cbn in Hr0; try (destruct ri; discriminate); injection Hr0 as <-;
          (destruct s as [|s]; cbn in Hs; [injection Hs as <-; discriminate|destruct s; discriminate]). }
    destruct s' as [|[|s']]; [lia| |destruct ri as [|[|[|ri]]]; cbn in Hr0; try (destruct ri; discriminate); injection Hr0 as <-; destruct s'; discriminate].
    destruct ri as [|[|[|ri]]]; cbn in Hr0; try (destruct ri; discriminate); injection Hr0 as <-; cbn in Hs, Hs'; injection Hs as <-; injection Hs' as <-;
      try discriminate.
    destruct vi as [|vi]; [|destruct vi; discriminate]. cbn in Hv. injection Hv as <-. destruct Hrun as [_ Hrun].
    cbn in Hrun. apply Z.eqb_eq in Hrun. subst day. unfold event_time, veh in Etb, Eta. cbn [P S p_base v_ev d_days d_mam] in Etb, Eta.
    unfold no_later, after in *. cbn [P S p_fwd] in *. lia.
  Qed.
  Lemma direct_trip : trip P [(0%nat, 0)] 1445 1 1503.
  Proof.
    exists 2%nat. apply conn_station; auto. apply (arrived_ride P _ _ 0 0 1445 1445 2 1503); [|unfold no_later; cbn; lia|].
    - apply ready_start. exists 0. split; [left; reflexivity|]. reflexivity.
    - apply (ride_intro P 0%nat 1445 2%nat 1503 2%nat (rt 0 2 5 63) 0%nat (veh 5 63) 10 0%nat 1%nat (st 0) (st 2)); try reflexivity;
        try (unfold runs_on; cbn; lia); cbn; try lia; intros; discriminate.
  Qed.
  Lemma direct_best : best_door_to_door P [(0%nat, 0)] 1445 1 1503.
  Proof.
    split; [exact direct_trip|]. intros T' K' a' H1 H2 H3 Ht. assert (X := trip_rides _ _ _ _ _ Ht).
    assert (K' = 1%nat) by lia. subst K'. apply direct in Ht as [Y1 Y2]. unfold no_later in H1. cbn in H1.
    split; [lia|]. auto.
  Qed.
End ExampleGap.

(** Without the condition on the minutes after the look-ahead ([pg_settled]) the search can throw "no pong": the ping reports an
    arrival after the look-ahead (by footpath) although a direct trip that arrives earlier, also after it, was cut off; the pong
    finds the direct trip only. *)
Theorem C59_late_walk_refuted : exists q P Q accP accQ,
  pq_fwd q = p_fwd P /\ opposite P Q /\ end_matches accP Q /\ end_matches accQ P /\ (forall l, p_lb Q l = 0) /\
  pong_journeys q P Q accP accQ 5 (fun _ _ => true) (fun _ => false) = Throw NoPong.
Proof.
  exists ExampleLate.q, ExampleLate.P, ExampleLate.Q, [(0%nat, 0)], [(3%nat, 0); (2%nat, 20)].
  split; [reflexivity|]. split; [split; try reflexivity; exact ExampleLate.feet|]. split; [|split; [|split; [reflexivity|]]].
  - split.
    + intros l d [[= <- <-]|[]]. exists 0. split; [lia|]. now apply eg_here.
    + intros l d [_ Hd ->|l' _ Hd (d0 & Hin & _)|off Hoff _ _]; [| |discriminate].
      * cbn in Hd. apply Nat.eqb_eq in Hd. subst l. exists 0. split; [lia|left; reflexivity].
      * exfalso. cbn in Hd. apply Nat.eqb_eq in Hd. subst l'. cbn in Hin.
        destruct l as [|[|[|[|l]]]]; cbn in Hin; repeat destruct Hin as [Hin|Hin]; try discriminate; try tauto.
  - split.
    + intros l d [[= <- <-]|[[= <- <-]|[]]].
      * exists 0. split; [lia|]. now apply eg_here.
      * exists 20. split; [lia|]. apply eg_walk with 3%nat; auto. exists 10. cbn. auto.
    + intros l d [_ Hd ->|l' _ Hd (d0 & Hin & ->)|off Hoff _ _]; [| |discriminate].
      * cbn in Hd. apply Nat.eqb_eq in Hd. subst l. exists 0. split; [lia|left; reflexivity].
      * cbn in Hd. apply Nat.eqb_eq in Hd. subst l'. cbn in Hin. 
        destruct l as [|[|[|[|l]]]]; cbn in Hin; repeat destruct Hin as [Hin|Hin]; try discriminate; try tauto.
        injection Hin as <-. exists 20. split; [cbn; lia|]. right; left; reflexivity.
  - vm_compute. reflexivity.
Qed.

(** Without the condition on gaps a best trip of the returned interval, shorter than the travel time limit, is missing: nothing
    departs in the first 24 hours, the first departure within the look-ahead is found, a trip that departs before it but
    arrives behind the look-ahead is skipped. *)
Theorem C59_gap_refuted : exists q P Q accP accQ js iv T K a,
  opposite P Q /\ pong_journeys q P Q accP accQ 5 (fun _ _ => true) (fun _ => false) = Done (js, iv) /\
  iv_contains iv T = true /\ iv_contains (pq_iv q) T = true /\ best_door_to_door P accP T K a /\ (K <= 6)%nat /\
  Z.abs (a - T) <= pq_max_travel q /\ Z.abs (a - T) < pq_fastest_direct q /\
  forall n, ~ In (mk_journey T a n) js.
Proof.
  exists ExampleGap.q, ExampleGap.P, ExampleGap.Q, [(0%nat, 0)], [(2%nat, 0)], [mk_journey 1450 1490 1], (mk_iv 0 1451), 1445, 1%nat, 1503.
  split; [split; reflexivity|]. split; [vm_compute; reflexivity|]. split; [reflexivity|]. split; [reflexivity|].
  split; [exact ExampleGap.direct_best|]. split; [lia|]. split; [cbn; lia|]. split; [cbn; lia|]. intros n [X|[]]. discriminate.
Qed.

Print Assumptions C58_way_back.
Print Assumptions C59_no_exception.
Print Assumptions C59_every_best_trip_is_returned.
Print Assumptions C59_day_query_exact.
