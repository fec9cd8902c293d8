(** C60: direct journeys ([get_direct_journeys]).  C61: slow direct journeys ([enrich_with_slow_direct]). *)
From Coq Require Import List ZArith Bool Arith Lia Permutation Sorting.Sorted.
From Verif Require Import Base Time_Model Raptor_Model Raptor_Spec Rec_Model Rec_Spec Direct_Model Direct_Spec Direct_Proofs Direct_Stream Direct_Order.
From Verif Require Query_Model P_Raptor.
Import ListNotations.
Local Open Scope Z_scope.

(** Durations of the timetable are not negative, seen from both directions. *)
Definition all_durations_ok (P : params) : Prop :=
  (forall x, 0 <= x -> 0 <= p_adjust P x) /\ (forall l, 0 <= tt_transfer_time (p_tt P) l) /\
  (forall l l' x, In (l', x) (tt_footpaths_out (p_tt P) l) -> 0 <= x) /\ (forall l l' x, In (l', x) (tt_footpaths_in (p_tt P) l) -> 0 <= x).

(** Every journey of the stream is a direct journey that satisfies the query: one ride on a vehicle that runs that day, all filters
    hold, the ways before and after it exist and touch the ride without waiting; it does not start before (backward: end after) the
    requested time. *)
Theorem C60_sound : forall P L Q lo hi time out j,
  all_vehicles_wf P -> direct_journeys P L Q lo hi time out -> In j out ->
  direct P L Q j /\ (if p_fwd P then time <= j_dep j else j_arr j <= time).
Proof.
  intros P L Q lo hi time out j Hwf M Hj. destruct (stream_in _ _ _ _ _ _ _ _ M Hj) as (ri & r & a & b & g & G & Hg).
  destruct (generator_sound _ _ _ _ _ Hwf _ _ _ _ _ _ _ G Hg) as (A & B & _). auto.
Qed.

(** The stream is sorted: forward by arrival, backward by departure (latest first). *)
Theorem C60_sorted : forall P L Q lo hi time out i k x y,
  all_vehicles_wf P -> columns_sorted P -> fifo P -> direct_journeys P L Q lo hi time out ->
  nth_error out i = Some x -> nth_error out k = Some y -> (i <= k)%nat ->
  if p_fwd P then j_arr x <= j_arr y else j_dep y <= j_dep x.
Proof.
  intros P L Q lo hi time out i k x y Hwf Hc Hf M Hx Hy Hik.
  assert (S : StronglySorted (fun x y => mkey P x <= mkey P y) out) by (eapply stream_sorted; eauto).
  assert (K : mkey P x <= mkey P y).
  { clear M. revert i k Hx Hy Hik. induction S as [|z l S IH F]; intros i k Hx Hy Hik; [destruct i; discriminate|].
    destruct i as [|i], k as [|k]; cbn in Hx, Hy.
    - injection Hx as <-. injection Hy as <-. lia.
    - injection Hx as <-. rewrite Forall_forall in F. apply F. eapply nth_error_In; eauto.
    - lia.
    - apply (IH i k); auto; lia. }
  unfold mkey in K. destruct (p_fwd P); lia.
Qed.

(** No ride is offered twice. *)
Theorem C60_no_duplicates : forall P L Q lo hi time out i k x y ri vi day a b,
  all_vehicles_wf P -> direct_journeys P L Q lo hi time out ->
  nth_error out i = Some x -> nth_error out k = Some y -> rides_on ri vi day a b x -> rides_on ri vi day a b y -> i = k.
Proof.
  intros P L Q lo hi time out i k x y ri vi day a b Hwf M Hx Hy Rx Ry.
  assert (N : NoDup (map ride_id out)) by (eapply stream_nodup; eauto).
  assert (ID : forall j, In j out -> rides_on ri vi day a b j -> ride_id j = Some (Ride ri vi day a (b + 1))).
  { intros j Hj (g & Hg & Eg). destruct (stream_in _ _ _ _ _ _ _ _ M Hj) as (ri' & r' & a' & b' & gg & G & Hjg).
    destruct (in_generator _ _ _ _ _ Hwf _ _ _ _ _ _ _ G Hjg) as (vi' & v' & day' & _ & _ & D).
    rewrite (direct_journey_id _ _ _ _ _ _ _ _ _ _ _ D). f_equal. unfold direct_journey in D.
    destruct (lookup_access P L Q true _ _) as [bw|] eqn:LB; [|discriminate]. destruct (lookup_access P L Q false _ _) as [aw|] eqn:LA; [|discriminate].
    destruct (if p_fwd P then _ else _); [discriminate|]. injection D as <-.
    destruct (lookup_access_sound _ _ _ _ _ _ _ LB) as (o1 & d1 & _ & _ & _ & _ & _ & G1 & _).
    destruct (lookup_access_sound _ _ _ _ _ _ _ LA) as (o2 & d2 & _ & _ & _ & _ & _ & G2 & _).
    unfold assemble_legs in Hg. apply in_app_or in Hg. destruct Hg as [Hg|[<-|Hg]].
    - destruct (zero_offset bw); [destruct Hg|]. destruct Hg as [<-|[]]. rewrite G1 in Eg. destruct (mode_of Q true); discriminate.
    - exact Eg.
    - destruct (zero_offset aw); [destruct Hg|]. destruct Hg as [<-|[]]. rewrite G2 in Eg. destruct (mode_of Q false); discriminate. }
  rewrite NoDup_nth_error in N. apply N.
  - rewrite map_length. apply nth_error_Some. congruence.
  - rewrite !nth_error_map, Hx, Hy. cbn. rewrite (ID x), (ID y); eauto using nth_error_In.
Qed.

(** Whenever a vehicle can be used from stop [s] to stop [s'], the stream considers it from some stop [a] to some stop [b] - boarding
    and alighting no later than [s] and [s'] - and contains that journey, with the shortest ways to [a] and from [b], if it satisfies
    the filters and is not too early (backward: too late). *)
Theorem C60_complete : forall P L Q lo hi time out ri r vi v day s s',
  all_vehicles_wf P -> index_ok P -> all_durations_ok P -> offsets_ok Q true -> offsets_ok Q false -> 0 <= p_base P * 1440 + time ->
  direct_journeys P L Q lo hi time out ->
  nth_error (tt_routes (p_tt P)) ri = Some r -> nth_error (r_vehicles r) vi = Some v -> runs_on v day ->
  (s < s')%nat -> can_board P L Q r s -> can_alight P L Q r s' ->
  exists a b, (a < b)%nat /\ (a <= s)%nat /\ (s <= b <= s')%nat /\ can_board P L Q r a /\ can_alight P L Q r b /\
    forall st st' o1 d1 o2 d2,
      nth_error (r_stops r) a = Some st -> nth_error (r_stops r) b = Some st' ->
      access P L Q true (Z.to_nat (s_loc st)) o1 d1 -> usable Q true d1 ->
      access P L Q false (Z.to_nat (s_loc st')) o2 d2 -> usable Q false d2 ->
      filters_ok P r a b ->
      (if p_fwd P then time <= event_time P v day a kDep - d1 else event_time P v day b kArr + d2 <= time) ->
      (r_rt r = None -> if p_fwd P then day + d_days (v_ev v a kDep) <= hi else lo <= day + d_days (v_ev v b kArr)) ->
      exists j, In j out /\ rides_on ri vi day a b j /\
        event_time P v day a kDep - d1 <= j_dep j /\ j_arr j <= event_time P v day b kArr + d2.
Proof.
  intros P L Q lo hi time out ri r vi v day s s' Hwf Hidx (D1 & D2 & D3 & D4) O1 O2 Ht M Hr Hv Hrun Hss (st0 & o & d & B1 & B2 & B3) (st0' & o' & d' & C1 & C2 & C3).
  assert (Hb : boards P (collect_locations P L Q true) st0 = true) by (apply boards_spec; split; [exact B2|eauto]).
  assert (Ha : alights P (collect_locations P L Q false) st0' = true) by (apply alights_spec; split; [exact C2|eauto]).
  destruct (pairs_cover P _ _ (r_stops r) 0 None s s' st0 st0' ltac:(discriminate) B1 C1 Hss Hb Ha) as (a & b & Hin & X1 & X2 & X3). cbn in X1, X2, X3.
  destruct (pairs_ok P _ _ (r_stops r) (r_stops r) 0 None ltac:(intros k x H; exact H) ltac:(discriminate) a b Hin)
    as (_ & Hab & _ & (st & Y1 & Y2) & (st' & Z1 & Z2)).
  exists a, b. split; [exact Hab|]. split; [exact X1|]. split; [lia|]. split; [|split].
  - apply boards_spec in Y2. destruct Y2 as (Y2 & oo & dd & Y3). exists st, oo, dd. auto.
  - apply alights_spec in Z2. destruct Z2 as (Z2 & oo & dd & Z3). exists st', oo, dd. auto.
  - intros st1 st1' o1 d1 o2 d2 E1 E2 A1 U1 A2 U2 HF T HH. rewrite Y1 in E1. injection E1 as <-. rewrite Z1 in E2. injection E2 as <-.
    eapply selected_in; eauto.
Qed.

(** On a route that passes the start at one stop only and the destination at one stop only, every usable run is found. *)
Theorem C60_complete_simple_route : forall P L Q lo hi time out ri r vi v day s s' st st' o1 d1 o2 d2,
  all_vehicles_wf P -> index_ok P -> all_durations_ok P -> offsets_ok Q true -> offsets_ok Q false -> 0 <= p_base P * 1440 + time ->
  direct_journeys P L Q lo hi time out ->
  nth_error (tt_routes (p_tt P)) ri = Some r -> nth_error (r_vehicles r) vi = Some v -> runs_on v day ->
  (s < s')%nat -> nth_error (r_stops r) s = Some st -> nth_error (r_stops r) s' = Some st' -> may_board P st = true -> may_alight P st' = true ->
  access P L Q true (Z.to_nat (s_loc st)) o1 d1 -> usable Q true d1 ->
  access P L Q false (Z.to_nat (s_loc st')) o2 d2 -> usable Q false d2 ->
  (forall x, can_board P L Q r x -> x = s) -> (forall x, can_alight P L Q r x -> x = s') ->
  filters_ok P r s s' ->
  (if p_fwd P then time <= event_time P v day s kDep - d1 else event_time P v day s' kArr + d2 <= time) ->
  (r_rt r = None -> if p_fwd P then day + d_days (v_ev v s kDep) <= hi else lo <= day + d_days (v_ev v s' kArr)) ->
  exists j, In j out /\ rides_on ri vi day s s' j /\
    event_time P v day s kDep - d1 <= j_dep j /\ j_arr j <= event_time P v day s' kArr + d2.
Proof.
  intros P L Q lo hi time out ri r vi v day s s' st st' o1 d1 o2 d2 Hwf Hidx HD O1 O2 Ht M Hr Hv Hrun Hss Hst Hst' Hb Ha A1 U1 A2 U2 UB UA HF T HH.
  destruct (C60_complete P L Q lo hi time out ri r vi v day s s') as (a & b & _ & _ & _ & Xa & Xb & K); auto.
  - exists st, o1, d1. auto.
  - exists st', o2, d2. auto.
  - apply UB in Xa. apply UA in Xb. subst a b. eapply K; eauto.
Qed.

(** The stream always exists and is finite. *)
Theorem C60_stream_exists : forall P L Q lo hi time, exists out, direct_journeys P L Q lo hi time out.
Proof. intros. apply merged_total. Qed.

(** ** Non-vacuity: the timetable of [P_Raptor], a vehicle at 8:00 and at 9:00 from location 0 to location 1, days 10 to 19. *)
Definition locs0 : Query_Model.locations := Query_Model.mk_locs (fun _ => None) (fun _ => []) (fun l => [l]) (fun _ => false).
Module ExampleDirect.
  Import P_Raptor.Example1.
  Definition Q := mk_dquery Query_Model.kEquivalent Query_Model.kEquivalent false [(0%nat, 0)] [(1%nat, 0)] 98 99.
  Definition j (day : Z) (vi : nat) (t : Z) :=
    [mk_leg 0 0 t t (Foot 0 0); mk_leg 0 1 t (t + 30) (Ride 0 vi day 0 2); mk_leg 1 1 (t + 30) (t + 30) (Foot 1 0)].
  Definition out := [j 10 1 540; j 11 0 1920; j 11 1 1980].
  Lemma gens : generators P locs0 Q 0 11 500 = [out].
  Proof. vm_compute. reflexivity. Qed.
  Lemma stream : direct_journeys P locs0 Q 0 11 500 out.
  Proof.
    unfold direct_journeys. rewrite gens. unfold out.
    do 3 (apply (merged_step P [] _ _ []); [intros y ys []|]). constructor. intros g [<-|[]]. reflexivity.
  Qed.
  Lemma dur_ok : all_durations_ok P.
  Proof. repeat split; cbn; intros; try lia; try tauto. Qed.
  Lemma acc b : access P locs0 Q b (if b then 0%nat else 1%nat) (if b then 0%nat else 1%nat) 0.
  Proof. destruct b; apply access_here; cbn; auto; discriminate. Qed.
  Lemma offs b : offsets_ok Q b.
  Proof. destruct b; split; cbn; auto; intros o d [[= <- <-]|[]]; lia. Qed.
  Lemma board_only x : can_board P locs0 Q r0 x -> x = 0%nat.
  Proof.
    intros (st & o & d & H1 & _ & H2). destruct x as [|[|x]]; [reflexivity| |destruct x; discriminate]. exfalso. cbn in H1. injection H1 as <-.
    inversion H2 as [d' Hm|o' d0 A1 A2 A3|o' d0 A1 A2|o' d0 l d1 A1 A2 A3 A4 A5]; subst; try discriminate; cbn in *.
    - destruct A2 as [[= <- <-]|[]]. destruct A3 as [E|[E|[]]]; discriminate.
    - destruct A5.
  Qed.
  Lemma alight_only x : can_alight P locs0 Q r0 x -> x = 1%nat.
  Proof.
    intros (st & o & d & H1 & _ & H2). destruct x as [|[|x]]; [|reflexivity|destruct x; discriminate]. exfalso. cbn in H1. injection H1 as <-.
    inversion H2 as [d' Hm|o' d0 A1 A2 A3|o' d0 A1 A2|o' d0 l d1 A1 A2 A3 A4 A5]; subst; try discriminate; cbn in *.
    - destruct A2 as [[= <- <-]|[]]. destruct A3 as [E|[E|[]]]; discriminate.
    - destruct A5.
  Qed.
End ExampleDirect.

Example C60_nonvacuous :
  all_vehicles_wf P_Raptor.Example1.P /\ columns_sorted P_Raptor.Example1.P /\ fifo P_Raptor.Example1.P /\ index_ok P_Raptor.Example1.P /\
  all_durations_ok P_Raptor.Example1.P /\ offsets_ok ExampleDirect.Q true /\ offsets_ok ExampleDirect.Q false /\
  direct_journeys P_Raptor.Example1.P locs0 ExampleDirect.Q 0 11 500 ExampleDirect.out /\ length ExampleDirect.out = 3%nat /\
  (exists jj, In jj ExampleDirect.out /\ rides_on 0 0 11 0 1 jj /\ 1920 - 0 <= j_dep jj /\ j_arr jj <= 1950 + 0).
Proof.
  do 4 (split; [first [exact P_Raptor.Example1.wf|exact P_Raptor.Example1.cols|exact P_Raptor.Example1.fifo_ok|exact P_Raptor.Example1.idx]|]).
  split; [exact ExampleDirect.dur_ok|]. split; [exact (ExampleDirect.offs true)|]. split; [exact (ExampleDirect.offs false)|].
  split; [exact ExampleDirect.stream|]. split; [reflexivity|].
  refine (C60_complete_simple_route P_Raptor.Example1.P locs0 ExampleDirect.Q 0 11 500 ExampleDirect.out 0 P_Raptor.Example1.r0 0
    (P_Raptor.Example1.veh 480 510) 11 0 1 _ _ 0 0 1 0 P_Raptor.Example1.wf P_Raptor.Example1.idx ExampleDirect.dur_ok (ExampleDirect.offs true) (ExampleDirect.offs false) _
    ExampleDirect.stream eq_refl eq_refl _ _ eq_refl eq_refl eq_refl eq_refl (ExampleDirect.acc true) _ (ExampleDirect.acc false) _
    ExampleDirect.board_only ExampleDirect.alight_only _ _ _).
  - cbn. lia.
  - unfold runs_on. cbn. lia.
  - lia.
  - right. lia.
  - right. lia.
  - split; [reflexivity|]. intros f sec _ Hf _. cbn in Hf. discriminate.
  - vm_compute. discriminate.
  - intros _. vm_compute. discriminate.
Qed.

(** ** What is not true *)
Module DirectEx.
  Definition st (l : Z) : stop := mk_stop l true true true true.
  (** Vehicle that calls at stop [i] at the [i]-th of the given minutes, on days 0 to 9. *)
  Definition veh (ts : list Z) : vehicle := mk_vehicle (fun s _ => mk_delta 0 (nth s ts 0)) (fun d => (0 <=? d) && (d <? 10)).
  Definition line (stops : list Z) (sec : nat -> bool) (vs : list (list Z)) : route :=
    mk_route (map st stops) 0 (fun _ => false) (fun _ => true) (fun _ => sec) (map veh vs) None.
  Definition par (fwd : bool) (n : nat) (rs : list route) (transfer : nat -> Z) (fps : nat -> list (nat * Z)) (require : nat -> bool) : params :=
    mk_params fwd (mk_tt n rs (fun _ => seq 0 (length rs)) transfer fps (fun _ => []) (fun _ d => (0 <=? d) && (d <? 10)))
              (fun _ => false) None 99 (fun _ => 0) 0 (fun _ => true) require (fun d => d).
End DirectEx.
Lemma merged_none P gs out : concat gs = [] -> merged P gs out -> out = [].
Proof. intros E M. apply merged_perm in M. rewrite E in M. now apply Permutation_nil in M. Qed.
Lemma merged_one P gs x out : concat gs = [x] -> merged P gs out -> out = [x].
Proof. intros E M. apply merged_perm in M. rewrite E in M. now apply Permutation_length_1_inv in M. Qed.

(** The vehicle is only tried from the first stop where it can be boarded.  At 8:05 one can still catch it at the second stop (8:10),
    but it has left the first one at 8:00, so nothing is found. *)
Theorem C60_later_boarding_stop_refuted : exists P L Q lo hi time j,
  all_vehicles_wf P /\ direct P L Q j /\ p_fwd P = true /\ time <= j_dep j /\ forall out, direct_journeys P L Q lo hi time out -> out = [].
Proof.
  set (r := DirectEx.line [0; 1; 2] (fun _ => true) [[480; 490; 500]]).
  set (P := DirectEx.par true 3 [r] (fun _ => 0) (fun _ => []) (fun _ => false)).
  set (Q := mk_dquery Query_Model.kIntermodal Query_Model.kIntermodal false [(0%nat, 0); (1%nat, 0)] [(2%nat, 0)] 98 99).
  exists P, locs0, Q, 0, 0, 485, [mk_leg 1 2 490 500 (Ride 0 0 0 1 3)]. split.
  { split; [|apply static_rt_ok; intros [|[|ri]] rr HH; cbn in HH; try discriminate; injection HH as <-; reflexivity].
    intros [|[|ri]] rr v HH Hv; cbn in HH; try discriminate; injection HH as <-. destruct Hv as [<-|[]].
    split; [|split]; unfold event_minutes, DirectEx.veh; cbn [v_ev d_days d_mam].
    - intros s e Hl. cbn in Hl. destruct s as [|[|[|s]]]; cbn; try lia.
    - intros s Hl. lia.
    - intros s s' Hl. cbn in Hl. destruct s as [|[|s]], s' as [|[|[|s']]]; cbn; try lia. }
  split; [|split; [reflexivity|split; [vm_compute; discriminate|]]].
  - apply (direct_intro P locs0 Q [] (mk_leg 1 2 490 500 (Ride 0 0 0 1 3)) []).
    + apply (ride_leg_intro P _ 0 0 0 1 3 r (DirectEx.veh [480; 490; 500]) (DirectEx.st 1) (DirectEx.st 2)); try reflexivity; try (unfold runs_on; cbn; lia); try (intros f sec _ Hf; discriminate).
    + eapply (side_none P locs0 Q true _ _ 98); [reflexivity|]. apply (access_offset P locs0 Q true); [reflexivity|]. right. left. reflexivity.
    + eapply (side_none P locs0 Q false _ _ 99); [reflexivity|]. apply (access_offset P locs0 Q false); [reflexivity|]. left. reflexivity.
  - intros out M. refine (merged_none P _ _ _ M). vm_compute. reflexivity.
Qed.

(** Likewise when bikes are not allowed on the first section only: the ride from the second stop is allowed, but not found. *)
Theorem C60_later_section_refuted : exists P L Q lo hi time j,
  direct P L Q j /\ p_fwd P = true /\ p_require P 0 = true /\ time <= j_dep j /\ forall out, direct_journeys P L Q lo hi time out -> out = [].
Proof.
  set (r := DirectEx.line [0; 1; 2] (fun sec => Nat.eqb sec 1) [[480; 490; 500]]).
  set (P := DirectEx.par true 3 [r] (fun _ => 0) (fun _ => []) (fun f => Nat.eqb f 0)).
  set (Q := mk_dquery Query_Model.kIntermodal Query_Model.kIntermodal false [(0%nat, 0); (1%nat, 0)] [(2%nat, 0)] 98 99).
  exists P, locs0, Q, 0, 0, 400, [mk_leg 1 2 490 500 (Ride 0 0 0 1 3)].
  split; [|split; [reflexivity|split; [reflexivity|split; [vm_compute; discriminate|]]]].
  - apply (direct_intro P locs0 Q [] (mk_leg 1 2 490 500 (Ride 0 0 0 1 3)) []).
    + apply (ride_leg_intro P _ 0 0 0 1 3 r (DirectEx.veh [480; 490; 500]) (DirectEx.st 1) (DirectEx.st 2)); try reflexivity; try (unfold runs_on; cbn; lia).
      intros f sec _ Hf Hs. right. split; [reflexivity|]. cbn. apply Nat.eqb_eq. lia.
    + eapply (side_none P locs0 Q true _ _ 98); [reflexivity|]. apply (access_offset P locs0 Q true); [reflexivity|]. right. left. reflexivity.
    + eapply (side_none P locs0 Q false _ _ 99); [reflexivity|]. apply (access_offset P locs0 Q false); [reflexivity|]. left. reflexivity.
  - intros out M. refine (merged_none P _ _ _ M). vm_compute. reflexivity.
Qed.

(** With exact matching and several start locations the longer of two ways can be used: the transfer time is added after the
    comparison.  Walking from location 0 takes 5 + 1 minutes; the way starting at the stop itself takes 3 + 10 minutes and wins. *)
Theorem C60_exact_walk_refuted : exists P L Q lo hi time o d,
  access P L Q true 1 o d /\ d < 511 /\
  forall out, direct_journeys P L Q lo hi time out -> exists j, out = [j] /\ j_dep j < 490 - d /\ rides_on 0 0 0 0 1 j /\
    run_time P (route_of P 0) 0 0 0 kDep = 490.
Proof.
  set (r := DirectEx.line [1; 2] (fun _ => true) [[490; 500]]).
  set (P := DirectEx.par true 3 [r] (fun _ => 10) (fun l => match l with O => [(1%nat, 1)] | _ => [] end) (fun _ => false)).
  set (Q := mk_dquery Query_Model.kExact Query_Model.kIntermodal true [(0%nat, 5); (1%nat, 3)] [(2%nat, 0)] 98 99).
  exists P, locs0, Q, 0, 0, 400, 0%nat, (5 + 1). split; [|split; [lia|]].
  - apply (access_walk P locs0 Q true 1 0%nat 5 0%nat 1); cbn; auto; discriminate.
  - intros out M. eexists. split; [refine (merged_one P _ _ _ _ M); vm_compute; reflexivity|].
    split; [vm_compute; reflexivity|]. split; [|vm_compute; reflexivity].
    eexists. split; [right; left; reflexivity|reflexivity].
Qed.

(** * C61 *)
(** What is added to the results: direct journeys that depart (backward: arrive) in the interval; nothing is taken away. *)
Theorem C61_sound : forall P L Q lo hi time num den from to stream results out f,
  all_vehicles_wf P -> direct_journeys P L Q lo hi time stream -> enriched P num den from to stream results out ->
  (In f results -> In f out) /\
  (In f out -> In f results \/ (direct P L Q (f_legs f) /\ f_transfers f = 0%nat /\ from <= f_start f < to /\
     f_start f = (if p_fwd P then j_dep (f_legs f) else j_arr (f_legs f)) /\ f_dest_time f = (if p_fwd P then j_arr (f_legs f) else j_dep (f_legs f)))).
Proof.
  intros P L Q lo hi time num den from to stream results out f Hwf M E. specialize (E f). split; [intros H; apply E; auto|].
  intros H. apply E in H. destruct H as [H|H]; [now left|right]. apply in_map_iff in H. destruct H as (j & <- & H).
  assert (X : forall js, In j (slow_filter num den js) -> In j js).
  { intros js. unfold slow_filter. destruct (den <=? num); [|auto]. intros K. now apply filter_In in K. }
  apply X in H. clear X.
  assert (Y : In j stream /\ from <= j_check P j < to).
  { clear E M. induction stream as [|x s IH]; [destruct H|]. cbn [slow_in_interval] in H.
    destruct ((from <=? j_check P x) && (j_check P x <? to)) eqn:C.
    - destruct H as [<-|H]; [|destruct (IH H); split; [now right|auto]]. apply andb_true_iff in C. destruct C as (C1 & C2).
      apply Z.leb_le in C1. apply Z.ltb_lt in C2. split; [now left|lia].
    - destruct (if p_fwd P then to <=? j_check P x else j_check P x <? from); [destruct H|]. destruct (IH H). split; [now right|auto]. }
  destruct Y as (Y1 & Y2). destruct (C60_sound _ _ _ _ _ _ _ _ Hwf M Y1) as (D & _).
  cbn. split; [exact D|]. split; [reflexivity|]. split; [exact Y2|]. auto.
Qed.

(** Every direct journey of the interval is added if none that departs after the interval arrives as early as one that departs
    within it (backward: none that arrives before the interval departs as late), and - when the filter is on - it takes at most
    [num / den] times as long as every other one of them. *)
Theorem C61_complete : forall P L Q lo hi time num den from to stream j,
  all_vehicles_wf P -> columns_sorted P -> fifo P -> direct_journeys P L Q lo hi time stream -> 0 < den ->
  (forall x y, In x stream -> In y stream -> from <= j_check P x < to -> (if p_fwd P then to <= j_check P y else j_check P y < from) ->
     if p_fwd P then j_arr x < j_arr y else j_dep y < j_dep x) ->
  In j stream -> from <= j_check P j < to -> j_travel_time j <= 32767 ->
  (num < den \/ forall x, In x stream -> from <= j_check P x < to -> j_travel_time j * den <= j_travel_time x * num) ->
  In j (slow_direct P num den from to stream).
Proof.
  intros P L Q lo hi time num den from to stream j Hwf Hcol Hfifo M Hden HO Hj Hc Htt Hfac.
  assert (S : StronglySorted (fun x y => mkey P x <= mkey P y) stream) by (eapply stream_sorted; eauto).
  assert (I : In j (slow_in_interval P from to stream)).
  { clear M Hfac. induction S as [|x s S IH F]; [destruct Hj|]. cbn [slow_in_interval].
    destruct ((from <=? j_check P x) && (j_check P x <? to)) eqn:C.
    - destruct Hj as [->|Hj]; [now left|right]. apply IH; auto. intros; apply HO; auto; now right.
    - destruct Hj as [->|Hj].
      { exfalso. apply andb_false_iff in C. destruct C as [C|C]; [apply Z.leb_gt in C|apply Z.ltb_ge in C]; lia. }
      assert (B : (if p_fwd P then to <=? j_check P x else j_check P x <? from) = false); [|rewrite B; apply IH; auto; intros; apply HO; auto; now right].
      rewrite Forall_forall in F. specialize (F _ Hj). specialize (HO j x (or_intror Hj) (or_introl eq_refl) Hc). unfold mkey in F. cbv beta in F.
      destruct (p_fwd P).
      + destruct (Z.leb_spec to (j_check P x)) as [LE|]; [|reflexivity]. specialize (HO LE). lia.
      + destruct (Z.ltb_spec (j_check P x) from) as [LT|]; [|reflexivity]. specialize (HO LT). lia. }
  unfold slow_direct, slow_filter. set (js := slow_in_interval P from to stream) in *.
  destruct (Z.leb_spec den num) as [LE|]; [|exact I]. apply filter_In. split; [exact I|]. apply negb_true_iff, Z.ltb_ge.
  destruct Hfac as [Hfac|Hfac]; [lia|].
  assert (SUB : forall x, In x js -> In x stream /\ from <= j_check P x < to).
  { unfold js. clear. induction stream as [|x s IH]; [intros ? []|]. intros y. cbn [slow_in_interval].
    destruct ((from <=? j_check P x) && (j_check P x <? to)) eqn:C.
    - intros [<-|H]; [|destruct (IH _ H); split; [now right|auto]]. apply andb_true_iff in C. destruct C as (C1 & C2).
      apply Z.leb_le in C1. apply Z.ltb_lt in C2. split; [now left|lia].
    - destruct (if p_fwd P then to <=? j_check P x else j_check P x <? from); [intros []|]. intros H. destruct (IH _ H). split; [now right|auto]. }
  assert (G : forall l m, (m = 32767 \/ exists x, In x js /\ m = j_travel_time x) -> incl l js ->
    let s := fold_left (fun m x => if j_travel_time x <? m then j_travel_time x else m) l m in s = 32767 \/ exists x, In x js /\ s = j_travel_time x).
  { induction l as [|x l IH]; intros m Hm Hl; [exact Hm|]. cbn [fold_left]. apply IH; [|intros z Hz; apply Hl; now right].
    destruct (j_travel_time x <? m); [right; exists x; split; [apply Hl; now left|reflexivity]|exact Hm]. }
  destruct (G js 32767 (or_introl eq_refl) (incl_refl _)) as [-> |(x & Hx & ->)].
  - assert (0 <= j_travel_time j) by (unfold j_travel_time; lia). nia.
  - destruct (SUB _ Hx). apply Hfac; auto.
Qed.

Example C61_nonvacuous : slow_direct P_Raptor.Example1.P 2 1 530 1930 ExampleDirect.out = [ExampleDirect.j 10 1 540; ExampleDirect.j 11 0 1920] /\
  (forall x y, In x ExampleDirect.out -> In y ExampleDirect.out -> 530 <= j_check P_Raptor.Example1.P x < 1930 -> 1930 <= j_check P_Raptor.Example1.P y -> j_arr x < j_arr y).
Proof.
  split; [vm_compute; reflexivity|]. intros x y [<-|[<-|[<-|[]]]] [<-|[<-|[<-|[]]]]; vm_compute; intros (A & B) C; try reflexivity; try (exfalso; apply C; reflexivity); discriminate.
Qed.

(** The stream is sorted by arrival, but reading stops at the first departure behind the interval: an express that leaves at the end
    of the interval hides the slow train that left ten minutes before it - the very journeys the option is meant to add. *)
Theorem C61_overtaken_refuted : exists P L Q lo hi num den from to stream j,
  p_fwd P = true /\ direct_journeys P L Q lo hi from stream /\ In j stream /\ direct P L Q j /\ from <= j_dep j < to /\
  slow_direct P num den from to stream = [].
Proof.
  set (slow := DirectEx.line [0; 1] (fun _ => true) [[590; 650]]). set (express := DirectEx.line [0; 1] (fun _ => true) [[600; 610]]).
  set (P := DirectEx.par true 2 [slow; express] (fun _ => 0) (fun _ => []) (fun _ => false)).
  set (Q := mk_dquery Query_Model.kIntermodal Query_Model.kIntermodal false [(0%nat, 0)] [(1%nat, 0)] 98 99).
  exists P, locs0, Q, 0, 0, 0, 1, 580, 600, [[mk_leg 0 1 600 610 (Ride 1 0 0 0 2)]; [mk_leg 0 1 590 650 (Ride 0 0 0 0 2)]], [mk_leg 0 1 590 650 (Ride 0 0 0 0 2)].
  split; [reflexivity|]. split; [|split; [right; left; reflexivity|split; [|split; [cbn; lia|vm_compute; reflexivity]]]].
  - unfold direct_journeys. assert (E : generators P locs0 Q 0 0 580 = [[[mk_leg 0 1 590 650 (Ride 0 0 0 0 2)]]; [[mk_leg 0 1 600 610 (Ride 1 0 0 0 2)]]]) by (vm_compute; reflexivity).
    rewrite E. apply (merged_step P [[[mk_leg 0 1 590 650 (Ride 0 0 0 0 2)]]] _ _ []).
    + intros y ys [[= <- <-]|[]]. vm_compute. reflexivity.
    + apply (merged_step P [] _ _ [[]]); [intros y ys [HH|[]]; discriminate|]. constructor. intros g [<-|[<-|[]]]; reflexivity.
  - apply (direct_intro P locs0 Q [] (mk_leg 0 1 590 650 (Ride 0 0 0 0 2)) []).
    + apply (ride_leg_intro P _ 0 0 0 0 2 slow (DirectEx.veh [590; 650]) (DirectEx.st 0) (DirectEx.st 1)); try reflexivity; try (unfold runs_on; cbn; lia); try (intros f sec _ Hf; discriminate).
    + eapply (side_none P locs0 Q true _ _ 98); [reflexivity|]. apply (access_offset P locs0 Q true); [reflexivity|]. left. reflexivity.
    + eapply (side_none P locs0 Q false _ _ 99); [reflexivity|]. apply (access_offset P locs0 Q false); [reflexivity|]. left. reflexivity.
Qed.

(** The standard search removes every journey that is not marked as reconstructed after it has added the slow direct journeys, and
    these are never marked: for every query, the option [slow_direct] adds nothing to its results. *)
Theorem C61_erased_by_search_refuted : forall P num den from to stream results out f,
  enriched P num den from to stream results out -> In f (search_results out) -> In f results.
Proof.
  intros P num den from to stream results out f E H. unfold search_results in H. apply filter_In in H. destruct H as (H & R). apply E in H.
  destruct H as [H|H]; [exact H|]. apply in_map_iff in H. destruct H as (j & <- & _). discriminate R.
Qed.

(** A backward search begins where the journey ends: [query.start_] is the destination of the traveller (C16, C48).  The slow direct
    journeys are nevertheless boarded at [query.start_]: a query that wants to arrive at location 0 is given journeys from 0 to 1. *)
Theorem C61_backward_refuted : exists P L Q lo hi from to stream f,
  p_fwd P = false /\ dq_start Q = [(0%nat, 0)] /\ dq_dest Q = [(1%nat, 0)] /\ direct_journeys P L Q lo hi to stream /\
  In f (map (slow_journey P) (slow_direct P 2 1 from to stream)) /\
  l_from (hd no_leg (f_legs f)) = 0%nat /\ l_to (last (f_legs f) no_leg) = 1%nat.
Proof.
  set (r := DirectEx.line [0; 1] (fun _ => true) [[490; 500]]).
  set (P := DirectEx.par false 2 [r] (fun _ => 0) (fun _ => []) (fun _ => false)).
  set (Q := mk_dquery Query_Model.kEquivalent Query_Model.kEquivalent false [(0%nat, 0)] [(1%nat, 0)] 98 99).
  set (j := [mk_leg 0 0 490 490 (Foot 0 0); mk_leg 0 1 490 500 (Ride 0 0 0 0 2); mk_leg 1 1 500 500 (Foot 1 0)]).
  exists P, locs0, Q, 0, 0, 480, 520, [j], (slow_journey P j).
  do 3 (split; [reflexivity|]). split; [|split; [|split; reflexivity]].
  - unfold direct_journeys. assert (E : generators P locs0 Q 0 0 520 = [[j]]) by (vm_compute; reflexivity).
    rewrite E. apply (merged_step P [] _ _ []); [intros y ys []|]. constructor. intros g [<-|[]]; reflexivity.
  - assert (E : slow_direct P 2 1 480 520 [j] = [j]) by (vm_compute; reflexivity). rewrite E. left. reflexivity.
Qed.
