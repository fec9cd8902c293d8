(** Property theorems C48: reconstruction of journeys.
    The specification of an itinerary is [Rec_Spec]; the timetable and query well-formedness is [Raptor_Spec]. *)
From Coq Require Import List ZArith Bool Arith Lia.
From Verif Require Import Base Time_Model Time_Proofs Raptor_Model Raptor_Spec Raptor_Base Raptor_Sound Raptor_Genuine Raptor_Final
  P_Raptor Rec_Model Rec_Spec Rec_Proofs Rec_Opt.
Import ListNotations.
Local Open Scope Z_scope.

(** Incoming and outgoing footpaths agree; no transfer, footpath or usable destination offset is longer than [B] minutes. *)
Record walks_ok (P : params) (Q : rquery) (B : Z) : Prop := mk_walks_ok {
  w_bound : 0 <= B;
  w_sym : forall a b d, In (b, d) (tt_footpaths_out (p_tt P) a) <-> In (a, d) (tt_footpaths_in (p_tt P) b);
  w_transfer : forall l, 0 <= transfer_time P l <= B;
  w_footpath : forall a b d, footpath_time P a b d -> 0 <= d <= B;
  w_dest : forall x d, In (x, d) (rq_dest Q) -> 0 <= d /\ (d < 511 -> d <= B) }.

(** [t] keeps a distance of more than [B] minutes from both ends of the 16 bit range of the search. *)
Definition well_inside (B t : Z) : Prop := -32768 + B < t < 32767 - B.

(** * Labels of a search (after the groups [gs1 ++ [g]]), journey of group [g] with [transfers] transfers to destination [l]. *)
Lemma search_labels_inside P mt gs1 g B :
  all_vehicles_wf P -> durations_ok P -> end_ok P -> locations_ok P -> groups_ok P (gs1 ++ [g]) -> 0 <= B ->
  (forall l t, starts_of (gs1 ++ [g]) l t -> well_inside B t) ->
  forall k l, s_rt (fst (raptor P mt (gs1 ++ [g]))) k l <> kInvalid P -> in_range P B (s_rt (fst (raptor P mt (gs1 ++ [g]))) k l).
Proof.
  intros Hwf Hdur Hend Hloc Hgs HB Hin k l.
  assert (E : fst (raptor P mt (gs1 ++ [g])) = after_groups P mt (reset_arrivals P) (gs1 ++ [g])) by (unfold raptor; rewrite run_groups_eq; reflexivity).
  rewrite E. intros Hne.
  destruct (prefix_gsinv P mt Hwf Hdur Hend Hloc (gs1 ++ [g]) gs1 g [] Hgs eq_refl) as (k0 & Hg).
  set (s := after_groups P mt (reset_arrivals P) (gs1 ++ [g])) in *.
  assert (Hlow : forall l t, starts_of (gs1 ++ [g]) l t -> OL P + B + 1 <= o P t).
  { intros l' t Hs. apply Hin in Hs. unfold well_inside in Hs. unfold Raptor_Base.o, OL. destruct (p_fwd P); lia. }
  assert (Hub : o P (s_rt s k l) < OI P).
  { pose proof (gs_rt_range _ _ _ _ Hg k l). assert (o P (s_rt s k l) <> OI P); [|lia].
    intros E'. apply Hne. apply (o_inj P). now rewrite o_kInvalid. }
  split; auto.
  destruct k as [|k].
  - destruct (gs_rt _ _ _ _ Hg 0%nat l Hne) as (i & Hi & _ & HL). assert (i = 0%nat) by lia. subst i.
    destruct HL as [_ Hs|t0 _ Ha _|_ _ Ha|l0 t0 d Ha _ _|off l0 t0 d _ _ Ha _ _|Hk _]; try (apply arr_pos in Ha; lia); [|lia].
    apply Hlow in Hs. lia.
  - assert (X := label_lower_pos P Hdur _ _ _ (OL P + B + 1) 0 Hg ltac:(lia) Hlow ltac:(lia) (rides_take_zero P Hwf) (S k) l ltac:(lia) Hne). lia.
Qed.

(** Whenever [reconstruct_journey] succeeds, the result is an itinerary of the query with exactly [transfers + 1] rides that leaves
    (arrives) not before (after) the start time of the search and reaches the destination at the reported time or better. *)
Theorem C48_reconstruction_is_an_itinerary : forall P Q B mt gs1 g l transfers legs,
  all_vehicles_wf P -> durations_ok P -> end_ok P -> locations_ok P -> groups_ok P (gs1 ++ [g]) ->
  walks_ok P Q B -> (forall l t, starts_of (gs1 ++ [g]) l t -> well_inside B t) -> well_inside B (g_start g) ->
  let labels := s_rt (fst (raptor P mt (gs1 ++ [g]))) in
  p_is_dest P l = true -> labels (transfers + 1)%nat l <> kInvalid P ->
  reconstruct_legs P Q labels l transfers (g_start g) = Some legs ->
  itinerary P Q (transfers + 1) (g_start g) l (labels (transfers + 1)%nat l) legs.
Proof.
  intros P Q B mt gs1 g l transfers legs Hwf Hdur Hend Hloc Hgs HW Hin Hg labels Hd Hne H.
  destruct HW as [HB Hsym Htr Hfp Hdst].
  eapply (reconstruct_legs_sound P Q labels Hwf B HB); eauto.
  - intros k l'. apply (search_labels_inside P mt gs1 g B); auto.
  - intros a b d Hab. eapply Hfp. exists d. eauto.
  - unfold well_inside in Hg. unfold Raptor_Base.o, OL, OI. destruct (p_fwd P); lia.
  - intros Hn. destruct (Hend Hn) as (He & _). now apply He.
Qed.

(** The same for the whole reconstruction including the clean-up of the footpaths, for every way of comparing transfers, provided the
    query requires no flag (bikes, cars, wheelchair, no reservation). *)
Theorem C48_reconstruction_with_optimization : forall P Q B mt gs1 g l transfers pl legs,
  all_vehicles_wf P -> durations_ok P -> end_ok P -> locations_ok P -> groups_ok P (gs1 ++ [g]) ->
  walks_ok P Q B -> (forall l t, starts_of (gs1 ++ [g]) l t -> well_inside B t) -> well_inside B (g_start g) ->
  (forall f, (f < 4)%nat -> p_require P f = false) ->
  (forall x, rq_matches Q x x = true /\ In x (rq_metas Q x)) ->
  let labels := s_rt (fst (raptor P mt (gs1 ++ [g]))) in
  p_is_dest P l = true -> labels (transfers + 1)%nat l <> kInvalid P ->
  reconstruct_journey P Q labels pl l transfers (g_start g) = Some legs ->
  itinerary P Q (transfers + 1) (g_start g) l (labels (transfers + 1)%nat l) legs.
Proof.
  intros P Q B mt gs1 g l transfers pl legs Hwf Hdur Hend Hloc Hgs HW Hin Hg Hreq Hm labels Hd Hne H.
  unfold reconstruct_journey in H.
  destruct (reconstruct_legs P Q labels l transfers (g_start g)) as [legs0|] eqn:E; [|discriminate].
  cbn in H. injection H as <-.
  apply optimize_keeps; auto; try (intros x; apply Hm).
  - apply (w_sym _ _ _ HW).
  - eapply C48_reconstruction_is_an_itinerary; eauto.
Qed.

(** * Non-vacuity: the example timetable of [P_Raptor] *)
Definition station_query (s d : nat) : rquery :=
  mk_rquery false false false [(s, 0)] [(d, 0)] Nat.eqb (fun l => [l]) 98.
Module ExampleRec.
  Import Example1.
  Definition Q := station_query 0 2.
  Definition legs := [mk_leg 0 1 480 510 (Ride 0 0 10 0 2); mk_leg 1 1 510 515 (Foot 1 5); mk_leg 1 2 520 550 (Ride 1 0 10 0 2)].
  Lemma walks : walks_ok P Q 15.
  Proof.
    split; cbn; try lia; try tauto.
    - intros a b d (d0 & [] & _).
    - intros x d [[= <- <-]|[]]. lia.
  Qed.
  Example reconstructed : reconstruct_legs P Q (s_rt (fst (raptor P 5 ([g1] ++ [g2])))) 2 1 470 = Some legs.
  Proof. vm_compute. reflexivity. Qed.
  Example optimized pl : reconstruct_journey P Q (s_rt (fst (raptor P 5 ([g1] ++ [g2])))) pl 2 1 470 = Some legs.
  Proof. vm_compute. reflexivity. Qed.
  Example C48_nonvacuous :
    all_vehicles_wf P /\ durations_ok P /\ end_ok P /\ locations_ok P /\ groups_ok P ([g1] ++ [g2]) /\ walks_ok P Q 15 /\
    (forall l t, starts_of ([g1] ++ [g2]) l t -> well_inside 15 t) /\ well_inside 15 (g_start g2) /\
    p_is_dest P 2 = true /\ s_rt (fst (raptor P 5 ([g1] ++ [g2]))) 2 2 = 550 /\
    itinerary P Q 2 470 2 550 legs.
  Proof.
    assert (Hin : forall l t, starts_of ([g1] ++ [g2]) l t -> well_inside 15 t).
    { intros l t (g & [<-|[<-|[]]] & [[= <- <-]|[]]); unfold well_inside; lia. }
    assert (Hg : well_inside 15 (g_start g2)) by (unfold well_inside; cbn; lia).
    assert (E : s_rt (fst (raptor P 5 ([g1] ++ [g2]))) 2%nat 2%nat = 550) by (vm_compute; reflexivity).
    refine (conj wf (conj dur (conj endok (conj loc (conj grp (conj walks (conj Hin (conj Hg (conj eq_refl (conj E _)))))))))).
    rewrite <- E.
    assert (Hne : s_rt (fst (raptor P 5 ([g1] ++ [g2]))) (1 + 1)%nat 2%nat <> kInvalid P) by (change (1 + 1)%nat with 2%nat; rewrite E; vm_compute; discriminate).
    exact (C48_reconstruction_is_an_itinerary P Q 15 5 [g1] g2 2 1 legs wf dur endok loc grp walks Hin Hg eq_refl Hne reconstructed).
  Qed.
End ExampleRec.

(** * The clean-up of the footpaths ignores what the query requires (finding F48) *)
Module WheelchairEx.
  (** Route 0 -> 1 -> 2; stop 1 has no wheelchair access.  The query requires wheelchair access and starts with an offset of 10
      minutes to 0 or of 5 minutes to 1. *)
  Definition v := mk_vehicle (fun s _ => mk_delta 0 (match s with O => 480 | 1%nat => 490 | _ => 500 end)) (fun d => (10 <=? d) && (d <? 20)).
  Definition r := mk_route [mk_stop 0 true true true true; mk_stop 1 true true false false; mk_stop 2 true true true true] 3
                           (fun _ => true) (fun _ => true) (fun _ _ => true) [v] None.
  Definition tt := mk_tt 3 [r] (fun _ => [0%nat]) (fun _ => 5) (fun _ => []) (fun _ => []) (fun _ d => (10 <=? d) && (d <? 20)).
  Definition P := mk_params true tt (fun l => Nat.eqb l 2) None 99 (fun _ => 0) 10 (fun _ => true) (fun f => Nat.eqb f 2) (fun d => d).
  Definition Q := mk_rquery false true false [(0%nat, 10); (1%nat, 5)] [(2%nat, 0)] Nat.eqb (fun l => [l]) 98.
  Definition g := mk_group 470 (470 + 2880) [(0%nat, 480); (1%nat, 475)].
  Definition before := [mk_leg 98 0 470 480 (Offs 0 10); mk_leg 0 2 480 500 (Ride 0 0 10 0 3)].
  Definition result := [mk_leg 98 1 485 490 (Offs 1 5); mk_leg 1 2 490 500 (Ride 0 0 10 1 3)].
End WheelchairEx.
Module BikeEx.
  (** Route 0 -> 1 -> 2; bikes are allowed on the first section only; footpaths of 10 minutes from 1 and of 2 minutes from 2 to the
      destination 3.  The query requires bike transport. *)
  Definition v := mk_vehicle (fun s _ => mk_delta 0 (match s with O => 480 | 1%nat => 490 | _ => 495 end)) (fun d => (10 <=? d) && (d <? 20)).
  Definition st (l : Z) := mk_stop l true true true true.
  Definition r := mk_route [st 0; st 1; st 2] 3 (fun _ => false) (fun f => Nat.eqb f 0) (fun f s => Nat.eqb f 0 && Nat.eqb s 0) [v] None.
  Definition tt := mk_tt 4 [r] (fun l => if Nat.ltb l 3 then [0%nat] else []) (fun _ => 5)
    (fun l => match l with 1%nat => [(3%nat, 10)] | 2%nat => [(3%nat, 2)] | _ => [] end)
    (fun l => match l with 3%nat => [(1%nat, 10); (2%nat, 2)] | _ => [] end) (fun _ d => (10 <=? d) && (d <? 20)).
  Definition P := mk_params true tt (fun l => Nat.eqb l 3) None 99 (fun _ => 0) 10 (fun _ => true) (fun f => Nat.eqb f 0) (fun d => d).
  Definition Q := station_query 0 3.
  Definition g := mk_group 470 (470 + 2880) [(0%nat, 470)].
  Definition before := [mk_leg 0 1 480 490 (Ride 0 0 10 0 2); mk_leg 1 3 490 500 (Foot 1 10)].
  Definition result := [mk_leg 0 2 480 495 (Ride 0 0 10 0 3); mk_leg 2 3 495 497 (Foot 3 2)].
End BikeEx.
Theorem C48_optimization_ignores_wheelchair_refuted : exists P Q g l transfers before legs,
  let labels := s_rt (fst (raptor P 5 [g])) in
  p_require P 2 = true /\ labels (transfers + 1)%nat l <> kInvalid P /\
  reconstruct_legs P Q labels l transfers (g_start g) = Some before /\
  (forall x, In x before -> (exists ri vi day a b, l_uses x = Ride ri vi day a b) -> ride_leg P x) /\
  (forall pl, reconstruct_journey P Q labels pl l transfers (g_start g) = Some legs) /\
  exists x ri vi day a b r st, In x legs /\ l_uses x = Ride ri vi day a b /\
    nth_error (tt_routes (p_tt P)) ri = Some r /\ nth_error (r_stops r) a = Some st /\ s_win st = false.
Proof.
  exists WheelchairEx.P, WheelchairEx.Q, WheelchairEx.g, 2%nat, 0%nat, WheelchairEx.before, WheelchairEx.result.
  cbv zeta. split; [reflexivity|]. split; [vm_compute; discriminate|]. split; [vm_compute; reflexivity|].
  split; [|split].
  - intros x [<-|[<-|[]]] (ri & vi & day & a & b & Hu); [discriminate|].
    apply (ride_leg_intro WheelchairEx.P _ 0 0 10 0 3 WheelchairEx.r WheelchairEx.v (mk_stop 0 true true true true) (mk_stop 2 true true true true));
      try reflexivity; try (cbn; lia).
    + unfold runs_on; cbn; lia.
    + intros f sec _ _ _. left. reflexivity.
  - intros pl. vm_compute. reflexivity.
  - exists (mk_leg 1 2 490 500 (Ride 0 0 10 1 3)), 0%nat, 0%nat, 10, 1%nat, 3%nat, WheelchairEx.r, (mk_stop 1 true true false false).
    split; [right; left; reflexivity|]. repeat split; reflexivity.
Qed.
Theorem C48_optimization_ignores_section_flags_refuted : exists P Q g l transfers before legs,
  let labels := s_rt (fst (raptor P 5 [g])) in
  p_require P 0 = true /\ labels (transfers + 1)%nat l <> kInvalid P /\
  reconstruct_legs P Q labels l transfers (g_start g) = Some before /\
  (forall x, In x before -> (exists ri vi day a b, l_uses x = Ride ri vi day a b) -> ride_leg P x) /\
  (forall pl, reconstruct_journey P Q labels pl l transfers (g_start g) = Some legs) /\
  exists x ri vi day a b r sec, In x legs /\ l_uses x = Ride ri vi day a b /\
    nth_error (tt_routes (p_tt P)) ri = Some r /\ (a <= sec < b - 1)%nat /\ ~ section_has r sec 0.
Proof.
  exists BikeEx.P, BikeEx.Q, BikeEx.g, 3%nat, 0%nat, BikeEx.before, BikeEx.result.
  cbv zeta. split; [reflexivity|]. split; [vm_compute; discriminate|]. split; [vm_compute; reflexivity|].
  split; [|split].
  - intros x [<-|[<-|[]]] (ri & vi & day & a & b & Hu); [|discriminate].
    apply (ride_leg_intro BikeEx.P _ 0 0 10 0 2 BikeEx.r BikeEx.v (BikeEx.st 0) (BikeEx.st 1));
      try reflexivity; try (cbn; lia).
    + unfold runs_on; cbn; lia.
    + intros f sec _ Hf Hs. assert (sec = 0%nat) by lia. subst. cbn in Hf. destruct f; [|discriminate]. right. split; reflexivity.
  - intros pl. vm_compute. reflexivity.
  - exists (mk_leg 0 2 480 495 (Ride 0 0 10 0 3)), 0%nat, 0%nat, 10, 0%nat, 3%nat, BikeEx.r, 1%nat.
    split; [left; reflexivity|]. do 2 (split; [reflexivity|]). split; [lia|]. intros [H|[_ H]]; discriminate.
Qed.
